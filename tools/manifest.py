"""Rebuild MANIFEST.json from tools/claims.py."""
import json, os, re
here = os.path.dirname(os.path.abspath(__file__))
ns = {}
exec(open(os.path.join(here, "claims.py")).read(), ns)
text = ""
td = os.path.join(here, "..", "rocq", "theories")
for f in sorted(os.listdir(td)):
    if f.endswith(".v"):
        text += open(os.path.join(td, f)).read()
names = set(re.findall(r"^(?:Theorem|Lemma|Corollary)\s+([\w']+)", text, re.M))
out = []
for pid, status, theorems, note in ns["CLAIMS"]:
    for t in theorems:
        assert t in names, (pid, t)
    out.append({"property": pid, "status": status, "theorems": theorems, "note": note})
ids = [json.loads(l)["id"] for l in open(os.path.join(here, "..", "properties.jsonl"))]
missing = [i for i in ids if i not in {o["property"] for o in out}]
print("missing:", missing)
props = set(n for n in names if re.match(r"C\d\d_", n))
used = set(t for o in out for t in o["theorems"])
print("unused theorems:", sorted(props - used))
json.dump({"claims": out}, open(os.path.join(here, "..", "MANIFEST.json"), "w"), indent=1)
