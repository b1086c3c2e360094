#!/bin/bash
# Build the committed state from a fresh clone, and check that every file of theories/ is listed
# in _CoqProject and was compiled.  vcheck does not notice wrong names in _CoqProject.
set -e
d=$(mktemp -d)
trap 'rm -rf "$d"' EXIT
git clone -q "$(dirname "$0")/.." "$d/c"
cd "$d/c/rocq"
coq_makefile -f _CoqProject -o Makefile
make -j4 > ../log 2>&1 || { tail -20 ../log; exit 1; }
diff <(ls theories/*.v | sort) <(grep '\.v$' _CoqProject | sort)
for f in theories/*.v; do test -f "${f}o" || { echo "not compiled: $f"; exit 1; }; done
echo "fresh build ok: $(ls theories/*.vo | wc -l) files"
