(** What converting a HuggingFace checkpoint should do, without reference to the loops. *)
From Verif Require Import Base FilesModel CkptSpec HfModel.
From Coq Require Import Ascii String.
Import ListNotations.
Open Scope list_scope.

Inductive letter := Q | K | V.
Definition word (l : letter) : nm := match l with Q => str "query" | K => str "key" | V => str "value" end.
Definition leaf (bias : bool) : nm := if bias then str "bias" else str "weight".

(** The parameters of a layer that are copied: the name in the checkpoint and in the model. *)
Definition slots : list (nm * nm) :=
  [(str "attention.output.dense.weight", str "attn_ow"); (str "attention.output.dense.bias", str "attn_ob");
   (str "attention.output.LayerNorm.weight", str "attn_nw"); (str "attention.output.LayerNorm.bias", str "attn_nb");
   (str "intermediate.dense.weight", str "inter_w"); (str "intermediate.dense.bias", str "inter_b");
   (str "output.dense.weight", str "output_w"); (str "output.dense.bias", str "output_b");
   (str "output.LayerNorm.weight", str "norm_w"); (str "output.LayerNorm.bias", str "norm_b")].

Section S.
Context {X : Type}.
Variable zero : nat -> X.

(** An entry of a checkpoint: of a layer, a part of the attention of a layer, of the pooler, any
    other. *)
Inductive entry :=
| Other (p : path) (a : arr X)
| Pool (w : nm) (a : arr X)
| Copy (n : nat) (suffix attr : nm) (a : arr X)
| Part (n : nat) (l : letter) (bias : bool) (a : arr X).

Fixpoint dots (p : path) : nm := match p with [] => [] | [c] => c | c :: p' => c ++ "."%char :: dots p' end.
Definition layer_name (n : nat) (suffix : nm) : nm := str "bert.encoder.layer." ++ dec n ++ "."%char :: suffix.
Definition name_of (e : entry) : nm :=
  match e with
  | Other p _ => dots p
  | Pool w _ => str "bert.pooler.dense." ++ w
  | Copy n s _ _ => layer_name n s
  | Part n l b _ => layer_name n (str "attention.self." ++ word l ++ "."%char :: leaf b)
  end.
Definition arr_of (e : entry) : arr X := match e with Other _ a => a | Pool _ a => a | Copy _ _ _ a => a | Part _ _ _ a => a end.
Definition file (es : list entry) : list (nm * arr X) := map (fun e => (name_of e, arr_of e)) es.

Definition layer_path (n : nat) (attr : nm) : path := [str "bert"; str "encoder"; str "layer"; dec n; attr].
Definition pool_path (w : nm) : path := [str "bert"; str "pooler"; str "dense_act"; w].
Definition merged_attr (bias : bool) : nm := if bias then str "attn_qkvb" else str "attn_qkvw".

Definition exists_below (m : model X) (p : path) : Prop := exists r b, In (p ++ r, b) m.
(** Zeros for the words added to the vocabulary. *)
Definition padded (diff : nat) (name : nm) (a b : arr X) : Prop :=
  wid b = wid a
  /\ ((inside (str "embeddings.word_embeddings") name /\ (exists w, wid a = Some w /\ rows b = rows a ++ repeat (zero w) diff))
      \/ ((~ inside (str "embeddings.word_embeddings") name \/ diff = 0) /\ rows b = rows a)).

(** Parameter [p] of the model should become [b]. *)
Definition wants (diff : nat) (m : model X) (es : list entry) (p : path) (b : arr X) : Prop :=
  (exists a, In (Other p a) es /\ exists_below m p /\ padded diff (dots p) a b)
  \/ (exists w, In (Pool w b) es /\ p = pool_path w)
  \/ (exists n s t, In (Copy n s t b) es /\ p = layer_path n t)
  \/ (exists n bias x y z, In (Part n Q bias x) es /\ In (Part n K bias y) es /\ In (Part n V bias z) es
        /\ p = layer_path n (merged_attr bias) /\ b = {| wid := wid x; rows := rows x ++ rows y ++ rows z |}).

Definition fits (m : model X) (p : path) (a : arr X) : Prop :=
  exists b, In (p, b) m /\ wid a = wid b /\ List.length (rows a) = List.length (rows b).

(** The names are those of a checkpoint of BERT. *)
Definition free (c : ascii) (w : nm) : Prop := ~ In c w.
Definition proper (e : entry) : Prop :=
  match e with
  | Other p _ => p <> [] /\ Forall (free ".") p /\ ~ In (str "layer") p /\ ~ inside (str "bert.pooler.dense") (dots p)
                 /\ forall w, p <> pool_path w
  | Pool w _ => free "." w /\ w <> str "layer" /\ w <> str "dense" /\ ~ inside (str "embeddings.word_embeddings") (str "bert.pooler.dense." ++ w)
  | Copy _ s t _ => In (s, t) slots
  | Part _ _ _ _ => True
  end.
(** Parts of the attention come in threes: query, key and value of one layer in any order. *)
Fixpoint grouped (l : list (nat * letter * arr X)) : Prop :=
  match l with
  | [] => True
  | (n1, l1, a1) :: (n2, l2, a2) :: (n3, l3, a3) :: r =>
      n1 = n2 /\ n1 = n3 /\ l1 <> l2 /\ l1 <> l3 /\ l2 <> l3 /\ wid a1 = wid a2 /\ wid a1 = wid a3 /\ grouped r
  | _ => False
  end.
Definition parts (bias : bool) (es : list entry) : list (nat * letter * arr X) :=
  flat_map (fun e => match e with Part n l b a => if Bool.eqb b bias then [(n, l, a)] else [] | _ => [] end) es.

(** The result: what is wanted, otherwise what was there. *)
Definition outcome (diff : nat) (m : model X) (es : list entry) (m' : model X) : Prop :=
  map fst m' = map fst m
  /\ forall p a, In (p, a) m' <-> wants diff m es p a \/ (In (p, a) m /\ forall b, ~ wants diff m es p b).
End S.

(** The converter for layers of torch: dense is dense_act in the pooler and intermediate layers. *)
Definition special (name : nm) : Prop := inside (str "intermediate.dense") name \/ inside (str "pooler.dense") name.
Definition renames (q p : path) : Prop :=
  Forall2 (fun c d => (special (dots q) /\ c = str "dense" /\ d = str "dense_act")
                      \/ ((~ special (dots q) \/ c <> str "dense") /\ d = c)) q p.
Definition torch_wants {X} (zero : nat -> X) (diff : nat) (m : model X) (es : list (path * arr X)) (p : path) (b : arr X) : Prop :=
  exists q a, In (q, a) es /\ renames q p /\ exists_below m p /\ padded zero diff (dots q) a b.
Definition torch_file {X} (es : list (path * arr X)) : list (nm * arr X) := map (fun e => (dots (fst e), snd e)) es.
Definition torch_outcome {X} (zero : nat -> X) (diff : nat) (m : model X) (es : list (path * arr X)) (m' : model X) : Prop :=
  map fst m' = map fst m
  /\ forall p a, In (p, a) m' <-> torch_wants zero diff m es p a \/ (In (p, a) m /\ forall b, ~ torch_wants zero diff m es p b).
