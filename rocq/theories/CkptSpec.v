(** What loading a checkpoint should do, without reference to the loops. *)
From Verif Require Import Base FilesModel.
From Coq Require Import Ascii String.
Import ListNotations.
Open Scope list_scope.

(** [s] occurs in [key]; [rest] is what follows its first occurrence. *)
Definition inside (s key : nm) : Prop := exists a b, key = a ++ s ++ b.
Definition after (s key rest : nm) : Prop :=
  exists a, key = a ++ s ++ rest /\ forall a' b', key = a' ++ s ++ b' -> List.length a <= List.length a'.
Definition begins (d key : nm) : Prop := exists b, key = d ++ b.

(** The value of a name in a list of names without repetition. *)
Definition names {V} (l : list (nm * V)) : list nm := map fst l.

(** Name [k] is read from [key] by pair [(s, d)] of a source and a target prefix. *)
Definition reads (pairs : list (nm * nm)) (key k : nm) : Prop :=
  exists s d rest, In (s, d) pairs /\ after s key rest /\ k = d ++ rest.
(** No name of the checkpoint has this source prefix. *)
Definition unused {V} (ckpt : list (nm * V)) (s : nm) : Prop := forall key, In key (names ckpt) -> ~ inside s key.
(** The model keeps its own parameter. *)
Definition kept {V} (pairs : list (nm * nm)) (own ckpt : list (nm * V)) (k : nm) : Prop :=
  In k (names own) /\ exists s d, In (s, d) pairs /\ unused ckpt s /\ begins d k.
(** The last entry of the checkpoint that is read as [k]. *)
Definition last_read {V} (pairs : list (nm * nm)) (ckpt : list (nm * V)) (k : nm) (v : V) : Prop :=
  exists before key after_, ckpt = before ++ (key, v) :: after_ /\ reads pairs key k
    /\ forall key', In key' (names after_) -> ~ reads pairs key' k.

(** The prefixes of the encoder of queries and of keywords and of a BERT checkpoint. *)
Definition dot (p : nm) (w : string) : nm := p ++ str w.
Definition twin_pairs (query : bool) (p : nm) : list (nm * nm) :=
  if query
  then [(dot p ".qbert_sentencoder", str "bert_encoder"); (dot p ".qpooler", str "poolers.0"); (dot p ".qdownscale", str "downscale")]
  else [(dot p ".kbert_sentencoder", str "bert_encoder"); (dot p ".kpooler", str "poolers.0"); (dot p ".kdownscale", str "downscale")].
Definition bert_pairs (p : nm) : list (nm * nm) :=
  [(p, str "bert_encoder"); (str "qpooler", str "poolers.0"); (str "qdownscale", str "downscale")].
Definition pairs_of (query : bool) (p : nm) (pairs : list (nm * nm)) : Prop :=
  (inside (str "twinbert") p /\ pairs = twin_pairs query p) \/ (~ inside (str "twinbert") p /\ pairs = bert_pairs p).
(** Prefixes joined by a bar. *)
Definition plain (p : nm) : Prop := ~ In "|"%char p.
Fixpoint joined (l : list nm) : nm :=
  match l with [] => [] | [w] => w | w :: l' => w ++ "|"%char :: joined l' end.

(** What a parameter should be after loading. *)
Definition wanted {V} (pairs : list (nm * nm)) (own ckpt : list (nm * V)) (k : nm) (v : V) : Prop :=
  (kept pairs own ckpt k /\ In (k, v) own) \/ (~ kept pairs own ckpt k /\ last_read pairs ckpt k v).
(** Every parameter is found, nothing else is read and the shapes agree. *)
Definition loadable {V} (fits : nm -> V -> bool) (pairs : list (nm * nm)) (own ckpt : list (nm * V)) : Prop :=
  (forall k, In k (names own) -> kept pairs own ckpt k \/ exists key, In key (names ckpt) /\ reads pairs key k)
  /\ (forall key k, In key (names ckpt) -> reads pairs key k -> In k (names own))
  /\ (forall k v, wanted pairs own ckpt k v -> fits k v = true).
(** Every parameter is read from one name at most, and not from a name when it is kept. *)
Definition unambiguous {V} (pairs : list (nm * nm)) (own ckpt : list (nm * V)) : Prop :=
  (forall k key key', In key (names ckpt) -> In key' (names ckpt) -> reads pairs key k -> reads pairs key' k -> key = key')
  /\ (forall k key, In key (names ckpt) -> reads pairs key k -> ~ kept pairs own ckpt k).
