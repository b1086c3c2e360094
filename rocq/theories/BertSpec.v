(** Attention of BERT by position, without tensors. *)
From Coq Require Import QArith.
From Verif Require Import Base Dist AttModel AttSpec BertModel.

(** Rows that are equal as numbers, functions of rows that do not look at more. *)
Definition same_row (a b : list Q) : Prop := Forall2 Qeq a b.
Definition proper (f : list Q -> list Q) : Prop := forall a b, same_row a b -> same_row (f a) (f b).
Definition keeps (h : nat) (f : list Q -> list Q) : Prop := forall r, length r = h -> length (f r) = h.
(** A layer of [h] numbers in every row. *)
Definition sound (h : nat) (l : layer) : Prop :=
  (l_heads l * l_size l = h)%nat /\ keeps h (l_q l) /\ keeps h (l_k l) /\ keeps h (l_v l) /\ keeps h (l_o l) /\ keeps h (l_ln1 l) /\
  (forall r, length r = h -> length (l_out l (l_inter l r)) = h) /\ keeps h (l_ln2 l) /\
  proper (l_q l) /\ proper (l_k l) /\ proper (l_v l) /\ proper (l_o l) /\ proper (l_ln1 l) /\ proper (l_inter l) /\ proper (l_out l) /\ proper (l_ln2 l).

(** Positions that may be attended to. *)
Definition visible (mask : list Z) : list nat := filter (fun j => nth j mask 0 =? 1)%Z (seq 0 (length mask)).
Definition zero_one (mask : list Z) : Prop := Forall (fun m => m = 0 \/ m = 1)%Z mask.
(** The score of position [t] for position [s] in head [h]. *)
Definition head_score (l : layer) (x : list (list Q)) (h s t : nat) : Q :=
  qsum (fun e => nth (h * l_size l + e) (l_q l (nth s x [])) 0 * nth (h * l_size l + e) (l_k l (nth t x [])) 0) (seq 0 (l_size l)) / l_rt l.
(** Scores are far from the mask. *)
Definition calm_layer (l : layer) (x : list (list Q)) : Prop :=
  forall h s t, (h < l_heads l)%nat -> (s < length x)%nat -> (t < length x)%nat -> - (4000) <= head_score l x h s t <= 4000.
Fixpoint calm (ex : Q -> Q) (mask : list Q) (layers : list layer) (x : list (list Q)) : Prop :=
  match layers with [] => True | l :: t => calm_layer l x /\ calm ex mask t (bert_layer ex l x mask) end.

(** The first rows of [b] are those of [a]. *)
Definition begins (a b : list (list Q)) : Prop :=
  (length a <= length b)%nat /\ forall s, (s < length a)%nat -> same_row (nth s a []) (nth s b []).

(** Focal loss of one element of class [t]: - alpha (1 - p)^gamma log p. *)
Definition focal_cell (ex lg pw : Q -> Q) (alpha : list Q) (x : list Q) (t : nat) : Q :=
  let p := nth t (softmax ex x) 0 in - nth t alpha 0 * pw (1 - p) * lg p.
