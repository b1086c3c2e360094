(** What the examples should do, without the model's helpers. *)
From Coq Require Import List Arith ZArith Sorted Permutation.
From Verif Require Import Base.
Import ListNotations.

(** [ns] are the different elements of [l] in order. *)
Definition distinct_of (l ns : list Z) : Prop := StronglySorted Z.lt ns /\ forall x, In x ns <-> In x l.
(** All [n] nodes of a dataset: np.arange(n). *)
Definition arange (n : nat) : list Z := map Z.of_nat (seq 0 n).
(** Nodes that fill whole batches of [b]. *)
Definition whole {A} (b : nat) (l : list A) : list A := firstn (b * (length l / b)) l.
