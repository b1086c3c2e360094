(** What the example should do, without the model's helpers. *)
From Coq Require Import List Arith ZArith.
Import ListNotations.

(** Answers of sample_neighbors: [count] ids for every node in order, each allowed by [nb]. *)
Definition sampled (nb : Z -> Z -> Prop) (draw : nat -> list Z -> nat -> list Z) : Prop :=
  forall c l count, exists blocks, draw c l count = concat blocks /\ length blocks = length l /\
    forall i, i < length l -> length (nth i blocks []) = count /\ forall y, In y (nth i blocks []) -> nb (nth i l 0%Z) y.
(** [ns] are the elements of [l] in the order of first occurrences: every element of [ns] has an
    occurrence in [l] before all occurrences of later ones. *)
Definition first_occurrences (l ns : list Z) : Prop :=
  NoDup ns /\ (forall x, In x ns <-> In x l) /\
  forall i j, i < j -> j < length ns -> exists a b, l = a ++ nth i ns 0%Z :: b /\ ~ In (nth j ns 0%Z) a.
