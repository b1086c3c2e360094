(** What a citation dataset should contain. *)
From Coq Require Import Permutation.
From Verif Require Import Base.

(** Numbers of the test nodes: distinct, as many as test rows, the smallest follows the other
    nodes. *)
Definition test_numbers (known rows : nat) (reorder : list nat) : Prop :=
  NoDup reorder /\ length reorder = rows /\ In known reorder /\ forall i, In i reorder -> known <= i.
(** Without gaps. *)
Definition dense (known rows : nat) (reorder : list nat) : Prop := Permutation reorder (seq known rows).

(** Row [i] of the result: a known node keeps its row, the j-th test node has the j-th test
    row, any other number has the zero row. *)
Definition placed {A} (zero : A) (reorder : list nat) (allx tx out : list A) : Prop :=
  (forall i, i < length allx -> nth_error out i = nth_error allx i) /\
  (forall j i, nth_error reorder j = Some i -> nth_error out i = nth_error tx j) /\
  (forall i, length allx <= i < length out -> ~ In i reorder -> nth_error out i = Some zero) /\
  (forall i, i < length out <-> i < length allx \/ exists j, In j reorder /\ i <= j).

(** [mask] marks exactly the numbers in [idx]. *)
Definition marks (n : nat) (mask : list bool) (P : nat -> Prop) : Prop :=
  length mask = n /\ forall i, nth_error mask i = Some true <-> i < n /\ P i.
Definition in_mask (mask : list bool) (i : nat) : Prop := nth_error mask i = Some true.
Definition marked (mask : list bool) : nat := count_occ Bool.bool_dec mask true.
Definition disjoint (a b : list bool) : Prop := forall i, in_mask a i -> ~ in_mask b i.
(** Training nodes of a class. *)
Definition of_class (labels : list nat) (mask : list bool) (cl : nat) : nat :=
  length (filter (fun p => (fst p =? cl) && snd p) (combine labels mask)).
