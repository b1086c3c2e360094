(** Authors, papers and scores, without files. *)
From Verif Require Import Base.
From Coq Require Import QArith.

(** Two authors at different places of the same paper. *)
Definition together (papers : list (list nat)) (a b : nat) : Prop :=
  exists p j k, In p papers /\ j <> k /\ nth_error p j = Some a /\ nth_error p k = Some b.
Definition has_any (papers : list (list nat)) (a : nat) : Prop := exists b, together papers a b.
(** What the test is about: new collaborations of authors with some collaborator. *)
Definition new_pair (train test : list (list nat)) (a b : nat) : Prop :=
  together test a b /\ ~ together train a b /\ has_any train a /\ has_any train b.

(** How often [x] occurs. *)
Fixpoint occurs (x : nat) (l : list nat) : nat :=
  match l with [] => 0 | y :: t => (if x =? y then 1 else 0) + occurs x t end.

(** F1 of predictions and targets: 2 TP / (2 TP + FP + FN). *)
Fixpoint tally (p t : bool) (l : list (bool * bool)) : Z :=
  match l with [] => 0 | (a, b) :: r => (if Bool.eqb a p then if Bool.eqb b t then 1 else 0 else 0) + tally p t r end%Z.
Definition f1_score (l : list (bool * bool)) : Q :=
  (inject_Z (2 * tally true true l) / inject_Z (2 * tally true true l + tally true false l + tally false true l))%Q.

(** Venues of the four areas of research, comments of main.py 418-454. *)
Inductive area := Vision | Language | Mining | Databases.
Definition venues (a : area) : list nat :=
  match a with Vision => [1; 4; 17] | Language => [2; 3; 16] | Mining => [6; 9; 13] | Databases => [5; 10; 12] end%nat.
