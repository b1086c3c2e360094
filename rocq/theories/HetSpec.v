(** Triples as they are described: a start node, a node its walk reached, a random node. *)
From Verif Require Import Base HetModel.
From Coq Require Import QArith.
Local Open Scope Z_scope.

Section Spec.
Variable types : nat.
Variable walk_length : nat.
Variable start : nat -> list Z.
Variable hop : nat -> nat -> list Z -> list (Z * Z).
Variable negs : nat -> nat -> list Z.

(** All nodes after [h] hops of the walks of type [k]. *)
Fixpoint nodes_after (k h : nat) : list Z := match h with O => start k | S m => map fst (hop k m (nodes_after k m)) end.
(** What hop [h] (from 0) of the walk from start node [j] found. *)
Definition visit (k h j : nat) : Z * Z := nth j (hop k h (nodes_after k h)) (0, 0).
(** Start node and found node of every hop along an edge of type [pt], walks of type [k]. *)
Definition pairs_of (k : nat) (pt : Z) : list (Z * Z) :=
  flat_map (fun j => flat_map (fun h => if snd (visit k h j) =? pt then [(nth j (start k) 0, fst (visit k h j))] else []) (seq 0 walk_length))
           (seq 0 (length (start k))).
(** An answer per node, with a type that was asked for or -1. *)
Definition good_hops : Prop := forall k h nodes, (k < types)%nat ->
  length (hop k h nodes) = length nodes /\ Forall (fun x => -1 <= snd x < Z.of_nat types) (hop k h nodes).
Definition good_negs : Prop := forall i n, length (negs i n) = n.
(** From no node the walk finds no node. *)
Definition dead_ends : Prop := forall k h nodes j, (j < length nodes)%nat -> nth j nodes 0 = -1 -> nth j (hop k h nodes) (0, 0) = (-1, -1).
Definition found (k : nat) : nat :=
  length (flat_map (fun j => filter (fun h => negb (snd (visit k h j) =? -1)) (seq 0 walk_length)) (seq 0 (length (start k)))).
End Spec.

Definition triple_loss (ls : Q -> Q) (x : vec * vec * vec) : Q := (- (ls (dot (fst (fst x)) (snd (fst x))) + ls (- dot (fst (fst x)) (snd x))))%Q.
Definition qsum (l : list Q) : Q := fold_right Qplus 0%Q l.
