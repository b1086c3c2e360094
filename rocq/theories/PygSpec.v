(** The graph as PyTorch Geometric should see it. *)
From Verif Require Import Base WriterModel GraphSpec.
From Coq Require Import QArith.
Local Open Scope Z_scope.

(** Edges of a type from the given nodes, as pairs. *)
Definition pairs (parts : list (list (list record))) (t : Z) (nodes : list Z) : list (Z * Z) :=
  flat_map (fun n => map (fun e => (n, e_dst e)) (spec_edges parts [t] n)) nodes.
(** At most 24 significant bits. *)
Definition short (x : Z) : Prop := exists k e, Z.abs k < 2 ^ 24 /\ 0 <= e /\ x = k * 2 ^ e.
(** The mean over all predictions of all batches. *)
Definition overall (losses : list (list Q)) : Q := (fold_right Qplus 0 (concat losses) / inject_Z (Z.of_nat (length (concat losses))))%Q.
Definition mean (l : list Q) : Q := (fold_right Qplus 0 l / inject_Z (Z.of_nat (length l)))%Q.
