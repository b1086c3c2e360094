(** What GraphSAGE embeddings are, without arrays. *)
From Verif Require Import Base.

Section Spec.
Context {vec : Type}.
Variables (x : Z -> vec) (mean : list vec -> vec).

(** One layer: the node and the mean of the neighbors in [S]. *)
Definition sage1 (c1 : vec -> vec -> vec) (S : list Z) (v : Z) : vec := c1 (x v) (mean (map x S)).

(** Two layers: the neighbors of [v] are [S], those of a neighbor [u] are [T u]. *)
Definition sage2 (c2 c1 : vec -> vec -> vec) (S : list Z) (T : Z -> list Z) (v : Z) : vec :=
  c2 (sage1 c1 S v) (mean (map (fun u => sage1 c1 (T u) u) S)).
End Spec.

(** The graph answers with [k] neighbors for every node, each list allowed by [nbrs]. *)
Definition answers (nbrs : Z -> Z -> list Z -> Prop) (draw : nat -> Z -> list Z -> nat -> list (list Z)) : Prop :=
  forall i t nodes k, Forall2 (fun v S => nbrs t v S /\ length S = k) nodes (draw i t nodes k).
