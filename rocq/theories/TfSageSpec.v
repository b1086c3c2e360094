(** GraphSAGE without tensors: trees of sampled nodes. *)
From Verif Require Import Base.

Inductive tree := Node (v : Z) (children : list tree).
Definition root (t : tree) : Z := match t with Node v _ => v end.
Definition children (t : tree) : list tree := match t with Node _ c => c end.

(** The embedding of a node after [l] layers: the aggregator of the last layer of its own embedding
    and those of its neighbors one layer before. *)
Fixpoint embed {row} (feat : Z -> row) (agg : nat -> row -> list row -> row) (l : nat) (t : tree) : row :=
  match l with
  | O => feat (root t)
  | S l' => agg l' (embed feat agg l' t) (map (embed feat agg l') (children t))
  end.

(** A tree with [k] more hops to go: every node has as many children as the next count says, and the
    graph allows them ([ok layer node its_neighbors]).  [hops] are the layers of the hops with their
    counts, the first hop first. *)
Fixpoint sampled (ok : nat -> Z -> list Z -> Prop) (hops : list (nat * nat)) (t : tree) : Prop :=
  match hops with
  | [] => children t = []
  | (layer, c) :: rest =>
      length (children t) = c /\ ok layer (root t) (map root (children t)) /\
      (fix all (l : list tree) := match l with [] => True | x :: r => sampled ok rest x /\ all r end) (children t)
  end.
(** The hops of GraphSAGE go through the layers from the last to the first. *)
Definition hops_of (ns : list nat) : list (nat * nat) := rev (combine (seq 0 (length ns)) ns).

(** The graph answers every call with as many allowed neighbors as asked for. *)
Definition answers (ok : nat -> Z -> list Z -> Prop) (draw : nat -> nat -> list Z -> nat -> list (list Z)) : Prop :=
  forall k t nodes c, Forall2 (fun v l => length l = c /\ ok t v l) nodes (draw k t nodes c).

(** The aggregator of a layer and the width of the rows after [l] layers. *)
Definition agg_at {row} (aggs : list (row -> list row -> row)) (l : nat) : row -> list row -> row := nth l aggs (fun x _ => x).
Definition width (in_dim : nat) (layer_dims : list nat) (cat : bool) (l : nat) : nat :=
  match l with O => in_dim | S l' => (if cat then 2 else 1) * nth l' layer_dims 0 end.
