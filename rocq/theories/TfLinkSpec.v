(** Scores of pairs of nodes, over trees of sampled nodes (TfSageSpec). *)
From Coq Require Import QArith.
From Verif Require Import Base Dist TfSageSpec.
Local Open Scope Z_scope.

(** Row v of the table for node v, the last row for a missing node. *)
Definition node_row (d : nat) (table : list (list Q)) (v : Z) : list Q :=
  if v <? 0 then last table (repeat 0%Q d) else nth (Z.to_nat v) table (repeat 0%Q d).
Definition inner (d : nat) (a b : list Q) : Q := qsum (fun k => nth k a 0 * nth k b 0)%Q (seq 0 d).
Definition is_mean (v : Q) (l : list Q) : Prop := (v * inject_Z (Z.of_nat (length l)) == qsum (fun x => x) l)%Q.

(** Aggregators of a model with counts [ns] and rows [widths] wide. *)
Definition fits (ns : list nat) (in_dim : nat) (layer_dims : list nat) (cat : bool) (aggs : list (list Q -> list (list Q) -> list Q)) : Prop :=
  (0 < in_dim)%nat /\ Forall (fun n => 0 < n)%nat ns /\ Forall (fun n => 0 < n)%nat layer_dims /\
  length aggs = length ns /\ length layer_dims = length ns /\
  forall l x y, (l < length ns)%nat -> length (agg_at aggs l x y) = width in_dim layer_dims cat (S l).
(** Neighbors have a row in the table, or are missing. *)
Definition in_table (ok : nat -> Z -> list Z -> Prop) (n : nat) : Prop :=
  forall t v l u, ok t v l -> In u l -> u < Z.of_nat n.
