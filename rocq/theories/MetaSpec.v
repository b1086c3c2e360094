(** What the metadata of a graph should say, in terms of the input records only. *)
From Verif Require Import Base WriterModel GraphSpec MetaModel.
Local Open Scope nat_scope.

Definition nodes_in (rs : list record) : list record := filter is_node rs.
Definition edges_in (rs : list record) : list record := filter (fun r => negb (is_node r)) rs.

Definition of_type (t : nat) (rs : list record) : list record :=
  filter (fun r => Z.eqb (rtyp r) (Z.of_nat t)) rs.

(** Number of types: one more than the largest type in use. *)
Definition types_in (rs : list record) : nat :=
  fold_right (fun r n => Nat.max (Z.to_nat (rtyp r + 1)) n) 0 rs.

(** Number of features: the longest feature list in use. *)
Definition feats_in (rs : list record) : nat :=
  fold_right (fun r n => Nat.max (length (rfeats r)) n) 0 rs.

Definition weight_in (wval : N -> Z) (rs : list record) : Z :=
  fold_right (fun r n => (wval (rweight r) + n)%Z) 0%Z rs.

(** Per type tables over [n] types. *)
Definition count_table (n : nat) (rs : list record) : list nat :=
  map (fun t => length (of_type t rs)) (seq 0 n).
Definition weight_table (wval : N -> Z) (n : nat) (rs : list record) : list Z :=
  map (fun t => weight_in wval (of_type t rs)) (seq 0 n).

(** The lines a round robin over [n] workers gives to worker [i]. *)
Definition share {L} (n i : nat) (lines : list L) : list L :=
  map snd (filter (fun p => fst p mod n =? i) (combine (seq 0 (length lines)) lines)).

(** The statement of the totals over all records [all] of the input. *)
Definition totals (wval : N -> Z) (wm : option Z) (all : list record) (m : mjson) : Prop :=
  j_nodes m = length (nodes_in all) /\ j_edges m = length (edges_in all) /\
  j_ntypes m = types_in (nodes_in all) /\ j_etypes m = types_in (edges_in all) /\
  j_nfeats m = feats_in (nodes_in all) /\ j_efeats m = feats_in (edges_in all) /\
  j_npt m = count_table (j_ntypes m) (nodes_in all) /\
  j_ept m = count_table (j_etypes m) (edges_in all) /\
  j_watermark m = (match wm with Some t => t | None => (-1)%Z end) /\
  (forall t, t < j_ntypes m ->
     fold_right Z.add 0%Z (map (fun p => nth t (fst (snd p)) 0%Z) (j_parts m)) = weight_in wval (of_type t (nodes_in all))) /\
  (forall t, t < j_etypes m ->
     fold_right Z.add 0%Z (map (fun p => nth t (snd (snd p)) 0%Z) (j_parts m)) = weight_in wval (of_type t (edges_in all))).

(** Partitions that get a line from the partition function. *)
Definition active {L} (f : L -> nat) (lines : list L) (i : nat) : bool := existsb (fun x => f x =? i) lines.

(** The metadata has one entry of the right size per partition 0..n-1. *)
Definition well_formed (m : mjson) : Prop :=
  map fst (j_parts m) = seq 0 (length (j_parts m)) /\ j_parts m <> [] /\
  Forall (fun p => length (fst (snd p)) = j_ntypes m /\ length (snd (snd p)) = j_etypes m) (j_parts m) /\
  length (j_npt m) = j_ntypes m /\ length (j_ept m) = j_etypes m.
