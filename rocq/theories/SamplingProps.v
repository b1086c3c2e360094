(** Properties C13, C17, C18 and C19: alias tables and reservoirs. *)
From Coq Require Import Lqa Permutation.
From Verif Require Import Base Dist WriterModel GraphSpec MetaSpec AliasModel AliasProofs AliasFileProofs ReservoirModel ReservoirProofs ShardProofs.
Local Open Scope Q_scope.

(** * C13 *)

(** The table for weights [ws] of elements [es]: thresholds are probabilities, every record
    refers to elements, and a draw yields [x] in proportion to the weight of [x]. *)
Theorem C13_alias_table : forall A (zero : A) eqb, (forall a b, eqb a b = true <-> a = b) ->
  forall es ws, length es = length ws -> Forall (fun w => 0 <= w) ws /\ 0 < qsum (fun q => q) ws ->
  exists t, alias_table zero es ws = Ok t /\ length t = length ws /\
    Forall (fun r => 0 <= a_threshold r <= 1) t /\
    Forall (fun r => In (a_left r) es /\ (a_threshold r < 1 -> In (a_right r) es)) t /\
    (forall i, nth_error (map a_left t) i = nth_error es i) /\
    forall x, pr (alias_sample t) (fun a => eqb a x) == weight_of eqb x es ws / qsum (fun q => q) ws.
Proof. exact (fun A zero eqb H => table_spec zero eqb H). Qed.

(** The Python sampler draws with the same probabilities. *)
Theorem C13_vose_sample : forall A (eqb : A -> A -> bool), (forall a b, eqb a b = true <-> a = b) ->
  forall es ws, length es = length ws -> Forall (fun w => 0 <= w) ws /\ 0 < qsum (fun q => q) ws ->
  exists al pb, vose ws = Ok (al, pb) /\
  forall x, pr (vose_sample es al pb) (fun r => match r with Ok a => eqb a x | Fail _ => false end)
    == weight_of eqb x es ws / qsum (fun q => q) ws.
Proof. exact (fun A eqb H => vose_sample_spec eqb H). Qed.

(** The node tables of a partition: one per type, holding the nodes of the type in order. *)
Theorem C13_node_tables : forall qval rs,
  Forall (fun r => (0 <= rtyp r)%Z) (nodes_in rs) -> (forall r, In r (nodes_in rs) -> 0 <= qval (rweight r)) ->
  exists tables, node_alias_files qval rs = Ok tables /\ length tables = types_in (nodes_in rs) /\
    forall t tbl, nth_error tables t = Some tbl ->
      map a_left tbl = map rsrc (of_type t (nodes_in rs)) /\
      (0 < mass qval (of_type t (nodes_in rs)) ->
       forall v, pr (alias_sample tbl) (fun a => Z.eqb a v) ==
         mass qval (filter (fun r => Z.eqb (rsrc r) v) (of_type t (nodes_in rs))) / mass qval (of_type t (nodes_in rs))) /\
      (mass qval (of_type t (nodes_in rs)) == 0 -> tbl = map (fun r => AR (rsrc r) 0%Z 1) (of_type t (nodes_in rs))).
Proof. exact node_files_spec. Qed.

Theorem C13_edge_tables : forall qval rs,
  Forall (fun r => (0 <= rtyp r)%Z) (edges_in rs) -> (forall r, In r (edges_in rs) -> 0 <= qval (rweight r)) ->
  exists tables, edge_alias_files qval rs = Ok tables /\ length tables = types_in (edges_in rs) /\
    forall t tbl, nth_error tables t = Some tbl ->
      map a_left tbl = map (fun r => (rsrc r, rdst r)) (of_type t (edges_in rs)) /\
      (0 < mass qval (of_type t (edges_in rs)) ->
       forall e, pr (alias_sample tbl) (fun a => pair_eqb a e) ==
         mass qval (filter (fun r => pair_eqb (rsrc r, rdst r) e) (of_type t (edges_in rs))) / mass qval (of_type t (edges_in rs))) /\
      (mass qval (of_type t (edges_in rs)) == 0 -> tbl = map (fun r => AR (rsrc r, rdst r) (0%Z, 0%Z) 1) (of_type t (edges_in rs))).
Proof. exact edge_files_spec. Qed.

(** Elements 10, 20 and 30 with weights 1, 2 and 5. *)
Example C13_example :
  (do t <- alias_table 0%Z [10; 20; 30]%Z [1; 2; 5] ;;
   Ok (map (fun r => (a_left r, a_right r, Qred (a_threshold r))) t,
       map (fun x => Qred (pr (alias_sample t) (Z.eqb x))) [10; 20; 30; 0]%Z))
  = Ok ([(10%Z, 30%Z, 3 # 8); (20%Z, 30%Z, 3 # 4); (30%Z, 0%Z, 1)], [1 # 8; 1 # 4; 5 # 8; 0]).
Proof. vm_compute. reflexivity. Qed.

(** * C17 *)

(** For every stream of batches and all random numbers the reservoir holds min(k, seen) items
    at distinct positions of the stream. *)
Theorem C17_distinct_positions : forall A (skip pick : nat -> nat) (k : nat) (batches : list (list A)),
  (forall c, (1 <= skip c)%nat) -> (forall c, (pick c < k)%nat) ->
  exists s ps, lrun skip pick k batches linit (repeat None k)
      = Ok (s, map (nth_error (concat batches)) ps ++ repeat None (k - length ps)) /\
    length ps = Nat.min k (length (concat batches)) /\ NoDup ps /\
    Forall (fun p => (p < length (concat batches))%nat) ps.
Proof. exact @algorithm_l. Qed.

(** Two slots, three batches: position 2 replaces slot 1, later position 4 replaces slot 0 (a batch
    is searched from its end). *)
Example C17_example :
  exists s, lrun (fun _ => 2%nat) (fun c => Nat.modulo c 2) 2 [[10]; [11; 12; 13]; [14; 15]]%nat linit [None; None]
  = Ok (s, [Some 14; Some 12]%nat).
Proof. eexists. vm_compute. reflexivity. Qed.

(** * C18 *)

(** The slots are independent and each is uniform over the whole stream: the expectation of a
    product of functions of the slots is the product of the averages over the stream. *)
Theorem C18_independent_uniform : forall A (batches : list (list A)) (r : list (option A)) (fs : list (option A -> Q)),
  concat batches <> [] -> length fs = length r ->
  ex (wr_run 0 batches r) (prodf fs) ==
  fold_right (fun f q => (qsum (fun x => f (Some x)) (concat batches) / qnat (length (concat batches))) * q) 1 fs.
Proof. exact @with_replacement_joint. Qed.

Theorem C18_uniform_slot : forall A (eqb : A -> A -> bool) (batches : list (list A)) (r : list (option A)) (j : nat) (x : A),
  concat batches <> [] -> (j < length r)%nat ->
  pr (wr_run 0 batches r) (slot_is eqb j x) == qnat (occurs eqb x (concat batches)) / qnat (length (concat batches)).
Proof. exact @with_replacement_slot. Qed.

Example C18_example :
  map (fun x => Qred (pr (wr_run 0 [[1; 2]; []; [3]]%nat [None; None]) (slot_is Nat.eqb 1 x))) [1; 2; 3; 4]%nat
  = [1 # 3; 1 # 3; 1 # 3; 0].
Proof. vm_compute. reflexivity. Qed.

(** * C19 *)

(** Every possible merge of shard samples holds distinct items of the shards, as many as fit. *)
Theorem C19_distinct_partial : forall A k (shards : list (nat * list A)) res,
  Forall (shard_ok k) shards -> NoDup (flat_map snd shards) ->
  may (mrun k 0 shards (repeat None k)) res ->
  exists r, res = Ok r /\ length r = k /\ NoDup (somes r) /\ incl (somes r) (flat_map snd shards) /\
    length (somes r) = Nat.min k (sizes shards).
Proof. exact @merge_distinct. Qed.

Theorem C19_exhaustive : forall A k (shards : list (nat * list A)) res,
  Forall (shard_ok k) shards -> (sizes shards <= k)%nat -> may (mrun k 0 shards (repeat None k)) res ->
  res = Ok (map Some (flat_map snd shards) ++ repeat None (k - length (flat_map snd shards))).
Proof. exact @merge_all. Qed.

(** With two shards the left one gets its share on average. *)
Theorem C19_two_shards_share_partial : forall k l r, (k <= l + r)%nat -> (0 < l + r)%nat ->
  ex (mcount k l r) (fun _ => 1) == 1 /\ ex (mcount k l r) qnat == qnat k * qnat l / qnat (l + r).
Proof. exact mcount_mean. Qed.

Definition keeps (x : nat) (r : res (list (option nat))) : bool :=
  match r with Ok l => existsb (fun o => match o with Some y => Nat.eqb x y | None => false end) l | Fail _ => false end.

(** Three shards with one item each and one slot: the last item is kept half of the time,
    because the number of items seen is not updated by a merge. *)
Theorem C19_three_shards_refuted : exists k shards x,
  Forall (shard_ok k) shards /\ NoDup (flat_map snd shards) /\ In x (flat_map snd shards) /\
  pr (mrun k 0 shards (repeat None k)) (keeps x) == 1 # 2 /\ qnat k / qnat (sizes shards) == 1 # 3.
Proof.
  exists 1%nat, [(1, [10]); (1, [20]); (1, [30])]%nat, 30%nat.
  split; [repeat constructor|]. split; [repeat constructor; cbn; intuition discriminate|]. split; [cbn; auto|].
  split; vm_compute; reflexivity.
Qed.

(** Two shards with two items each and two slots: the first item is kept with probability 1/6
    instead of 1/2, because the shuffle never leaves an element in its place. *)
Theorem C19_shuffle_refuted : exists k shards x,
  Forall (shard_ok k) shards /\ NoDup (flat_map snd shards) /\ In x (flat_map snd shards) /\
  pr (mrun k 0 shards (repeat None k)) (keeps x) == 1 # 6 /\ qnat k / qnat (sizes shards) == 1 # 2.
Proof.
  exists 2%nat, [(2, [10; 11]); (2, [20; 21])]%nat, 10%nat.
  split; [repeat constructor|]. split; [repeat constructor; cbn; intuition discriminate|]. split; [cbn; auto|].
  split; vm_compute; reflexivity.
Qed.

(** Two shards, one slot: the shares are right. *)
Example C19_example :
  map (fun x => Qred (pr (mrun 1 0 [(1, [10]); (1, [20])]%nat [None]) (keeps x))) [10; 20]%nat = [1 # 2; 1 # 2].
Proof. vm_compute. reflexivity. Qed.

Print Assumptions C13_alias_table.
Print Assumptions C13_vose_sample.
Print Assumptions C13_node_tables.
Print Assumptions C13_edge_tables.
Print Assumptions C17_distinct_positions.
Print Assumptions C18_independent_uniform.
Print Assumptions C18_uniform_slot.
Print Assumptions C19_distinct_partial.
Print Assumptions C19_exhaustive.
Print Assumptions C19_two_shards_share_partial.
Print Assumptions C19_three_shards_refuted.
Print Assumptions C19_shuffle_refuted.
