(** C91: the graph interface of models. *)
From Verif Require Import Base GraphModel FacadeModel FacadeSpec FacadeProofs.
Local Open Scope Z_scope.

(** Every strategy asks the engine for the nodes, the set of types, the count and the timestamps,
    and gives the neighbors sampled, cell by cell, with the defaults of the caller where there are
    none; see below for the weights and types that it does not give. *)
Theorem C91_answer_partial : forall (W : Type) (engine : strategy -> request -> list (list (option (edge W)))) (temporal : bool),
  answers engine -> forall (s : strategy) (nodes : list Z) (types : types_arg) (count : nat) (dn : Z) (dw : W) (dt : Z) (ts : option (list Z)) (ret : bool),
  callable s temporal nodes ts ret -> (forall t, types <> TOther t) ->
  exists q r, asked nodes (list_of types) count ts q /\ (s <> SPpr -> q_ret q = ret) /\
  sample_neighbors engine temporal s (Nodes [length nodes] nodes) types count dn dw dt ts ret = Ok r /\
  let rows := engine s q in
  holds (o_ids r) (length nodes) count (fun i j => cell_of e_id dn (slot rows i j)) /\
  (s <> SRandom -> s <> SWithout -> holds (o_w r) (length nodes) count (fun i j => cell_of e_w dw (slot rows i j))) /\
  (s <> SPpr -> (s = SByWeight -> dt = -1) -> holds (o_types r) (length nodes) count (fun i j => cell_of e_type dt (slot rows i j))) /\
  (s <> SPpr -> ret = true -> exists c, o_ts r = Some c /\ holds c (length nodes) count (fun i j => cell_of e_ts (-1) (slot rows i j))) /\
  (s <> SLastN -> s = SPpr \/ ret = false -> exists c, o_ts r = Some c /\ holds c (length nodes) count (fun _ _ => -1)).
Proof. exact @answer. Qed.
Print Assumptions C91_answer_partial.

(** Out edges: for every node and slot the node, the neighbor and the type. *)
Theorem C91_out_edges_partial : forall (W : Type) (engine : strategy -> request -> list (list (option (edge W)))) (temporal : bool),
  answers engine -> forall (zw : W) (s : strategy) (nodes : list Z) (types : types_arg) (count : nat),
  s = SByWeight \/ s = SRandom \/ s = SWithout -> (forall t, types <> TOther t) ->
  exists q l, asked nodes (list_of types) count None q /\ sample_out_edges engine temporal zw s (Nodes [length nodes] nodes) types count = Ok l /\
  length l = (length nodes * count)%nat /\
  forall i j, (i < length nodes)%nat -> (j < count)%nat -> nth_error l (i * count + j) =
    Some (Some (nth i nodes 0), Some (cell_of e_id (-1) (slot (engine s q) i j)), Some (cell_of e_type (-1) (slot (engine s q) i j))).
Proof. exact @out_edges. Qed.
Print Assumptions C91_out_edges_partial.

(** node_count and edge_count: the number of nodes with one of the types, every type once. *)
Theorem C91_count : forall (counts ntypes : list Z), (forall t, In t ntypes -> 0 <= t < Z.of_nat (length counts)) ->
  (forall t, 0 <= t < Z.of_nat (length counts) -> nth (Z.to_nat t) counts 0 = Z.of_nat (length (filter (Z.eqb t) ntypes))) ->
  forall types, (forall t, types <> TOther t) -> list_of types <> [] -> type_count counts types = Ok (hits ntypes (list_of types)).
Proof. exact count_right. Qed.
Print Assumptions C91_count.

(** An engine on weights that are numbers: node 1 has the edges to 2 (type 0, weight 5) and 3
    (type 1, weight 6), other nodes have none. *)
Definition demo (s : strategy) (q : request) : list (list (option (edge Z))) :=
  map (fun n => firstn (q_count q)
    ((if n =? 1 then [Some (Edge 2 5 0 10); Some (Edge 3 6 1 20)] else []) ++ repeat None (q_count q))) (q_nodes q).
Lemma demo_answers : answers demo.
Proof.
  intros s q. unfold demo. split; [apply map_length|]. apply Forall_map, Forall_forall. intros n _. rewrite firstn_length, app_length, repeat_length.
  destruct (n =? 1); cbn [length]; lia.
Qed.
Definition demo_n (l : list Z) : nodes_arg := Nodes [length l] l.

Example C91_case :
  sample_neighbors demo true SLastN (demo_n [1; 7]) (TArr [1; 0; 1]) 3 (-9) 0 4 (Some [30; 30]) true =
    Ok (Out (Arr [2; 3]%nat (map Some [2; 3; -9; -9; -9; -9])) (Arr [2; 3]%nat (map Some [5; 6; 0; 0; 0; 0]))
            (Arr [2; 3]%nat (map Some [0; 1; 4; 4; 4; 4])) (Some (Arr [2; 3]%nat (map Some [10; 20; -1; -1; -1; -1])))) /\
  sample_out_edges demo false 0 SByWeight (demo_n [1; 7]) (TInt 0) 2 =
    Ok [(Some 1, Some 2, Some 0); (Some 1, Some 3, Some 1); (Some 7, Some (-1), Some (-1)); (Some 7, Some (-1), Some (-1))] /\
  callable SLastN true [1; 7] (Some [30; 30]) true /\
  type_count [3; 2] (TArr [1; 1; 5; 0]) = Ok 5 /\ hits [0; 1; 0; 0; 1] [1; 1; 5; 0] = 5.
Proof. split; [reflexivity|]. split; [reflexivity|]. split; [|split; reflexivity]. repeat split; try congruence; try discriminate. Qed.

(** Findings: the weights of the random strategies are memory that was never written. *)
Theorem C91_weights_refuted : exists o, sample_neighbors demo false SRandom (demo_n [1]) (TInt 0) 2 (-1) 0 (-1) None false = Ok o /\
  a_cells (o_w o) = [None; None].
Proof. eexists. split; vm_compute; reflexivity. Qed.
Print Assumptions C91_weights_refuted.
(** By weight, a missing edge has type -1 whatever default the caller asked for. *)
Theorem C91_default_type_refuted : exists o, sample_neighbors demo false SByWeight (demo_n [7]) (TInt 0) 1 (-1) 0 4 None false = Ok o /\
  a_cells (o_types o) = [Some (-1)].
Proof. eexists. split; vm_compute; reflexivity. Qed.
Print Assumptions C91_default_type_refuted.
(** ppr-go gives no types: sample_out_edges raises; it raises for lastn and the documented topk
    too. *)
Theorem C91_out_strategies_refuted :
  sample_out_edges demo true 0 SPpr (demo_n [1]) (TInt 0) 2 = Fail EAssert /\
  sample_out_edges demo true 0 SLastN (demo_n [1]) (TInt 0) 2 = Fail EAssert /\
  sample_out_edges demo true 0 STopK (demo_n [1]) (TInt 0) 2 = Fail EAssert.
Proof. repeat split; vm_compute; reflexivity. Qed.
Print Assumptions C91_out_strategies_refuted.
(** A node without neighbors has out edges to node -1. *)
Theorem C91_no_edge_refuted : exists l, sample_out_edges demo true 0 SByWeight (demo_n [7]) (TInt 0) 1 = Ok l /\ In (Some 7, Some (-1), Some (-1)) l.
Proof. eexists. split; [vm_compute; reflexivity|]. now left. Qed.
Print Assumptions C91_no_edge_refuted.
(** Without the wish for timestamps the tuple has four elements, but three for lastn. *)
Theorem C91_tuple_refuted : exists a b c, sample_neighbors demo true SByWeight (demo_n [1]) (TInt 0) 1 (-1) 0 (-1) (Some [30]) false = Ok a /\
  sample_neighbors demo true SLastN (demo_n [1]) (TInt 0) 1 (-1) 0 (-1) (Some [30]) false = Ok b /\
  o_ts a = Some c /\ o_ts b = None.
Proof. eexists. eexists. eexists. repeat split; vm_compute; reflexivity. Qed.
Print Assumptions C91_tuple_refuted.
(** A matrix of nodes, such as the neighbors of an earlier request, overruns the arrays; so do
    timestamps that are fewer than the nodes. *)
Theorem C91_matrix_refuted :
  sample_neighbors demo true SByWeight (Nodes [1; 2]%nat [1; 7]) (TInt 0) 2 (-1) 0 (-1) None false = Fail EUB /\
  sample_neighbors demo true SByWeight (demo_n [1; 7]) (TInt 0) 2 (-1) 0 (-1) (Some [30]) false = Fail EUB.
Proof. split; vm_compute; reflexivity. Qed.
Print Assumptions C91_matrix_refuted.
(** A metapath is used as a set: orders and repetitions of types make no difference to a walk. *)
Theorem C91_metapath_refuted : (forall types types', (forall t, types <> TOther t) -> (forall t, types' <> TOther t) ->
    (forall t, In t (list_of types) <-> In t (list_of types')) -> walk_types types = walk_types types') /\
  walk_types (TArr [0; 1; 0]) = walk_types (TArr [1; 0]) /\ walk_types (TArr [0; 1; 0]) = Ok [0; 1].
Proof. split; [exact walk_set|]. split; vm_compute; reflexivity. Qed.
Print Assumptions C91_metapath_refuted.
(** An element of an array of types is neither an int nor an array. *)
Theorem C91_scalar_refuted : forall t, type_count [3; 2] (TOther t) = Fail EAssert /\
  sample_neighbors demo false SByWeight (demo_n [1]) (TOther t) 1 (-1) 0 (-1) None false = Fail EAssert.
Proof. intros t. split; reflexivity. Qed.
Print Assumptions C91_scalar_refuted.
