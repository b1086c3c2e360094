(** Properties C01, C02, C05, C06, C08, C11: queries on converted graphs.
    [converted fadd wval wm parts g]: the converter wrote files for some partitions and [g]
    was loaded from any of them; [parts] are the record batches of the loaded partitions
    (one list of batches per partition), in load order.
    [fadd]/[fsub] are the floating point operations on stored weights (any functions; the
    concrete examples use IEEE binary32). *)
From Verif Require Import Base WriterModel LoaderModel GraphModel GraphSpec LoaderProofs GraphProofs ConvertProofs AnswerProofs Float32 Demo.
Local Open Scope Z_scope.

(** ** C01: neighbors are exactly the input edges of a requested type. *)

(** Conversion output always loads. *)
Theorem C01_conversion_loads :
  forall fadd wval wm parts ps m,
    convert wval wm parts = Ok (ps, m) -> Forall fits ps -> Forall rec_ok (concat (concat parts)) ->
    exists g, load_graph fadd m (map (fun f => [f]) ps) = Ok g.
Proof. exact load_succeeds. Qed.
Print Assumptions C01_conversion_loads.

(** So does any selection of the partitions, in any order. *)
Theorem C01_selection_loads :
  forall fadd wval wm all ps m sel,
    convert wval wm all = Ok (ps, m) -> Forall fits ps -> Forall rec_ok (concat (concat all)) ->
    exists g, load_graph fadd m (map (fun f => [f]) (pick ps sel)) = Ok g.
Proof. exact selection_loads. Qed.
Print Assumptions C01_selection_loads.

Example C01_selection_case : pick [10; 11; 12] [2; 0]%nat = [12; 10].
Proof. reflexivity. Qed.

(** Full statement: the same without [guarded].  It is false (see the refutations), the
    guard is: no requested-but-unstored type separates an unrequested stored type from a
    requested stored one, and the running sums of the stored weights lose no bits. *)
Theorem C01_neighbors_partial :
  forall fadd fsub wval wm parts g types nodes,
    converted fadd wval wm parts g -> guarded fadd fsub types parts ->
    neighbors fsub g nodes types None =
    Ok (flat_map (fun n => map answer (spec_edges parts types n)) nodes,
        map (fun n => length (spec_edges parts types n)) nodes).
Proof. exact converted_neighbors. Qed.
Print Assumptions C01_neighbors_partial.

Example C01_case : converted f32_add wv None demo demo_graph /\ guarded f32_add f32_sub [2; 1; 0; 2] demo /\
  neighbors f32_sub demo_graph [9; 5; 77] [2; 1; 0; 2] None =
  Ok ([(0, 0, one, -1); (5, 2, two, -1); (6, 2, half, -1); (7, 1, one, -1); (7, 1, two, -1)], [5; 0; 0]%nat).
Proof.
  split; [exact demo_converted|]. split; [apply guardb_ok; vm_compute; reflexivity|]. vm_compute. reflexivity.
Qed.

(** The type part of the guard holds for a single type, when all stored types are
    requested and when all requested types are stored. *)
Theorem C01_guard_single : forall t Gs, gap_free [t] Gs.
Proof. exact gap_free_single. Qed.
Theorem C01_guard_all : forall T Gs, incl Gs T -> gap_free T Gs.
Proof. exact gap_free_all. Qed.
Theorem C01_guard_stored : forall T Gs, incl T Gs -> gap_free T Gs.
Proof. exact gap_free_stored. Qed.
Print Assumptions C01_guard_single.
Print Assumptions C01_guard_all.
Print Assumptions C01_guard_stored.

(** Finding: a requested type is skipped.  Node 1 has edges of types 0 and 2; asking for
    types 1 and 2 returns nothing although the edge of type 2 exists. *)
Definition gap_graph := [ [ [nd 1 0 []; ed 1 10 0 one []; ed 1 12 2 one []] ] ].
Theorem C01_missing_type_refuted :
  exists parts g types n, converted f32_add wv None parts g /\
    (forall r t, In r (concat (map rows parts)) -> exact_sums f32_add f32_sub (weights_of_type r t)) /\
    neighbors f32_sub g [n] types None = Ok ([], [0%nat]) /\
    map answer (spec_edges parts types n) = [(12, 2, one, -1)].
Proof.
  exists gap_graph, (load_of None gap_graph), [1; 2], 1. split; [|split; [|split]].
  - apply load_of_converted. vm_compute. reflexivity.
  - assert (G : guarded f32_add f32_sub [0; 1; 2] gap_graph) by (apply guardb_ok; vm_compute; reflexivity).
    intros r t Hr. apply in_concat in Hr. destruct Hr as (rws & Hrws & Hr). apply in_map_iff in Hrws.
    destruct Hrws as (bs & <- & Hbs). apply (proj2 (G bs r Hbs Hr)).
  - vm_compute. reflexivity.
  - vm_compute. reflexivity.
Qed.
Print Assumptions C01_missing_type_refuted.

(** Finding: weights come back as differences of single precision running sums.  An edge of
    weight 1 after one of weight 2^24 is returned with weight 0. *)
Definition weight_graph := [ [ [nd 1 0 []; ed 1 10 0 big []; ed 1 12 0 one []] ] ].
Theorem C01_weight_refuted :
  exists parts g n, converted f32_add wv None parts g /\
    neighbors f32_sub g [n] [0] None = Ok ([(10, 0, big, -1); (12, 0, 0%N, -1)], [2%nat]) /\
    map answer (spec_edges parts [0] n) = [(10, 0, big, -1); (12, 0, one, -1)].
Proof.
  exists weight_graph, (load_of None weight_graph), 1. split; [|split].
  - apply load_of_converted. vm_compute. reflexivity.
  - vm_compute. reflexivity.
  - vm_compute. reflexivity.
Qed.
Print Assumptions C01_weight_refuted.

(** ** C02: node types *)
Theorem C02_node_types :
  forall fadd wval wm parts g default nodes,
    converted fadd wval wm parts g ->
    node_types g nodes default = Ok (map (spec_node_type parts default) nodes).
Proof. exact converted_node_types. Qed.
Print Assumptions C02_node_types.

Example C02_case : converted f32_add wv None demo demo_graph /\
  map (spec_node_type demo 42) [9; 0; 5; 77] = [0; 1; 2; 42].
Proof. split; [exact demo_converted|vm_compute; reflexivity]. Qed.

(** ** C05: counts agree with the neighbors returned, for every graph and type list. *)
Theorem C05_counts_are_lengths :
  forall fadd fsub wval wm parts g types nodes,
    converted fadd wval wm parts g ->
    exists ls, length ls = length nodes /\
      neighbors fsub g nodes types None = Ok (concat ls, map (@length nbr) ls) /\
      neighbor_counts g nodes types None = Ok (map (@length nbr) ls).
Proof. exact converted_counts. Qed.
Print Assumptions C05_counts_are_lengths.

Example C05_case : converted f32_add wv None demo demo_graph /\
  neighbor_counts demo_graph [9; 0; 77] [2; 1] None = Ok [2; 1; 0]%nat.
Proof. split; [exact demo_converted|vm_compute; reflexivity]. Qed.

(** ** C06: temporal neighbors *)
(** Full statement: without [guarded]; false for the reasons shown for C01. *)
Theorem C06_temporal_neighbors_partial :
  forall fadd fsub wval w parts g types nodes ts,
    0 <= w -> converted fadd wval (Some w) parts g -> guarded fadd fsub types parts ->
    neighbors fsub g nodes types (Some ts) =
    Ok (flat_map (fun x => map answer_ts (filter (alive (snd x)) (spec_edges parts types (fst x)))) (combine nodes ts),
        map (fun x => length (filter (alive (snd x)) (spec_edges parts types (fst x)))) (combine nodes ts)).
Proof. exact converted_neighbors_ts. Qed.
Print Assumptions C06_temporal_neighbors_partial.

Example C06_case : converted f32_add wv (Some 10) demo_t demo_t_graph /\
  guarded f32_add f32_sub [0; 1] demo_t /\
  neighbors f32_sub demo_t_graph [1; 1] [0; 1] (Some [4; 5]) =
  Ok ([(2, 0, one, 1); (3, 0, two, 2); (4, 1, one, 4); (8, 0, one, 3); (3, 0, two, 2); (4, 1, one, 4); (8, 0, one, 3)], [4; 3]%nat).
Proof.
  split; [exact demo_t_converted|]. split; [apply guardb_ok; vm_compute; reflexivity|vm_compute; reflexivity].
Qed.

(** Finding: [removed_at = 0] is not recorded; an edge created and removed at 0 of a node
    that lives forever is alive at every time.  [removed] is what the input says. *)
Definition zero_graph := [ [ [Rec 1 (-1) 0 one (Some 0) (Some (-1)) []; edt 1 2 0 one 0 0] ] ].
Theorem C06_removed_at_zero_refuted :
  exists parts g n t, converted f32_add wv (Some 10) parts g /\
    (forall r, In r (concat (concat parts)) -> rsrc r = n -> rdst r = 2 -> rremoved r = Some 0) /\ 0 <= t /\
    neighbors f32_sub g [n] [0] (Some [t]) = Ok ([(2, 0, one, 0)], [1%nat]).
Proof.
  exists zero_graph, (load_of (Some 10) zero_graph), 1, 7. split; [|split; [|split]].
  - apply load_of_converted. vm_compute. reflexivity.
  - intros r Hr _ Hd. cbn in Hr. destruct Hr as [<-|[<-|[]]]; [cbn in Hd; discriminate|reflexivity].
  - lia.
  - vm_compute. reflexivity.
Qed.
Print Assumptions C06_removed_at_zero_refuted.

(** ** C08: only the set of requested types matters. *)
Theorem C08_type_set_neighbors :
  forall fsub g nodes ts T1 T2, (forall t, In t T1 <-> In t T2) ->
    neighbors fsub g nodes T1 ts = neighbors fsub g nodes T2 ts /\
    neighbor_counts g nodes T1 ts = neighbor_counts g nodes T2 ts.
Proof. exact type_set_neighbors. Qed.
Print Assumptions C08_type_set_neighbors.

Example C08_case : (forall t, In t [2; 1; 2] <-> In t [1; 2]) /\
  neighbors f32_sub demo_graph [9] [2; 1; 2] None = neighbors f32_sub demo_graph [9] [1; 2] None.
Proof. split; [intro t; cbn; intuition|vm_compute; reflexivity]. Qed.

(** ** C11: a node is found in every partition holding it, in load order. *)
(** [loads_to fadd m f (p, es)]: the files [f] load to partition [p] and its node map file
    lists the (node id, row) pairs [es].  [gplaces n pes] lists for every partition in order
    the rows of [n]. *)
Theorem C11_lookup_every_partition :
  forall fadd m fs pes, Forall2 (loads_to fadd m) fs pes ->
    exists g, load_graph fadd m (map (fun f => [f]) fs) = Ok g /\ g_parts g = map fst pes /\
      forall n, occurrences g n = Ok (found (gplaces n pes)).
Proof. exact load_graph_places. Qed.
Print Assumptions C11_lookup_every_partition.

Example C11_case : occurrences demo_graph 9 =
  Ok (Some [(nth 0 (g_parts demo_graph) (P [] [] [] [] [] [] [] [] [] [] [] [] []), 0%nat);
            (nth 1 (g_parts demo_graph) (P [] [] [] [] [] [] [] [] [] [] [] [] []), 0%nat)]).
Proof. vm_compute. reflexivity. Qed.

(** Finding: with two suffixes under one path the partition index of the node map is the
    index of the path; node 5 stored in the second file set is looked up in the first one,
    which holds another node there: its type is reported as 0 instead of 3. *)
Theorem C11_path_with_two_suffixes_refuted :
  exists ps m g, convert wv None [ [[nd 9 0 []]]; [[nd 5 3 []]] ] = Ok (ps, m) /\
    load_graph f32_add m [ps] = Ok g /\ node_types g [9; 5] (-2) = Ok [0; 0].
Proof.
  destruct (convert wv None [ [[nd 9 0 []]]; [[nd 5 3 []]] ]) as [[ps m]|e] eqn:E; [|vm_compute in E; discriminate].
  exists ps, m. vm_compute in E. inversion E; subst; clear E. eexists. split; [reflexivity|].
  split; [vm_compute; reflexivity|]. vm_compute. reflexivity.
Qed.
Print Assumptions C11_path_with_two_suffixes_refuted.
