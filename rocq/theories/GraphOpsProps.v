(** Properties C35-C37 and C54: operations composed from queries. *)
From Coq Require Import Permutation Sorted.
From Verif Require Import Base WriterModel LoaderModel GraphModel GraphSpec AnswerProofs Float32 Demo
  Dist AliasModel ReservoirModel SamplerModel NeighborModel WeightedProofs WeightedLaw WeightedGraph UniformProofs NeighborProps GraphOpsModel GraphOpsProofs.
Local Open Scope nat_scope.

(** ** C35 *)
(** With equal windows the rows are exactly the pairs of each window, in order. *)
Theorem C35_pairs_partial : forall paths len w,
  0 < len -> Forall (fun p => length p = len) paths ->
  gen_skipgrams paths len w w = Ok (map Some (flat_map (fun p => window_pairs p w w) paths)).
Proof. exact skipgrams_exact. Qed.
(** The size is right for all windows. *)
Theorem C35_size : forall path l r, skipgrams_size (length path) l r = length (window_pairs path l r).
Proof. exact skipgrams_size_window. Qed.
(** A wider right window: the pairs of the left window on both sides, then uninitialised rows. *)
Theorem C35_right_wider : forall paths len l r,
  0 < len -> Forall (fun p => length p = len) paths -> l <= r ->
  gen_skipgrams paths len l r
  = Ok (map Some (flat_map (fun p => window_pairs p l l) paths)
        ++ repeat None (length (flat_map (fun p => window_pairs p l r) paths)
                        - length (flat_map (fun p => window_pairs p l l) paths))).
Proof. exact skipgrams_right_wider. Qed.
Theorem C35_garbage_refuted : exists paths,
  gen_skipgrams paths 3 0 1 = Ok [None; None] /\ window_pairs (hd [] paths) 0 1 = [(5, 6); (6, 7)]%Z.
Proof. exists [[5; 6; 7]]%Z. vm_compute. auto. Qed.
Theorem C35_fails_refuted : exists paths,
  gen_skipgrams paths 3 1 0 = Fail EIndex /\ window_pairs (hd [] paths) 1 0 = [(6, 5); (7, 6)]%Z.
Proof. exists [[5; 6; 7]]%Z. vm_compute. auto. Qed.
Example C35_example :
  gen_skipgrams [[5; 6; 7]; [1; 2; 3]]%Z 3 1 1
  = Ok (map Some [(5, 6); (6, 5); (6, 7); (7, 6); (1, 2); (2, 1); (2, 3); (3, 2)]%Z).
Proof. vm_compute. reflexivity. Qed.

(** ** C36 *)
Theorem C36_sub_graph_partial : forall fadd fsub wval wm parts g, converted fadd wval wm parts g ->
  forall types src hops self_loop undirected return_edges,
  guarded fadd fsub types parts -> 1 <= hops ->
  exists nodes adj src_idx inner,
    sub_graph fsub g src types hops self_loop undirected return_edges = Ok (nodes, adj, src_idx) /\
    StronglySorted Z.lt nodes /\ (forall x, In x nodes <-> within parts types src hops x) /\
    map (at_ nodes) src_idx = src /\
    StronglySorted Z.lt inner /\ (forall x, In x inner <-> within parts types src (hops - 1) x) /\
    match adj with
    | Edges l =>
        return_edges = true /\ (forall i j, In (i, j) l -> i < length nodes /\ j < length nodes) /\
        if self_loop || undirected then
          NoDup l /\
          forall i j, i < length nodes -> j < length nodes ->
            (In (i, j) l <-> wanted parts types inner nodes undirected i j \/ (self_loop = true /\ i = j))
        else map (fun e => (at_ nodes (fst e), at_ nodes (snd e))) l = out_edges parts types inner
    | Matrix m =>
        return_edges = false /\ square (length nodes) m /\
        forall i j, i < length nodes -> j < length nodes ->
          exists b : bool, (b = true <-> wanted parts types inner nodes undirected i j) /\
                           mget m i j = (if b then 1 else 0) + (if self_loop && (i =? j) then 1 else 0)
    end.
Proof. exact sub_graph_spec. Qed.

(** Edges 1->2, 2->3, 3->3, 3->4. *)
Definition chain : list (list (list record)) :=
  [ [ [nd 1 0 []; ed 1 2 0 one []]; [nd 2 0 []; ed 2 3 0 one []]; [nd 3 0 []; ed 3 3 0 one []; ed 3 4 0 one []] ] ].
Definition chain_graph : graph := load_of None chain.
(** A self loop of the graph counts twice on the diagonal. *)
Theorem C36_diagonal_refuted : exists nodes m idx,
  converted f32_add wv None chain chain_graph /\
  sub_graph f32_sub chain_graph [3%Z] [0%Z] 1 true false false = Ok (nodes, Matrix m, idx) /\ mget m 0 0 = 2.
Proof.
  do 3 eexists. split; [apply load_of_converted; vm_compute; reflexivity|]. split; vm_compute; reflexivity.
Qed.
(** Zero hops are one hop. *)
Theorem C36_zero_hops_refuted : exists nodes adj idx,
  sub_graph f32_sub chain_graph [1%Z] [0%Z] 0 false false true = Ok (nodes, adj, idx) /\
  nodes = [1; 2]%Z /\ ~ within chain [0%Z] [1%Z] 0 2.
Proof.
  do 3 eexists. split; [vm_compute; reflexivity|]. split; [reflexivity|].
  intros (j & Hj & R). assert (j = 0) by lia. subst j. inversion R as [x H|]; subst. destruct H as [H|[]]. discriminate.
Qed.
Example C36_example :
  sub_graph f32_sub chain_graph [1; 1]%Z [0%Z] 2 false false true
  = Ok ([1; 2; 3]%Z, Edges [(0, 1); (1, 2)], [0; 0]) /\
  sub_graph f32_sub chain_graph [2]%Z [0%Z] 2 false true true
  = Ok ([2; 3; 4]%Z, Edges [(0, 1); (1, 0); (1, 1); (1, 2); (2, 1)], [0]) /\
  sub_graph f32_sub chain_graph [1]%Z [0%Z] 2 true false false
  = Ok ([1; 2; 3]%Z, Matrix [[1; 1; 0]; [0; 1; 1]; [0; 0; 1]], [0]).
Proof. vm_compute. auto. Qed.

(** ** C37 *)
(** Every result is made of correct hops; the only failure is too many edges for the padding. *)
Theorem C37_hops : forall fadd fsub wval wm parts g, converted fadd wval wm parts g ->
  forall nodes path max,
  (forall types, In types path -> guarded fadd fsub types parts) ->
  get_neighbor fsub g nodes path max = Fail EFatal \/
  exists nl al,
    get_neighbor fsub g nodes path max = Ok (nl, al) /\
    nth_error nl 0 = Some (nodes, length nodes) /\ length nl = S (length path) /\ length al = length path /\
    forall h types, nth_error path h = Some types ->
      exists p c q d a, nth_error nl h = Some (p, c) /\ nth_error nl (S h) = Some (q, d) /\
                        nth_error al h = Some a /\ hop_ok parts max types p c q d a.
Proof. intros fadd fsub wval wm parts g C nodes path max. apply (get_neighbor_loop_spec fadd fsub wval wm parts g C). Qed.
Theorem C37_fits : forall fadd fsub wval wm parts g, converted fadd wval wm parts g ->
  forall nodes path max,
  (forall types, In types path -> guarded fadd fsub types parts) ->
  (forall types n, In types path -> length (spec_edges parts types n) <= max) ->
  exists r, get_neighbor fsub g nodes path max = Ok r.
Proof. intros fadd fsub wval wm parts g C nodes path max. apply (get_neighbor_fits fadd fsub wval wm parts g C). Qed.
(** The failure is exactly the case that does not fit. *)
Theorem C37_limit : forall fadd fsub wval wm parts g, converted fadd wval wm parts g ->
  forall prev cnt types max, guarded fadd fsub types parts ->
  (get_neighbor_hop fsub g prev cnt types max = Fail EFatal <->
   max * length prev < length (edges_from parts types (firstn cnt prev))).
Proof.
  intros fadd fsub wval wm parts g C prev cnt types max G.
  pose proof (get_neighbor_hop_spec fadd fsub wval wm parts g C prev cnt types max G) as H. cbv zeta in H.
  destruct (Nat.ltb_spec (max * length prev) (length (edges_from parts types (firstn cnt prev)))).
  - tauto.
  - destruct H as (q & d & a & -> & _). split; [discriminate|lia].
Qed.
Example C37_example :
  get_neighbor f32_sub chain_graph [3; 1]%Z [[0%Z]; [0%Z]] 2
  = Ok ([([3; 1]%Z, 2); ([2; 3; 4; 0]%Z, 3); ([3; 4; 0; 0; 0; 0; 0; 0]%Z, 2)],
        [Sparse [(0, 1); (0, 2); (1, 0); (0, 0)] [one; one; one; 0%N] (2, 3) 3;
         Sparse [(0, 0); (1, 0); (1, 1); (0, 0); (0, 0); (0, 0); (0, 0); (0, 0)]
                [one; one; one; 0; 0; 0; 0; 0]%N (3, 2) 3]) /\
  edges_from chain [0%Z] [3; 1]%Z = [(3, 3, one); (3, 4, one); (1, 2, one)]%Z /\
  get_neighbor f32_sub chain_graph [3]%Z [[0%Z]] 1 = Fail EFatal.
Proof. vm_compute. auto. Qed.

(** ** C54 *)
(** Whatever is sampled, as long as sampling one node gives [count] good entries. *)
Theorem C54_any_sampler : forall X (id : X -> Z) (sample : list Z -> nat -> Z -> res (list X) -> Prop) (good : list Z -> Z -> X -> Prop) path nodes,
  (forall types count n r, In (types, count) path -> sample types count n r ->
     exists l, r = Ok l /\ length l = count /\ forall x, In x l -> good types n x) ->
  forall out, fanout id sample nodes path out -> exists rows, out = Ok rows /\ fanned id good nodes path rows.
Proof. intros. eapply fanout_fanned; eassumption. Qed.
Theorem C54_sizes : forall X (id : X -> Z) good path prev (rows : list (list X)),
  fanned id good prev path rows ->
  length rows = length path /\
  forall h row, nth_error rows h = Some row ->
    length row = fold_left Nat.mul (map snd (firstn (S h) path)) (length prev).
Proof. exact @fanned_length. Qed.
(** Weighted sampling on a converted graph: only neighbors and defaults. *)
Theorem C54_weighted : forall fadd fsub qval wval wm parts g,
  converted fadd wval wm parts g -> sums_nonneg fadd qval parts ->
  forall default nodes path out,
  fanout nb_id (fun types count n => routcome (g_sample fadd fsub qval g (make_sorted_list types) count default n None)) nodes path out ->
  exists rows, out = Ok rows /\
    fanned nb_id (fun types n x => x = default \/ exists full, g_full_neighbor fsub g (make_sorted_list types) n None = Ok full /\ In x full)
           nodes path rows.
Proof.
  intros fadd fsub qval wval wm parts g C HS default nodes path out H.
  eapply fanout_fanned; [|exact H]. intros types count n r _ Hr.
  destruct (weighted_real fadd fsub qval wval wm parts g types n count default C HS) as (full & E & HR).
  destruct (HR r Hr) as (l & -> & L & HI). exists l. split; [reflexivity|]. split; [assumption|].
  intros x Hx. destruct (HI x Hx); [now left|right]. now exists full.
Qed.
(** Uniform sampling without replacement. *)
Definition slot_id (x : slot) : Z := let '(d, _, _) := x in d.
Theorem C54_without_replacement : forall fadd wval wm parts g,
  converted fadd wval wm parts g ->
  forall temporal default nodes path out,
  fanout slot_id (fun types count n r => exists skip pick, (forall c, 1 <= skip c) /\ (forall c, pick c < count) /\
                    r = g_uniform_without skip pick temporal false g (make_sorted_list types) count default n None) nodes path out ->
  exists rows, out = Ok rows /\
    fanned slot_id (fun types n x => x = default \/ exists e, In e (spec_edges parts types n) /\ x = (e_dst e, e_typ e, -1)%Z)
           nodes path rows.
Proof.
  intros fadd wval wm parts g C temporal default nodes path out H.
  eapply fanout_fanned; [|exact H]. intros types count n r _ (skip & pick & Hs & Hp & ->).
  destruct (uniform_without fadd wval wm parts g types n None skip pick temporal false count default C) as (l & ps & es & E & HM & _ & HL & HI & _);
    [now destruct wm|discriminate|assumption|assumption|].
  eexists. split; [exact E|].
  assert (LE : length es = length ps) by (apply (f_equal (@length _)) in HM; rewrite !map_length in HM; lia).
  split; [rewrite app_length, map_length, repeat_length; lia|].
  intros x Hx. apply in_app_or in Hx. destruct Hx as [Hx|Hx]; [right|left; now apply repeat_spec in Hx].
  apply in_map_iff in Hx. destruct Hx as (e & <- & He). exists e. split; [|unfold slot_for; now destruct wm].
  assert (In (Some e) (map (nth_error l) ps)) as He' by (rewrite HM; now apply in_map).
  apply in_map_iff in He'. destruct He' as (p & Ep & _). apply nth_error_In in Ep. apply HI in Ep.
  unfold matching in Ep. now destruct wm.
Qed.
(** One neighbor each: the fan-out of node 1 over two hops. *)
Example C54_example :
  fanout nb_id (fun types count n => routcome (g_sample f32_add f32_sub f32_q chain_graph (make_sorted_list types) count unused n None))
    [1; 4]%Z [([0%Z], 1); ([0%Z], 1)]
    (Ok [[(2, 0, one, -1)%Z; unused]; [(3, 0, one, -1)%Z; unused]]).
Proof.
  cbn [fanout]. exists [Ok [(2, 0, one, -1)%Z]; Ok [unused]]. split.
  - constructor; [apply (replay_outcome _ [CCoin true; CPick 0%Q]); vm_compute; reflexivity|].
    constructor; [vm_compute; reflexivity|constructor].
  - cbn [mapM bind]. exists (Ok [[(3, 0, one, -1)%Z; unused]]). split; [|reflexivity].
    exists [Ok [(3, 0, one, -1)%Z]; Ok [unused]]. split.
    + constructor; [apply (replay_outcome _ [CCoin true; CPick 0%Q]); vm_compute; reflexivity|].
      constructor; [vm_compute; reflexivity|constructor].
    + cbn [mapM bind]. exists (Ok []). split; reflexivity.
Qed.

Print Assumptions C35_pairs_partial.
Print Assumptions C35_size.
Print Assumptions C35_right_wider.
Print Assumptions C35_garbage_refuted.
Print Assumptions C35_fails_refuted.
Print Assumptions C36_sub_graph_partial.
Print Assumptions C36_diagonal_refuted.
Print Assumptions C36_zero_hops_refuted.
Print Assumptions C37_hops.
Print Assumptions C37_fits.
Print Assumptions C37_limit.
Print Assumptions C54_any_sampler.
Print Assumptions C54_sizes.
Print Assumptions C54_weighted.
Print Assumptions C54_without_replacement.
