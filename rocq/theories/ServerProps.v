(** Properties C22-C26 and C65: queries through servers.
    [schedule n es]: [es] is an order in which the replies of [n] servers arrive ([Fill]) and
    their callbacks run ([Call]), a callback after its reply.  [load_files fadd m fs]: the
    graph a server or a local process loads from the partition files [fs]. *)
From Coq Require Import Permutation ZifyBool ZifyNat ZifyN.
From Verif Require Import Base WriterModel LoaderModel GraphModel GraphSpec FeatureModel FeatureSpec ServerModel
  LoaderProofs GraphProofs AnswerProofs FeatureProofs TemporalProofs StringProofs TemporalStringProofs
  ServerProofs ServerFeatureProofs ServerStringProofs SparseProofs EdgeTemporalProofs ServerEdgeProofs ServerSparseProofs Float32 Demo FeatureProps.
Local Open Scope Z_scope.

(** ** Concrete servers and schedules *)
Definition server_of (wm : option Z) (all : list (list (list record))) (sel : list nat) : graph :=
  match (do x <- convert wv wm all ;; load_graph f32_add (snd x) (map (fun f => [f]) (pick (fst x) sel))) with
  | Ok g => g
  | Fail _ => empty_graph
  end.
Definition servers wm all sels := map (server_of wm all) sels.
(** All replies arrive, then the callbacks run in the given order. *)
Definition replies_in (order : list nat) : list event := map Fill (seq 0 (length order)) ++ map Call order.

Lemma server_of_converted wm all sel : convertible wm all = true ->
  converted f32_add wv wm (pick all sel) (server_of wm all sel).
Proof.
  unfold convertible, server_of. destruct (convert wv wm all) as [[ps m]|e] eqn:E; [|discriminate].
  cbn [bind fst snd]. rewrite andb_true_iff, !forallb_forall. intros [H1 H2].
  assert (F : Forall fits ps) by (apply Forall_forall; intros f Hf; apply fitsb_ok; auto).
  assert (R : Forall rec_ok (concat (concat all))) by (apply Forall_forall; intros r Hr; apply rec_okb_ok; auto).
  destruct (selection_loads f32_add wv wm all ps m sel E F R) as (g & L). rewrite L. exists all, ps, m, sel. auto.
Qed.
Lemma servers_converted wm all sels : convertible wm all = true ->
  Forall2 (converted f32_add wv wm) (map (pick all) sels) (servers wm all sels).
Proof. intro H. unfold servers. induction sels; cbn; constructor; auto using server_of_converted. Qed.

Lemma replies_in_schedule order : Permutation order (seq 0 (length order)) -> schedule (length order) (replies_in order).
Proof.
  intro HP. set (n := length order) in *. unfold replies_in. fold n. split; [now apply Permutation_app_head, Permutation_map|].
  intros i l1 l2 E.
  assert (Hn : nth_error (map Fill (seq 0 n) ++ map Call order) (length l1) = Some (Call i)).
  { rewrite E, nth_error_app2, Nat.sub_diag by lia. reflexivity. }
  assert (HL : (n <= length l1)%nat).
  { destruct (Nat.le_gt_cases n (length l1)) as [H|H]; [assumption|]. rewrite nth_error_app1 in Hn by (rewrite map_length, seq_length; assumption).
    apply nth_error_In, in_map_iff in Hn. destruct Hn as (k & Hk & _). discriminate. }
  rewrite nth_error_app2 in Hn by (rewrite map_length, seq_length; assumption).
  apply nth_error_In, in_map_iff in Hn. destruct Hn as (k & Hk & Hin). injection Hk as ->.
  assert (Hf : firstn n l1 = map Fill (seq 0 n)).
  { apply (f_equal (firstn n)) in E. rewrite !firstn_app, map_length, seq_length, Nat.sub_diag in E.
    replace (n - length l1)%nat with 0%nat in E by lia. cbn [firstn] in E. rewrite !app_nil_r in E.
    rewrite <- E. apply firstn_all2. now rewrite map_length, seq_length. }
  rewrite <- (firstn_skipn n l1). apply in_or_app. left. rewrite Hf. apply in_map. now apply (Permutation_in _ HP).
Qed.
Ltac sched := match goal with |- schedule _ (replies_in ?o) => apply (replies_in_schedule o) end; cbn; repeat (constructor || apply perm_swap).

Ltac conjs := repeat match goal with |- _ /\ _ => split end.

(** ** C22: neighbors *)

(** Through servers a node has the lists of the servers, one after the other. *)
Theorem C22_server_order :
  forall fsub gs nodes types ts es out,
    stamped nodes ts -> schedule (length gs) es -> gs <> [] ->
    (d_neighbors fsub gs nodes types ts es = Ok out <->
     exists css,
       mapM (fun x => mapM (fun g => g_full_neighbor fsub g (make_sorted_list types) (fst x) (snd x)) gs) (stamps nodes ts) = Ok css /\
       out = (concat (map (@concat nbr) css), map (@length nbr) (map (@concat nbr) css))).
Proof. exact d_neighbors_rows. Qed.
Print Assumptions C22_server_order.

(** The same answer as a local graph that loads the partitions in the order of the servers. *)
Theorem C22_neighbors :
  forall fadd fsub m fss gs g nodes types ts es out,
    Forall2 (fun fs g' => load_files fadd m fs = Ok g') fss gs -> load_files fadd m (concat fss) = Ok g ->
    stamped nodes ts -> schedule (length gs) es -> gs <> [] ->
    (d_neighbors fsub gs nodes types ts es = Ok out <-> neighbors fsub g nodes types ts = Ok out).
Proof. intros. eapply neighbors_split; try eassumption. eapply load_split; eassumption. Qed.
Print Assumptions C22_neighbors.

(** Any other placement: per node the same entries in another order, the same counts. *)
Theorem C22_any_placement :
  forall fadd fsub m fss fs gs g nodes types ts es nbs cs,
    Forall2 (fun fs g' => load_files fadd m fs = Ok g') fss gs -> load_files fadd m fs = Ok g -> Permutation (concat fss) fs ->
    stamped nodes ts -> schedule (length gs) es -> gs <> [] ->
    d_neighbors fsub gs nodes types ts es = Ok (nbs, cs) ->
    exists ls ls', nbs = concat ls /\ cs = map (@length nbr) ls /\ length ls = length nodes /\
      neighbors fsub g nodes types ts = Ok (concat ls', cs) /\ Forall2 (@Permutation nbr) ls ls'.
Proof. intros. eapply neighbors_spread; try eassumption. eapply load_spread; eassumption. Qed.
Print Assumptions C22_any_placement.

Example C22_case :
  schedule 2 (replies_in [1; 0]%nat) /\
  d_neighbors f32_sub (servers None demo [[0]; [1]]%nat) [9; 5; 9] [0; 1; 2] None (replies_in [1; 0]%nat) =
    neighbors f32_sub demo_graph [9; 5; 9] [0; 1; 2] None /\
  neighbors f32_sub demo_graph [9; 5; 9] [0; 1; 2] None =
    Ok ([(0, 0, one, -1); (5, 2, two, -1); (6, 2, half, -1); (7, 1, one, -1); (7, 1, two, -1);
         (0, 0, one, -1); (5, 2, two, -1); (6, 2, half, -1); (7, 1, one, -1); (7, 1, two, -1)], [5; 0; 5]%nat) /\
  (do x <- d_neighbors f32_sub (servers None demo [[1]; [0]]%nat) [9] [0; 1; 2] None (replies_in [0; 1]%nat) ;; Ok (fst x)) =
    Ok [(7, 1, one, -1); (7, 1, two, -1); (0, 0, one, -1); (5, 2, two, -1); (6, 2, half, -1)].
Proof. split; [sched|]. conjs; vm_compute; reflexivity. Qed.

(** ** C23: neighbor counts *)
Theorem C23_counts :
  forall fadd m fss fs gs g nodes types ts es out,
    Forall2 (fun fs g' => load_files fadd m fs = Ok g') fss gs -> load_files fadd m fs = Ok g -> Permutation (concat fss) fs ->
    stamped nodes ts -> schedule (length gs) es -> gs <> [] ->
    (d_neighbor_counts gs nodes types ts es = Ok out <-> neighbor_counts g nodes types ts = Ok out).
Proof. intros. eapply counts_spread; try eassumption. eapply load_spread; eassumption. Qed.
Print Assumptions C23_counts.

Example C23_case :
  d_neighbor_counts (servers None demo [[1]; [0]]%nat) [9; 5; 0; 77] [0; 1; 2] None (replies_in [1; 0]%nat) = Ok [5; 0; 1; 0]%nat /\
  neighbor_counts demo_graph [9; 5; 0; 77] [0; 1; 2] None = Ok [5; 0; 1; 0]%nat.
Proof. split; vm_compute; reflexivity. Qed.

(** ** C24: node features *)

(** Every value is a newest one among the servers; zeros if no server has one.
    [offer hist parts x f]: age and bytes of the value of feature [f] in [parts]. *)
Theorem C24_newest :
  forall fadd wval wm split gs nodes fs ts hist es,
    Forall2 (converted fadd wval wm) split gs -> Forall (fun f => int32 (fst f)) fs -> explained hist (concat split) nodes (map fst fs) ts ->
    stamped nodes ts -> schedule (length gs) es ->
    exists val, d_node_features gs nodes fs ts es =
        Ok (map (fun x => concat (map (fun f => fixed (snd f) (val x f)) fs)) (stamps nodes ts)) /\
      forall x f, let offers := map (fun parts => offer hist parts x (fst f)) split in
        (exists y, newest_offer offers y /\ val x f = snd y) \/ ((forall y, ~ In (Some y) offers) /\ val x f = []).
Proof. exact d_features_newest. Qed.
Print Assumptions C24_newest.

(** Full statement: without the last hypothesis (values of the same age agree). *)
Theorem C24_order_partial :
  forall fadd wval wm split gs all g nodes fs ts hist es,
    Forall2 (converted fadd wval wm) split gs -> converted fadd wval wm all g -> Permutation (concat split) all ->
    Forall (fun f => int32 (fst f)) fs -> explained hist all nodes (map fst fs) ts ->
    stamped nodes ts -> schedule (length gs) es ->
    (forall x f a b, In x (stamps nodes ts) -> In f fs ->
       let offers := map (fun p => offer hist [p] x (fst f)) all in
       In (Some a) offers -> In (Some b) offers -> fst a = fst b -> snd a = snd b) ->
    d_node_features gs nodes fs ts es = node_features g nodes fs ts.
Proof. exact d_features_local. Qed.
Print Assumptions C24_order_partial.

Example C24_case :
  converted f32_add wv (Some 10) tparts tgraph /\ explained thist tparts [1] [0] (Some [2]) /\
  Forall2 (converted f32_add wv (Some 10)) (map (pick tparts) [[1]; [0]]%nat) (servers (Some 10) tparts [[1]; [0]]%nat) /\
  (forall a b, let offers := map (fun p => offer thist [p] (1, Some 2) 0) tparts in
       In (Some a) offers -> In (Some b) offers -> fst a = fst b -> snd a = snd b) /\
  d_node_features (servers (Some 10) tparts [[1]; [0]]%nat) [1] [(0, 2%nat)] (Some [2]) (replies_in [1; 0]%nat) = Ok [[20; 0]%N].
Proof.
  split; [apply load_of_converted; vm_compute; reflexivity|]. split; [right; intros n f v _ _; apply tparts_explained|].
  split; [apply servers_converted; vm_compute; reflexivity|]. split.
  - assert (E : map (fun p => offer thist [p] (1, Some 2) 0) tparts = [Some (1, [10]%N); Some (2, [20]%N)]) by (vm_compute; reflexivity).
    intros a b. cbn zeta. rewrite E. intros [Ha|[Ha|[]]] [Hb|[Hb|[]]]; injection Ha as <-; injection Hb as <-; cbn; congruence.
  - vm_compute. reflexivity.
Qed.

(** Two servers with different values of the same age: the last callback wins. *)
Definition tied : list (list (list record)) := [ [ [nd 1 0 [Some [1]%N]] ]; [ [nd 1 0 [Some [2]%N]] ] ].
Theorem C24_tie_refuted :
  exists all sels es es', convertible None all = true /\ schedule 2 es /\ schedule 2 es' /\
    d_node_features (servers None all sels) [1] [(0, 1%nat)] None es = Ok [[2]%N] /\
    d_node_features (servers None all sels) [1] [(0, 1%nat)] None es' = Ok [[1]%N] /\
    node_features (load_of None all) [1] [(0, 1%nat)] None = Ok [[1]%N].
Proof.
  exists tied, [[0]; [1]]%nat, (replies_in [0; 1]%nat), (replies_in [1; 0]%nat).
  split; [vm_compute; reflexivity|]. split; [sched|]. split; [sched|]. conjs; vm_compute; reflexivity.
Qed.
Print Assumptions C24_tie_refuted.

Definition at_ (t : Z) (b : N) : option (list N) := Some (temporal_bytes [(t, [b])]).
Theorem C24_tie_times_refuted :
  exists all sels es es', convertible (Some 9) all = true /\ schedule 2 es /\ schedule 2 es' /\
    d_node_features (servers (Some 9) all sels) [1] [(0, 1%nat)] (Some [3]) es = Ok [[20]%N] /\
    d_node_features (servers (Some 9) all sels) [1] [(0, 1%nat)] (Some [3]) es' = Ok [[10]%N].
Proof.
  exists [ [ [nd 1 0 [at_ 1 10]] ]; [ [nd 1 0 [at_ 1 20]] ] ], [[0]; [1]]%nat, (replies_in [0; 1]%nat), (replies_in [1; 0]%nat).
  split; [vm_compute; reflexivity|]. split; [sched|]. split; [sched|]. conjs; vm_compute; reflexivity.
Qed.
Print Assumptions C24_tie_times_refuted.

(** Edge features: the last callback wins whatever the ages. *)
Theorem C24_edges_refuted :
  exists all sels es es', convertible (Some 9) all = true /\ schedule 2 es /\ schedule 2 es' /\
    d_edge_features (servers (Some 9) all sels) [(1, 2, 0)] [(0, 1%nat)] (Some [3]) es = Ok [[10]%N] /\
    d_edge_features (servers (Some 9) all sels) [(1, 2, 0)] [(0, 1%nat)] (Some [3]) es' = Ok [[20]%N].
Proof.
  exists [ [ [nd 1 0 []; Rec 1 2 0 one (Some 0) (Some (-1)) [at_ 2 20]] ]; [ [Rec 1 2 0 one (Some 0) (Some (-1)) [at_ 1 10]] ] ],
         [[0]; [1]]%nat, (replies_in [0; 1]%nat), (replies_in [1; 0]%nat).
  split; [vm_compute; reflexivity|]. split; [sched|]. split; [sched|]. conjs; vm_compute; reflexivity.
Qed.
Print Assumptions C24_edges_refuted.

(** ** C25: node types *)

(** Every possible answer: the type some server has for the node, else the default. *)
Theorem C25_some_server :
  forall fadd wval wm split gs nodes default out,
    Forall2 (converted fadd wval wm) split gs -> d_node_types gs nodes default out ->
    length out = length nodes /\
    forall k n, nth_error nodes k = Some n ->
      (nth_error out k = Some default /\ forall parts t, In parts split -> ~ typed parts n t) \/
      exists parts t, In parts split /\ typed parts n t /\ spec_node_type parts (-1) n = t /\ nth_error out k = Some t.
Proof. exact d_types_any. Qed.
Print Assumptions C25_some_server.

(** Full statement: without the hypotheses that a node has one type and that every node with
    an edge has a record. *)
Theorem C25_types_partial :
  forall fadd wval wm split gs all g nodes default,
    Forall2 (converted fadd wval wm) split gs -> converted fadd wval wm all g -> Permutation (concat split) all ->
    (forall n t t', In n nodes -> typed all n t -> typed all n t' -> t = t') ->
    (forall n, In n nodes -> mentioned all n -> exists t, typed all n t) ->
    forall out, d_node_types gs nodes default out <-> node_types g nodes default = Ok out.
Proof. exact d_types_local. Qed.
Print Assumptions C25_types_partial.

Example C25_case : forall out,
  d_node_types (servers None demo [[1]; [0]]%nat) [9; 5; 77; 0] 8 out <-> out = [0; 2; 8; 1].
Proof.
  intro out.
  assert (R : concat (concat demo) = [nd 9 0 [Some [1; 2; 3]; None; Some [7]]%N; ed 9 0 0 one [Some [5; 6]%N]; ed 9 5 2 two []; ed 9 6 2 half [None; Some [8]%N];
     nd 0 1 []; ed 0 9 1 one []; ed 9 7 1 one []; ed 9 7 1 two [Some [4]%N]; nd 5 2 [Some [9]%N]]) by reflexivity.
  assert (T : forall n t, typed demo n t <-> (n = 9 /\ t = 0) \/ (n = 0 /\ t = 1) \/ (n = 5 /\ t = 2)).
  { intros n t. unfold typed. rewrite R. split.
    - intros (H & r & Hr & Hs & Hn & Ht).
      repeat (destruct Hr as [<-|Hr]; [cbn in Hs, Ht; try discriminate Hn; subst; auto|]). contradiction.
    - intros [[-> ->]|[[-> ->]|[-> ->]]]; (split; [discriminate|]).
      + eexists. split; [left; reflexivity|]. auto.
      + eexists. split; [do 4 right; left; reflexivity|]. auto.
      + eexists. split; [do 8 right; left; reflexivity|]. auto. }
  rewrite (C25_types_partial f32_add wv None (map (pick demo) [[1]; [0]]%nat) _ demo demo_graph).
  - assert (E : node_types demo_graph [9; 5; 77; 0] 8 = Ok [0; 2; 8; 1]) by (vm_compute; reflexivity). rewrite E. split; congruence.
  - apply servers_converted. vm_compute. reflexivity.
  - exact demo_converted.
  - change (Permutation [nth 1 demo []; nth 0 demo []] demo). apply perm_swap.
  - intros n t t' _. rewrite !T. lia.
  - intros n Hn (r & Hr & Hs). rewrite R in Hr.
    assert (N : n = 9 \/ n = 0 \/ n = 5) by (repeat (destruct Hr as [<-|Hr]; [cbn in Hs; lia|]); contradiction).
    destruct N as [-> |[-> | ->]]; [exists 0|exists 1|exists 2]; apply T; auto.
Qed.

(** A node with edges and no record: -1 locally, the default through servers. *)
Theorem C25_placeholder_refuted :
  exists all sels, convertible None all = true /\ node_types (load_of None all) [1] 7 = Ok [-1] /\
    forall out, d_node_types (servers None all sels) [1] 7 out -> out = [7].
Proof.
  exists [ [ [ed 1 2 0 one []] ]; [ [nd 2 6 []] ] ], [[0]; [1]]%nat. split; [vm_compute; reflexivity|]. split; [vm_compute; reflexivity|].
  intros out (rs & ws & E & HP & ->). vm_compute in E. injection E as <-. cbn in HP. apply Permutation_sym, Permutation_nil in HP. subst ws.
  reflexivity.
Qed.
Print Assumptions C25_placeholder_refuted.

(** A node with two types: both answers are possible through servers. *)
Theorem C25_two_types_refuted :
  exists all sels, convertible None all = true /\ node_types (load_of None all) [1] (-1) = Ok [5] /\
    d_node_types (servers None all sels) [1] (-1) [5] /\ d_node_types (servers None all sels) [1] (-1) [6].
Proof.
  exists [ [ [nd 1 5 []] ]; [ [nd 1 6 []] ] ], [[0]; [1]]%nat. split; [vm_compute; reflexivity|]. split; [vm_compute; reflexivity|]. split.
  - exists [[(0%nat, 5)]; [(0%nat, 6)]], [(0%nat, 6); (0%nat, 5)]. split; [vm_compute; reflexivity|]. split; [apply perm_swap|reflexivity].
  - exists [[(0%nat, 5)]; [(0%nat, 6)]], [(0%nat, 5); (0%nat, 6)]. split; [vm_compute; reflexivity|]. split; reflexivity.
Qed.
Print Assumptions C25_two_types_refuted.

(** ** C26: string and sparse features *)

(** Full statement: with several servers holding a string the newest is returned.  Here at
    most one server has bytes for a node and feature at the requested time. *)
Theorem C26_strings_partial :
  forall fadd wval wm split gs nodes fs ts hist es,
    Forall2 (converted fadd wval wm) split gs -> gs <> [] -> Forall int32 fs -> explained hist (concat split) nodes fs ts -> stamped nodes ts ->
    (forall p, In p split -> plain_rows p nodes fs ts) -> single_holder hist split nodes fs ts ->
    schedule (length gs) es ->
    let val x f := concat (map (fun p => string_of hist p x f) split) in
    d_node_strings gs nodes fs ts es =
    Ok (concat (map (fun x => map (fun f => Z.of_nat (length (val x f))) fs) (stamps nodes ts)),
        concat (map (fun x => concat (map (val x) fs)) (stamps nodes ts))).
Proof. exact d_strings_holder. Qed.
Print Assumptions C26_strings_partial.

(** Full statement: as above; here at most one record per node has the requested features. *)
Theorem C26_strings_local_partial :
  forall fadd wval wm split gs all g nodes fs ts hist es,
    Forall2 (converted fadd wval wm) split gs -> gs <> [] -> converted fadd wval wm all g -> Permutation (concat split) all ->
    Forall int32 fs -> explained hist all nodes fs ts -> stamped nodes ts ->
    (forall n, In n nodes -> (length (giving fs all n) <= 1)%nat) ->
    schedule (length gs) es ->
    exists dims vals, node_string_features g nodes fs ts = Ok (dims, vals) /\ d_node_strings gs nodes fs ts es = Ok (concat dims, vals).
Proof. exact d_strings_local. Qed.
Print Assumptions C26_strings_local_partial.

Example C26_strings_case :
  (forall n, length (giving [0; 1; 2]%Z demo n) <= 1)%nat /\
  d_node_strings (servers None demo [[1]; [0]]%nat) [5; 77; 9] [0; 1; 2] None (replies_in [1; 0]%nat) =
  Ok ([1; 0; 0; 0; 0; 0; 3; 0; 1], [9; 1; 2; 3; 7]%N).
Proof.
  split; [|vm_compute; reflexivity]. intro n. destruct (demo_unmixed n [0; 1; 2]) as [[_ (f & H)]|H]; [discriminate|exact H].
Qed.

(** A feature missing in front shifts the timestamps: server 0 has time 2 for feature 1,
    server 1 time 1, the older value is returned for every order of callbacks. *)
Definition two_ages (bs : list N) : list (Z * list N) :=
  if bytes_eqb bs (temporal_bytes [(2, [20]%N)]) then [(2, [20]%N)] else [(1, [10]%N)].
Lemma two_ages_ok v : In v [at_ 1 10; at_ 2 20] -> explains two_ages v.
Proof.
  intros [<-|[<-|[]]]; unfold explains; cbn [bytes_of at_].
  - replace (two_ages (temporal_bytes [(1, [10]%N)])) with [(1, [10]%N)] by (vm_compute; reflexivity). cbv zeta. explains_tac.
  - replace (two_ages (temporal_bytes [(2, [20]%N)])) with [(2, [20]%N)] by (vm_compute; reflexivity). cbv zeta. explains_tac.
Qed.
Theorem C26_missing_refuted :
  exists all sels hist, convertible (Some 9) all = true /\
    (forall v, In v (node_values all 1 1) -> explains hist v) /\ entry_bytes hist 3 (node_values all 1 1) = [20]%N /\
    (forall es, In es [replies_in [0; 1]%nat; replies_in [1; 0]%nat] -> schedule 2 es /\
       d_node_strings (servers (Some 9) all sels) [1] [0; 1] (Some [3]) es = Ok ([1; 1], [10; 10]%N)).
Proof.
  exists [ [ [nd 1 0 [None; at_ 2 20]] ]; [ [nd 1 0 [at_ 1 10; at_ 1 10]] ] ], [[0]; [1]]%nat, two_ages.
  split; [vm_compute; reflexivity|].
  split; [intros v Hv; apply two_ages_ok; change (In v [at_ 2 20; at_ 1 10]) in Hv; destruct Hv as [<-|[<-|[]]]; [right; now left|now left]|].
  split; [vm_compute; reflexivity|]. intros es [<-|[<-|[]]]; (split; [sched|vm_compute; reflexivity]).
Qed.
Print Assumptions C26_missing_refuted.

(** Sparse features: the first callback wins whatever the ages. *)
Definition at_point (t c : Z) (b : N) : option (list N) :=
  match enc (Grid 1 [[c]]) [[b]] with Some bs => Some (temporal_bytes [(t, bs)]) | None => None end.
Theorem C26_sparse_refuted :
  exists all sels es es', convertible (Some 9) all = true /\ schedule 2 es /\ schedule 2 es' /\
    d_node_sparse (servers (Some 9) all sels) [1] [0] (Some [3]) es = Ok [(1, [0; 7], [10]%N)] /\
    d_node_sparse (servers (Some 9) all sels) [1] [0] (Some [3]) es' = Ok [(1, [0; 8], [20]%N)] /\
    node_sparse_features (load_of (Some 9) all) [1] [0] (Some [3]) = Ok [SP 1 [0; 8] [20]%N 1].
Proof.
  exists [ [ [nd 1 0 [at_point 1 7 10]] ]; [ [nd 1 0 [at_point 2 8 20]] ] ], [[0]; [1]]%nat, (replies_in [0; 1]%nat), (replies_in [1; 0]%nat).
  split; [vm_compute; reflexivity|]. split; [sched|]. split; [sched|]. conjs; vm_compute; reflexivity.
Qed.
Print Assumptions C26_sparse_refuted.

(** Full statement: the newest value over all servers; false, see [C26_sparse_refuted].  What
    holds for every order: the points of a node and feature are those of one server that has a
    value, none only if no server has one; the dimension of a feature is that of its values, 0
    without any.  [sparse_at]: bytes written for coordinates and values by the converter, the
    dimension [D] and the bytes per point [w] of a feature are the same for all requested nodes;
    [one_value] (timestamps only): as in C41. *)
Theorem C26_sparse_some_server_partial :
  forall fadd wval hist dec D w nodes fs ts wm split gs es,
    Forall2 (converted fadd wval wm) split gs -> Forall int32 fs -> stamped nodes ts ->
    (forall p, In p split -> sparse_values hist dec D w p nodes fs ts /\ one_value p nodes fs ts) ->
    schedule (length gs) es ->
    exists ch, d_node_sparse gs nodes fs ts es = Ok (map (fun f => sparse_triple dec (map (fun x => ch x f) (stamps nodes ts))) fs) /\
      forall x f, In x (stamps nodes ts) -> In f fs ->
        (exists p, In p split /\ string_of hist p x f <> [] /\ ch x f = string_of hist p x f) \/
        ((forall p, In p split -> string_of hist p x f = []) /\ ch x f = []).
Proof. exact d_sparse_some. Qed.
Print Assumptions C26_sparse_some_server_partial.

(** Full statement: without the bound on the values of a node and feature. *)
Theorem C26_sparse_local_partial :
  forall fadd wval hist dec D w nodes fs ts wm split gs all g es,
    Forall2 (converted fadd wval wm) split gs -> converted fadd wval wm all g -> Permutation (concat split) all ->
    Forall int32 fs -> stamped nodes ts -> sparse_values hist dec D w all nodes fs ts ->
    (forall n f, In n nodes -> In f fs -> (length (node_values all n f) <= 1)%nat) ->
    schedule (length gs) es ->
    exists ss, node_sparse_features g nodes fs ts = Ok ss /\
      d_node_sparse gs nodes fs ts es = Ok (map (fun s => (sp_dim s, sp_idx s, sp_val s)) ss).
Proof. exact d_sparse_local. Qed.
Print Assumptions C26_sparse_local_partial.

(** A table of the values in use as decoder. *)
Definition sptable : list (coords * list (list N)) :=
  [(grid, [[1; 2]; [3; 4]]%N); (Grid 2 [[0; 1]], [[9; 9]]%N); (flat, [[5]; [6]]%N)].
Definition spdec (bs : list N) : coords * list (list N) :=
  match find (fun x => bytes_eqb bs (bytes_of (enc (fst x) (snd x)))) sptable with Some x => x | None => (Flat [], []) end.
Definition spD (f : Z) : nat := if f =? 0 then 2%nat else 1%nat.
Definition spall : list (list (list record)) :=
  [ [ [nd 1 0 [enc grid [[1; 2]; [3; 4]]%N]]; [nd 3 0 [enc (Grid 2 [[0; 1]]) [[9; 9]]%N]] ];
    [ [nd 2 0 [None; enc flat [[5]; [6]]%N; Some [7%N]]] ] ].
Lemma spdec_ok x f : In x sptable -> coords_dim (fst x) = spD f -> Forall (fun v => length v = spD f) (snd x) ->
  sparse_at spdec spD spD f (bytes_of (enc (fst x) (snd x))).
Proof.
  intros Hx Hd Hw. right. assert (E : spdec (bytes_of (enc (fst x) (snd x))) = x) by (destruct Hx as [<-|[<-|[<-|[]]]]; vm_compute; reflexivity).
  rewrite E. split; [|auto]. unfold decodes. rewrite E. split; [|destruct Hx as [<-|[<-|[<-|[]]]]; vm_compute; reflexivity].
  destruct Hx as [<-|[<-|[<-|[]]]]; unfold coords_ok; cbn; repeat split; repeat constructor; lia.
Qed.
Example C26_sparse_case :
  converted f32_add wv None spall (load_of None spall) /\
  Forall2 (converted f32_add wv None) (map (pick spall) [[1]; [0]]%nat) (servers None spall [[1]; [0]]%nat) /\
  sparse_values (fun _ => []) spdec spD spD spall [3; 2; 77; 1; 3] [0; 1] None /\
  (forall n f, In n [3; 2; 77; 1; 3] -> In f [0; 1] -> (length (node_values spall n f) <= 1)%nat) /\
  d_node_sparse (servers None spall [[1]; [0]]%nat) [3; 2; 77; 1; 3] [0; 1] None (replies_in [1; 0]%nat) =
  Ok [(2, [0; 0; 1; 3; 3; 4; 3; -1; 2 ^ 40; 4; 0; 1], [9; 9; 1; 2; 3; 4; 9; 9]%N); (1, [1; 6; 1; 8], [5; 6]%N)].
Proof.
  split; [apply load_of_converted; vm_compute; reflexivity|]. split; [apply servers_converted; vm_compute; reflexivity|].
  split.
  - intros n f v Hn Hf Hv.
    destruct Hn as [<-|[<-|[<-|[<-|[<-|[]]]]]], Hf as [<-|[<-|[]]]; cbn in Hv; try contradiction; destruct Hv as [<-|[]]; try (now left);
      first [apply (spdec_ok (grid, [[1; 2]; [3; 4]]%N)) | apply (spdec_ok (Grid 2 [[0; 1]], [[9; 9]]%N)) | apply (spdec_ok (flat, [[5]; [6]]%N))];
      try reflexivity; cbn; auto; repeat constructor.
  - split; [|vm_compute; reflexivity]. intros n f Hn Hf.
    destruct Hn as [<-|[<-|[<-|[<-|[<-|[]]]]]], Hf as [<-|[<-|[]]]; vm_compute; lia.
Qed.

(** ** C65: edge features *)

(** Full statement: the newest value of every feature over all servers; false, see
    [C24_edges_refuted]: the last callback with any value of the edge gives the whole row.
    What holds for every order: the row is all the values of one server that has a value of the
    edge, and zeros only if no server has one.  [searchable]: as in C04; the bound on [holders]
    in [explained_edges] (timestamps only): as in C09. *)
Theorem C65_some_server_partial :
  forall fadd wval wm split gs edges fs ts hist es,
    Forall2 (converted fadd wval wm) split gs -> Forall (fun f => int32 (fst f)) fs ->
    (forall e r, In e edges -> In r (flat_map rows (concat split)) -> row_id r = fst (fst e) -> searchable r) ->
    explained_edges hist split edges (map fst fs) ts -> stamped edges ts -> schedule (length gs) es ->
    exists rows, d_edge_features gs edges fs ts es = Ok rows /\ length rows = length edges /\
      forall k x row, nth_error (stamps edges ts) k = Some x -> nth_error rows k = Some row ->
        (exists parts, In parts split /\ offers_edge hist parts x fs /\ row = edge_row hist parts x fs) \/
        ((forall parts, In parts split -> ~ offers_edge hist parts x fs) /\ row = zeros (total_size fs)).
Proof. exact d_edges_some. Qed.
Print Assumptions C65_some_server_partial.

(** Full statement: without the bound on the blocks that hold an edge. *)
Theorem C65_local_partial :
  forall fadd wval wm split gs all g edges fs ts hist es,
    Forall2 (converted fadd wval wm) split gs -> converted fadd wval wm all g -> Permutation (concat split) all ->
    Forall (fun f => int32 (fst f)) fs ->
    (forall e r, In e edges -> In r (flat_map rows all) -> row_id r = fst (fst e) -> searchable r) ->
    (forall e, In e edges -> (length (holders all e) <= 1)%nat) -> explained_edges hist [all] edges (map fst fs) ts ->
    stamped edges ts -> schedule (length gs) es ->
    d_edge_features gs edges fs ts es = edge_features g edges fs ts.
Proof. exact d_edges_local. Qed.
Print Assumptions C65_local_partial.

Definition eparts : list (list (list record)) :=
  [ [ [nd 1 0 []; Rec 1 2 0 one (Some 0) (Some (-1)) [at_ 2 20; at_ 1 10]]; [nd 8 0 []] ];
    [ [nd 1 0 []; Rec 1 3 0 one (Some 0) (Some (-1)) [at_ 1 10; at_ 2 20]; Rec 1 3 1 one (Some 0) (Some (-1)) [at_ 1 10]] ] ].
Example C65_case :
  converted f32_add wv (Some 9) eparts (load_of (Some 9) eparts) /\
  Forall2 (converted f32_add wv (Some 9)) (map (pick eparts) [[1]; [0]]%nat) (servers (Some 9) eparts [[1]; [0]]%nat) /\
  (forall r, In r (flat_map rows eparts) -> searchable r) /\
  (forall e, In e [(1, 3, 1); (1, 2, 0); (8, 2, 0); (1, 2, 0)] -> (length (holders eparts e) <= 1)%nat) /\
  explained_edges two_ages [eparts] [(1, 3, 1); (1, 2, 0); (8, 2, 0); (1, 2, 0)] [1; 0] (Some [1; 5; 3; 1]) /\
  d_edge_features (servers (Some 9) eparts [[1]; [0]]%nat) [(1, 3, 1); (1, 2, 0); (8, 2, 0); (1, 2, 0)] [(1, 2%nat); (0, 1%nat)] (Some [1; 5; 3; 1])
    (replies_in [1; 0]%nat) = Ok [[0; 0; 10]; [10; 0; 20]; [0; 0; 0]; [10; 0; 0]]%N.
Proof.
  split; [apply load_of_converted; vm_compute; reflexivity|]. split; [apply servers_converted; vm_compute; reflexivity|].
  split; [intros r Hr; apply short_searchable; revert r Hr; apply Forall_forall; vm_compute; repeat constructor; lia|].
  split; [intros e [<-|[<-|[<-|[<-|[]]]]]; vm_compute; lia|]. split; [|vm_compute; reflexivity].
  intros l E. injection E as <-. split; [repeat constructor; lia|].
  intros parts e [<-|[]] He. split; [revert e He; apply Forall_forall; repeat constructor; vm_compute; lia|].
  intros f v _ Hv. apply two_ages_ok. revert Hv. unfold edge_values. intro Hv. apply in_flat_map in Hv. destruct Hv as (r & Hr & Hv).
  destruct (row_id r =? fst (fst e)); [|contradiction]. destruct (find (same_edge e) (row_edges r)) as [x|] eqn:Ex; [|contradiction].
  apply find_some in Ex. destruct Ex as [Ex _].
  assert (Hf : In v (e_feats x)).
  { unfold value_at in Hv. destruct (f <? 0); [contradiction|]. destruct (nth_error (e_feats x) (Z.to_nat f)) eqn:En; [|contradiction].
    destruct Hv as [<-|[]]. eapply nth_error_In. exact En. }
  assert (Hall : In v (flat_map e_feats (flat_map row_edges (flat_map rows eparts)))).
  { apply in_flat_map. exists x. split; [|assumption]. apply in_flat_map. now exists r. }
  assert (Eall : flat_map e_feats (flat_map row_edges (flat_map rows eparts)) = [at_ 2 20; at_ 1 10; at_ 1 10; at_ 2 20; at_ 1 10]) by (vm_compute; reflexivity).
  rewrite Eall in Hall. cbn [In] in *. intuition.
Qed.
