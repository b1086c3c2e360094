(** Properties C51 and C52: sampling through servers. *)
From Verif Require Import Base Dist WriterModel LoaderModel GraphModel GraphSpec FeatureModel LoaderProofs GraphProofs AnswerProofs CountProofs Float32 Demo SamplerModel MultinomialProofs NeighborModel NeighborProofs UniformProofs WeightedProofs WeightedLaw WeightedGraph NeighborProps ServerModel ServerProofs ServerProps DMergeModel DMergeProofs DSampleProofs.
From Coq Require Import Lqa Permutation.
Local Open Scope Q_scope.

(** * C51 *)

(** Every slot holds the default or a neighbor of the node on some server. *)
Theorem C51_real : forall fadd fsub qval wval wm split gs types nodes count default,
  Forall2 (converted fadd wval wm) split gs -> Forall (sums_nonneg fadd qval) split ->
  forall r, routcome (d_sample fadd fsub qval gs types count default nodes None) r ->
  exists out, r = Ok out /\ Forall2 (fun n l => length l = count /\ forall y, In y l -> y = default \/
    exists g full, In g gs /\ g_full_neighbor fsub g (make_sorted_list types) n None = Ok full /\ In y full) nodes out.
Proof. exact d_sample_real. Qed.

(** The same with a time and weights that add up exactly: an edge of some server that matches. *)
Theorem C51_real_times_partial : forall fadd fsub qval wval rep B wm split gs all types nodes ts count default, exact_on fadd fsub qval rep B ->
  Forall2 (converted fadd wval wm) split gs -> Permutation (concat split) all ->
  Forall (guarded fadd fsub types) split ->
  (forall e, In e (flat_map edges_of all) -> rep (e_w e)) ->
  Forall (fun x => Forall (fun parts => sample_times wm parts (snd x) /\ 2 * mass qval (spec_edges parts types (fst x)) <= B) split) (stamps nodes ts) ->
  forall r, routcome (d_sample fadd fsub qval gs types count default nodes ts) r ->
  exists out, r = Ok out /\ Forall2 (fun x l => length l = count /\ forall y, In y l -> y = default \/
    In y (map (ans (snd x)) (matching wm all types (fst x) (snd x)))) (stamps nodes ts) out.
Proof. exact d_sample_real_times. Qed.

(** Slots by weight: in the answer for the [i]-th node the expected sum of any [f] over the slots
    is that of [count] draws by weight among the matching edges of all servers, in whatever order
    the servers [gs] answer.  Missing: one server with several rows of a node and more than one
    slot (C15_expected_number_refuted), and rounding. *)
Theorem C51_share_partial : forall fadd fsub qval rep B, exact_on fadd fsub qval rep B ->
  forall wval wm split gs all types nodes ts count default f,
  Forall2 (converted fadd wval wm) split gs -> Permutation (concat split) all ->
  Forall (guarded fadd fsub types) split ->
  (forall e, In e (flat_map edges_of all) -> rep (e_w e)) -> (0 < count)%nat ->
  Forall (fun x => Forall (fun parts => sample_times wm parts (snd x) /\ (count = 1%nat \/ (length (node_rows (fst x) (map rows parts)) <= 1)%nat)) split /\
                   2 * mass qval (spec_edges all types (fst x)) <= B) (stamps nodes ts) ->
  forall i n t, nth_error (stamps nodes ts) i = Some (n, t) -> 0 < mass qval (matching wm all types n t) ->
  ex (rlaw (d_sample fadd fsub qval gs types count default nodes ts)) (on_ok (fun out => qsum f (nth i out []))) ==
  qnat count * (wshare qval wm all types n t f / mass qval (matching wm all types n t)).
Proof. exact d_sample_law. Qed.

(** Three edges of weights 1, 2, 1 on two servers. *)
Definition spread : list (list (list record)) := [ [ [nd 1 0 []; ed 1 2 0 one []; ed 1 3 0 two []]; [nd 5 0 []; ed 5 1 0 one []] ]; [ [ed 1 4 1 one []] ] ].
Lemma spread_order order : In order [[[0]; [1]]; [[1]; [0]]]%nat -> Permutation (concat (map (pick spread) order)) spread.
Proof. intros [<-|[<-|[]]]; vm_compute; repeat constructor. Qed.
Example C51_example_share order f : In order [[[0]; [1]]; [[1]; [0]]]%nat ->
  ex (rlaw (d_sample f32_add f32_sub f32_q (servers None spread order) [0%Z; 1%Z] 3 unused [5%Z; 1%Z] None)) (on_ok (fun out => qsum f (nth 1 out []))) ==
  qnat 3 * ((1 * f (2%Z, 0%Z, one, -1)%Z + 2 * f (3%Z, 0%Z, two, -1)%Z + 1 * f (4%Z, 1%Z, one, -1)%Z) / 4).
Proof.
  intros Ho.
  rewrite (C51_share_partial f32_add f32_sub f32_q small 64 f32_small_exact wv None (map (pick spread) order) (servers None spread order) spread [0%Z; 1%Z] [5%Z; 1%Z] None 3 unused f) with (i := 1%nat) (n := 1%Z) (t := None).
  - apply Qmult_comp; [reflexivity|]. apply Qmult_comp; [|vm_compute; reflexivity].
    unfold wshare. replace (matching None spread [0%Z; 1%Z] 1 None) with [Edge 1 2 0 one [] 0 (-1); Edge 1 3 0 two [] 0 (-1); Edge 1 4 1 one [] 0 (-1)] by (vm_compute; reflexivity).
    cbn [qsum]. unfold wq, ans, answer. cbn [e_w e_dst e_typ e_c].
    assert (V1 : f32_q one == 1) by reflexivity. assert (V2 : f32_q two == 2) by reflexivity. rewrite V1, V2. ring.
  - apply servers_converted. vm_compute. reflexivity.
  - now apply spread_order.
  - destruct Ho as [<-|[<-|[]]]; apply Forall_forall; intros p [<-|[<-|[]]]; apply guardb_ok; vm_compute; reflexivity.
  - intros e He. cbn in He.
    repeat (destruct He as [<-|He]; [first [exact (or_intror (or_introl eq_refl)) | exact (or_intror (or_intror (or_introl eq_refl)))]|]). destruct He.
  - lia.
  - apply Forall_forall. intros x Hx. split; [|destruct Hx as [<-|[<-|[]]]; vm_compute; discriminate].
    apply Forall_forall. intros p Hp. destruct Ho as [<-|[<-|[]]], Hx as [<-|[<-|[]]], Hp as [<-|[<-|[]]]; (split; [exact I|right; vm_compute; lia]).
  - reflexivity.
  - reflexivity.
Qed.

(** A server without weight answers defaults, which replace neighbors when the random number is
    exactly the rate 0. *)
Definition bare : list (list (list record)) := [ [ [nd 1 0 []; ed 1 2 0 one []] ]; [ [ed 1 3 1 one []] ] ].
Theorem C51_default_refuted :
  exists all split n, convertible None all = true /\ Permutation (concat (map (pick all) split)) all /\
    map e_dst (matching None all [0%Z] n None) = [2%Z] /\
    routcome (d_sample f32_add f32_sub f32_q (servers None all split) [0%Z] 1 unused [n] None) (Ok [[(2%Z, 0%Z, one, -1)%Z]]) /\
    routcome (d_sample f32_add f32_sub f32_q (servers None all split) [0%Z] 1 unused [n] None) (Ok [[unused]]).
Proof.
  exists bare, [[0]; [1]]%nat, 1%Z. split; [vm_compute; reflexivity|]. split; [vm_compute; reflexivity|]. split; [vm_compute; reflexivity|]. split.
  - apply (replay_outcome _ [CCoin true; CPick 0; CCoin true; CCoin false]). vm_compute. reflexivity.
  - apply (replay_outcome _ [CCoin true; CPick 0; CCoin true; CCoin true]). vm_compute. reflexivity.
Qed.

(** * C52 *)

(** Nodes: if the last server that has a sampler has an element of the types, every answer is
    full, and its nodes come from servers that have elements.  [draw i c]: what server [i]
    samples when asked for [c] nodes. *)
Theorem C52_nodes_partial : forall A ss size (draw : nat -> nat -> list A) r, nonneg ss -> ends_well ss -> (forall i c, length (draw i c) = c) ->
  outcome (node_requests (shares ss) size) r -> exists reqs ids, r = Ok reqs /\ fill_nodes draw 0 0 reqs (repeat None size) = map Some ids /\ length ids = size /\
    forall x, In x ids -> exists k w c, nth_error ss k = Some (HasSampler w) /\ 0 < w /\ In x (draw k c).
Proof. exact @nodes_filled. Qed.
(** Edges: for every split of the elements over servers with and without samplers.  Sources
    and destinations stay together. *)
Theorem C52_edges : forall ss size (draw : nat -> nat -> list (Z * Z)) r, nonneg ss -> size = 0%nat \/ 0 < qsum shard_weight ss -> (forall i c, length (draw i c) = c) ->
  outcome (edge_requests (shares ss) size) r -> exists reqs es, r = Ok reqs /\
    fill_edges draw 0 0 reqs (repeat None size, repeat None size) = (map Some (map fst es), map Some (map snd es)) /\ length es = size /\
    forall x, In x es -> exists k w c, nth_error ss k = Some (HasSampler w) /\ 0 < w /\ In x (draw k c).
Proof. exact edges_filled. Qed.
(** The servers are asked for what [size] independent draws of a server by weight give. *)
Theorem C52_nodes_law_partial : forall ss size f, nonneg ss -> ends_well ss ->
  ex (law (node_requests (shares ss) size)) (on_counts f) ==
  ex (draws size (pick_shard (map shard_weight ss))) (fun ds => f (map (count_occ Nat.eq_dec ds) (seq 0 (length ss)))).
Proof. exact nodes_multinomial. Qed.
Theorem C52_edges_law : forall ss size f, nonneg ss -> 0 < qsum shard_weight ss ->
  ex (law (edge_requests (shares ss) size)) (on_counts f) ==
  ex (draws size (pick_shard (map shard_weight ss))) (fun ds => f (map (count_occ Nat.eq_dec ds) (seq 0 (length ss)))).
Proof. exact edges_multinomial. Qed.

(** The last server has no element of the types: its share is 0 / 0. *)
Theorem C52_nodes_refuted : forall size, exists ss, nonneg ss /\ 0 < qsum shard_weight ss /\
  (exists r, outcome (node_requests (shares ss) size) r) /\ forall r, outcome (node_requests (shares ss) size) r -> r = Fail EUB.
Proof.
  intros size. exists [HasSampler 1; HasSampler 0]. split; [repeat constructor; discriminate|]. split; [reflexivity|].
  cbn [shares node_requests]. change (Qeq_bool (qsum shard_weight [HasSampler 1; HasSampler 0]) 0) with false. change (Qeq_bool (qsum shard_weight [HasSampler 0]) 0) with true.
  cbn [node_requests pbind outcome]. split.
  - exists (Fail EUB), size. split; [|reflexivity]. split; [lia|]. split; intros H; [exfalso; vm_compute in H; congruence|reflexivity].
  - intros r (c & _ & H). exact H.
Qed.
(** No server has an element of the types: the share of the first server is 0 / 0. *)
Theorem C52_no_edges_refuted : forall size, (0 < size)%nat -> exists ss, nonneg ss /\ ss <> [] /\
  (exists r, outcome (edge_requests (shares ss) size) r) /\ forall r, outcome (edge_requests (shares ss) size) r -> r = Fail EUB.
Proof.
  intros [|size] H; [lia|]. exists [HasSampler 0; NoSampler]. split; [repeat constructor; discriminate|]. split; [discriminate|].
  split; [exists (Fail EUB); cbn [shares edge_requests]; reflexivity|]. intros r. apply edges_nothing. reflexivity.
Qed.

(** Two of four servers have elements: 3 + 1 of 4 nodes. *)
Definition four : list shard := [NoSampler; HasSampler 3; HasSampler 0; HasSampler 1].
Example C52_example :
  ends_well four /\ nonneg four /\
  fill_nodes (fun i c => map (fun k => 10 * i + k)%nat (seq 0 c)) 0 0 [None; Some 3; Some 0; Some 1]%nat (repeat None 4) = map Some [10; 11; 12; 30]%nat /\
  map (fun c => Qred (ex (law (node_requests (shares four) 2)) (on_counts (fun l => ind (nth 1 l 0 =? c)%nat)))) [0; 1; 2]%nat = [1 # 16; 3 # 8; 9 # 16].
Proof.
  split; [exists [NoSampler; HasSampler 3; HasSampler 0], 1; split; reflexivity|]. split; [repeat constructor; discriminate|]. split; vm_compute; reflexivity.
Qed.
(** Only the second of four servers has elements; the first and last have no sampler. *)
Example C52_example_edges :
  let ss := [NoSampler; HasSampler 1; HasSampler 0; NoSampler] in
  0 < qsum shard_weight ss /\ nonneg ss /\
  (forall r, outcome (edge_requests (shares ss) 2) r -> r = Ok [Some 0; Some 2; None; None]%nat) /\
  fill_edges (fun i c => map (fun k => (Z.of_nat k, Z.of_nat (i * 10 + k))) (seq 0 c)) 0 0 [Some 0; Some 2; None; None]%nat (repeat None 2, repeat None 2)
  = ([Some 0; Some 1]%Z, [Some 10; Some 11]%Z).
Proof.
  split; [reflexivity|]. split; [repeat constructor; discriminate|]. split; [|vm_compute; reflexivity].
  intros r. cbn [shares edge_requests]. change (Qeq_bool (qsum shard_weight [NoSampler; HasSampler 1; HasSampler 0; NoSampler]) 0) with false.
  change (Qeq_bool (qsum shard_weight [HasSampler 1; HasSampler 0; NoSampler]) 0) with false. cbn [Nat.eqb outcome].
  intros (c & (_ & Z0 & _) & H). rewrite Z0 in H by discriminate. cbn [pbind outcome Nat.sub] in H.
  destruct H as (c' & (_ & _ & O1) & H). rewrite O1 in H by discriminate. exact H.
Qed.

Print Assumptions C51_real.
Print Assumptions C51_real_times_partial.
Print Assumptions C51_share_partial.
Print Assumptions C51_default_refuted.
Print Assumptions C52_nodes_partial.
Print Assumptions C52_edges.
Print Assumptions C52_nodes_law_partial.
Print Assumptions C52_edges_law.
Print Assumptions C52_nodes_refuted.
Print Assumptions C52_no_edges_refuted.
