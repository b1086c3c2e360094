(** Property C27: random walks.
    [every_row P nodes out]: one row per node, the row [i] of node [n] satisfies [P i n].
    [out_nodes parts types ts i v]: the ends of the input edges of [v] of a requested type; with
    timestamps those alive at the time of row [i].
    [step_ok adj default l v v'] (WalkProofs): after the nodes [l], from [v] to [v']: over an
    edge of [v]; or back to the last node of [l] over an edge that leads to [v]; or to the default
    when [v] is the default, when the start has loops only, or when [v] has no edge except to the
    last node of [l], which has none to [v].
    [rall P m]: every run of [m] succeeds with a result in [P], for all random numbers. *)
From Coq Require Import Permutation Sorting.Sorted.
From Verif Require Import Base Dist WriterModel LoaderModel GraphModel GraphSpec FeatureModel ServerModel LoaderProofs GraphProofs AnswerProofs ServerProofs
  NeighborModel NeighborProofs UniformProofs WeightedProofs WeightedLaw WalkModel WalkProofs WalkGraphProofs WalkOrderProofs Float32 Demo GraphProps NeighborProps ServerProps.
Local Open Scope Z_scope.

(** Full statement: each next node is an out-neighbor or, when there is none, the default, for
    every graph.  False for directed graphs, see the refutations; what holds for all: *)
Theorem C27_walk_partial :
  forall fadd fsub wval qval wm parts g types ts nodes len default p q,
    converted fadd wval wm parts g -> guarded fadd fsub types parts -> (ts = None \/ exists w, wm = Some w /\ 0 <= w) -> stamped nodes ts ->
    (0 < p)%Q -> (0 < q)%Q -> nonneg_weights qval parts -> foreign parts default ->
    rall (every_row (walk_row_ok parts types ts default len) nodes)
      (random_walk qval p q default false (fun _ ns => neighbors fsub g ns types ts) nodes len).
Proof. exact local_walk. Qed.
Print Assumptions C27_walk_partial.

(** Through servers, whatever the order of the replies in each step. *)
Theorem C27_servers_partial :
  forall fadd fsub wval qval wm parts m fss gs g types ts es nodes len default p q,
    Forall2 (fun fs g' => load_files fadd m fs = Ok g') fss gs -> load_files fadd m (concat fss) = Ok g -> gs <> [] -> (forall k, schedule (length gs) (es k)) ->
    converted fadd wval wm parts g -> guarded fadd fsub types parts -> (ts = None \/ exists w, wm = Some w /\ 0 <= w) -> stamped nodes ts ->
    (0 < p)%Q -> (0 < q)%Q -> nonneg_weights qval parts -> foreign parts default ->
    rall (every_row (walk_row_ok parts types ts default len) nodes)
      (random_walk qval p q default true (fun k ns => d_neighbors fsub gs ns types ts (es k)) nodes len).
Proof. exact servers_walk. Qed.
Print Assumptions C27_servers_partial.

(** The full statement, for graphs with all edges in both directions and without loops. *)
Theorem C27_symmetric_partial :
  forall fadd fsub wval qval wm parts g types ts nodes len default p q,
    converted fadd wval wm parts g -> guarded fadd fsub types parts -> (ts = None \/ exists w, wm = Some w /\ 0 <= w) -> stamped nodes ts ->
    (0 < p)%Q -> (0 < q)%Q -> nonneg_weights qval parts -> foreign parts default ->
    (forall i u v, In v (out_nodes parts types ts i u) -> In u (out_nodes parts types ts i v)) -> (forall i v, ~ In v (out_nodes parts types ts i v)) ->
    rall (every_row (full_row_ok parts types ts default len) nodes)
      (random_walk qval p q default false (fun _ ns => neighbors fsub g ns types ts) nodes len).
Proof. exact local_walk_full. Qed.
Print Assumptions C27_symmetric_partial.

(** The law of the walks: [walks] (WalkProofs) are independent walks whose step from [v] reached
    from [t] goes to the neighbor [x] with a probability proportional to the weight of the edge
    times 1/p if [x = t], 1 if [x] is a neighbor of [t], 1/q otherwise; the first step has no
    such factor.  For graphs with all edges in both directions with the same weights, without
    parallel edges and loops; exact arithmetic. *)
Theorem C27_law_partial :
  forall fadd fsub wval qval wm parts g types ts nodes len default p q F,
    converted fadd wval wm parts g -> guarded fadd fsub types parts -> (ts = None \/ exists w, wm = Some w /\ 0 <= w) -> stamped nodes ts ->
    (0 < p)%Q -> (0 < q)%Q -> foreign parts default -> simple_graph qval parts types ts ->
    (ex (rlaw (random_walk qval p q default false (fun _ ns => neighbors fsub g ns types ts) nodes len)) (on_ok F) ==
     ex (walks qval p q default (out_pairs parts types ts) nodes len) F)%Q.
Proof. exact local_walk_law. Qed.
Print Assumptions C27_law_partial.
Theorem C27_servers_law_partial :
  forall fadd fsub wval qval wm parts m fss gs g types ts es nodes len default p q F,
    Forall2 (fun fs g' => load_files fadd m fs = Ok g') fss gs -> load_files fadd m (concat fss) = Ok g -> gs <> [] -> (forall k, schedule (length gs) (es k)) ->
    converted fadd wval wm parts g -> guarded fadd fsub types parts -> (ts = None \/ exists w, wm = Some w /\ 0 <= w) -> stamped nodes ts ->
    (0 < p)%Q -> (0 < q)%Q -> foreign parts default -> simple_graph qval parts types ts ->
    (ex (rlaw (random_walk qval p q default true (fun k ns => d_neighbors fsub gs ns types ts (es k)) nodes len)) (on_ok F) ==
     ex (walks qval p q default (out_pairs parts types ts) nodes len) F)%Q.
Proof. exact servers_walk_law. Qed.
Print Assumptions C27_servers_law_partial.

(** Seeds: the candidates of a step through servers are in order of node and weight, and the node
    taken for a random number does not depend on the order in which the neighbors arrive. *)
Theorem C27_reply_order :
  forall qval p q past curr t nbs nbs',
    Permutation nbs nbs' ->
    let l := arranged true (candidates qval p q past curr t nbs) in
    let l' := arranged true (candidates qval p q past curr t nbs') in
    StronglySorted (fun a b => fst a < fst b \/ (fst a = fst b /\ (snd a <= snd b)%Q)) l /\
    Forall2 (fun a b => fst a = fst b /\ (snd a == snd b)%Q) l l' /\
    forall u, taken_node l u = taken_node l' u.
Proof. exact reply_order. Qed.
Print Assumptions C27_reply_order.
Example C27_order_case :
  let c := candidates f32_q 1%Q 1%Q 1 1 [] in
  let a := [(7, two); (3, one); (7, one)] in let b := [(7, one); (7, two); (3, one)] in
  Permutation a b /\ map fst (arranged true (c a)) = [3; 7; 7] /\
  map (taken_node (arranged true (c a))) [0; 1 # 8; 1 # 2]%Q = map (taken_node (arranged true (c b))) [0; 1 # 8; 1 # 2]%Q /\
  map (taken_node (arranged false (c a))) [0; 1 # 8; 7 # 8]%Q <> map (taken_node (arranged false (c b))) [0; 1 # 8; 7 # 8]%Q.
Proof.
  cbn zeta. split; [|split; [vm_compute; reflexivity|split; [vm_compute; reflexivity|vm_compute; discriminate]]].
  apply (Permutation_cons_app [(7, one)] [(3, one)] (7, two)). apply perm_swap.
Qed.

(** ** Example: a triangle 1, 2, 3 with a tail 3 - 4. *)
Definition tail := [ [ [nd 1 0 []; ed 1 2 0 one []; ed 1 3 0 two []]; [nd 2 0 []; ed 2 1 0 one []; ed 2 3 0 one []] ];
                     [ [nd 3 0 []; ed 3 1 0 two []; ed 3 2 0 one []; ed 3 4 0 one []]; [nd 4 0 []; ed 4 3 0 one []] ] ].
Definition tail_graph := load_of None tail.
Lemma out_edges_src parts types i v : ~ In v (map e_src (flat_map edges_of parts)) -> out_edges parts types None i v = [].
Proof.
  intros H. destruct (out_edges parts types None i v) as [|e l] eqn:E; [reflexivity|]. exfalso. apply H.
  destruct (out_edges_in parts types None i v e) as [H1 H2]; [rewrite E; now left|]. rewrite <- H2. now apply in_map.
Qed.
Ltac by_source parts v := destruct (in_dec Z.eq_dec v (map e_src (flat_map edges_of parts))) as [Hv|Hv].
Example C27_case :
  converted f32_add wv None tail tail_graph /\ guarded f32_add f32_sub [0] tail /\ foreign tail (-1) /\ simple_graph f32_q tail [0] None /\
  (* 1 -> 2, then back with 1/2, on to 3, a neighbor of 1, with 1 *)
  (pr (walks f32_q (2#1) (4#1) (-1) (out_pairs tail [0] None) [1] 2) (fun out => match out with [[_; 2; 1]] => true | _ => false end) == 1 # 9) /\
  (* 1 -> 3, then 1 with 2/2, 2 with 1, 4 with 1/4 *)
  (pr (walks f32_q (2#1) (4#1) (-1) (out_pairs tail [0] None) [1] 2) (fun out => match out with [[_; 3; 4]] => true | _ => false end) == 2 # 27) /\
  (pr (rlaw (random_walk f32_q (2#1) (4#1) (-1) false (fun _ ns => neighbors f32_sub tail_graph ns [0] None) [1] 2))
     (fun out => match out with Ok [[1; 3; 4]] => true | _ => false end) == 2 # 27).
Proof.
  split; [apply load_of_converted; vm_compute; reflexivity|]. split; [apply guardb_ok; vm_compute; reflexivity|].
  split; [apply Forall_forall; intros e He; vm_compute in He; repeat destruct He as [<-|He]; try (split; discriminate); destruct He|].
  split; [|split; [|split]; vm_compute; reflexivity].
  constructor; intros i v.
  - intros e He. by_source tail v; [|rewrite out_edges_src in He by exact Hv; destruct He].
    vm_compute in Hv. repeat destruct Hv as [<-|Hv]; try destruct Hv; vm_compute in He; repeat destruct He as [<-|He]; try reflexivity; destruct He.
  - by_source tail v; [|unfold out_nodes; rewrite out_edges_src by exact Hv; constructor].
    vm_compute in Hv. repeat destruct Hv as [<-|Hv]; try destruct Hv; vm_compute; repeat (apply NoDup_cons; [cbn [In]; intuition discriminate|]); apply NoDup_nil.
  - intros e He. by_source tail v; [|rewrite out_edges_src in He by exact Hv; destruct He].
    vm_compute in Hv. repeat destruct Hv as [<-|Hv]; try destruct Hv; vm_compute in He; repeat destruct He as [<-|He]; try destruct He.
    all: match goal with |- exists e', In e' ?l /\ e_dst e' = ?v /\ _ = ?w =>
      let x := eval vm_compute in (find (fun e => (e_dst e =? v)%Z) l) in match x with Some ?e => exists e end end.
    all: split; [vm_compute; tauto|split; reflexivity].
  - intros H. by_source tail v; [|unfold out_nodes in H; rewrite out_edges_src in H by exact Hv; destruct H].
    vm_compute in Hv. repeat destruct Hv as [<-|Hv]; try destruct Hv; vm_compute in H; intuition discriminate.
Qed.

(** Every step asks anew. *)
Example C27_steps_case :
  let query k (ns : list Z) := Ok ([(Z.of_nat k + 2, 0, one, 0)], [1%nat]) : res (list nbr * list nat) in
  pr (rlaw (random_walk f32_q 1%Q (1#1) (-1) false query [1] 2)) (fun out => match out with Ok [[1; 2; 3]] | Ok [[1; 2; 1]] => true | _ => false end) == 1%Q /\
  pr (rlaw (random_walk f32_q 1%Q (1#1) (-1) false query [1] 2)) (fun out => match out with Ok [[1; 2; 3]] => true | _ => false end) == 1 # 2.
Proof. split; vm_compute; reflexivity. Qed.

(** ** Findings *)
(** One edge 1 -> 2.  The candidate "back to the previous node" is taken when the previous node has
    an edge to the current one, not when the current node has one to the previous: the walk goes
    from 2 to 1 though 2 has no neighbors. *)
Definition arrow := [ [ [nd 1 0 []; ed 1 2 0 one []]; [nd 2 0 []] ] ].
Theorem C27_reverse_refuted :
  exists parts g row, converted f32_add wv None parts g /\ guarded f32_add f32_sub [0] parts /\ foreign parts (-1) /\
    routcome (random_walk f32_q 1%Q 1%Q (-1) false (fun _ ns => neighbors f32_sub g ns [0] None) [1] 2) (Ok [row]) /\
    row = [1; 2; 1] /\ out_nodes parts [0] None 0 2 = [].
Proof.
  exists arrow, (load_of None arrow), [1; 2; 1]. split; [apply load_of_converted; vm_compute; reflexivity|]. split; [apply guardb_ok; vm_compute; reflexivity|].
  split; [apply Forall_forall; intros e He; vm_compute in He; repeat destruct He as [<-|He]; try (split; discriminate); destruct He|].
  split; [|split; vm_compute; reflexivity].
  apply (replay_outcome _ [CPick 0; CPick 0]). vm_compute. reflexivity.
Qed.
Print Assumptions C27_reverse_refuted.

(** The same graph: back in 1 the walk gives up, though 1 has the neighbor 2. *)
Theorem C27_stuck_refuted :
  exists parts g row, converted f32_add wv None parts g /\ guarded f32_add f32_sub [0] parts /\ foreign parts (-1) /\
    routcome (random_walk f32_q 1%Q 1%Q (-1) false (fun _ ns => neighbors f32_sub g ns [0] None) [1] 4) (Ok [row]) /\
    row = [1; 2; 1; -1; -1] /\ out_nodes parts [0] None 0 1 = [2].
Proof.
  exists arrow, (load_of None arrow), [1; 2; 1; -1; -1]. split; [apply load_of_converted; vm_compute; reflexivity|]. split; [apply guardb_ok; vm_compute; reflexivity|].
  split; [apply Forall_forall; intros e He; vm_compute in He; repeat destruct He as [<-|He]; try (split; discriminate); destruct He|].
  split; [|split; vm_compute; reflexivity].
  apply (replay_outcome _ [CPick 0; CPick 0]). vm_compute. reflexivity.
Qed.
Print Assumptions C27_stuck_refuted.

(** A node with a loop only: the walk stops at once (the start counts as its own past). *)
Definition loop := [ [ [nd 1 0 []; ed 1 1 0 one []] ] ].
Theorem C27_loop_refuted :
  exists parts g row, converted f32_add wv None parts g /\ guarded f32_add f32_sub [0] parts /\ foreign parts (-1) /\
    routcome (random_walk f32_q 1%Q 1%Q (-1) false (fun _ ns => neighbors f32_sub g ns [0] None) [1] 2) (Ok [row]) /\
    row = [1; -1; -1] /\ out_nodes parts [0] None 0 1 = [1].
Proof.
  exists loop, (load_of None loop), [1; -1; -1]. split; [apply load_of_converted; vm_compute; reflexivity|]. split; [apply guardb_ok; vm_compute; reflexivity|].
  split; [apply Forall_forall; intros e He; vm_compute in He; repeat destruct He as [<-|He]; try (split; discriminate); destruct He|].
  split; [|split; vm_compute; reflexivity].
  apply (replay_outcome _ []). vm_compute. reflexivity.
Qed.
Print Assumptions C27_loop_refuted.

(** Asymmetric weights: the way back has the weight of the way there.  1 - 2 with weight 1 from 1
    and weight 2 from 2, 2 - 3 with weight 1: from 2, reached from 1, the definition gives 2/3 to
    1 for p = q = 1; the code gives 1/2. *)
Definition lopsided := [ [ [nd 1 0 []; ed 1 2 0 one []]; [nd 2 0 []; ed 2 1 0 two []; ed 2 3 0 one []]; [nd 3 0 []; ed 3 2 0 one []] ] ].
Theorem C27_weight_back_refuted :
  exists parts g, converted f32_add wv None parts g /\ guarded f32_add f32_sub [0] parts /\ foreign parts (-1) /\
    (pr (rlaw (random_walk f32_q 1%Q 1%Q (-1) false (fun _ ns => neighbors f32_sub g ns [0] None) [1] 2))
       (fun out => match out with Ok [[1; 2; 1]] => true | _ => false end) == 1 # 2) /\
    (pr (walks f32_q 1%Q 1%Q (-1) (out_pairs parts [0] None) [1] 2) (fun out => match out with [[1; 2; 1]] => true | _ => false end) == 2 # 3).
Proof.
  exists lopsided, (load_of None lopsided). split; [apply load_of_converted; vm_compute; reflexivity|]. split; [apply guardb_ok; vm_compute; reflexivity|].
  split; [apply Forall_forall; intros e He; vm_compute in He; repeat destruct He as [<-|He]; try (split; discriminate); destruct He|].
  split; vm_compute; reflexivity.
Qed.
Print Assumptions C27_weight_back_refuted.

(** Through two servers. *)
Example C27_servers_case :
  schedule 2 (replies_in [1; 0]%nat) /\
  (pr (rlaw (random_walk f32_q (2#1) (4#1) (-1) true (fun _ ns => d_neighbors f32_sub (servers None tail [[0]; [1]]%nat) ns [0] None (replies_in [1; 0]%nat)) [1; 4] 1))
     (fun out => match out with Ok [[1; 3]; [4; 3]] => true | _ => false end) == 2 # 3).
Proof. split; [sched|]. vm_compute. reflexivity. Qed.
