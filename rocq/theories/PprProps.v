(** Property C28: personalised PageRank.
    [ends parts types v]: the ends of the input edges of [v] of a requested type.
    [ppr_row adj alpha eps count default n out] (PprBest): there are scores [p] and residuals [r],
    one per node, not negative, with alpha * sum p + sum r <= alpha (equal when every node has
    neighbors), every residual 0 or below alpha * eps * degree, and [out] has the [count] best
    scores in ascending order, filled up with the default.  Moreover, for all [g] and [h] with
    h u = alpha * g u + (1 - alpha) * (mean of h over the neighbors of u):
    alpha * sum (p g) + sum (r h) = alpha * h n; such an [h] is the expected [g] at the end of a
    walk that stops with probability alpha in each step.
    [ord], [pord]: the order in which hash tables are visited, any permutation.  [fuel] bounds
    the rounds of the main loop. *)
From Verif Require Import Base Dist WriterModel LoaderModel GraphModel GraphSpec FeatureModel ServerModel LoaderProofs GraphProofs AnswerProofs ServerProofs
  NeighborModel WalkModel WalkProofs WalkGraphProofs PprModel PprProofs PprBest PprGraphProofs Float32 Demo GraphProps ServerProps WalkProps.
From Coq Require Import Permutation Sorting.Sorted.
Local Open Scope Z_scope.

(** Full statement: for requests with timestamps as well, and for count = 0; both are refuted below. *)
Theorem C28_ppr_partial :
  forall fadd fsub wval wm parts g types nodes count default alpha eps ord pord,
    converted fadd wval wm parts g -> guarded fadd fsub types parts -> (forall l, Permutation (ord l) l) -> (forall l, Permutation (pord l) l) ->
    (0 < alpha)%Q -> (alpha <= 1)%Q -> (0 < eps)%Q -> (0 < count)%nat ->
    exists out m, Forall2 (ppr_row (ends parts types) alpha eps count default) nodes out /\
      forall fuel, (m <= fuel)%nat ->
        ppr (fun ns ts => neighbors fsub g ns types ts) (fun ns ts => neighbor_counts g ns types ts) ord pord fuel alpha eps nodes None count default = Ok out.
Proof. exact local_ppr. Qed.
Print Assumptions C28_ppr_partial.

Theorem C28_servers_partial :
  forall fadd fsub wval wm parts m fss gs g types (es es' : list Z -> list event) nodes count default alpha eps ord pord,
    Forall2 (fun fs g' => load_files fadd m fs = Ok g') fss gs -> load_files fadd m (concat fss) = Ok g -> gs <> [] ->
    (forall ns, schedule (length gs) (es ns)) -> (forall ns, schedule (length gs) (es' ns)) ->
    converted fadd wval wm parts g -> guarded fadd fsub types parts -> (forall l, Permutation (ord l) l) -> (forall l, Permutation (pord l) l) ->
    (0 < alpha)%Q -> (alpha <= 1)%Q -> (0 < eps)%Q -> (0 < count)%nat ->
    exists out m, Forall2 (ppr_row (ends parts types) alpha eps count default) nodes out /\
      forall fuel, (m <= fuel)%nat ->
        ppr (fun ns ts => d_neighbors fsub gs ns types ts (es ns)) (fun ns ts => d_neighbor_counts gs ns types ts (es' ns)) ord pord fuel alpha eps nodes None count default = Ok out.
Proof. exact servers_ppr. Qed.
Print Assumptions C28_servers_partial.

(** What a row says about the scores returned, *)
Theorem C28_scores :
  forall adj alpha eps count default n out, (0 < alpha)%Q -> ppr_row adj alpha eps count default n out ->
    length out = count /\ exists kept k, out = kept ++ repeat default k /\ StronglySorted score_le kept /\ NoDup (map snd kept) /\
      (forall x, In x kept -> (0 <= fst x)%Q) /\ (qsum fst kept <= 1)%Q.
Proof. exact row_scores. Qed.
Print Assumptions C28_scores.

(** and about their distance from the true ones. *)
Theorem C28_error :
  forall (adj : Z -> list Z) alpha eps n (p r : qmap) g h, (0 < alpha)%Q -> (forall v, 0 <= h v)%Q -> (forall x, In x r -> (0 <= snd x)%Q) ->
    (forall v x, In (v, x) r -> (x == 0)%Q \/ (x < alpha * eps * qnat (length (adj v)))%Q) -> (0 < eps)%Q ->
    (alpha * qsum (fun x => snd x * g (fst x)) p + qsum (fun x => snd x * h (fst x)) r == alpha * h n)%Q ->
    (qsum (fun x => snd x * g (fst x)) p <= h n)%Q /\
    (h n - qsum (fun x => snd x * g (fst x)) p <= eps * qsum (fun x => qnat (length (adj (fst x))) * h (fst x)) r)%Q.
Proof. exact row_error. Qed.
Print Assumptions C28_error.

(** ** Examples *)
Definition keep {A : Type} (l : list A) : list A := l.
Definition small_ppr g fuel nodes ts count :=
  ppr (fun ns ts => neighbors f32_sub g ns [0] ts) (fun ns ts => neighbor_counts g ns [0] ts) keep keep fuel (1 # 2) (1 # 40) nodes ts count (0%Q, -1).
Definition reduced (r : res (list (list (Q * Z)))) := match r with Ok l => Ok (map (map (fun x => (Qred (fst x), snd x))) l) | Fail e => Fail e end.
Example C28_case :
  converted f32_add wv None tail tail_graph /\ guarded f32_add f32_sub [0] tail /\
  reduced (small_ppr tail_graph 20 [4; 77] None 3) = Ok [[(5 # 96, 1); (113 # 384, 3); (13 # 24, 4)]; [(1 # 2, 77); (0%Q, -1); (0%Q, -1)]].
Proof. split; [apply load_of_converted; vm_compute; reflexivity|]. split; [apply guardb_ok; vm_compute; reflexivity|]. vm_compute. reflexivity. Qed.
(** Two nodes with edges to each other: the walk from 1 ends in 1 with probability 2/3. *)
Example C28_harmonic_case :
  let adj v := if v =? 1 then [2] else if v =? 2 then [1] else [] in
  harmonic (1 # 2) adj (fun v => if v =? 1 then 1%Q else 0%Q) (fun v => if v =? 1 then 2 # 3 else if v =? 2 then 1 # 3 else 0)%Q.
Proof. intros adj u. unfold adj. destruct (u =? 1) eqn:E1; [reflexivity|]. destruct (u =? 2) eqn:E2; reflexivity. Qed.

(** With timestamps: every node has its own (the edge of 4 is created at 3), and the counts are
    asked for at the right time when the neighbor 1 is known already. *)
Definition timed := [ [ [nd 1 0 []; edt 1 1 0 one 0 (-1)]; [nd 4 0 []; edt 4 6 0 one 3 (-1)]; [nd 5 0 []; edt 5 6 0 one 0 (-1)]; [nd 6 0 []; edt 6 7 0 one 0 4; edt 6 8 0 one 0 4] ] ].
Example C28_times_case :
  let g := load_of (Some 10) timed in
  let run eps nodes ts := reduced (ppr (fun ns ts => neighbors f32_sub g ns [0] ts) (fun ns ts => neighbor_counts g ns [0] ts) keep keep 20 (1 # 2) eps nodes ts 2 (0%Q, -1)) in
  run (1 # 2)%Q [5; 4] (Some [5; 2]) = Ok [[(1 # 4, 6); (1 # 2, 5)]; [(1 # 2, 4); (0%Q, -1)]] /\
  run 1%Q [1; 5] (Some [5; 2]) = Ok [[(1 # 2, 1); (0%Q, -1)]; [(1 # 2, 5); (0%Q, -1)]].
Proof. split; vm_compute; reflexivity. Qed.

(** ** Findings *)
(** With timestamps the list of timestamps has one entry per node asked for, but is read with
    the index of a neighbor.  A node with two neighbors reads behind its end, in whatever order
    the hash set is visited. *)
Definition fork := [ [ [nd 1 0 []; edt 1 2 0 one 0 10; edt 1 3 0 one 0 10]; [nd 2 0 []]; [nd 3 0 []] ] ].
Theorem C28_timestamps_refuted :
  exists parts g, converted f32_add wv (Some 10) parts g /\ guarded f32_add f32_sub [0] parts /\
    forall ord pord fuel count, (forall l, Permutation (ord l) l) ->
      ppr (fun ns ts => neighbors f32_sub g ns [0] ts) (fun ns ts => neighbor_counts g ns [0] ts) ord pord (S fuel) (1 # 2) (1 # 10) [1] (Some [5]) count (0%Q, -1) = Fail EUB.
Proof.
  exists fork, (load_of (Some 10) fork). split; [apply load_of_converted; vm_compute; reflexivity|]. split; [apply guardb_ok; vm_compute; reflexivity|].
  intros ord pord fuel count H. unfold ppr. cbn [map ppr_loop forallb pr_q bind]. cbn [length seq combine map fst snd pr_q rev app stamp nth concat fold_left add_key has_key existsb].
  unfold lookup_lists. match goal with |- context [ord ?l] => assert (E : ord l = l) by (apply Permutation_length_1_inv, Permutation_sym, H); rewrite E; clear E end. cbn [filter c_lists assoc map fst snd].
  replace (neighbors f32_sub (load_of (Some 10) fork) [1] [0] (Some [5])) with (Ok ([(2, 0, one, 0); (3, 0, one, 0)], [2%nat])) by (vm_compute; reflexivity).
  cbn [bind fst snd map nbr_node split_counts length Nat.ltb Nat.leb firstn skipn combine concat app fold_left].
  match goal with |- context [ord ?l] => set (x := ord l); assert (K : x = [(2, 5); (3, 5)] \/ x = [(3, 5); (2, 5)]) by (apply Permutation_length_2_inv, Permutation_sym, (H l)) end.
  clearbody x. destruct K as [-> | ->]; vm_compute; reflexivity.
Qed.
Print Assumptions C28_timestamps_refuted.

(** count = 0 looks at the top of an empty queue. *)
Theorem C28_zero_refuted :
  exists parts g, converted f32_add wv None parts g /\ guarded f32_add f32_sub [0] parts /\
    small_ppr g 20 [4] None 0 = Fail EUB.
Proof.
  exists tail, tail_graph. split; [apply load_of_converted; vm_compute; reflexivity|]. split; [apply guardb_ok; vm_compute; reflexivity|]. vm_compute. reflexivity.
Qed.
Print Assumptions C28_zero_refuted.
