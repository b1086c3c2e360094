(** Properties C14-C16 and C59: neighbor sampling. *)
From Verif Require Import Base Dist WriterModel LoaderModel GraphModel GraphSpec LoaderProofs GraphProofs AnswerProofs CountProofs Float32 Demo ReservoirModel ReservoirProofs NeighborModel NeighborProofs UniformProofs WeightedProofs WeightedLaw WeightedGraph.
From Coq Require Import Lqa Floats.SpecFloat Sorting.Sorted ZifyBool.
Local Open Scope Q_scope.

(** Values of 32-bit floats; infinities and NaN do not occur in the examples. *)
Definition f32_q (b : N) : Q :=
  match decode32 b with
  | S754_finite s m e =>
      let v := inject_Z (Zpos m) * (if (0 <=? e)%Z then inject_Z (2 ^ e) else / inject_Z (2 ^ (- e))) in if s then - v else v
  | _ => 0
  end.
Definition f32_nat (k : nat) : N := encode32 (binary_normalize prec emax (Z.of_nat k) 0 false).

(** Small whole numbers are computed with exactly in single precision. *)
Definition small (w : N) : Prop := In w (map f32_nat (seq 0 65)).
Theorem f32_small_exact : exact_on f32_add f32_sub f32_q small 64.
Proof.
  assert (Sm : forall a, small a -> exists k, (k <= 64)%nat /\ a = f32_nat k /\ f32_q a == qnat k).
  { intros a H. apply in_map_iff in H as (k & <- & H). apply in_seq in H. exists k. split; [lia|]. split; [reflexivity|].
    assert (A : forallb (fun k => Qeq_bool (f32_q (f32_nat k)) (qnat k)) (seq 0 65) = true) by (vm_compute; reflexivity).
    rewrite forallb_forall in A. apply Qeq_bool_iff, A. apply in_seq. lia. }
  assert (In' : forall k, (k <= 64)%nat -> small (f32_nat k)) by (intros k Hk; apply in_map, in_seq; lia).
  assert (V : forall k, (k <= 64)%nat -> f32_q (f32_nat k) == qnat k).
  { intros k Hk. assert (A : forallb (fun k => Qeq_bool (f32_q (f32_nat k)) (qnat k)) (seq 0 65) = true) by (vm_compute; reflexivity).
    rewrite forallb_forall in A. apply Qeq_bool_iff, A. apply in_seq. lia. }
  constructor.
  - split; [now apply (in_map f32_nat (seq 0 65) 0%nat), in_seq; lia|reflexivity].
  - intros a H. destruct (Sm a H) as (k & _ & _ & ->). apply qnat_nonneg.
  - intros a b Ha Hb H. destruct (Sm a Ha) as (i & Hi & -> & Ei). destruct (Sm b Hb) as (j & Hj & -> & Ej).
    assert (Hij : (i + j <= 64)%nat).
    { rewrite Ei, Ej, <- qnat_add in H. change 64 with (qnat 64) in H. unfold qnat in H. rewrite <- Zle_Qle in H. lia. }
    assert (A : forallb (fun i => forallb (fun j => (f32_add (f32_nat i) (f32_nat j) =? f32_nat (i + j))%N || (64 <? i + j)%nat) (seq 0 65)) (seq 0 65) = true) by (vm_compute; reflexivity).
    rewrite forallb_forall in A. specialize (A i ltac:(apply in_seq; lia)). rewrite forallb_forall in A. specialize (A j ltac:(apply in_seq; lia)).
    apply orb_true_iff in A as [A|A]; [|apply Nat.ltb_lt in A; lia]. apply N.eqb_eq in A. rewrite A. split; [now apply In'|]. rewrite V by exact Hij. rewrite Ei, Ej. apply qnat_add.
  - intros a b Ha Hb H. destruct (Sm a Ha) as (i & Hi & -> & Ei). destruct (Sm b Hb) as (j & Hj & -> & Ej).
    assert (Hij : (j <= i)%nat). { rewrite Ei, Ej in H. unfold qnat in H. rewrite <- Zle_Qle in H. lia. }
    assert (A : forallb (fun i => forallb (fun j => (f32_sub (f32_nat i) (f32_nat j) =? f32_nat (i - j))%N || (i <? j)%nat) (seq 0 65)) (seq 0 65) = true) by (vm_compute; reflexivity).
    rewrite forallb_forall in A. specialize (A i ltac:(apply in_seq; lia)). rewrite forallb_forall in A. specialize (A j ltac:(apply in_seq; lia)).
    apply orb_true_iff in A as [A|A]; [|apply Nat.ltb_lt in A; lia]. apply N.eqb_eq in A. rewrite A. split; [apply In'; lia|]. rewrite V by lia. rewrite Ei, Ej. now apply qnat_sub.
Qed.

(** Decision procedure for the order of times. *)
Definition not_beforeb (a b : Z * Z) : bool := (fst a <=? fst b)%Z && ((snd b =? -1)%Z || (negb (snd a =? -1)%Z && (snd a <=? snd b)%Z)).
Fixpoint sortedb (l : list (Z * Z)) : bool := match l with [] => true | a :: t => forallb (not_beforeb a) t && sortedb t end.
Definition orderedb (parts : list (list (list record))) : bool :=
  forallb (fun r => forallb (fun ty => sortedb (map life (filter (fun e => (e_typ e =? ty)%Z) (row_edges r)))) (map e_typ (row_edges r))) (flat_map rows parts).
Lemma sortedb_ok l : sortedb l = true -> StronglySorted not_before l.
Proof.
  induction l as [|a l IH]; cbn [sortedb]; intros H; [constructor|]. apply andb_true_iff in H as [H1 H2]. constructor; [auto|].
  apply Forall_forall. intros x Hx. rewrite forallb_forall in H1. specialize (H1 x Hx). unfold not_beforeb, not_before in *. lia.
Qed.
Lemma orderedb_ok parts : orderedb parts = true -> ordered_lives parts.
Proof.
  unfold orderedb. rewrite forallb_forall. intros H r ty Hr. specialize (H r Hr). rewrite forallb_forall in H.
  destruct (in_dec Z.eq_dec ty (map e_typ (row_edges r))) as [Hi|Hi]; [now apply sortedb_ok, H|].
  assert (E : filter (fun e => (e_typ e =? ty)%Z) (row_edges r) = []); [|rewrite E; constructor].
  clear H. induction (row_edges r) as [|e l IH]; [reflexivity|]. cbn [filter map] in *. destruct (Z.eqb_spec (e_typ e) ty); [exfalso; apply Hi; now left|].
  apply IH. intros X. apply Hi. now right.
Qed.

(** * C14 *)

(** Weighted sampling without a time: a slot holds the default or an element of the list of
    full neighbors (whose elements are the edges of C01). *)
Theorem C14_weighted : forall fadd fsub qval wval wm parts g types n count default,
  converted fadd wval wm parts g -> sums_nonneg fadd qval parts ->
  exists full, g_full_neighbor fsub g (make_sorted_list types) n None = Ok full /\
    forall r, routcome (g_sample fadd fsub qval g (make_sorted_list types) count default n None) r ->
    exists l, r = Ok l /\ length l = count /\ forall x, In x l -> x = default \/ In x full.
Proof. exact weighted_real. Qed.

(** Weighted sampling with a time, weights that add up exactly and removal times that fit 32
    bits. *)
Theorem C14_weighted_times_partial : forall fadd fsub qval wval rep B, exact_on fadd fsub qval rep B ->
  forall wm parts g types n ts, converted fadd wval wm parts g -> guarded fadd fsub types parts -> sample_times wm parts ts ->
  (forall e, In e (flat_map edges_of parts) -> rep (e_w e)) -> 2 * mass qval (spec_edges parts types n) <= B ->
  forall count default r, routcome (g_sample fadd fsub qval g (make_sorted_list types) count default n ts) r ->
  exists l, r = Ok l /\ length l = count /\ forall x, In x l -> x = default \/ In x (map (ans ts) (matching wm parts types n ts)).
Proof. exact weighted_real_exact. Qed.

(** Uniform sampling with replacement: whatever holds of all matching edges holds of all slots;
    or there is no edge and all slots are defaults. *)
Theorem C14_uniform : forall fadd wval wm parts g types n ts temporal ret count default (p : slot -> bool),
  converted fadd wval wm parts g -> times_ok false wm parts ts -> (ret = true -> ts <> None) ->
  (forall e, In e (matching wm parts types n ts) -> p (slot_for wm ts e) = true) ->
  pr (g_uniform_with temporal ret g (make_sorted_list types) count default n ts) (all_slots count p) == 1 \/
  g_uniform_with temporal ret g (make_sorted_list types) count default n ts = dret (Ok (repeat default count)).
Proof. exact uniform_with_real. Qed.

(** No matching edge: the defaults. *)
Theorem C14_no_edge : forall fadd wval wm parts g types n ts temporal ret count default,
  converted fadd wval wm parts g -> times_ok false wm parts ts -> (ret = true -> ts <> None) ->
  matching wm parts types n ts = [] ->
  g_uniform_with temporal ret g (make_sorted_list types) count default n ts = dret (Ok (repeat default count)).
Proof.
  intros fadd wval wm parts g types n ts temporal ret count default C Ht Hr E.
  destruct (uniform_with fadd wval wm parts g types n ts temporal ret count default C Ht Hr) as (l & Hnil & _ & Hi & _).
  apply Hnil. rewrite E in Hi. destruct l as [|e l]; [reflexivity|]. destruct (Hi e (or_introl eq_refl)).
Qed.

(** Running a program with given random choices. *)
Inductive choice := CBin (c : nat) | CCoin (b : bool) | CPick (u : Q).
Fixpoint replay {A} (m : rprog A) (cs : list choice) : option (res A) :=
  match m, cs with
  | RRet a, [] => Some (Ok a)
  | RErr e, [] => Some (Fail e)
  | RBin n p k, CBin c :: cs => if ((c <=? n)%nat && (negb (Qle_bool p 0) || (c =? 0)%nat) && (negb (Qle_bool 1 p) || (c =? n)%nat))%bool then replay (k c) cs else None
  | RCoin p k, CCoin b :: cs => if (negb (Qle_bool 1 p) || b)%bool then replay (k b) cs else None
  | RPick b w l k, CPick u :: cs => if (Qle_bool 0 u && negb (Qle_bool 1 u))%bool then replay (k (picked b w l u)) cs else None
  | _, _ => None
  end.
Lemma replay_outcome {A} (m : rprog A) : forall cs r, replay m cs = Some r -> routcome m r.
Proof.
  induction m as [a|e|n p k IH|p k IH|b w l k IH]; intros [|[c|c|u] cs] r H; cbn [replay routcome] in *; try discriminate; try congruence.
  - destruct (_ && _)%bool eqn:E in H; [|discriminate]. apply andb_true_iff in E as [E E3]. apply andb_true_iff in E as [E1 E2]. exists c. split; [|eapply IH; exact H].
    split; [lia|]. split; intros P; apply Qle_bool_iff in P; rewrite P in *; cbn in *; lia.
  - destruct (_ || _)%bool eqn:E in H; [|discriminate]. exists c. split; [|eapply IH; exact H]. intros P. apply Qle_bool_iff in P. now rewrite P in E.
  - destruct (_ && _)%bool eqn:E in H; [|discriminate]. apply andb_true_iff in E as [E1 E2]. exists u. split; [|eapply IH; exact H].
    apply Qle_bool_iff in E1. split; [exact E1|]. apply negb_true_iff in E2. apply Qnot_le_lt. intros P. apply Qle_bool_iff in P. congruence.
Qed.

(** An edge that is created later is sampled when its removal time does not fit 32 bits. *)
Definition far : list (list (list record)) := [ [ [nd 1 0 []; edt 1 2 0 one 1 (-1); edt 1 3 1 one 10 (2 ^ 31 + 5)] ] ].
Theorem C14_far_removal_refuted :
  exists parts t, converted f32_add wv (Some 20%Z) parts (load_of (Some 20%Z) parts) /\ ordered_lives parts /\ int32 t /\
    matching (Some 20%Z) parts [1%Z] 1 (Some t) = [] /\
    routcome (g_sample f32_add f32_sub f32_q (load_of (Some 20%Z) parts) [1%Z] 1 ((-7)%Z, (-7)%Z, 0%N, (-7)%Z) 1 (Some t)) (Ok [(3%Z, 1%Z, one, 10%Z)]).
Proof.
  exists far, 5%Z. split; [apply load_of_converted; vm_compute; reflexivity|]. split; [apply orderedb_ok; vm_compute; reflexivity|].
  split; [unfold int32; lia|]. split; [vm_compute; reflexivity|].
  apply (replay_outcome _ [CCoin true; CPick 0]). vm_compute. reflexivity.
Qed.

(** Asking for creation times without giving a time writes through a null pointer. *)
Theorem C14_creation_time_refuted :
  exists parts, converted f32_add wv (Some 10%Z) parts (load_of (Some 10%Z) parts) /\
    g_uniform_without (fun _ => 1%nat) (fun _ => 0%nat) true true (load_of (Some 10%Z) parts) [0%Z] 1 (0, 0, 0)%Z 1 None = Fail EUB.
Proof. exists demo_t. split; [apply load_of_converted; vm_compute; reflexivity|]. vm_compute. reflexivity. Qed.

(** Edges 1->2 (removed at 5), 1->3 and 1->8 of type 0 at time 3: one slot and its probabilities. *)
Definition unused : nbr := ((-1)%Z, (-1)%Z, 0%N, (-1)%Z).
Definition dst_is (d : Z) (x : nbr) : Q := let '(d', _, _, _) := x in ind (d =? d')%Z.
Example C14_example :
  map (fun d => Qred (ex (rlaw (g_sample f32_add f32_sub f32_q demo_t_graph [0%Z] 1 unused 1 (Some 3%Z))) (on_ok (qsum (dst_is d))))) [2; 3; 8; -1]%Z
  = [1 # 4; 1 # 2; 1 # 4; 0] /\
  map (fun e => (e_dst e, e_w e)) (matching (Some 10%Z) demo_t [0%Z] 1 (Some 3%Z)) = [(2%Z, one); (3%Z, two); (8%Z, one)].
Proof. split; vm_compute; reflexivity. Qed.
Example C14_example_guards : guarded f32_add f32_sub [0%Z] demo_t /\ sample_times (Some 10%Z) demo_t (Some 3%Z) /\
  (forall e, In e (flat_map edges_of demo_t) -> small (e_w e)) /\ 2 * mass f32_q (spec_edges demo_t [0%Z] 1) <= 64.
Proof.
  split; [apply guardb_ok; vm_compute; reflexivity|]. split.
  - cbn [sample_times]. split; [lia|]. split; [unfold int32; lia|]. split; [apply orderedb_ok; vm_compute; reflexivity|].
    intros e He. cbn in He. repeat (destruct He as [<-|He]; [unfold int32; cbn; lia|]). destruct He.
  - split; [|vm_compute; discriminate]. intros e He. cbn in He.
    repeat (destruct He as [<-|He]; [first [exact (or_intror (or_introl eq_refl)) | exact (or_intror (or_intror (or_introl eq_refl)))]|]). destruct He.
Qed.

(** * C15 *)

(** A single slot holds an edge with its share of the weight, however the edges are split. *)
Theorem C15_one_slot_partial : forall fadd fsub qval wval rep B, exact_on fadd fsub qval rep B ->
  forall wm parts g types n ts, converted fadd wval wm parts g -> guarded fadd fsub types parts -> sample_times wm parts ts ->
  (forall e, In e (flat_map edges_of parts) -> rep (e_w e)) -> 2 * mass qval (spec_edges parts types n) <= B ->
  forall default f, 0 < mass qval (matching wm parts types n ts) ->
  ex (rlaw (g_sample fadd fsub qval g (make_sorted_list types) 1 default n ts)) (on_ok (qsum f)) ==
  qsum (fun e => qval (e_w e) * f (ans ts e)) (matching wm parts types n ts) / mass qval (matching wm parts types n ts).
Proof. exact weighted_one. Qed.

(** Edges in one block: the expected number of slots with an edge. *)
Theorem C15_block_partial : forall fadd fsub qval wval rep B, exact_on fadd fsub qval rep B ->
  forall wm parts g types n ts, converted fadd wval wm parts g -> guarded fadd fsub types parts -> sample_times wm parts ts ->
  (forall e, In e (flat_map edges_of parts) -> rep (e_w e)) -> 2 * mass qval (spec_edges parts types n) <= B ->
  forall count default f r, 0 < mass qval (matching wm parts types n ts) -> node_rows n (map rows parts) = [r] ->
  ex (rlaw (g_sample fadd fsub qval g (make_sorted_list types) count default n ts)) (on_ok (qsum f)) ==
  qnat count * (qsum (fun e => qval (e_w e) * f (ans ts e)) (matching wm parts types n ts) / mass qval (matching wm parts types n ts)).
Proof. exact weighted_block. Qed.

(** Natural numbers and small floats are exact. *)
Theorem C15_exact_weights : forall B, exact_on N.add N.sub (fun w => inject_Z (Z.of_N w)) (fun _ => True) B.
Proof. exact exact_N. Qed.

Definition first_is (d : Z) (l : list nbr) : Q := match l with x :: _ => dst_is d x | [] => 0 end.

(** Two partitions with one edge of weight 1 each: the first of two slots holds the edge of the
    second partition with probability 3/4. *)
Definition pair_parts : list (list (list record)) := [ [ [nd 1 0 []; ed 1 2 0 one []] ]; [ [ed 1 3 0 one []] ] ].
Theorem C15_first_slot_refuted :
  exists parts e, converted f32_add wv None parts (load_of None parts) /\ In e (matching None parts [0%Z] 1 None) /\
    f32_q (e_w e) / mass f32_q (matching None parts [0%Z] 1 None) == 1 # 2 /\
    ex (rlaw (g_sample f32_add f32_sub f32_q (load_of None parts) [0%Z] 2 unused 1 None)) (on_ok (first_is (e_dst e))) == 3 # 4.
Proof.
  exists pair_parts, (Edge 1 3 0 one [] 0 (-1)). split; [apply load_of_converted; vm_compute; reflexivity|].
  split; [right; left; vm_compute; reflexivity|]. split; vm_compute; reflexivity.
Qed.
(** In one partition slots are ordered by type: an edge of type 1 is first with probability 1/4. *)
Definition typed_parts : list (list (list record)) := [ [ [nd 1 0 []; ed 1 2 0 one []; ed 1 3 1 one []] ] ].
Theorem C15_type_order_refuted :
  exists parts e, converted f32_add wv None parts (load_of None parts) /\ In e (matching None parts [0%Z; 1%Z] 1 None) /\
    f32_q (e_w e) / mass f32_q (matching None parts [0%Z; 1%Z] 1 None) == 1 # 2 /\
    ex (rlaw (g_sample f32_add f32_sub f32_q (load_of None parts) [0%Z; 1%Z] 2 unused 1 None)) (on_ok (first_is (e_dst e))) == 1 # 4.
Proof.
  exists typed_parts, (Edge 1 3 1 one [] 0 (-1)). split; [apply load_of_converted; vm_compute; reflexivity|].
  split; [right; left; vm_compute; reflexivity|]. split; vm_compute; reflexivity.
Qed.
(** Even the expected number of slots is biased: 3/8 instead of 1/2. *)
Definition biased_parts : list (list (list record)) := [ [ [nd 1 0 []; ed 1 2 0 one []; ed 1 3 1 one []] ]; [ [ed 1 4 0 two []] ] ].
Theorem C15_expected_number_refuted :
  exists parts e, converted f32_add wv None parts (load_of None parts) /\ In e (matching None parts [0%Z; 1%Z] 1 None) /\
    qnat 2 * (f32_q (e_w e) / mass f32_q (matching None parts [0%Z; 1%Z] 1 None)) == 1 # 2 /\
    ex (rlaw (g_sample f32_add f32_sub f32_q (load_of None parts) [0%Z; 1%Z] 2 unused 1 None)) (on_ok (qsum (dst_is (e_dst e)))) == 3 # 8.
Proof.
  exists biased_parts, (Edge 1 2 0 one [] 0 (-1)). split; [apply load_of_converted; vm_compute; reflexivity|].
  split; [left; vm_compute; reflexivity|]. split; vm_compute; reflexivity.
Qed.

(** * C16 *)

(** Distinct positions of the list of matching edges. *)
Theorem C16_distinct_partial : forall fadd wval wm parts g types n ts skip pick temporal ret count default,
  converted fadd wval wm parts g -> times_ok true wm parts ts -> (ret = true -> ts <> None) ->
  (forall c, 1 <= skip c)%nat -> (forall c, pick c < count)%nat ->
  exists l ps es,
    g_uniform_without skip pick temporal ret g (make_sorted_list types) count default n ts =
      Ok (map (slot_for wm ts) es ++ repeat default (count - length es)) /\
    map (nth_error l) ps = map Some es /\ NoDup ps /\ length ps = Nat.min count (length l) /\
    incl l (matching wm parts types n ts) /\ (gaps_ok types parts -> l = matching wm parts types n ts).
Proof. exact uniform_without. Qed.

(** With different removal times an edge is returned twice. *)
Definition removed_parts : list (list (list record)) := [ [ [nd 1 0 []; edt 1 2 0 one 0 6; edt 1 3 0 one 1 7] ] ].
Theorem C16_times_refuted :
  exists parts t, converted f32_add wv (Some 10%Z) parts (load_of (Some 10%Z) parts) /\ ordered_lives parts /\ int32 t /\
    map e_dst (matching (Some 10%Z) parts [0%Z] 1 (Some t)) = [2; 3]%Z /\
    g_uniform_without (fun _ => 1%nat) (fun _ => 0%nat) true true (load_of (Some 10%Z) parts) [0%Z] 2 (0, 0, 0)%Z 1 (Some t) = Ok [(2, 0, 0); (2, 0, 0)]%Z.
Proof.
  exists removed_parts, 5%Z. split; [apply load_of_converted; vm_compute; reflexivity|]. split; [apply orderedb_ok; vm_compute; reflexivity|].
  split; [unfold int32; lia|]. split; vm_compute; reflexivity.
Qed.
Example C16_example :
  g_uniform_without (fun _ => 1%nat) (fun c => (c mod 2)%nat) false false demo_t_graph [0%Z] 2 (0, 0, 0)%Z 1 None = Ok [(2, 0, -1); (8, 0, -1)]%Z.
Proof. vm_compute. reflexivity. Qed.

(** * C59 *)

(** Uniform sampling with replacement: slots are independent and uniform. *)
Theorem C59_uniform_joint : forall fadd wval wm parts g types n ts temporal ret count default,
  converted fadd wval wm parts g -> times_ok false wm parts ts -> (ret = true -> ts <> None) ->
  exists l,
    (l = [] -> g_uniform_with temporal ret g (make_sorted_list types) count default n ts = dret (Ok (repeat default count))) /\
    (l <> [] -> forall fs, length fs = count ->
       ex (g_uniform_with temporal ret g (make_sorted_list types) count default n ts) (on_ok (prodf fs)) ==
       fold_right (fun f q => (qsum (fun e => f (slot_for wm ts e)) l / qnat (length l)) * q) 1 fs) /\
    incl l (matching wm parts types n ts) /\ (gaps_ok types parts -> l = matching wm parts types n ts).
Proof. exact uniform_with. Qed.
Definition sdst (d : Z) (x : slot) : Q := let '(d', _, _) := x in ind (d =? d')%Z.
Example C59_example :
  map (fun d => Qred (ex (g_uniform_with true true demo_t_graph [0%Z] 2 (0, 0, 0)%Z 1 (Some 3%Z)) (on_ok (prodf [sdst (fst d); sdst (snd d)])))) [(2, 2); (2, 3); (8, 2); (0, 2)]%Z
  = [1 # 9; 1 # 9; 1 # 9; 0].
Proof. vm_compute. reflexivity. Qed.

Print Assumptions f32_small_exact.
Print Assumptions C14_weighted.
Print Assumptions C14_weighted_times_partial.
Print Assumptions C14_uniform.
Print Assumptions C14_no_edge.
Print Assumptions C14_far_removal_refuted.
Print Assumptions C14_creation_time_refuted.
Print Assumptions C15_one_slot_partial.
Print Assumptions C15_block_partial.
Print Assumptions C15_exact_weights.
Print Assumptions C15_first_slot_refuted.
Print Assumptions C15_type_order_refuted.
Print Assumptions C15_expected_number_refuted.
Print Assumptions C16_distinct_partial.
Print Assumptions C16_times_refuted.
Print Assumptions C59_uniform_joint.
