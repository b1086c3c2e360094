(** Proofs about AlgorithmL and the reservoir with replacement. *)
From Coq Require Import Lqa Permutation.
From Verif Require Import Base Dist WriterModel WriterProofs ConvertProofs AliasModel AliasProofs ReservoirModel.
Local Open Scope nat_scope.

(** ** Updates commute with renaming the elements *)
Lemma set_nth_map {A B} (f : A -> B) l i x : set_nth (map f l) i (f x) = map f (set_nth l i x).
Proof. unfold set_nth. rewrite map_app, firstn_map. cbn [map]. now rewrite skipn_map. Qed.

Definition rmap {A B} (f : A -> B) (r : res A) : res B := match r with Ok a => Ok (f a) | Fail e => Fail e end.

Lemma updates_map {A B} (f : A -> B) batch us : forall r,
  updates (map f batch) us (map (option_map f) r) = rmap (map (option_map f)) (updates batch us r).
Proof.
  induction us as [|u us IH]; intros r; cbn [updates]; [reflexivity|].
  unfold update, get. rewrite nth_error_map, map_length. destruct (nth_error batch (snd u)); [|reflexivity].
  cbn [option_map bind]. destruct (fst u <? length r); [|reflexivity]. cbn [bind].
  change (Some (f a)) with (option_map f (Some a)). rewrite set_nth_map. apply IH.
Qed.

Lemma lrun_map {A B} (f : A -> B) skip pick k batches : forall s r,
  lrun skip pick k (map (map f) batches) s (map (option_map f) r)
  = rmap (fun x => (fst x, map (option_map f) (snd x))) (lrun skip pick k batches s r).
Proof.
  induction batches as [|b t IH]; intros s r; cbn [lrun map]; [reflexivity|].
  rewrite map_length. destruct (ladd skip pick k (length b) s) as [x|]; [|reflexivity]. cbn [bind].
  rewrite updates_map. destruct (updates b (fst x) r); [|reflexivity]. cbn [bind rmap]. apply IH.
Qed.

(** ** Positions *)
Lemma set_nth_in {A} (l : list A) i x y : In y (set_nth l i x) -> y = x \/ In y l.
Proof. unfold set_nth. rewrite in_app_iff. cbn [In]. intros [H|[H|H]]; auto; right.
  - rewrite <- (firstn_skipn i l). apply in_app_iff. now left.
  - rewrite <- (firstn_skipn (S i) l). apply in_app_iff. now right. Qed.
Lemma set_nth_NoDup {A} (l : list A) i x : NoDup l -> ~ In x l -> NoDup (set_nth l i x).
Proof.
  intros Nd Ni. unfold set_nth. revert i. induction l as [|a l IH]; intros i.
  - destruct i; cbn; constructor; auto; constructor.
  - apply NoDup_cons_iff in Nd as [Na Nd]. destruct i as [|i].
    + change (firstn 0 (a :: l) ++ x :: skipn 1 (a :: l)) with (x :: l). constructor; [|exact Nd].
      intros H; apply Ni; now right.
    + change (firstn (S i) (a :: l) ++ x :: skipn (S (S i)) (a :: l)) with (a :: (firstn i l ++ x :: skipn (S i) l)).
      constructor.
      * intros H. apply (set_nth_in l i x) in H as [->|H]; [apply Ni; now left|contradiction].
      * apply IH; [exact Nd|]. intros H; apply Ni; now right.
Qed.

Lemma NoDup_app_intro {A} (a b : list A) : NoDup a -> NoDup b -> (forall x, In x a -> In x b -> False) -> NoDup (a ++ b).
Proof.
  intros Ha Hb Hd. induction a as [|x a IH]; [exact Hb|]. apply NoDup_cons_iff in Ha as [Hx Ha]. cbn [app]. constructor.
  - rewrite in_app_iff. intros [H|H]; [contradiction|]. apply (Hd x); [now left|exact H].
  - apply IH; [exact Ha|]. intros y H1 H2. apply (Hd y); [now right|exact H2].
Qed.

(** The reservoir holds the positions [ps] in its first slots. *)
Definition holds (k : nat) (ps : list nat) (r : list (option nat)) : Prop :=
  length ps <= k /\ r = map Some ps ++ repeat None (k - length ps).

Lemma holds_length k ps r : holds k ps r -> length r = k.
Proof. intros [H ->]. rewrite app_length, map_length, repeat_length. lia. Qed.

Lemma holds_append k ps r x : holds k ps r -> length ps < k -> holds k (ps ++ [x]) (set_nth r (length ps) (Some x)).
Proof.
  intros [H ->] Hk. split; [rewrite app_length; cbn [length]; lia|]. unfold set_nth.
  replace (length ps) with (length (map Some ps) + 0) at 1 by (rewrite map_length; lia).
  rewrite firstn_app_2. cbn [firstn].
  assert (E : skipn (S (length ps)) (map Some ps ++ repeat None (k - length ps)) = @repeat (option nat) None (k - length (ps ++ [x]))).
  { rewrite skipn_app, map_length. rewrite skipn_all2 by (rewrite map_length; lia).
    replace (S (length ps) - length ps) with 1 by lia. cbn [app].
    destruct (k - length ps) as [|m] eqn:E; [lia|]. cbn [repeat skipn]. f_equal. rewrite app_length. cbn [length]. lia. }
  rewrite E, map_app, <- !app_assoc. reflexivity.
Qed.

Lemma holds_replace k ps r j x : holds k ps r -> length ps = k -> j < k -> holds k (set_nth ps j x) (set_nth r j (Some x)).
Proof.
  intros [H ->] Hk Hj. rewrite Hk, Nat.sub_diag, app_nil_r. unfold holds.
  rewrite set_nth_length by lia. rewrite Hk, Nat.sub_diag, app_nil_r. split; [lia|]. apply set_nth_map.
Qed.

Lemma update_positions T n j off (r : list (option nat)) : off < n -> j < length r ->
  update (seq T n) (j, off) r = Ok (set_nth r j (Some (T + off))).
Proof.
  intros H Hj. unfold update, get. cbn [fst snd]. rewrite (nth_error_nth' _ 0) by now rewrite seq_length.
  rewrite seq_nth by exact H. cbn [bind]. apply Nat.ltb_lt in Hj. now rewrite Hj.
Qed.

Lemma updates_app {A} (b : list A) us vs r : updates b (us ++ vs) r = (do r' <- updates b us r ;; updates b vs r').
Proof. revert r; induction us as [|u us IH]; intros r; cbn [updates app]; [reflexivity|].
  destruct (update b u r); cbn [bind]; auto. Qed.

Section Run.
Variable skip pick : nat -> nat.
Variable k : nat.
Hypothesis skip_pos : forall c, 1 <= skip c.
Hypothesis pick_lt : forall c, pick c < k.

Lemma lfill_spec T n : forall todo i rounds ps r,
  i + todo = n -> T + i <= k -> holds k ps r -> length ps = T + i -> NoDup ps -> Forall (fun p => p < T + i) ps ->
  exists us i' ps' r', lfill k todo i (LS (T + i) (T + i) rounds) = (us, i', LS (T + i') (T + i') rounds) /\
    i <= i' <= n /\ T + i' <= k /\ (i' < n -> T + i' = k) /\
    updates (seq T n) us r = Ok r' /\ holds k ps' r' /\ length ps' = T + i' /\ NoDup ps' /\ Forall (fun p => p < T + i') ps'.
Proof.
  induction todo as [|t IH]; intros i rounds ps r Hn Hk H Hl Nd Fa.
  - exists [], i, ps, r. cbn [lfill updates]. repeat split; auto; try lia; apply H.
  - cbn [lfill l_seen l_next l_rounds]. destruct (Nat.ltb_spec (T + i) k) as [Hlt|Hge].
    + pose proof (holds_append k ps r (T + i) H ltac:(lia)) as H'.
      destruct (IH (S i) rounds (ps ++ [T + i]) (set_nth r (length ps) (Some (T + i)))) as (us & i' & ps' & r' & E & R).
      * lia.
      * lia.
      * exact H'.
      * rewrite app_length. cbn [length]. lia.
      * apply NoDup_app_intro; [exact Nd|repeat constructor; auto|].
        intros x Hx [<-|[]]. rewrite Forall_forall in Fa. specialize (Fa _ Hx). lia.
      * apply Forall_app. split; [eapply Forall_impl; [|exact Fa]; intros a Ha; cbn in Ha; lia|repeat constructor; lia].
      * rewrite Nat.add_succ_r in E. cbn [l_next l_seen l_rounds] in *. rewrite E.
        exists ((T + i, i) :: us), i', ps', r'.
        destruct R as (R1 & R2 & R3 & R4 & R5). split; [reflexivity|]. split; [lia|]. split; [lia|]. split; [exact R3|].
        split; [|exact R5]. cbn [updates]. rewrite update_positions; [|lia|rewrite (holds_length _ _ _ H); lia].
        cbn [bind]. rewrite Hl in R4. exact R4.
    + exists [], i, ps, r. cbn [updates]. repeat split; auto; try lia; apply H.
Qed.

Lemma lloop_spec T n i : i <= n -> forall fuel left s ps r off,
  T + n < l_next s + fuel -> l_seen s + left = T + n ->
  T + i < l_next s -> off <= n -> (off + l_next s > T + n + i) ->
  holds k ps r -> length ps = k -> NoDup ps -> Forall (fun p => p < T + i \/ T + off <= p < T + n) ps ->
  exists us left' s' ps' r', lloop skip pick fuel n i left s = Ok (us, left', s') /\
    l_seen s' + left' = T + n /\ T + n < l_next s' /\
    updates (seq T n) us r = Ok r' /\ holds k ps' r' /\ length ps' = k /\ NoDup ps' /\ Forall (fun p => p < T + n) ps'.
Proof.
  intros Hi. induction fuel as [|f IH]; intros left s ps r off Hf Hs Hx Hoff Hgt H Hl Nd Fa.
  - exists [], left, s, ps, r. cbn [lloop updates].
    replace (l_next s <=? l_seen s + left) with false by (symmetry; apply Nat.leb_gt; lia).
    repeat split; auto; try lia; try apply H. eapply Forall_impl; [|exact Fa]. intros a Ha; cbn in Ha; lia.
  - cbn [lloop]. destruct (Nat.leb_spec (l_next s) (l_seen s + left)) as [Hle|Hg].
    + set (ro := l_seen s + left - l_next s + i).
      assert (Hro : ro = T + n + i - l_next s) by (unfold ro; lia).
      assert (Hro' : i <= ro < n) by lia.
      destruct (IH (n - ro) (LS (l_next s + skip (S (l_rounds s))) (l_seen s + left - (n - ro)) (S (l_rounds s)))
                   (set_nth ps (pick (l_rounds s)) (T + ro)) (set_nth r (pick (l_rounds s)) (Some (T + ro))) ro)
        as (us & left' & s' & ps' & r' & E & R); cbn [l_next l_seen l_rounds].
      * pose proof (skip_pos (S (l_rounds s))). lia.
      * lia.
      * lia.
      * lia.
      * pose proof (skip_pos (S (l_rounds s))). lia.
      * apply holds_replace; auto.
      * rewrite set_nth_length; [exact Hl|]. rewrite Hl. apply pick_lt.
      * apply set_nth_NoDup; [exact Nd|]. intros C. rewrite Forall_forall in Fa. specialize (Fa _ C). cbn in Fa. lia.
      * rewrite Forall_forall in *. intros p Hp. apply set_nth_in in Hp as [->|Hp]; [lia|]. specialize (Fa p Hp). cbn in Fa. lia.
      * rewrite E. cbn [bind]. exists ((pick (l_rounds s), ro) :: us), left', s', ps', r'.
        destruct R as (R1 & R2 & R3 & R4). split; [reflexivity|]. split; [exact R1|]. split; [exact R2|]. split; [|exact R4].
        cbn [updates]. rewrite update_positions; [|lia|rewrite (holds_length _ _ _ H); apply pick_lt]. exact R3.
    + exists [], left, s, ps, r. cbn [updates]. repeat split; auto; try lia; try apply H.
      eapply Forall_impl; [|exact Fa]. intros a Ha; cbn in Ha; lia.
Qed.

(** State between two batches after [T] items. *)
Definition between (T : nat) (s : lstate) : Prop :=
  l_seen s = T /\ (T < k -> l_next s = T) /\ (k <= T -> (T = k /\ l_next s = k) \/ T < l_next s).
Definition kept (T : nat) (r : list (option nat)) : Prop :=
  exists ps, holds k ps r /\ length ps = Nat.min k T /\ NoDup ps /\ Forall (fun p => p < T) ps.

Lemma ladd_spec T n s r : between T s -> kept T r ->
  exists us s' r', ladd skip pick k n s = Ok (us, s') /\ between (T + n) s' /\
    updates (seq T n) us r = Ok r' /\ kept (T + n) r'.
Proof.
  intros (B1 & B2 & B3) (ps & H & Hl & Nd & Fa). unfold ladd.
  assert (Fill : exists us i ps' r' s1, lfill k n 0 s = (us, i, s1) /\ i <= n /\ (i < n -> k <= T + i) /\
      l_seen s1 = T + i /\ (T + i <= k -> l_next s1 = T + i \/ (k < l_next s1 /\ T = k)) /\ (k < T + i -> T + i < l_next s1) /\
      updates (seq T n) us r = Ok r' /\ holds k ps' r' /\ length ps' = Nat.min k (T + i) /\ NoDup ps' /\ Forall (fun p => p < T + i) ps').
  { destruct (Nat.ltb_spec T k) as [Hk|Hk].
    - destruct s as [nx sn rd]. cbn [l_seen l_next] in *. rewrite (B2 Hk), B1.
      destruct (lfill_spec T n n 0 rd ps r) as (us & i & ps' & r' & E & R); auto; try lia.
      + rewrite Nat.add_0_r. exact Fa.
      + rewrite Nat.add_0_r in E. rewrite E. exists us, i, ps', r', (LS (T + i) (T + i) rd).
        destruct R as (R1 & R2 & R3 & R4 & R5 & R6 & R7). cbn [l_seen l_next].
        split; [reflexivity|]. split; [lia|]. split; [intros; lia|]. split; [reflexivity|]. split; [intros; lia|].
        split; [intros; lia|]. split; [exact R4|]. split; [exact R5|]. split; [lia|]. exact R7.
    - exists [], 0, ps, r, s. rewrite Nat.add_0_r.
      split. { destruct n; cbn [lfill]; [reflexivity|]. rewrite B1. now replace (T <? k) with false by (symmetry; apply Nat.ltb_ge; lia). }
      split; [lia|]. split; [intros; lia|]. split; [exact B1|].
      destruct (B3 Hk) as [[-> E]|E].
      + split; [intros; lia|]. split; [intros; lia|]. split; [reflexivity|]. split; [exact H|]. split; [lia|]. split; auto.
      + split; [intros; lia|]. split; [intros; lia|]. split; [reflexivity|]. split; [exact H|]. split; [lia|]. split; auto. }
  destruct Fill as (us & i & ps' & r' & s1 & E & Hi & Hfull & Hseen & Hn1 & Hn2 & U & H' & Hl' & Nd' & Fa').
  rewrite E. destruct (Nat.eqb_spec (n - i) 0) as [Hz|Hnz].
  - assert (i = n) by lia. subst i. exists us, s1, r'. split; [reflexivity|]. split; [|split; [exact U|exists ps'; auto]].
    split; [exact Hseen|]. split; intros Hc.
    + destruct (Hn1 ltac:(lia)) as [|[? ?]]; lia.
    + destruct (Nat.eqb_spec (T + n) k).
      * destruct (Hn1 ltac:(lia)) as [|[? ?]]; [left|right]; lia.
      * right. apply Hn2. lia.
  - specialize (Hfull ltac:(lia)).
    set (s2 := if l_seen s1 =? k then LS (l_next s1 + skip (l_rounds s1)) (l_seen s1) (S (l_rounds s1)) else s1).
    assert (S2 : l_seen s2 = T + i /\ T + i < l_next s2).
    { unfold s2. destruct (Nat.eqb_spec (l_seen s1) k); cbn [l_seen l_next].
      - pose proof (skip_pos (l_rounds s1)). split; [exact Hseen|]. destruct (Hn1 ltac:(lia)) as [|[? ?]]; lia.
      - split; [exact Hseen|]. apply Hn2. lia. }
    destruct S2 as [S2a S2b].
    destruct (lloop_spec T n i Hi n (n - i) s2 ps' r' n) as (us' & left' & s' & ps'' & r'' & E' & R); auto; try lia.
    { eapply Forall_impl; [|exact Fa']. intros a Ha; cbn in Ha; lia. }
    destruct R as (R1 & R2 & R3 & R4 & R5 & R6 & R7).
    rewrite E'. cbn [bind]. exists (us ++ us'), (LS (l_next s') (l_seen s' + left') (l_rounds s')), r''.
    split; [reflexivity|]. split; [|split].
    + split; cbn [l_seen l_next]; [exact R1|]. split; intros; [lia|right; lia].
    + rewrite updates_app, U. exact R3.
    + exists ps''. split; [exact R4|]. split; [lia|]. split; auto.
Qed.


(** Batches of consecutive positions starting at [T]. *)
Fixpoint numbered {A} (T : nat) (batches : list (list A)) : list (list nat) :=
  match batches with [] => [] | b :: t => seq T (length b) :: numbered (T + length b) t end.

Lemma lrun_positions {A} (batches : list (list A)) : forall T s r, between T s -> kept T r ->
  exists s' r', lrun skip pick k (numbered T batches) s r = Ok (s', r') /\
    between (T + length (concat batches)) s' /\ kept (T + length (concat batches)) r'.
Proof.
  induction batches as [|b t IH]; intros T s r B K; cbn [numbered lrun concat].
  - exists s, r. cbn [length]. rewrite Nat.add_0_r. auto.
  - rewrite seq_length. destruct (ladd_spec T (length b) s r B K) as (us & s1 & r1 & E & B1 & U & K1).
    rewrite E. cbn [bind fst snd]. rewrite U. cbn [bind].
    destruct (IH _ _ _ B1 K1) as (s' & r' & E' & R). exists s', r'. split; [exact E'|].
    rewrite app_length, Nat.add_assoc. exact R.
Qed.
End Run.

Lemma numbered_map {A} (d : A) (batches : list (list A)) : forall pre,
  map (map (fun p => nth p (pre ++ concat batches) d)) (numbered (length pre) batches) = batches.
Proof.
  induction batches as [|b t IH]; intros pre; cbn [numbered map concat]; [reflexivity|]. f_equal.
  - apply (nth_ext _ _ d d); [now rewrite map_length, seq_length|]. intros i Hi. rewrite map_length, seq_length in Hi.
    rewrite (nth_indep _ d (nth 0 (pre ++ b ++ concat t) d)) by now rewrite map_length, seq_length.
    rewrite (map_nth (fun p => nth p (pre ++ b ++ concat t) d) (seq (length pre) (length b)) 0 i).
    rewrite seq_nth by exact Hi. rewrite app_nth2 by lia. replace (length pre + i - length pre) with i by lia.
    now rewrite app_nth1.
  - specialize (IH (pre ++ b)). rewrite app_length in IH. rewrite <- IH at 2.
    apply map_ext. intros l. apply map_ext. intros p. now rewrite <- app_assoc.
Qed.

(** C17: whatever the random numbers, the reservoir holds items at distinct positions of the
    stream, as many as fit. *)
Theorem algorithm_l {A} (skip pick : nat -> nat) (k : nat) (batches : list (list A)) :
  (forall c, 1 <= skip c) -> (forall c, pick c < k) ->
  exists s ps, lrun skip pick k batches linit (repeat None k)
      = Ok (s, map (nth_error (concat batches)) ps ++ repeat None (k - length ps)) /\
    length ps = Nat.min k (length (concat batches)) /\ NoDup ps /\
    Forall (fun p => p < length (concat batches)) ps.
Proof.
  intros Hs Hp.
  destruct (lrun_positions skip pick k Hs Hp batches 0 linit (repeat None k)) as (s & r & E & _ & ps & H & Hl & Nd & Fa).
  - split; [reflexivity|]. cbn [l_next linit]. split; intros; [reflexivity|]. left. lia.
  - exists []. split; [split; [cbn [length]; lia|cbn [length map app]; f_equal; lia]|]. split; [cbn [length]; lia|]. split; constructor.
  - cbn [Nat.add] in *. exists s, ps. split; [|auto].
    destruct (concat batches) as [|d rest] eqn:Ec.
    + cbn [length] in Hl. assert (ps = []) as -> by (destruct ps; [reflexivity|cbn [length] in Hl; lia]).
      assert (En : numbered 0 batches = map (map (fun _ : A => 0)) batches).
      { clear - Ec. assert (G : forall T, numbered T batches = map (map (fun _ : A => 0)) batches); [|apply G].
        revert Ec. induction batches as [|b t IH]; intros Ec T; [reflexivity|].
        cbn [concat] in Ec. apply app_eq_nil in Ec as [-> Ec]. cbn [numbered map length seq]. now rewrite IH. }
      rewrite En in E.
      replace (repeat None k) with (map (option_map (fun _ : A => 0)) (repeat None k)) in E
        by (clear; induction k; cbn [repeat map option_map]; congruence).
      rewrite lrun_map in E. destruct (lrun skip pick k batches linit (repeat None k)) as [[s1 r1]|] eqn:E1; [|discriminate].
      cbn [rmap fst snd] in E. assert (s1 = s) by congruence. subst s1. assert (Er : map (option_map (fun _ : A => 0)) r1 = r) by congruence.
      destruct H as [_ ->]. cbn [map length app] in Er |- *. rewrite Nat.sub_0_r in Er |- *. do 2 f_equal.
      clear - Er. revert k Er. induction r1 as [|x r1 IH]; intros [|k] Er; try discriminate; [reflexivity|].
      cbn [map repeat] in Er |- *. destruct x; [discriminate|]. f_equal. apply IH. congruence.
    + rewrite <- Ec in *.
      pose proof (numbered_map d batches []) as En. cbn [length app] in En.
      rewrite <- En at 1.
      replace (repeat None k) with (map (option_map (fun p => nth p (concat batches) d)) (repeat None k))
        by (clear; induction k; cbn [repeat map option_map]; congruence).
      rewrite lrun_map, E. cbn [rmap fst snd]. do 2 f_equal. destruct H as [_ ->]. rewrite map_app. f_equal.
      * rewrite map_map. apply map_ext_in. intros p Hpp. cbn [option_map]. rewrite Forall_forall in Fa.
        symmetry. apply nth_error_nth'. auto.
      * clear. induction (k - length ps) as [|m IH]; cbn [repeat map option_map]; congruence.
Qed.

(** ** With replacement *)
Local Open Scope Q_scope.

(** Product of one test function per slot. *)
Fixpoint prodf {X} (fs : list (X -> Q)) (r : list X) : Q :=
  match fs, r with
  | f :: fs', x :: r' => f x * prodf fs' r'
  | _, _ => 1
  end.

Lemma prodf_ext {X} (fs gs : list (X -> Q)) : Forall2 (fun f g => forall x, f x == g x) fs gs ->
  forall r, prodf fs r == prodf gs r.
Proof. induction 1 as [|f g fs gs H _ IH]; intros [|x r]; cbn [prodf]; try reflexivity. now rewrite H, IH. Qed.

(** What a batch sequence does to the expectation of a test of one slot. *)
Definition blend {A} (s : nat) (stream : list A) (f : option A -> Q) (x : option A) : Q :=
  if (s + length stream =? 0)%nat then f x
  else (qnat s * f x + qsum (fun y => f (Some y)) stream) / qnat (s + length stream).

Lemma wr_slot_blend {A} s (b : list A) f x : ex (wr_slot s b x) f == blend s b f x.
Proof.
  unfold wr_slot, blend. destruct b as [|y b].
  - rewrite ex_ret. cbn [length qsum]. rewrite Nat.add_0_r. destruct (Nat.eqb_spec s 0); [reflexivity|].
    pose proof (qnat_pos s ltac:(lia)). field. lra.
  - replace (s + length (y :: b) =? 0)%nat with false by (symmetry; apply Nat.eqb_neq; cbn [length]; lia).
    set (l := y :: b). assert (Hp : (0 < length l)%nat) by (cbn; lia).
    rewrite ex_bind, ex_flip, ex_bind, ex_uniform, ex_ret.
    rewrite (qsum_ext _ (fun j => f (nth_error l j))) by (intros; now rewrite ex_ret).
    rewrite (qsum_nth (fun z => f (Some z)) y l).
    rewrite (qsum_ext (fun j => f (nth_error l j)) (fun i => f (Some (nth i l y)))).
    2:{ intros j Hj. apply in_seq in Hj. now rewrite (nth_error_nth' l y) by lia. }
    rewrite qnat_add. pose proof (qnat_pos _ Hp). pose proof (qnat_nonneg s).
    field. split; lra.
Qed.

Lemma wr_slots_prod {A} s (b : list A) : forall r (fs : list (option A -> Q)),
  ex (wr_slots s b r) (prodf fs) == prodf (map (blend s b) fs) r.
Proof.
  induction r as [|x r IH]; intros fs; cbn [wr_slots].
  - rewrite ex_ret. destruct fs; reflexivity.
  - rewrite ex_bind. destruct fs as [|f fs]; cbn [map prodf].
    + (* no tests left *)
      transitivity (ex (wr_slot s b x) (fun _ => 1)).
      * apply ex_ext_all. intros x'. rewrite ex_bind. rewrite <- (IH []) .
        cbn [map prodf]. apply ex_ext_all. intros t'. rewrite ex_ret. destruct t'; reflexivity.
      * rewrite wr_slot_blend. unfold blend. destruct (Nat.eqb_spec (s + length b) 0); [reflexivity|].
        rewrite qsum_const, qnat_add. pose proof (qnat_pos (s + length b) ltac:(lia)) as P. rewrite qnat_add in P. field. lra.
    + rewrite <- (IH fs), <- wr_slot_blend, <- ex_scale_r. apply ex_ext_all. intros x'.
      rewrite ex_bind. rewrite <- ex_scale. apply ex_ext_all. intros t'. rewrite ex_ret. reflexivity.
Qed.

Lemma blend_blend {A} s (b t : list A) f x : blend s b (blend (s + length b) t f) x == blend s (b ++ t) f x.
Proof.
  unfold blend. rewrite app_length, Nat.add_assoc.
  destruct (Nat.eqb_spec (s + length b) 0) as [Hz|Hz].
  - destruct (Nat.eqb_spec (s + length b + length t) 0); [reflexivity|].
    assert (s = 0%nat) by lia. assert (b = []) by (destruct b; [reflexivity|cbn [length] in Hz; lia]). subst. cbn [length qsum Nat.add] in *.
    rewrite qnat_0. pose proof (qnat_pos (length t) ltac:(lia)). cbn [app]. field. lra.
  - replace (s + length b + length t =? 0)%nat with false by (symmetry; apply Nat.eqb_neq; lia). rewrite qsum_app.
    pose proof (qnat_pos (s + length b) ltac:(lia)) as P1. pose proof (qnat_pos (s + length b + length t) ltac:(lia)) as P2.
    set (Z := qnat (s + length b)) in *. set (W := qnat (s + length b + length t)) in *.
    rewrite (qsum_ext (fun y => (Z * f (Some y) + qsum (fun y => f (Some y)) t) / W)
                      (fun y => (Z / W) * f (Some y) + qsum (fun y => f (Some y)) t / W)) by (intros; field; lra).
    rewrite qsum_plus, qsum_scale, qsum_const.
    assert (HZ : qnat (length b) == Z - qnat s) by (unfold Z; rewrite qnat_add; ring).
    rewrite HZ. field. split; lra.
Qed.

Lemma Forall2_map_l {X Y} (R : X -> Y -> Prop) (f : X -> X) (g : X -> Y) l :
  (forall x, In x l -> R (f x) (g x)) -> Forall2 R (map f l) (map g l).
Proof. induction l as [|a l IH]; intros H; cbn [map]; constructor; [apply H; now left|apply IH; intros; apply H; now right]. Qed.

Lemma wr_run_prod {A} : forall (batches : list (list A)) s r (fs : list (option A -> Q)),
  ex (wr_run s batches r) (prodf fs) == prodf (map (blend s (concat batches)) fs) r.
Proof.
  induction batches as [|b t IH]; intros s r fs; cbn [wr_run concat].
  - rewrite ex_ret. apply prodf_ext. rewrite <- (map_id fs) at 1. apply Forall2_map_l.
    intros f _ x. unfold blend. cbn [length qsum]. rewrite Nat.add_0_r. destruct (Nat.eqb_spec s 0); [reflexivity|].
    pose proof (qnat_pos s ltac:(lia)). field. lra.
  - rewrite ex_bind. rewrite (ex_ext_all _ _ (prodf (map (blend (s + length b) (concat t)) fs))) by (intros; apply IH).
    rewrite wr_slots_prod, map_map. apply prodf_ext. apply Forall2_map_l. intros f _ x. apply blend_blend.
Qed.

(** C18, joint form: the slots are independent and each is a uniform draw from all items. *)
Theorem with_replacement_joint {A} (batches : list (list A)) (r : list (option A)) (fs : list (option A -> Q)) :
  concat batches <> [] -> length fs = length r ->
  ex (wr_run 0 batches r) (prodf fs) ==
  fold_right (fun f q => (qsum (fun x => f (Some x)) (concat batches) / qnat (length (concat batches))) * q) 1 fs.
Proof.
  intros Hne Hl. rewrite wr_run_prod. assert (Hp : (0 < length (concat batches))%nat) by (destruct (concat batches); [contradiction|cbn; lia]).
  clear Hne. revert r Hl. induction fs as [|f fs IH]; intros [|x r] Hl; cbn [length] in Hl; try discriminate; cbn [map prodf fold_right]; [reflexivity|].
  rewrite IH by lia. apply Qmult_comp; [|reflexivity]. unfold blend. cbn [Nat.add].
  replace (length (concat batches) =? 0)%nat with false by (symmetry; apply Nat.eqb_neq; lia).
  pose proof (qnat_pos _ Hp). rewrite qnat_0. field. lra.
Qed.

(** C18, marginal form. *)
Definition slot_is {A} (eqb : A -> A -> bool) (j : nat) (x : A) (r : list (option A)) : bool :=
  match nth_error r j with Some (Some y) => eqb y x | _ => false end.
Definition occurs {A} (eqb : A -> A -> bool) (x : A) (l : list A) : nat := length (filter (fun y => eqb y x) l).

Lemma wr_slots_length {A} s (b : list A) r : forall r', In r' (map fst (wr_slots s b r)) -> length r' = length r.
Proof.
  induction r as [|x r IH]; intros r' H; cbn [wr_slots] in H.
  - cbn in H. destruct H as [<-|[]]. reflexivity.
  - apply in_map_iff in H as ([v q] & <- & H). unfold dbind in H. apply in_flat_map in H as (y & Hy & H).
    apply in_map_iff in H as (z & Ez & H). apply in_flat_map in H as (w & Hw & H). apply in_map_iff in H as (u & Eu & H).
    cbn in H. destruct H as [<-|[]]. cbn [fst snd] in *. subst z. cbn [fst] in Ez. injection Ez as <- _. cbn [length fst].
    f_equal. apply IH. now apply in_map.
Qed.

Theorem with_replacement_slot {A} (eqb : A -> A -> bool) (batches : list (list A)) (r : list (option A)) (j : nat) (x : A) :
  concat batches <> [] -> (j < length r)%nat ->
  pr (wr_run 0 batches r) (slot_is eqb j x) == qnat (occurs eqb x (concat batches)) / qnat (length (concat batches)).
Proof.
  intros Hne Hj.
  set (t := fun o : option A => match o with Some y => ind (eqb y x) | None => 0 end).
  set (fs := repeat (fun _ : option A => 1) j ++ [t] ++ repeat (fun _ => 1) (length r - S j)).
  assert (Hlen : length fs = length r) by (unfold fs; rewrite !app_length, !repeat_length; cbn [length]; lia).
  assert (Hp : forall n (q : list (option A)), prodf (repeat (fun _ : option A => 1) n) q == 1).
  { induction n as [|n IH]; intros [|y q]; cbn [repeat prodf]; try reflexivity. rewrite IH. ring. }
  assert (Keep : forall q : list (option A), (j < length q)%nat -> prodf fs q == ind (slot_is eqb j x q)).
  { unfold fs. generalize (length r - S j)%nat. intros m. clear - Hp. revert m. induction j as [|j IH]; intros m [|y q] Hq; cbn [length] in Hq; try lia.
    - cbn [repeat app prodf]. rewrite Hp. unfold slot_is. cbn [nth_error]. unfold t. destruct y; unfold ind; ring.
    - cbn [repeat app prodf]. rewrite (Qmult_1_l _). rewrite (IH m q) by lia. reflexivity. }
  unfold pr. transitivity (ex (wr_run 0 batches r) (prodf fs)).
  - apply ex_ext. intros q Hq. symmetry. apply Keep.
    assert (L : forall bs s (p : list (option A)), In q (map fst (wr_run s bs p)) -> length q = length p).
    { induction bs as [|b bs IH]; intros s p H; cbn [wr_run] in H.
      - cbn in H. destruct H as [<-|[]]. reflexivity.
      - apply in_map_iff in H as ([v w] & Ev & H). cbn in Ev. subst v. apply in_flat_map in H as (y & Hy & H).
        apply in_map_iff in H as (z & Ez & H). injection Ez as <- _.
        rewrite (IH (s + length b)%nat (fst y) (in_map fst _ _ H)). apply (wr_slots_length s b p). now apply in_map. }
    rewrite (L batches 0%nat r Hq). exact Hj.
  - rewrite with_replacement_joint; auto. clear Keep Hlen. unfold fs. rewrite !fold_right_app.
    assert (N : 0 < qnat (length (concat batches))) by (apply qnat_pos; destruct (concat batches); [contradiction|cbn; lia]).
    assert (One : forall n q, fold_right (fun f q => (qsum (fun x => f (Some x)) (concat batches) / qnat (length (concat batches))) * q) q
       (repeat (fun _ : option A => 1) n) == q).
    { induction n as [|n IH]; intros q; cbn [repeat fold_right]; [reflexivity|]. rewrite IH, qsum_const. field. lra. }
    rewrite One. cbn [fold_right app]. rewrite One. unfold t, occurs.
    assert (C : qsum (fun y => ind (eqb y x)) (concat batches) == qnat (length (filter (fun y => eqb y x) (concat batches)))).
    { clear. induction (concat batches) as [|a l IH]; cbn [qsum filter]; [reflexivity|].
      destruct (eqb a x); cbn [length]; rewrite IH; unfold ind; [rewrite qnat_S|]; ring. }
    rewrite C. field. lra.
Qed.
