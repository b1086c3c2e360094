(** Proofs about the alias tables. *)
From Coq Require Import Lqa Permutation.
From Verif Require Import Base Dist WriterModel WriterProofs ConvertProofs AliasModel.
Local Open Scope Q_scope.

Lemma qlt_true a b : qlt a b = true <-> a < b.
Proof. unfold qlt. rewrite negb_true_iff. split; intros H.
  - apply Qnot_le_lt. intros C. apply Qle_bool_iff in C. congruence.
  - destruct (Qle_bool b a) eqn:E; [|reflexivity]. apply Qle_bool_iff in E. lra. Qed.
Lemma qlt_false a b : qlt a b = false <-> b <= a.
Proof. unfold qlt. rewrite negb_false_iff. apply Qle_bool_iff. Qed.

Lemma set_nth_length {A} (l : list A) i x : (i < length l)%nat -> length (set_nth l i x) = length l.
Proof. intros H. unfold set_nth. rewrite app_length. cbn [length]. rewrite firstn_length, skipn_length. lia. Qed.
Lemma set_nth_nth {A} (l : list A) i x j d : (i < length l)%nat ->
  nth j (set_nth l i x) d = if (j =? i)%nat then x else nth j l d.
Proof.
  intros H. unfold set_nth. destruct (Nat.eqb_spec j i) as [->|N].
  - rewrite app_nth2; rewrite firstn_length, Nat.min_l by lia; [|lia]. now rewrite Nat.sub_diag.
  - destruct (Nat.ltb_spec j i).
    + rewrite app_nth1 by (rewrite firstn_length; lia). rewrite <- (firstn_skipn i l) at 2.
      rewrite app_nth1 by (rewrite firstn_length; lia). reflexivity.
    + rewrite app_nth2; rewrite firstn_length, Nat.min_l by lia; [|lia].
      destruct (j - i)%nat as [|k] eqn:E; [lia|]. cbn [nth].
      rewrite <- (firstn_skipn (S i) l) at 2. rewrite app_nth2; rewrite firstn_length, Nat.min_l by lia; [|lia].
      f_equal. lia.
Qed.

(** Mass other entries send to [i] and mass [i] keeps for itself. *)
Definition sends (al : list (option nat)) (pb : list (option Q)) (i j : nat) : Q :=
  match nth j al None, nth j pb None with
  | Some a, Some p => ind (a =? i)%nat * (1 - p)
  | _, _ => 0
  end.
Definition received (n : nat) al pb i : Q := qsum (sends al pb i) (seq 0 n).
Definition own (w : list Q) (pb : list (option Q)) (i : nat) : Q :=
  match nth i pb None with Some p => p | None => nth i w 0 end.

Record vinv (u : list Q) (n : nat) (small large : list nat) (st : vstate) : Prop := {
  i_w : length (v_w st) = n; i_a : length (v_alias st) = n; i_p : length (v_prob st) = n;
  i_nd : NoDup (small ++ large);
  i_lt : forall i, In i (small ++ large) -> (i < n)%nat;
  i_open : forall i, (i < n)%nat -> nth i (v_prob st) None = None -> In i (small ++ large);
  i_none : forall i, In i (small ++ large) -> nth i (v_prob st) None = None /\ nth i (v_alias st) None = None;
  i_done : forall i p, (i < n)%nat -> nth i (v_prob st) None = Some p ->
             0 <= p < 1 /\ exists a, nth i (v_alias st) None = Some a /\ (a < n)%nat;
  i_mass : forall i, (i < n)%nat -> nth i u 0 == own (v_w st) (v_prob st) i + received n (v_alias st) (v_prob st) i;
  i_sum : qsum (fun i => nth i (v_w st) 0) (small ++ large) == qnat (length (small ++ large));
  i_small : forall i, In i small -> 0 <= nth i (v_w st) 0 < 1;
  i_large : forall i, In i large -> 1 <= nth i (v_w st) 0
}.

Lemma qsum_change (f g : nat -> Q) (s n : nat) (c : Q) : (s < n)%nat ->
  (forall j, j <> s -> f j == g j) -> f s == g s + c -> qsum f (seq 0 n) == qsum g (seq 0 n) + c.
Proof.
  intros Hs He Hc.
  rewrite (qsum_ext f (fun j => g j + ind (j =? s)%nat * c)).
  - rewrite qsum_plus. rewrite (qsum_pick (fun _ => c)) by exact Hs. reflexivity.
  - intros j _. destruct (Nat.eqb_spec j s) as [->|N]; unfold ind; [rewrite Hc|rewrite (He j N)]; ring.
Qed.

Lemma vose_step u n s small l large st :
  vinv u n (s :: small) (l :: large) st ->
  let ws := nth s (v_w st) 0 in
  let wl := (nth l (v_w st) 0 + ws) - 1 in
  let st' := VS (set_nth (v_w st) l wl) (set_nth (v_alias st) s (Some l)) (set_nth (v_prob st) s (Some ws)) in
  (qlt wl 1 = true -> vinv u n (l :: small) large st') /\ (qlt wl 1 = false -> vinv u n small (l :: large) st').
Proof.
  intros I ws wl st'. destruct I as [Lw La Lp Nd Lt Op No Dn Ms Sm Hs Hl].
  cbn [app] in *.
  assert (Hin : In l (small ++ l :: large)) by (apply in_app_iff; right; now left).
  apply NoDup_cons_iff in Nd as [Ns Nd].
  assert (sl : s <> l) by (intros ->; contradiction).
  assert (s_n : (s < n)%nat) by (apply Lt; now left).
  assert (l_n : (l < n)%nat) by (apply Lt; now right).
  destruct (Hs s (or_introl eq_refl)) as [Ws0 Ws1]. fold ws in Ws0, Ws1.
  pose proof (Hl l (or_introl eq_refl)) as Wl1.
  assert (Pm : Permutation (l :: small ++ large) (small ++ l :: large)) by apply Permutation_middle.
  assert (Nd' : NoDup (l :: small ++ large)) by (eapply Permutation_NoDup; [symmetry; exact Pm|exact Nd]).
  assert (Wn : forall j, nth j (set_nth (v_w st) l wl) 0 = if (j =? l)%nat then wl else nth j (v_w st) 0)
    by (intros; apply set_nth_nth; lia).
  assert (An : forall j, nth j (set_nth (v_alias st) s (Some l)) None = if (j =? s)%nat then Some l else nth j (v_alias st) None)
    by (intros; apply set_nth_nth; lia).
  assert (Pn : forall j, nth j (set_nth (v_prob st) s (Some ws)) None = if (j =? s)%nat then Some ws else nth j (v_prob st) None)
    by (intros; apply set_nth_nth; lia).
  assert (Smass : forall i, (i < n)%nat -> nth i u 0 == own (v_w st') (v_prob st') i + received n (v_alias st') (v_prob st') i).
  { intros i Hi. rewrite (Ms i Hi). unfold received.
    rewrite (qsum_change (sends (v_alias st') (v_prob st') i) (sends (v_alias st) (v_prob st) i) s n (ind (l =? i)%nat * (1 - ws))); [|exact s_n| |].
    - unfold own, st'; cbn [v_w v_prob]. rewrite Pn, Wn.
      destruct (No s (or_introl eq_refl)) as [Ps _]. destruct (No l (or_intror Hin)) as [Pl _].
      destruct (Nat.eqb_spec i s) as [->|Nis].
      + rewrite Ps. destruct (Nat.eqb_spec l s); [congruence|]. unfold ind. fold ws. ring.
      + destruct (Nat.eqb_spec i l) as [->|Nil].
        * rewrite Pl, Nat.eqb_refl. unfold ind, wl. ring.
        * destruct (Nat.eqb_spec l i); [congruence|]. unfold ind. ring.
    - intros j Nj. unfold sends, st'; cbn [v_alias v_prob]. rewrite An, Pn.
      destruct (Nat.eqb_spec j s); [contradiction|]. reflexivity.
    - unfold sends, st'; cbn [v_alias v_prob]. rewrite An, Pn, Nat.eqb_refl.
      destruct (No s (or_introl eq_refl)) as [Ps As]. rewrite As. ring. }
  assert (Ssum : qsum (fun i => nth i (v_w st') 0) (l :: small ++ large) == qnat (length (l :: small ++ large))).
  { cbn [qsum length] in Sm |- *. rewrite <- (qsum_perm _ _ _ Pm) in Sm. cbn [qsum] in Sm.
    rewrite <- (Permutation_length Pm) in Sm. cbn [length] in Sm. rewrite !qnat_S in Sm.
    rewrite (qsum_ext (fun i => nth i (v_w st') 0) (fun i => nth i (v_w st) 0) (small ++ large)).
    - unfold st'; cbn [v_w]. rewrite Wn, Nat.eqb_refl. rewrite qnat_S. unfold wl. fold ws in Sm. lra.
    - intros j Hj. unfold st'; cbn [v_w]. rewrite Wn. apply NoDup_cons_iff in Nd' as [Nl _].
      destruct (Nat.eqb_spec j l); [subst; contradiction|reflexivity]. }
  assert (Slt : forall i, In i (l :: small ++ large) -> (i < n)%nat).
  { intros i Hi. apply Lt. right. eapply Permutation_in; [exact Pm|exact Hi]. }
  assert (Sop : forall i, (i < n)%nat -> nth i (v_prob st') None = None -> In i (l :: small ++ large)).
  { intros i Hi. unfold st'; cbn [v_prob]. rewrite Pn. destruct (Nat.eqb_spec i s); [discriminate|]. intros Hp.
    destruct (Op i Hi Hp) as [<-|H]; [congruence|]. eapply Permutation_in; [symmetry; exact Pm|exact H]. }
  assert (Sno : forall i, In i (l :: small ++ large) -> nth i (v_prob st') None = None /\ nth i (v_alias st') None = None).
  { intros i Hi. unfold st'; cbn [v_prob v_alias]. rewrite Pn, An.
    assert (In i (small ++ l :: large)) by (eapply Permutation_in; [exact Pm|exact Hi]).
    destruct (Nat.eqb_spec i s); [subst; contradiction|]. apply No. now right. }
  assert (Sdn : forall i p, (i < n)%nat -> nth i (v_prob st') None = Some p ->
             0 <= p < 1 /\ exists a, nth i (v_alias st') None = Some a /\ (a < n)%nat).
  { intros i p Hi. unfold st'; cbn [v_prob v_alias]. rewrite Pn, An. destruct (Nat.eqb_spec i s).
    - intros [= <-]. split; [split; assumption|]. exists l. split; [reflexivity|exact l_n].
    - apply Dn. exact Hi. }
  assert (Old : forall i, i <> l -> nth i (v_w st') 0 = nth i (v_w st) 0).
  { intros i Ni. unfold st'; cbn [v_w]. rewrite Wn. destruct (Nat.eqb_spec i l); [contradiction|reflexivity]. }
  assert (New : nth l (v_w st') 0 = wl).
  { unfold st'; cbn [v_w]. now rewrite Wn, Nat.eqb_refl. }
  apply NoDup_cons_iff in Nd' as [Nl Nd'].
  assert (Hsm : forall i, In i small -> 0 <= nth i (v_w st') 0 < 1).
  { intros i Hi. rewrite Old; [apply Hs; now right|]. intros ->. apply Nl. apply in_app_iff; now left. }
  assert (Hlg : forall i, In i large -> 1 <= nth i (v_w st') 0).
  { intros i Hi. rewrite Old; [apply Hl; now right|]. intros ->. apply Nl. apply in_app_iff; now right. }
  split; intros Hq.
  - apply qlt_true in Hq. constructor; unfold st'; cbn [v_w v_alias v_prob];
      try (rewrite set_nth_length; lia); cbn [app]; auto.
    + constructor; assumption.
    + intros i [<-|Hi]; [|apply Hsm; exact Hi]. fold st'. change (set_nth (v_w st) l wl) with (v_w st').
      rewrite New. split; [unfold wl; lra|exact Hq].
  - apply qlt_false in Hq. constructor; unfold st'; cbn [v_w v_alias v_prob];
      try (rewrite set_nth_length; lia).
    + exact Nd.
    + intros i Hi. apply Slt. eapply Permutation_in; [symmetry; exact Pm|exact Hi].
    + intros i Hi Hp. eapply Permutation_in; [exact Pm|apply Sop; assumption].
    + intros i Hi. apply Sno. eapply Permutation_in; [symmetry; exact Pm|exact Hi].
    + exact Sdn.
    + exact Smass.
    + rewrite <- (qsum_perm _ _ _ Pm). rewrite <- (Permutation_length Pm). exact Ssum.
    + exact Hsm.
    + intros i [<-|Hi]; [|apply Hlg; exact Hi]. change (set_nth (v_w st) l wl) with (v_w st').
      rewrite New. exact Hq.
Qed.

Lemma vose_loop_inv u n fuel : forall small large st,
  (length small + length large <= fuel)%nat -> vinv u n small large st ->
  exists small' large' st', vose_loop fuel small large st = Ok (small', large', st') /\
    vinv u n small' large' st' /\ (small' = [] \/ large' = []).
Proof.
  induction fuel as [|f IH]; intros small large st Hf I.
  - destruct small as [|s small]; [|cbn [length] in Hf; lia].
    exists [], large, st. split; [reflexivity|]. split; [exact I|now left].
  - destruct small as [|s small]; [exists [], large, st; split; [reflexivity|]; split; [exact I|now left]|].
    destruct large as [|l large]; [exists (s :: small), [], st; split; [reflexivity|]; split; [exact I|now right]|].
    cbn [vose_loop]. destruct (vose_step _ _ _ _ _ _ _ I) as [H1 H2].
    destruct (qlt (nth l (v_w st) 0 + nth s (v_w st) 0 - 1) 1) eqn:E.
    + apply IH; [cbn [length] in *; lia|]. apply H1. reflexivity.
    + apply IH; [cbn [length] in *; lia|]. apply H2. reflexivity.
Qed.

Lemma split_small_spec ws : forall i small large sm lg,
  split_small ws i small large = (sm, lg) ->
  Permutation (sm ++ lg) (seq i (length ws) ++ small ++ large) /\
  (forall j, In j sm -> In j small \/ ((i <= j < i + length ws)%nat /\ nth (j - i) ws 0 < 1)) /\
  (forall j, In j lg -> In j large \/ ((i <= j < i + length ws)%nat /\ 1 <= nth (j - i) ws 0)).
Proof.
  induction ws as [|w ws IH]; intros i small large sm lg; cbn [split_small length seq].
  - intros [= <- <-]. split; [reflexivity|]. split; intros; now left.
  - destruct (qlt w 1) eqn:E; intros H; apply IH in H as (P & Hs & Hl).
    + apply qlt_true in E. split; [|split].
      * rewrite P. rewrite <- app_comm_cons. cbn [app].
        rewrite <- Permutation_middle. reflexivity.
      * intros j Hj. destruct (Hs j Hj) as [[<-|H]|(R & V)].
        -- right. rewrite Nat.sub_diag. split; [lia|exact E].
        -- now left.
        -- right. split; [lia|]. replace (j - i)%nat with (S (j - S i)) by lia. exact V.
      * intros j Hj. destruct (Hl j Hj) as [H|(R & V)]; [now left|right]. split; [lia|].
        replace (j - i)%nat with (S (j - S i)) by lia. exact V.
    + apply qlt_false in E. split; [|split].
      * rewrite P. cbn [app]. rewrite Permutation_middle. apply Permutation_app_head.
        rewrite <- Permutation_middle. reflexivity.
      * intros j Hj. destruct (Hs j Hj) as [H|(R & V)]; [now left|right]. split; [lia|].
        replace (j - i)%nat with (S (j - S i)) by lia. exact V.
      * intros j Hj. destruct (Hl j Hj) as [[<-|H]|(R & V)].
        -- right. rewrite Nat.sub_diag. split; [lia|exact E].
        -- now left.
        -- right. split; [lia|]. replace (j - i)%nat with (S (j - S i)) by lia. exact V.
Qed.

Lemma nth_repeat_any {A} (d : A) k i : nth i (repeat d k) d = d.
Proof. revert i; induction k; intros [|i]; cbn [repeat nth]; auto. Qed.

Lemma vose_init u n small large :
  length u = n -> (forall i, In i small -> 0 <= nth i u 0 < 1) -> (forall i, In i large -> 1 <= nth i u 0) ->
  Permutation (small ++ large) (seq 0 n) -> qsum (fun x => x) u == qnat n ->
  vinv u n small large (VS u (repeat None n) (repeat None n)).
Proof.
  intros Hu Hs Hl P Hsum. constructor; cbn [v_w v_alias v_prob]; try (rewrite repeat_length); auto.
  - eapply Permutation_NoDup; [symmetry; exact P|apply seq_NoDup].
  - intros i Hi. apply (Permutation_in _ P) in Hi. apply in_seq in Hi. lia.
  - intros i Hi _. apply (Permutation_in _ (Permutation_sym P)). apply in_seq. lia.
  - intros i _. now rewrite !nth_repeat_any.
  - intros i p _. rewrite nth_repeat_any. discriminate.
  - intros i Hi. unfold own, received. rewrite nth_repeat_any. rewrite qsum_zero; [ring|].
    intros j _. unfold sends. rewrite nth_repeat_any. reflexivity.
  - rewrite (qsum_perm _ _ _ P), (Permutation_length P), seq_length. subst n.
    rewrite <- (qsum_nth (fun x => x) 0 u). exact Hsum.
Qed.

Lemma set_one_nth is : forall p, (forall i, In i is -> (i < length p)%nat) ->
  length (set_one is p) = length p /\
  forall j, nth j (set_one is p) None = if existsb (Nat.eqb j) is then Some 1 else nth j p None.
Proof.
  induction is as [|i is IH]; intros p Hl; cbn [set_one fold_left existsb]; [split; reflexivity|].
  assert (L : length (set_nth p i (Some 1)) = length p) by (apply set_nth_length; apply Hl; now left).
  destruct (IH (set_nth p i (Some 1))) as [H1 H2].
  { rewrite L. intros; apply Hl; now right. }
  change (fold_left (fun p i => set_nth p i (Some 1)) is (set_nth p i (Some 1))) with (set_one is (set_nth p i (Some 1))).
  split; [congruence|]. intros j. rewrite H2, set_nth_nth by (apply Hl; now left).
  destruct (j =? i)%nat, (existsb (Nat.eqb j) is); reflexivity.
Qed.

Lemma existsb_nat j l : existsb (Nat.eqb j) l = true <-> In j l.
Proof. rewrite existsb_exists. split; [intros (x & H & E); apply Nat.eqb_eq in E; now subst|].
  intros H. exists j. split; [exact H|apply Nat.eqb_refl]. Qed.

(** All weights are exactly one when the loop stops. *)
Lemma all_ones (f : nat -> Q) l : qsum f l == qnat (length l) ->
  (forall i, In i l -> 1 <= f i) -> forall i, In i l -> f i == 1.
Proof.
  induction l as [|a l IH]; intros Hs H i Hi; [destruct Hi|].
  cbn [qsum length] in Hs. rewrite qnat_S in Hs.
  assert (Ha := H a (or_introl eq_refl)).
  assert (Ht : qnat (length l) <= qsum f l).
  { apply Qle_trans with (qsum (fun _ : nat => 1) l); [rewrite qsum_const; lra|]. apply qsum_le. intros; apply H; now right. }
  destruct Hi as [<-|Hi]; [lra|]. apply IH; auto; [lra|]. intros; apply H; now right.
Qed.
Lemma no_small (f : nat -> Q) l : l <> [] -> qsum f l == qnat (length l) ->
  (forall i, In i l -> f i < 1) -> False.
Proof.
  intros Hl Hs H. destruct l as [|a l]; [contradiction|]. cbn [qsum length] in Hs. rewrite qnat_S in Hs.
  assert (Ha := H a (or_introl eq_refl)).
  assert (Ht : qsum f l <= qnat (length l)).
  { apply Qle_trans with (qsum (fun _ : nat => 1) l); [|rewrite qsum_const; lra]. apply qsum_le. intros; apply Qlt_le_weak, H; now right. }
  lra.
Qed.

Definition weights_ok (ws : list Q) : Prop := Forall (fun w => 0 <= w) ws /\ 0 < qsum (fun x => x) ws.

Lemma rescale_nth ws i : nth i (rescale ws) 0 == nth i ws 0 * (qnat (length ws) / qsum (fun x => x) ws).
Proof. unfold rescale. destruct (Nat.ltb_spec i (length ws)).
  - rewrite (nth_indep _ 0 (0 * (qnat (length ws) / qsum (fun x => x) ws))) by now rewrite map_length.
    rewrite (map_nth (fun w => w * (qnat (length ws) / qsum (fun x => x) ws))). reflexivity.
  - rewrite !nth_overflow; [ring|lia|rewrite map_length; lia]. Qed.
Lemma rescale_sum ws : weights_ok ws -> qsum (fun x => x) (rescale ws) == qnat (length ws).
Proof. intros [_ H]. unfold rescale. rewrite qsum_map, qsum_scale_r. field. lra. Qed.

(** The table: every entry keeps a probability in [0,1], sends the rest to a valid entry, and
    what an entry keeps plus what it receives is its share of the weights. *)
Lemma vose_spec ws : weights_ok ws ->
  exists al pb, vose ws = Ok (al, pb) /\ length al = length ws /\ length pb = length ws /\
    (forall i, (i < length ws)%nat -> exists p, nth i pb None = Some p /\ 0 <= p <= 1 /\
       (p < 1 -> exists a, nth i al None = Some a /\ (a < length ws)%nat)) /\
    (forall i, (i < length ws)%nat ->
       (match nth i pb None with Some p => p | None => 0 end) + received (length ws) al pb i
         == nth i ws 0 * (qnat (length ws) / qsum (fun x => x) ws)).
Proof.
  intros Hok. unfold vose. destruct (split_small (rescale ws) 0 [] []) as [sm lg] eqn:E.
  apply split_small_spec in E as (P & Hs & Hl). rewrite app_nil_r in P. cbn [app] in P.
  assert (Lr : length (rescale ws) = length ws) by (unfold rescale; apply map_length).
  rewrite Lr in *.
  assert (I : vinv (rescale ws) (length ws) sm lg (VS (rescale ws) (repeat None (length ws)) (repeat None (length ws)))).
  { apply vose_init; auto; [| | now apply rescale_sum].
    - intros i Hi. destruct (Hs i Hi) as [[]|(R & V)]. rewrite Nat.sub_0_r in V. split; [|exact V].
      rewrite rescale_nth. destruct Hok as [H1 H2]. apply Qmult_le_0_compat.
      + rewrite Forall_forall in H1. apply H1. apply nth_In. lia.
      + apply Qle_shift_div_l; [exact H2|]. pose proof (qnat_nonneg (length ws)). lra.
    - intros i Hi. destruct (Hl i Hi) as [[]|(R & V)]. now rewrite Nat.sub_0_r in V. }
  destruct (vose_loop_inv _ _ (length sm + length lg) sm lg _ (Nat.le_refl _) I) as (sm' & lg' & st & -> & J & Hend).
  cbn [bind].
  assert (sm' = []) as ->.
  { destruct Hend as [->| ->]; [reflexivity|]. destruct sm' as [|s sm']; [reflexivity|exfalso].
    apply (no_small (fun i => nth i (v_w st) 0) (s :: sm')); [discriminate| |].
    - pose proof (i_sum _ _ _ _ _ J) as H. now rewrite app_nil_r in H.
    - intros i Hi. apply (i_small _ _ _ _ _ J i Hi). }
  cbn [app] in *. pose proof (i_sum _ _ _ _ _ J) as Sm. cbn [app] in Sm.
  pose proof (all_ones _ _ Sm (i_large _ _ _ _ _ J)) as Ones.
  assert (Rng : forall i, In i lg' -> (i < length (v_prob st))%nat).
  { intros i Hi. rewrite (i_p _ _ _ _ _ J). apply (i_lt _ _ _ _ _ J). exact Hi. }
  destruct (set_one_nth lg' (v_prob st) Rng) as [Sl Sn].
  exists (v_alias st), (set_one lg' (v_prob st)). split; [reflexivity|].
  split; [apply (i_a _ _ _ _ _ J)|]. split; [rewrite Sl; apply (i_p _ _ _ _ _ J)|].
  assert (Snt : forall i, (i < length ws)%nat -> nth i (v_prob st) None = None <-> In i lg').
  { intros i Hi. split; [intros H; apply (i_open _ _ _ _ _ J i Hi H)|intros H; apply (i_none _ _ _ _ _ J i H)]. }
  split.
  - intros i Hi. rewrite Sn. destruct (existsb (Nat.eqb i) lg') eqn:Ex.
    + exists 1. split; [reflexivity|]. split; [lra|intros C; exfalso; lra].
    + destruct (nth i (v_prob st) None) as [p|] eqn:Ep.
      * exists p. destruct (i_done _ _ _ _ _ J i p Hi Ep) as (R & Ha). split; [reflexivity|]. split; [lra|auto].
      * apply Snt in Ep; [|exact Hi]. apply existsb_nat in Ep. congruence.
  - intros i Hi. rewrite <- rescale_nth. rewrite (i_mass _ _ _ _ _ J i Hi). unfold own, received. rewrite Sn.
    assert (Q : qsum (sends (v_alias st) (set_one lg' (v_prob st)) i) (seq 0 (length ws)) ==
                qsum (sends (v_alias st) (v_prob st) i) (seq 0 (length ws))).
    { apply qsum_ext. intros j Hj. apply in_seq in Hj. unfold sends. rewrite Sn.
      destruct (existsb (Nat.eqb j) lg') eqn:Ex; [|reflexivity].
      apply existsb_nat in Ex. destruct (i_none _ _ _ _ _ J j Ex) as [-> ->]. reflexivity. }
    rewrite Q. destruct (existsb (Nat.eqb i) lg') eqn:Ex.
    + apply existsb_nat in Ex. destruct (i_none _ _ _ _ _ J i Ex) as [-> _]. rewrite (Ones i Ex). reflexivity.
    + destruct (nth i (v_prob st) None) as [p|] eqn:Ep; [reflexivity|].
      apply Snt in Ep; [|exact Hi]. apply existsb_nat in Ep. congruence.
Qed.

Lemma get_nth {A} (l : list A) i d : (i < length l)%nat -> get l i = Ok (nth i l d).
Proof. intros H. unfold get. rewrite (nth_error_nth' l d H). reflexivity. Qed.

(** Index of the entry a record sends its rest to. *)
Definition target (al : list (option nat)) (i : nat) : nat := match nth i al None with Some a => a | None => 0 end.
Definition keep (pb : list (option Q)) (i : nat) : Q := match nth i pb None with Some p => p | None => 0 end.

Section Table.
Context {A : Type} (zero : A) (eqb : A -> A -> bool) (eqb_spec : forall a b, eqb a b = true <-> a = b).

(** Total weight of the entries equal to [x]. *)
Definition weight_of (x : A) (es : list A) (ws : list Q) : Q :=
  qsum (fun p => ind (eqb (fst p) x) * snd p) (combine es ws).

Lemma combine_sum (f : A * Q -> Q) es ws d : length es = length ws ->
  qsum f (combine es ws) == qsum (fun i => f (nth i es d, nth i ws 0)) (seq 0 (length ws)).
Proof.
  intros H. rewrite (qsum_nth f (d, 0) (combine es ws)). rewrite combine_length, H, Nat.min_id.
  apply qsum_ext. intros i _. now rewrite combine_nth.
Qed.

Lemma table_spec es ws : length es = length ws -> weights_ok ws ->
  exists t, alias_table zero es ws = Ok t /\ length t = length ws /\
    Forall (fun r => 0 <= a_threshold r <= 1) t /\
    Forall (fun r => In (a_left r) es /\ (a_threshold r < 1 -> In (a_right r) es)) t /\
    (forall i, nth_error (map a_left t) i = nth_error es i) /\
    forall x, pr (alias_sample t) (fun a => eqb a x) == weight_of x es ws / qsum (fun q => q) ws.
Proof.
  intros Hl Hok. destruct (vose_spec ws Hok) as (al & pb & Ev & La & Lp & Hp & Hm).
  assert (Pos : (0 < length ws)%nat).
  { destruct ws; [destruct Hok as [_ H]; cbn [qsum] in H; lra|cbn [length]; lia]. }
  assert (d : A) by (destruct es; [cbn [length] in Hl; lia|assumption]).
  set (n := length ws) in *.
  set (rec := fun i => AR (nth i es d) (if qlt (keep pb i) 1 then nth (target al i) es d else zero) (keep pb i)).
  assert (Er : forall i, In i (seq 0 n) -> alias_record zero es al pb i = Ok (rec i)).
  { intros i Hi. apply in_seq in Hi. unfold alias_record. rewrite (get_nth es i d) by lia. cbn [bind].
    rewrite (get_nth pb i None) by lia. cbn [bind]. destruct (Hp i ltac:(lia)) as (p & Ep & R & Ha).
    unfold rec, keep. rewrite Ep. destruct (qlt p 1) eqn:Eq; [|reflexivity].
    apply qlt_true in Eq. destruct (Ha Eq) as (a & Ea & Hlt).
    rewrite (get_nth al i None) by lia. cbn [bind]. unfold target. rewrite Ea.
    rewrite (get_nth es a d) by lia. reflexivity. }
  exists (map rec (seq 0 n)).
  assert (Et : alias_table zero es ws = Ok (map rec (seq 0 n))).
  { unfold alias_table. rewrite Ev. cbn [bind fst snd]. rewrite Hl. apply mapM_ok. exact Er. }
  assert (Kp : forall i, (i < n)%nat -> 0 <= keep pb i <= 1).
  { intros i Hi. destruct (Hp i Hi) as (p & Ep & R & _). unfold keep. now rewrite Ep. }
  split; [exact Et|]. split; [now rewrite map_length, seq_length|]. split; [|split; [|split]].
  - rewrite Forall_forall. intros r Hr. apply in_map_iff in Hr as (i & <- & Hi). apply in_seq in Hi.
    cbn [rec a_threshold]. apply Kp. lia.
  - rewrite Forall_forall. intros r Hr. apply in_map_iff in Hr as (i & <- & Hi). apply in_seq in Hi.
    cbn [rec a_threshold a_left a_right]. split; [apply nth_In; lia|]. intros Hk.
    apply qlt_true in Hk. rewrite Hk. apply qlt_true in Hk. destruct (Hp i ltac:(lia)) as (p & Ep & R & Ha).
    unfold keep in Hk. rewrite Ep in Hk. destruct (Ha Hk) as (a & Ea & Hlt). unfold target. rewrite Ea. apply nth_In. lia.
  - intros i. rewrite map_map. cbn [rec a_left].
    assert (Es : map (fun i => nth i es d) (seq 0 n) = es).
    { apply (nth_ext _ _ d d); [rewrite map_length, seq_length; lia|].
      intros k Hk. rewrite map_length, seq_length in Hk.
      rewrite (nth_indep _ d (nth 0 es d)) by (now rewrite map_length, seq_length).
      rewrite (map_nth (fun i => nth i es d) (seq 0 n) 0%nat). rewrite seq_nth by lia. reflexivity. }
    now rewrite Es.
  - intros x. unfold alias_sample, pr. rewrite map_length, seq_length.
    rewrite ex_bind, ex_uniform.
    rewrite (qsum_ext _ (fun i => keep pb i * ind (eqb (nth i es d) x)
               + qsum (fun k => ind (eqb (nth k es d) x) * sends al pb k i) (seq 0 n))).
    2:{ intros i Hi. assert (Hi' := Hi). apply in_seq in Hi'.
        rewrite nth_error_map. rewrite (nth_error_nth' (seq 0 n) 0%nat) by (rewrite seq_length; lia).
        rewrite seq_nth by lia. cbn [option_map Nat.add]. rewrite ex_bind, ex_flip, !ex_ret.
        cbn [rec a_threshold a_left a_right]. apply Qplus_comp; [reflexivity|].
        destruct (Hp i ltac:(lia)) as (p & Ep & R & Ha). unfold keep, sends. rewrite Ep.
        destruct (qlt p 1) eqn:Eq.
        - apply qlt_true in Eq. destruct (Ha Eq) as (a & Ea & Hlt). rewrite Ea. unfold target. rewrite Ea.
          rewrite (qsum_ext _ (fun k => ind (k =? a)%nat * ((1 - p) * ind (eqb (nth k es d) x)))).
          + rewrite (qsum_pick (fun k => (1 - p) * ind (eqb (nth k es d) x))) by lia. reflexivity.
          + intros k _. rewrite (Nat.eqb_sym a k). ring.
        - apply qlt_false in Eq. assert (p == 1) by lra.
          rewrite (qsum_zero _ (seq 0 n)); [rewrite H; ring|]. intros k _. destruct (nth i al None); [rewrite H; ring|ring]. }
    rewrite qsum_plus, <- qsum_swap, <- qsum_plus.
    rewrite (qsum_ext _ (fun i => ind (eqb (nth i es d) x) * (nth i ws 0 * (qnat n / qsum (fun q => q) ws)))).
    2:{ intros i Hi. apply in_seq in Hi. rewrite qsum_scale. rewrite <- (Hm i) by lia. unfold keep, received. ring. }
    unfold weight_of. rewrite (combine_sum _ es ws d Hl). cbn [fst snd]. fold n.
    rewrite (qsum_ext _ (fun i => (ind (eqb (nth i es d) x) * nth i ws 0) * (qnat n / qsum (fun q => q) ws))) by (intros; ring).
    rewrite qsum_scale_r. field. destruct Hok as [_ Hs]. pose proof (qnat_pos n Pos). split; lra.
Qed.

(** The sampler of alias.py has the same distribution. *)
Lemma vose_sample_spec es ws : length es = length ws -> weights_ok ws ->
  exists al pb, vose ws = Ok (al, pb) /\
  forall x, pr (vose_sample es al pb) (fun r => match r with Ok a => eqb a x | Fail _ => false end)
    == weight_of x es ws / qsum (fun q => q) ws.
Proof.
  intros Hl Hok. destruct (vose_spec ws Hok) as (al & pb & Ev & La & Lp & Hp & Hm).
  exists al, pb. split; [exact Ev|]. intros x.
  assert (Pos : (0 < length ws)%nat).
  { destruct ws; [destruct Hok as [_ H]; cbn [qsum] in H; lra|cbn [length]; lia]. }
  assert (d : A) by (destruct es; [cbn [length] in Hl; lia|assumption]).
  set (n := length ws) in *.
  unfold vose_sample, pr. rewrite La, ex_bind, ex_uniform.
  rewrite (qsum_ext _ (fun i => keep pb i * ind (eqb (nth i es d) x)
               + qsum (fun k => ind (eqb (nth k es d) x) * sends al pb k i) (seq 0 n))).
  2:{ intros i Hi. assert (Hi' := Hi). apply in_seq in Hi'.
      destruct (Hp i ltac:(lia)) as (p & Ep & R & Ha). rewrite Ep. rewrite ex_bind, ex_flip, ex_ret.
      rewrite (get_nth es i d) by lia. unfold keep, sends. rewrite Ep.
      apply Qplus_comp; [reflexivity|]. destruct (qlt p 1) eqn:Eq.
      - apply qlt_true in Eq. destruct (Ha Eq) as (a & Ea & Hlt). rewrite Ea, ex_ret.
        rewrite (get_nth es a d) by lia.
        rewrite (qsum_ext _ (fun k => ind (k =? a)%nat * ((1 - p) * ind (eqb (nth k es d) x)))).
        + rewrite (qsum_pick (fun k => (1 - p) * ind (eqb (nth k es d) x))) by lia. reflexivity.
        + intros k _. rewrite (Nat.eqb_sym a k). ring.
      - apply qlt_false in Eq. assert (p == 1) by lra.
        rewrite (qsum_zero _ (seq 0 n)); [rewrite H; ring|]. intros k _. destruct (nth i al None); [rewrite H; ring|ring]. }
  rewrite qsum_plus, <- qsum_swap, <- qsum_plus.
  rewrite (qsum_ext _ (fun i => ind (eqb (nth i es d) x) * (nth i ws 0 * (qnat n / qsum (fun q => q) ws)))).
  2:{ intros i Hi. apply in_seq in Hi. rewrite qsum_scale. rewrite <- (Hm i) by lia. unfold keep, received. ring. }
  unfold weight_of. rewrite (combine_sum _ es ws d Hl). cbn [fst snd]. fold n.
  rewrite (qsum_ext _ (fun i => (ind (eqb (nth i es d) x) * nth i ws 0) * (qnat n / qsum (fun q => q) ws))) by (intros; ring).
  rewrite qsum_scale_r. field. destruct Hok as [_ Hs]. pose proof (qnat_pos n Pos). split; lra.
Qed.
End Table.
