From Verif Require Import Base BarrierModel BarrierSpec.
From Coq Require Import ZifyBool ZifyNat Lia.

Lemma file_eqb_eq : forall a b, file_eqb a b = true <-> a = b.
Proof.
  intros [a1 a2] [b1 b2]. unfold file_eqb. cbn. rewrite Bool.andb_true_iff, !Nat.eqb_eq. split; [intros [-> ->]; reflexivity|intros H; injection H; auto].
Qed.

Lemma exists_in : forall f l, exists_file f l = true <-> In f l.
Proof.
  intros f l. unfold exists_file. rewrite existsb_exists. split.
  - intros (x & I & E). apply file_eqb_eq in E. subst. exact I.
  - intros I. exists f. split; [exact I|]. apply file_eqb_eq. reflexivity.
Qed.

Lemma remove_in : forall f l x, In x (remove_file f l) <-> In x l /\ x <> f.
Proof.
  intros f l x. unfold remove_file. rewrite filter_In. split.
  - intros [I E]. split; [exact I|]. intros ->. assert (H : file_eqb f f = true) by (apply file_eqb_eq; reflexivity).
    rewrite H in E. discriminate.
  - intros [I N]. split; [exact I|]. destruct (file_eqb f x) eqn:E; [|reflexivity]. apply file_eqb_eq in E. congruence.
Qed.

Lemma firstn_incl : forall (A : Type) (l : list A) n m x, n <= m -> In x (firstn n l) -> In x (firstn m l).
Proof.
  induction l; intros n m x H I; [rewrite firstn_nil in I; contradiction|].
  destruct n; [contradiction|]. destruct m; [lia|]. cbn in *. destruct I as [->|I]; [auto|]. right. eapply IHl; [|exact I]. lia.
Qed.

Lemma firstn_nth : forall (A : Type) (l : list A) k x y, nth_error l k = Some x ->
  In y (firstn (S k) l) <-> In y (firstn k l) \/ y = x.
Proof.
  induction l; intros k x y H; destruct k; cbn in H; try discriminate.
  - injection H as <-. cbn. intuition.
  - specialize (IHl k x y H). change (firstn (S (S k)) (a :: l)) with (a :: firstn (S k) l). change (firstn (S k) (a :: l)) with (a :: firstn k l).
    cbn [In]. rewrite IHl. tauto.
Qed.

Lemma in_firstn_nth : forall (A : Type) (l : list A) n x, In x (firstn n l) <-> exists i, i < n /\ nth_error l i = Some x.
Proof.
  induction l; intros n x.
  - rewrite firstn_nil. split; [intros []|intros ([|i] & _ & H); discriminate].
  - destruct n; [split; [intros []|intros (i & H & _); lia]|]. cbn [firstn In]. rewrite IHl. split.
    + intros [->|(i & H & E)]; [exists 0; split; [lia|reflexivity]|exists (S i); split; [lia|exact E]].
    + intros ([|i] & H & E); [left; cbn in E; congruence|right; exists i; split; [lia|exact E]].
Qed.

Section Tasks.
Variables (tasks : nat) (prog : nat -> list nat) (stale : list file).
Hypothesis some : 0 < tasks.
Notation step := (step tasks prog).
Notation called := (called prog).
Notation passed := (passed prog).

Record inv (st : state) : Prop := Inv {
  i_ready : leader_ready st -> forall g i, In (g, i) (files st) <-> called st i g;
  i_new : pcs st 0 = New -> files st = stale;
  i_clean : forall todo, pcs st 0 = Clean todo -> incl (files st) todo /\ length todo <= length stale;
  i_idle : ~ leader_ready st -> forall t, t <> 0 -> pcs st t = New \/ pcs st t = Sync 0;
  i_leader : forall t todo, pcs st t = Clean todo -> t = 0;
  i_check : forall t k i, pcs st t = Check k i ->
     i <= tasks /\ exists g, nth_error (prog t) k = Some g /\ forall j, j < i -> called st j g;
  i_sync : forall t k, pcs st t = Sync k -> k <= length (prog t);
  i_pass : forall t g, passed st t g -> forall j, j < tasks -> called st j g }.

Lemma inv_init : inv (init stale).
Proof.
  constructor; unfold init, leader_ready, BarrierSpec.called, BarrierSpec.passed; cbn; intros; try discriminate; try tauto.
Qed.

Lemma set_same : forall st t p, set_pc st t p t = p.
Proof. intros. unfold set_pc. rewrite Nat.eqb_refl. reflexivity. Qed.
Lemma set_other : forall st t p j, j <> t -> set_pc st t p j = pcs st j.
Proof. intros. unfold set_pc. destruct (Nat.eqb_spec j t); [contradiction|reflexivity]. Qed.

Lemma called_mono : forall st fl t p, begun (pcs st t) <= begun p ->
  forall j g, called st j g -> called (State fl (set_pc st t p)) j g.
Proof.
  intros st fl t p H j g C. unfold BarrierSpec.called in *. cbn [pcs]. destruct (Nat.eq_dec j t) as [->|N].
  - rewrite set_same. eapply firstn_incl; eassumption.
  - rewrite set_other by assumption. exact C.
Qed.

Lemma called_same : forall st fl t p, begun p = begun (pcs st t) ->
  forall j g, called (State fl (set_pc st t p)) j g <-> called st j g.
Proof.
  intros st fl t p H j g. unfold BarrierSpec.called. cbn [pcs]. destruct (Nat.eq_dec j t) as [->|N].
  - rewrite set_same, H. tauto.
  - rewrite set_other by assumption. tauto.
Qed.

Lemma passed_same : forall st fl t p, returned p = returned (pcs st t) ->
  forall j g, passed (State fl (set_pc st t p)) j g <-> passed st j g.
Proof.
  intros st fl t p H j g. unfold BarrierSpec.passed. cbn [pcs]. destruct (Nat.eq_dec j t) as [->|N].
  - rewrite set_same, H. tauto.
  - rewrite set_other by assumption. tauto.
Qed.

Lemma ready_set : forall st fl t p, t <> 0 -> leader_ready (State fl (set_pc st t p)) <-> leader_ready st.
Proof. intros. unfold leader_ready. cbn [pcs]. rewrite set_other by auto. tauto. Qed.

(** Nobody has called anything while task 0 is being created. *)
Lemma idle_called : forall st, inv st -> ~ leader_ready st -> forall j g, ~ called st j g.
Proof.
  intros st J N j g. unfold BarrierSpec.called. destruct (Nat.eq_dec j 0) as [->|Nj].
  - unfold leader_ready in N. destruct (pcs st 0); cbn; try tauto.
  - destruct (i_idle _ J N j Nj) as [-> | ->]; cbn; tauto.
Qed.

Lemma inv_step : forall st t st', inv st -> t < tasks -> step st t = Some st' ->
  (t <> 0 -> pcs st t <> New -> leader_ready st) -> inv st'.
Proof.
  intros st t st' J Ht E L. unfold BarrierModel.step in E.
  destruct (pcs st t) as [|todo|k|k i] eqn:P.
  - (* New *)
    injection E as <-. set (p := if t =? 0 then Clean (files st) else Sync 0).
    assert (Hb : begun p = begun (pcs st t)). { rewrite P. unfold p. destruct (t =? 0); reflexivity. }
    assert (Hr : returned p = returned (pcs st t)). { rewrite P. unfold p. destruct (t =? 0); reflexivity. }
    constructor; cbn [files pcs].
    + intros R g i. rewrite (called_same _ _ _ _ Hb). destruct (Nat.eq_dec t 0) as [->|N].
      * unfold leader_ready in R. cbn [pcs] in R. rewrite set_same in R. unfold p in R. cbn in R. contradiction.
      * apply (i_ready _ J). rewrite ready_set in R by exact N. exact R.
    + destruct (Nat.eq_dec t 0) as [->|N]; [rewrite set_same; unfold p; discriminate|]. rewrite set_other by auto. apply (i_new _ J).
    + intros todo. destruct (Nat.eq_dec t 0) as [->|N].
      * rewrite set_same. unfold p. cbn. intros H. injection H as <-. split; [apply incl_refl|]. rewrite (i_new _ J P). lia.
      * rewrite set_other by auto. apply (i_clean _ J).
    + intros N0 j Nj. destruct (Nat.eq_dec j t) as [->|N].
      * rewrite set_same. unfold p. destruct (Nat.eqb_spec t 0); [contradiction|]. auto.
      * rewrite set_other by assumption. destruct (Nat.eq_dec t 0) as [->|Nt].
        -- apply (i_idle _ J); [|exact Nj]. unfold leader_ready. rewrite P. tauto.
        -- apply (i_idle _ J); [|exact Nj]. intros R. apply N0. apply ready_set; auto.
    + intros j todo. destruct (Nat.eq_dec j t) as [->|N].
      * rewrite set_same. unfold p. destruct (Nat.eqb_spec t 0); [auto|discriminate].
      * rewrite set_other by assumption. apply (i_leader _ J).
    + intros j k i. destruct (Nat.eq_dec j t) as [->|N].
      * rewrite set_same. unfold p. destruct (t =? 0); discriminate.
      * rewrite set_other by assumption. intros H. destruct (i_check _ J _ _ _ H) as (A & g & B & C).
        split; [exact A|]. exists g. split; [exact B|]. intros x X. apply called_same; auto.
    + intros j k. destruct (Nat.eq_dec j t) as [->|N].
      * rewrite set_same. unfold p. destruct (t =? 0); [discriminate|]. intros H. injection H as <-. lia.
      * rewrite set_other by assumption. apply (i_sync _ J).
    + intros j g H x X. apply called_same; [exact Hb|]. apply (i_pass _ J j g); [|exact X]. eapply passed_same; [exact Hr|exact H].
  - (* Clean *)
    assert (t = 0) by (eapply (i_leader _ J); exact P). subst t.
    assert (NR : ~ leader_ready st) by (unfold leader_ready; rewrite P; tauto).
    pose proof (idle_called _ J NR) as IC. destruct (i_clean _ J _ P) as [Ic Lc].
    destruct todo as [|f rest]; injection E as <-.
    + constructor; cbn [files pcs].
      * intros _ g i. assert (Hb : begun (Sync 0) = begun (pcs st 0)) by (rewrite P; reflexivity). rewrite (called_same _ _ _ _ Hb). split; [|intros H; contradiction (IC _ _ H)].
        intros H. apply Ic in H. contradiction.
      * rewrite set_same. discriminate.
      * intros todo. rewrite set_same. discriminate.
      * intros N. exfalso. apply N. unfold leader_ready. cbn [pcs]. rewrite set_same. exact I.
      * intros j todo. destruct (Nat.eq_dec j 0) as [->|N]; [auto|]. rewrite set_other by assumption. apply (i_leader _ J).
      * intros j k i. destruct (Nat.eq_dec j 0) as [->|N]; [rewrite set_same; discriminate|]. rewrite set_other by assumption.
        intros H. destruct (i_idle _ J NR j N); congruence.
      * intros j k. destruct (Nat.eq_dec j 0) as [->|N]; [rewrite set_same|rewrite set_other by assumption; apply (i_sync _ J)].
        intros H. injection H as <-. lia.
      * intros j g H. unfold BarrierSpec.passed in H. cbn [pcs] in H. destruct (Nat.eq_dec j 0) as [->|N]; [rewrite set_same in H; contradiction|].
        rewrite set_other in H by assumption. destruct (i_idle _ J NR j N) as [A|A]; rewrite A in H; contradiction.
    + constructor; cbn [files pcs].
      * intros R. unfold leader_ready in R. cbn [pcs] in R. rewrite set_same in R. contradiction.
      * rewrite set_same. discriminate.
      * intros todo. rewrite set_same. intros H. injection H as <-. cbn in Lc. split; [|lia].
        intros x X. apply remove_in in X. destruct X as [X N]. apply Ic in X. destruct X as [X|X]; [congruence|exact X].
      * intros _ j Nj. rewrite set_other by assumption. apply (i_idle _ J NR j Nj).
      * intros j todo. destruct (Nat.eq_dec j 0) as [->|N]; [auto|]. rewrite set_other by assumption. apply (i_leader _ J).
      * intros j k i. destruct (Nat.eq_dec j 0) as [->|N]; [rewrite set_same; discriminate|]. rewrite set_other by assumption.
        intros H. destruct (i_idle _ J NR j N); congruence.
      * intros j k. destruct (Nat.eq_dec j 0) as [->|N]; [rewrite set_same; discriminate|]. rewrite set_other by assumption. apply (i_sync _ J).
      * intros j g H. unfold BarrierSpec.passed in H. cbn [pcs] in H. destruct (Nat.eq_dec j 0) as [->|N]; [rewrite set_same in H; contradiction|].
        rewrite set_other in H by assumption. destruct (i_idle _ J NR j N) as [A|A]; rewrite A in H; contradiction.
  - (* Sync *)
    destruct (nth_error (prog t) k) as [tag|] eqn:G; [|discriminate]. injection E as <-.
    assert (R : leader_ready st). { destruct (Nat.eq_dec t 0) as [->|N]; [unfold leader_ready; rewrite P; exact I|]. apply L; [exact N|discriminate]. }
    assert (Hb : begun (pcs st t) <= begun (Check k 0)) by (rewrite P; cbn; lia).
    assert (Hr : returned (Check k 0) = returned (pcs st t)) by (rewrite P; reflexivity).
    constructor; cbn [files pcs].
    + intros _ g i. cbn [In]. rewrite (i_ready _ J R). unfold BarrierSpec.called. cbn [pcs].
      destruct (Nat.eq_dec i t) as [->|N].
      * rewrite set_same, P. cbn [begun]. rewrite (firstn_nth _ _ _ _ g G). split; [intros [H|H]; [injection H; auto|auto]|intros [H| ->]; auto].
      * rewrite set_other by assumption. split; [intros [H|H]; [injection H; congruence|exact H]|auto].
    + destruct (Nat.eq_dec 0 t) as [<-|N]; [rewrite set_same; discriminate|]. rewrite set_other by assumption. intros H. unfold leader_ready in R. rewrite H in R. contradiction.
    + intros todo. destruct (Nat.eq_dec 0 t) as [<-|N]; [rewrite set_same; discriminate|]. rewrite set_other by assumption. intros H. unfold leader_ready in R. rewrite H in R. contradiction.
    + intros N. exfalso. apply N. unfold leader_ready. cbn [pcs]. destruct (Nat.eq_dec 0 t) as [<-|N0]; [rewrite set_same; exact I|]. rewrite set_other by assumption. exact R.
    + intros j todo. destruct (Nat.eq_dec j t) as [->|N]; [rewrite set_same; discriminate|]. rewrite set_other by assumption. apply (i_leader _ J).
    + intros j k' i. destruct (Nat.eq_dec j t) as [->|N].
      * rewrite set_same. intros H. injection H as <- <-. split; [lia|]. exists tag. split; [exact G|]. lia.
      * rewrite set_other by assumption. intros H. destruct (i_check _ J _ _ _ H) as (A & g & B & C).
        split; [exact A|]. exists g. split; [exact B|]. intros x X. apply called_mono; auto.
    + intros j k'. destruct (Nat.eq_dec j t) as [->|N]; [rewrite set_same; discriminate|]. rewrite set_other by assumption. apply (i_sync _ J).
    + intros j g H x X. apply called_mono; [exact Hb|]. apply (i_pass _ J j g); [|exact X]. eapply passed_same; [exact Hr|exact H].
  - (* Check *)
    destruct (i_check _ J _ _ _ P) as (Hi & g & G & C).
    assert (R : leader_ready st). { destruct (Nat.eq_dec t 0) as [->|N]; [unfold leader_ready; rewrite P; exact I|]. apply L; [exact N|discriminate]. }
    destruct (i <? tasks) eqn:F.
    + rewrite G in E. destruct (exists_file (g, i) (files st)) eqn:X; [|discriminate]. injection E as <-.
      apply exists_in in X. apply (i_ready _ J R) in X.
      assert (Hb : begun (Check k (S i)) = begun (pcs st t)) by (rewrite P; reflexivity).
      assert (Hr : returned (Check k (S i)) = returned (pcs st t)) by (rewrite P; reflexivity).
      constructor; cbn [files pcs].
      * intros _ g' i'. rewrite (called_same _ _ _ _ Hb). apply (i_ready _ J R).
      * destruct (Nat.eq_dec 0 t) as [<-|N]; [rewrite set_same; discriminate|]. rewrite set_other by assumption. apply (i_new _ J).
      * intros todo. destruct (Nat.eq_dec 0 t) as [<-|N]; [rewrite set_same; discriminate|]. rewrite set_other by assumption. apply (i_clean _ J).
      * intros N. exfalso. apply N. unfold leader_ready. cbn [pcs]. destruct (Nat.eq_dec 0 t) as [<-|N0]; [rewrite set_same; exact I|]. rewrite set_other by assumption. exact R.
      * intros j todo. destruct (Nat.eq_dec j t) as [->|N]; [rewrite set_same; discriminate|]. rewrite set_other by assumption. apply (i_leader _ J).
      * intros j k' i'. destruct (Nat.eq_dec j t) as [->|N].
        -- rewrite set_same. intros H. injection H as <- <-. split; [lia|]. exists g. split; [exact G|]. intros x Hx.
           apply called_same; [exact Hb|]. destruct (Nat.eq_dec x i) as [->|Nx]; [exact X|]. apply C. lia.
        -- rewrite set_other by assumption. intros H. destruct (i_check _ J _ _ _ H) as (A & g' & B & D).
           split; [exact A|]. exists g'. split; [exact B|]. intros x Hx. apply called_same; auto.
      * intros j k'. destruct (Nat.eq_dec j t) as [->|N]; [rewrite set_same; discriminate|]. rewrite set_other by assumption. apply (i_sync _ J).
      * intros j g' H x Hx. apply called_same; [exact Hb|]. apply (i_pass _ J j g'); [|exact Hx]. eapply passed_same; [exact Hr|exact H].
    + injection E as <-. assert (i = tasks) by lia. subst i.
      assert (Hb : begun (Sync (S k)) = begun (pcs st t)) by (rewrite P; reflexivity).
      constructor; cbn [files pcs].
      * intros _ g' i'. rewrite (called_same _ _ _ _ Hb). apply (i_ready _ J R).
      * destruct (Nat.eq_dec 0 t) as [<-|N]; [rewrite set_same; discriminate|]. rewrite set_other by assumption. apply (i_new _ J).
      * intros todo. destruct (Nat.eq_dec 0 t) as [<-|N]; [rewrite set_same; discriminate|]. rewrite set_other by assumption. apply (i_clean _ J).
      * intros N. exfalso. apply N. unfold leader_ready. cbn [pcs]. destruct (Nat.eq_dec 0 t) as [<-|N0]; [rewrite set_same; exact I|]. rewrite set_other by assumption. exact R.
      * intros j todo. destruct (Nat.eq_dec j t) as [->|N]; [rewrite set_same; discriminate|]. rewrite set_other by assumption. apply (i_leader _ J).
      * intros j k' i'. destruct (Nat.eq_dec j t) as [->|N]; [rewrite set_same; discriminate|].
        rewrite set_other by assumption. intros H. destruct (i_check _ J _ _ _ H) as (A & g' & B & D).
        split; [exact A|]. exists g'. split; [exact B|]. intros x Hx. apply called_same; auto.
      * intros j k'. destruct (Nat.eq_dec j t) as [->|N]; [rewrite set_same|rewrite set_other by assumption; apply (i_sync _ J)].
        intros H. injection H as <-. assert (k < length (prog t)) by (apply nth_error_Some; congruence). lia.
      * intros j g' H x Hx. apply called_same; [exact Hb|]. unfold BarrierSpec.passed in H. cbn [pcs] in H.
        destruct (Nat.eq_dec j t) as [->|N].
        -- rewrite set_same in H. cbn [returned] in H. apply (firstn_nth _ _ _ _ g' G) in H. destruct H as [H| ->].
           ++ apply (i_pass _ J t g'); [|exact Hx]. unfold BarrierSpec.passed. rewrite P. exact H.
           ++ apply C. exact Hx.
        -- rewrite set_other in H by assumption. apply (i_pass _ J j g'); assumption.
Qed.

Lemma inv_reached : forall m st, reached tasks prog stale m st -> inv st.
Proof. induction 1; [apply inv_init|]. eapply inv_step; eassumption. Qed.

Lemma barrier : forall m st t j g, reached tasks prog stale m st -> j < tasks -> passed st t g -> called st j g.
Proof. intros m st t j g H Hj P. exact (i_pass _ (inv_reached _ _ H) t g P j Hj). Qed.

(** ** No deadlock *)
Lemma bounded_dec : forall (f : nat -> option state) n,
  (exists t st', t < n /\ f t = Some st') \/ (forall t, t < n -> f t = None).
Proof.
  intros f. induction n as [|n [(t & st' & A & B)|IH]].
  - right. lia.
  - left. exists t, st'. split; [lia|exact B].
  - destruct (f n) as [st'|] eqn:E; [left; exists n, st'; split; [lia|exact E]|].
    right. intros t H. destruct (Nat.eq_dec t n) as [->|N]; [exact E|]. apply IH. lia.
Qed.

Lemma blocked_finished : same_tags tasks prog -> forall st, inv st -> (forall t, t < tasks -> step st t = None) ->
  forall t, t < tasks -> finished prog st t.
Proof.
  intros (rank & Same & Inj & Mono) st J B.
  assert (Cases : forall t, t < tasks -> finished prog st t \/ exists k i, pcs st t = Check k i).
  { intros t Ht. specialize (B t Ht). unfold BarrierModel.step in B. destruct (pcs st t) as [|[|f r]|k|k i] eqn:P; try discriminate.
    - left. destruct (nth_error (prog t) k) eqn:E; [discriminate|]. apply nth_error_None in E. pose proof (i_sync _ J _ _ P).
      unfold finished. rewrite P. f_equal. lia.
    - right. eauto. }
  assert (R : leader_ready st).
  { unfold leader_ready. destruct (Cases 0 some) as [F|(k & i & F)]; [unfold finished in F|]; rewrite F; exact I. }
  assert (K : forall r t k i g, t < tasks -> pcs st t = Check k i -> nth_error (prog t) k = Some g -> rank g = r -> False).
  { induction r as [r IH] using lt_wf_ind. intros t k i g Ht P G Hr.
    pose proof (B t Ht) as Bt. unfold BarrierModel.step in Bt. rewrite P, G in Bt.
    destruct (i <? tasks) eqn:F; [|discriminate]. assert (Hi : i < tasks) by lia.
    destruct (exists_file (g, i) (files st)) eqn:X; [discriminate|].
    assert (NC : ~ called st i g). { intros C. apply (i_ready _ J R) in C. apply exists_in in C. congruence. }
    assert (Gi : In g (prog i)) by (apply (Same t i g Ht Hi); eapply nth_error_In; exact G).
    destruct (Cases i Hi) as [Fi|(k' & i' & P')].
    - apply NC. unfold BarrierSpec.called. unfold finished in Fi. rewrite Fi. cbn [begun]. rewrite firstn_all. exact Gi.
    - destruct (i_check _ J _ _ _ P') as (_ & g' & G' & _).
      destruct (In_nth_error _ _ Gi) as [q Q].
      assert (Hq : k' < q). { destruct (Nat.lt_ge_cases k' q) as [|Le]; [assumption|]. exfalso. apply NC. unfold BarrierSpec.called. rewrite P'. cbn [begun].
        apply in_firstn_nth. exists q. split; [lia|exact Q]. }
      pose proof (Mono i k' q g' g Hi ltac:(lia) G' Q) as Le.
      destruct (Nat.eq_dec (rank g') (rank g)) as [Eq|Ne].
      + apply NC. assert (g' = g). { apply (Inj i g' g Hi); [eapply nth_error_In; exact G'|exact Gi|exact Eq]. } subst g'.
        unfold BarrierSpec.called. rewrite P'. cbn [begun]. apply in_firstn_nth. exists k'. split; [lia|exact G'].
      + apply (IH (rank g') ltac:(lia) i k' i' g' Hi P' G' eq_refl). }
  intros t Ht. destruct (Cases t Ht) as [F|(k & i & P)]; [exact F|]. exfalso.
  destruct (i_check _ J _ _ _ P) as (_ & g & G & _). exact (K _ t k i g Ht P G eq_refl).
Qed.

Lemma not_blocked : same_tags tasks prog -> forall m st, reached tasks prog stale m st ->
  (forall t, t < tasks -> finished prog st t) \/ exists st', reached tasks prog stale (S m) st'.
Proof.
  intros Sm m st H. pose proof (inv_reached _ _ H) as J.
  destruct (pcs st 0) as [|todo|k0|k0 i0] eqn:P0.
  - right. eexists. eapply (reached_step _ _ _ _ _ 0); [exact H|exact some|unfold BarrierModel.step; rewrite P0; reflexivity|congruence].
  - right. destruct todo as [|f r]; eexists; (eapply (reached_step _ _ _ _ _ 0); [exact H|exact some|unfold BarrierModel.step; rewrite P0; reflexivity|congruence]).
  - destruct (bounded_dec (step st) tasks) as [(t & st' & A & B)|B]; [right|left; apply blocked_finished; assumption].
    exists st'. eapply reached_step; [exact H|exact A|exact B|]. intros _ _. unfold leader_ready. rewrite P0. exact I.
  - destruct (bounded_dec (step st) tasks) as [(t & st' & A & B)|B]; [right|left; apply blocked_finished; assumption].
    exists st'. eapply reached_step; [exact H|exact A|exact B|]. intros _ _. unfold leader_ready. rewrite P0. exact I.
Qed.

(** ** A bound on the accesses *)
Definition left_over (t : nat) (p : pc) : nat :=
  match p with
  | New => length (prog t) * (tasks + 2) + 1 + (if t =? 0 then S (length stale) else 0)
  | Clean todo => length (prog t) * (tasks + 2) + 1 + length todo
  | Sync k => (length (prog t) - k) * (tasks + 2)
  | Check k i => (length (prog t) - k) * (tasks + 2) - 1 - i
  end.
Definition total (st : state) (n : nat) : nat := list_sum (map (fun t => left_over t (pcs st t)) (seq 0 n)).

Lemma total_set : forall st fl t p n,
  (t < n -> total (State fl (set_pc st t p)) n + left_over t (pcs st t) = total st n + left_over t p)
  /\ (n <= t -> total (State fl (set_pc st t p)) n = total st n).
Proof.
  intros st fl t p. unfold total. cbn [pcs]. induction n as [|n [IH1 IH2]]; [split; [lia|reflexivity]|].
  rewrite !seq_S, !map_app, !list_sum_app. cbn [map list_sum fold_right]. rewrite !Nat.add_0_r. split; intros H.
  - destruct (Nat.eq_dec t n) as [<-|N].
    + rewrite set_same, IH2 by lia. cbn [plus]. lia.
    + rewrite set_other by auto. specialize (IH1 ltac:(lia)). cbn [plus]. lia.
  - rewrite set_other, IH2 by lia. reflexivity.
Qed.

Lemma step_total : forall st t st', inv st -> t < tasks -> step st t = Some st' -> total st' tasks < total st tasks.
Proof.
  intros st t st' J Ht E. unfold BarrierModel.step in E.
  assert (T : forall fl p, st' = State fl (set_pc st t p) -> left_over t p < left_over t (pcs st t) -> total st' tasks < total st tasks).
  { intros fl p -> L. pose proof (proj1 (total_set st fl t p tasks) Ht). lia. }
  destruct (pcs st t) as [|todo|k|k i] eqn:P.
  - injection E as <-. eapply T; [reflexivity|]. cbn [left_over]. destruct (Nat.eqb_spec t 0) as [->|N]; cbn [left_over].
    + rewrite (i_new _ J P). lia.
    + lia.
  - destruct todo as [|f r]; injection E as <-; (eapply T; [reflexivity|]); cbn [left_over length]; lia.
  - destruct (nth_error (prog t) k) eqn:G; [|discriminate]. injection E as <-. eapply T; [reflexivity|]. cbn [left_over].
    assert (k < length (prog t)) by (apply nth_error_Some; congruence).
    assert (1 * (tasks + 2) <= (length (prog t) - k) * (tasks + 2)) by (apply Nat.mul_le_mono_r; lia). lia.
  - destruct (i_check _ J _ _ _ P) as (Hi & g & G & _).
    assert (k < length (prog t)) by (apply nth_error_Some; congruence).
    replace (length (prog t) - k) with (S (length (prog t) - S k)) in T by lia.
    destruct (i <? tasks) eqn:F.
    + rewrite G in E. destruct (exists_file _ _); [|discriminate]. injection E as <-. eapply T; [reflexivity|]. cbn [left_over].
      assert (1 * (tasks + 2) <= (length (prog t) - k) * (tasks + 2)) by (apply Nat.mul_le_mono_r; lia). lia.
    + injection E as <-. eapply T; [reflexivity|]. cbn [left_over].
      replace (length (prog t) - k) with (S (length (prog t) - S k)) by lia. rewrite Nat.mul_succ_l. lia.
Qed.

Lemma reached_total : forall m st, reached tasks prog stale m st -> m + total st tasks <= total (init stale) tasks.
Proof.
  induction 1 as [|m st t st' H IH Ht E L]; [lia|].
  pose proof (step_total st t st' (inv_reached _ _ H) Ht E). lia.
Qed.

Lemma total_init : forall n, total (init stale) n =
  list_sum (map (fun t => length (prog t) * (tasks + 2) + 1) (seq 0 n)) + (if n =? 0 then 0 else S (length stale)).
Proof.
  induction n as [|n IH]; [reflexivity|]. unfold total in *. cbn [pcs init left_over] in *.
  rewrite !seq_S, !map_app, !list_sum_app, IH. cbn [map list_sum fold_right plus]. destruct n; cbn [Nat.eqb]; lia.
Qed.

Lemma accesses : forall m st, reached tasks prog stale m st ->
  m <= S (length stale) + list_sum (map (fun t => length (prog t) * (tasks + 2) + 1) (seq 0 tasks)).
Proof.
  intros m st H. pose proof (reached_total _ _ H) as T. rewrite total_init in T. destruct (Nat.eqb_spec tasks 0); lia.
Qed.
End Tasks.
