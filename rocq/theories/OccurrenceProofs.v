(** How often an element shows up in a sample with replacement. *)
From Coq Require Import Lqa Permutation.
From Verif Require Import Base Dist WriterModel WriterProofs ConvertProofs AliasModel AliasProofs SamplerModel SamplerProofs MultinomialProofs.
Local Open Scope Q_scope.

Section Occ.
Context {A : Type} (eqb : A -> A -> bool).

(** Number of slots that hold [x]. *)
Definition occ (x : A) (l : list (option A)) : nat :=
  length (filter (fun o => match o with Some y => eqb y x | None => false end) l).
Definition times (x : A) (r : res (list Z * list (option A))) : Q :=
  match r with Ok y => qnat (occ x (snd y)) | Fail _ => 0 end.

Lemma occ_app x a b : occ x (a ++ b) = (occ x a + occ x b)%nat.
Proof. unfold occ. now rewrite filter_app, app_length. Qed.
Lemma occ_none x n : occ x (repeat None n) = 0%nat.
Proof. unfold occ. induction n as [|n IH]; cbn [repeat filter]; auto. Qed.

(** A partition sampler whose slots hold [x] with probability [q]. *)
Definition draws_with {T} (take : T -> nat -> dist (list (option A))) (x : A) (tab : T) (q : Q) : Prop :=
  forall c, ex (take tab c) (fun _ => 1) == 1 /\ ex (take tab c) (fun l => qnat (occ x l)) == qnat c * q.

Lemma weighted_draws x (t : list (arec A)) : draws_with take_weighted x t (pr (alias_sample t) (fun a => eqb a x)).
Proof.
  intros c. destruct t as [|r0 t0] eqn:E.
  - destruct c as [|c]; cbn [take_weighted]; rewrite !ex_ret; [split; [reflexivity|]; change (occ x []) with 0%nat; rewrite qnat_0; ring|].
    split; [reflexivity|]. change (repeat None (S c)) with (repeat (@None A) (S c)). rewrite occ_none.
    unfold pr, alias_sample. rewrite ex_bind. cbn [length]. unfold duniform, ex at 1. cbn [seq map qsum]. rewrite qnat_0. ring.
  - rewrite <- E. assert (Mass : ex (alias_sample t) (fun _ => 1) == 1).
    { unfold alias_sample. rewrite ex_bind, ex_uniform. rewrite (qsum_ext _ (fun _ => 1)).
      - rewrite qsum_const, seq_length. assert (0 < qnat (length t)) by (apply qnat_pos; subst t; cbn [length]; lia). field. lra.
      - intros i Hi. apply in_seq in Hi. destruct (nth_error t i) as [r|] eqn:Er; [|apply nth_error_None in Er; lia].
        rewrite ex_bind, ex_flip, !ex_ret. ring. }
    assert (Nn : t <> []) by (subst t; discriminate). clear E. induction c as [|c [IH1 IH2]].
    + cbn [take_weighted]. rewrite !ex_ret. split; [reflexivity|]. change (occ x []) with 0%nat. rewrite qnat_0. ring.
    + assert (St : take_weighted t (S c) = dbind (alias_sample t) (fun a => dbind (take_weighted t c) (fun l => dret (Some a :: l))))
        by (destruct t; [congruence|reflexivity]).
      rewrite St, !ex_bind. split.
      * rewrite (ex_ext_all (alias_sample t) _ (fun _ => 1)); [exact Mass|]. intros a. rewrite ex_bind.
        transitivity (ex (take_weighted t c) (fun _ => 1)); [apply ex_ext_all; intros; rewrite ex_ret; reflexivity|]. exact IH1.
      * rewrite (ex_ext_all (alias_sample t) _ (fun a => ind (eqb a x) + (qnat c * pr (alias_sample t) (fun a => eqb a x)) * 1)).
        -- rewrite ex_plus, ex_scale, Mass, qnat_S. unfold pr. ring.
        -- intros a. rewrite ex_bind.
           rewrite (ex_ext_all (take_weighted t c) _ (fun l => ind (eqb a x) * 1 + qnat (occ x l))).
           ++ rewrite ex_plus, ex_scale, IH1, IH2. ring.
           ++ intros l. rewrite ex_ret. unfold occ. cbn [filter]. destruct (eqb a x); cbn [length ind]; [rewrite qnat_S|]; ring.
Qed.

Lemma uniform_draws x (rs : list A) : draws_with take_uniform x rs (qnat (occ x (map Some rs)) / qnat (length rs)).
Proof.
  intros c. destruct rs as [|r0 t0] eqn:E.
  - destruct c as [|c]; cbn [take_uniform]; rewrite !ex_ret; [split; [reflexivity|]; change (occ x []) with 0%nat; rewrite qnat_0; ring|].
    split; [reflexivity|]. change (repeat None (S c)) with (repeat (@None A) (S c)). rewrite occ_none. cbn [map occ filter length]. rewrite qnat_0. unfold Qdiv. ring.
  - rewrite <- E. assert (Pos : 0 < qnat (length rs)) by (apply qnat_pos; subst rs; cbn [length]; lia).
    assert (Nn : rs <> []) by (subst rs; discriminate). 
    assert (Sum : qsum (fun i => match nth_error rs i with Some y => ind (eqb y x) | None => 0 end) (seq 0 (length rs)) == qnat (occ x (map Some rs))).
    { clear. induction rs as [|r rs IH]; cbn [length seq qsum map occ filter]; [reflexivity|].
      rewrite <- seq_shift, qsum_map. cbn [nth_error]. rewrite IH. unfold occ. destruct (eqb r x); cbn [length ind]; [rewrite qnat_S|]; ring. }
    clear E. induction c as [|c [IH1 IH2]].
    + cbn [take_uniform]. rewrite !ex_ret. split; [reflexivity|]. change (occ x []) with 0%nat. rewrite qnat_0. ring.
    + assert (St : take_uniform rs (S c) = dbind (duniform (length rs)) (fun i => dbind (take_uniform rs c) (fun l => dret (nth_error rs i :: l))))
        by (destruct rs; [congruence|reflexivity]).
      rewrite St, !ex_bind. split.
      * rewrite (ex_ext_all (duniform (length rs)) _ (fun _ => 1)); [rewrite ex_uniform, qsum_const, seq_length; field; lra|]. intros a. rewrite ex_bind.
        transitivity (ex (take_uniform rs c) (fun _ => 1)); [apply ex_ext_all; intros; rewrite ex_ret; reflexivity|]. exact IH1.
      * rewrite (ex_ext_all (duniform (length rs)) _ (fun i => (match nth_error rs i with Some y => ind (eqb y x) | None => 0 end) + (qnat c * (qnat (occ x (map Some rs)) / qnat (length rs))) * 1)).
        -- rewrite ex_plus, ex_scale, !ex_uniform, Sum, qsum_const, seq_length, qnat_S. field. lra.
        -- intros i. rewrite ex_bind.
           rewrite (ex_ext_all (take_uniform rs c) _ (fun l => (match nth_error rs i with Some y => ind (eqb y x) | None => 0 end) * 1 + qnat (occ x l))).
           ++ rewrite ex_plus, ex_scale, IH1, IH2. ring.
           ++ intros l. rewrite ex_ret. unfold occ. cbn [filter]. destruct (nth_error rs i) as [y|]; [destruct (eqb y x)|]; cbn [length ind]; [rewrite qnat_S| |]; ring.
Qed.

Section Fill.
Context {T : Type} (take : T -> nat -> dist (list (option A))) (x : A) (q : T -> Q) (tabs : list (list T)).
Hypothesis good : forall tab, draws_with take x tab (q tab).

(** Probability of [x] in the sampler of partition [p] of type number [i]. *)
Definition chance (d : nat * nat) : Q :=
  match (do ps <- get tabs (fst d) ;; get ps (snd d)) with Ok tab => q tab | Fail _ => 0 end.
Definition inside (i p : nat) : Prop := exists ps tab, nth_error tabs i = Some ps /\ nth_error ps p = Some tab.

Lemma fill_expect chunks : Forall (fun c => inside (fst (fst c)) (snd (fst c))) chunks ->
  ex (fill_random take tabs chunks) (fun _ => 1) == 1 /\
  ex (fill_random take tabs chunks) (fun r => match r with Ok l => qnat (occ x l) | Fail _ => 0 end)
  == qsum (fun c => qnat (snd c) * chance (fst c)) chunks /\
  (forall r, In r (map fst (fill_random take tabs chunks)) -> exists l, r = Ok l).
Proof.
  induction 1 as [|[[i p] c] chunks (ps & tab & H1 & H2) H (IH1 & IH2 & IH3)]; cbn [fst snd] in *.
  - cbn [fill_random qsum]. rewrite !ex_ret. split; [reflexivity|]. split; [reflexivity|].
    intros r Hr. destruct Hr as [<-|[]]. cbn. eauto.
  - cbn [fill_random qsum fst snd]. unfold chance at 1. cbn [fst snd]. unfold get at 1 2 3 4 5 6. rewrite H1. cbn [bind]. unfold get. rewrite H2. cbn [bind].
    destruct (good tab c) as [G1 G2]. split; [|split].
    + rewrite ex_bind. rewrite (ex_ext_all (take tab c) _ (fun _ => 1)); [exact G1|]. intros l. rewrite ex_bind.
      transitivity (ex (fill_random take tabs chunks) (fun _ => 1)); [apply ex_ext_all; intros; rewrite ex_ret; reflexivity|]. exact IH1.
    + rewrite ex_bind.
      set (V := qsum (fun c => qnat (snd c) * chance (fst c)) chunks) in *.
      rewrite (ex_ext_all (take tab c) _ (fun l => qnat (occ x l) + V * 1)).
      * rewrite ex_plus, ex_scale, G1, G2. ring.
      * intros l. rewrite ex_bind.
        rewrite (ex_ext (fill_random take tabs chunks) _ (fun r => qnat (occ x l) * 1 + match r with Ok l' => qnat (occ x l') | Fail _ => 0 end)).
        -- rewrite ex_plus, ex_scale, IH1, IH2. ring.
        -- intros r Hr. destruct (IH3 r Hr) as (l' & ->). rewrite ex_ret. cbn [bind]. rewrite occ_app, qnat_add. ring.
    + intros r Hr. apply in_map_iff in Hr as ([r' w] & <- & Hr). cbn [fst]. unfold dbind in Hr. unfold get in Hr. rewrite H1 in Hr. cbn [bind] in Hr. rewrite H2 in Hr.
      apply in_flat_map in Hr as ([l v] & _ & Hr). apply in_map_iff in Hr as ([r'' w'] & E & Hr). cbn [fst snd] in *. injection E as -> _.
      apply in_flat_map in Hr as ([r1 v1] & Hr1 & Hr). apply in_map_iff in Hr as ([r2 v2] & E & Hr). cbn [fst snd] in *. injection E as -> _.
      destruct Hr as [Hr|[]]. injection Hr as <- _. destruct (IH3 r1) as (l' & ->); [apply in_map_iff; exists (r1, v1); auto|]. cbn [bind]. eauto.
Qed.

(** Adding up the chunks of a plan is adding up the draws. *)
Definition in_shape (types : list (Z * list Q)) (d : nat * nat) : Prop :=
  exists t, nth_error types (fst d) = Some t /\ (snd d < length (snd t))%nat.

Lemma plan_value types ds (g : nat * nat -> Q) : Forall (in_shape types) ds ->
  qsum (fun c => qnat (snd c) * g (fst c)) (snd (plan_of types ds)) == qsum g ds.
Proof.
  intros H. cbn [plan_of snd]. rewrite qsum_flat_map.
  rewrite (qsum_ext _ (fun r => qsum (fun p => qnat (pair_draws (fst r) p ds) * g (fst r, p)) (seq 0 (length (snd (snd r)))))).
  2:{ intros r _. rewrite qsum_flat_map. apply qsum_ext. intros p _. destruct (Nat.eqb_spec (pair_draws (fst r) p ds) 0) as [->|N].
      - cbn [qsum]. rewrite qnat_0. ring.
      - cbn [qsum fst snd]. ring. }
  induction H as [|d ds (t & Hd1 & Hd2) H IH].
  - cbn [qsum]. apply qsum_zero. intros r _. apply qsum_zero. intros p _. unfold pair_draws. cbn [filter length]. rewrite qnat_0. ring.
  - cbn [qsum]. rewrite <- IH.
    rewrite (qsum_ext _ (fun r => qsum (fun p => ind (pair_is (fst r) p d) * g (fst r, p)) (seq 0 (length (snd (snd r)))) +
                                  qsum (fun p => qnat (pair_draws (fst r) p ds) * g (fst r, p)) (seq 0 (length (snd (snd r)))))).
    2:{ intros r _. rewrite <- qsum_plus. apply qsum_ext. intros p _. unfold pair_draws. cbn [filter].
        destruct (pair_is (fst r) p d); cbn [length ind]; [rewrite qnat_S|]; ring. }
    rewrite qsum_plus. apply Qplus_comp; [|reflexivity].
    rewrite (qsum_ext _ (fun r => ind (fst r =? fst d)%nat * (fun r => qsum (fun p => ind (snd d =? p)%nat * g (fst r, p)) (seq 0 (length (snd (snd r))))) r)).
    2:{ intros r _. cbv beta. rewrite <- qsum_scale. apply qsum_ext. intros p _. unfold pair_is. rewrite (Nat.eqb_sym (fst d)).
        destruct (fst r =? fst d)%nat; cbn [andb]; unfold ind; destruct (snd d =? p)%nat; ring. }
    set (h := fun r : nat * (Z * list Q) => qsum (fun p => ind (snd d =? p)%nat * g (fst r, p)) (seq 0 (length (snd (snd r))))).
    transitivity (h (fst d, t)).
    + assert (G : forall (types : list (Z * list Q)) a i, nth_error types i = Some t ->
         qsum (fun r => ind (fst r =? a + i)%nat * h r) (combine (seq a (length types)) types) == h ((a + i)%nat, t)).
      { clear. induction types as [|t0 types IH]; intros a i Hi; [destruct i; discriminate|].
        cbn [length seq combine qsum fst]. destruct i as [|i]; cbn [nth_error] in Hi.
        - injection Hi as ->. rewrite Nat.add_0_r, Nat.eqb_refl. rewrite qsum_zero; [cbn [ind]; ring|].
          intros [b t1] Hb. apply in_combine_l in Hb. apply in_seq in Hb. cbn [fst].
          replace (b =? a)%nat with false by (symmetry; apply Nat.eqb_neq; lia). cbn [ind]. ring.
        - replace (a =? a + S i)%nat with false by (symmetry; apply Nat.eqb_neq; lia).
          replace (a + S i)%nat with (S a + i)%nat by lia. rewrite (IH (S a) i Hi). cbn [ind]. ring. }
      apply (G types 0%nat (fst d) Hd1).
    + unfold h. cbn [fst snd].
      rewrite (qsum_ext _ (fun p => ind (p =? snd d)%nat * (fun p => g (fst d, p)) p)) by (intros; rewrite Nat.eqb_sym; reflexivity).
      rewrite qsum_pick by exact Hd2. destruct d; reflexivity.
Qed.

Lemma draws_support {B} (d : dist B) n : forall ds, In ds (map fst (draws n d)) -> Forall (fun b => In b (map fst d)) ds /\ length ds = n.
Proof.
  induction n as [|n IH]; intros ds H; cbn [draws] in H.
  - destruct H as [<-|[]]. split; [constructor|reflexivity].
  - apply in_map_iff in H as ([r w] & <- & H). cbn [fst]. unfold dbind in H. apply in_flat_map in H as ([b v] & Hb & H).
    apply in_map_iff in H as ([r' w'] & E & H). cbn [fst snd] in *. injection E as -> _.
    apply in_flat_map in H as ([l u] & Hl & H). apply in_map_iff in H as ([r2 v2] & E & H). cbn [fst snd] in *. injection E as -> _.
    destruct H as [H|[]]. injection H as <- _. destruct (IH l) as [F L]; [apply in_map_iff; exists (l, u); auto|]. split; [|cbn [length]; lia].
    constructor; [apply in_map_iff; exists (b, v); auto|exact F].
Qed.
Lemma draws_sum {B} (d : dist B) n (g : B -> Q) : ex d (fun _ => 1) == 1 ->
  ex (draws n d) (fun _ => 1) == 1 /\ ex (draws n d) (fun ds => qsum g ds) == qnat n * ex d g.
Proof.
  intros M. induction n as [|n [IH1 IH2]].
  - cbn [draws]. rewrite !ex_ret. split; [reflexivity|]. cbn [qsum]. rewrite qnat_0. ring.
  - rewrite !ex_draws. split.
    + rewrite (ex_ext_all d _ (fun _ => 1)) by (intros; exact IH1). exact M.
    + rewrite (ex_ext_all d _ (fun a => g a + (qnat n * ex d g) * 1)).
      * rewrite ex_plus, ex_scale, M, qnat_S. ring.
      * intros a. cbn [qsum]. rewrite (ex_ext_all (draws n d) _ (fun l => g a * 1 + qsum g l)) by (intros; ring).
        rewrite ex_plus, ex_scale, IH1, IH2. ring.
Qed.

Lemma pick_support types d : In d (map fst (pick_pair (map (@snd Z (list Q)) types))) -> in_shape types d.
Proof.
  unfold pick_pair. generalize (grand (map snd types)). intros W H. apply in_map_iff in H as ([d' w] & <- & H).
  apply in_flat_map in H as ([i ws] & Hi & H). apply in_map_iff in H as ([p v] & E & H). cbn [fst snd] in *. injection E as <- _.
  apply in_combine_l in H. apply in_seq in H.
  assert (G : forall l a, In (i, ws) (combine (seq a (length l)) l) -> exists k, i = (a + k)%nat /\ nth_error l k = Some ws).
  { clear. induction l as [|v l IH]; intros a H; [destruct H|]. cbn [length seq combine] in H. destruct H as [E|H].
    - injection E as -> ->. exists 0%nat. split; [lia|reflexivity].
    - destruct (IH _ H) as (k & -> & Hk). exists (S k). split; [lia|exact Hk]. }
  destruct (G _ _ Hi) as (k & -> & Hk). rewrite nth_error_map in Hk. destruct (nth_error types k) as [t|] eqn:Et; [|discriminate].
  cbn [option_map] in Hk. injection Hk as <-. exists t. cbn [fst snd Nat.add]. split; [exact Et|lia].
Qed.

(** The expected number of slots holding [x]. *)
Theorem expected_times types size :
  Forall (fun t => Forall (fun w => 0 <= w) (snd t) /\ snd t <> []) types -> 0 < grand (map snd types) ->
  map (@length T) tabs = map (fun t => length (snd t)) types ->
  ex (sample_with take types tabs size) (fun _ => 1) == 1 /\
  ex (sample_with take types tabs size) (times x) == qnat size * (wsum2 (map snd types) chance / grand (map snd types)).
Proof.
  intros H Wpos Dim. unfold sample_with.
  set (d := pick_pair (map snd types)).
  assert (Md : ex d (fun _ => 1) == 1) by (unfold d; rewrite ex_pick_pair, wsum2_one; field; lra).
  assert (In_range : forall ds, In ds (map fst (draws size d)) -> Forall (in_shape types) ds).
  { intros ds Hds. apply draws_support in Hds as [F _]. eapply Forall_impl; [|exact F]. cbn. intros a Ha. now apply pick_support. }
  assert (Ok_chunks : forall ds, Forall (in_shape types) ds -> Forall (fun c => inside (fst (fst c)) (snd (fst c))) (snd (plan_of types ds))).
  { intros ds _. rewrite Forall_forall. intros c Hc. cbn [plan_of snd] in Hc. apply in_flat_map in Hc as ([i t] & Hi & Hc).
    apply in_flat_map in Hc as (p & Hp & Hc). cbn [fst snd] in *. destruct (pair_draws i p ds =? 0)%nat; [destruct Hc|]. destruct Hc as [<-|[]]. cbn [fst snd].
    apply in_seq in Hp.
    assert (G : forall l a, In (i, t) (combine (seq a (length l)) l) -> exists k, i = (a + k)%nat /\ nth_error l k = Some t).
    { clear. induction l as [|v l IH]; intros a H; [destruct H|]. cbn [length seq combine] in H. destruct H as [E|H].
      - injection E as -> ->. exists 0%nat. split; [lia|reflexivity].
      - destruct (IH _ H) as (k & -> & Hk). exists (S k). split; [lia|exact Hk]. }
    destruct (G _ _ Hi) as (k & -> & Hk). cbn [Nat.add].
    assert (Hl : nth_error (map (@length T) tabs) k = Some (length (snd t))) by (rewrite Dim, nth_error_map, Hk; reflexivity).
    rewrite nth_error_map in Hl. destruct (nth_error tabs k) as [ps|] eqn:Ek; [|discriminate]. cbn [option_map] in Hl. injection Hl as Hl.
    destruct (nth_error ps p) as [tab|] eqn:Ep; [|apply nth_error_None in Ep; lia]. exists ps, tab. auto. }
  split.
  - rewrite ex_bind. rewrite (plan_law types size) by assumption. fold d.
    rewrite (ex_ext (draws size d) _ (fun _ => 1)); [apply (draws_sum d size (fun _ => 0) Md)|].
    intros ds Hds. apply In_range in Hds. rewrite ex_bind.
    transitivity (ex (fill_random take tabs (snd (plan_of types ds))) (fun _ => 1)); [apply ex_ext_all; intros; rewrite ex_ret; reflexivity|].
    apply fill_expect. now apply Ok_chunks.
  - rewrite ex_bind. rewrite (plan_law types size) by assumption. fold d.
    rewrite (ex_ext (draws size d) _ (fun ds => qsum chance ds)).
    + destruct (draws_sum d size chance Md) as [_ ->]. unfold d. rewrite ex_pick_pair. reflexivity.
    + intros ds Hds. apply In_range in Hds. rewrite ex_bind.
      destruct (fill_expect (snd (plan_of types ds)) (Ok_chunks ds Hds)) as (_ & F & _).
      rewrite <- (plan_value types ds chance Hds), <- F.
      apply ex_ext_all. intros r. rewrite ex_ret. destruct r; reflexivity.
Qed.
End Fill.
End Occ.
