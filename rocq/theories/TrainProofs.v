From Verif Require Import Base TrainModel TrainSpec.
From Coq Require Import Sorting.Sorted Permutation ZifyBool ZifyNat.
Local Open Scope Z_scope.
Local Arguments key : simpl never.
Local Arguments ckey : simpl never.

(** ** Order of names *)
Lemma leb_refl : forall a, leb a a = true.
Proof. induction a; cbn; [reflexivity|]. rewrite Z.ltb_irrefl. exact IHa. Qed.

Lemma leb_total : forall a b, leb a b = true \/ leb b a = true.
Proof.
  induction a; destruct b; cbn; auto.
  destruct (a <? z) eqn:E; destruct (z <? a) eqn:E2; auto.
Qed.

Lemma leb_trans : forall a b c, leb a b = true -> leb b c = true -> leb a c = true.
Proof.
  induction a; destruct b; destruct c; cbn; auto; try discriminate.
  destruct (a <? z) eqn:E; destruct (z <? a) eqn:E1; destruct (z <? z0) eqn:E2; destruct (z0 <? z) eqn:E3;
    destruct (a <? z0) eqn:E4; destruct (z0 <? a) eqn:E5; intros; try discriminate; try lia; auto.
  eapply IHa; eassumption.
Qed.

Fixpoint fixed (w : nat) (n : Z) : list Z :=
  match w with O => [] | S k => fixed k (n / 10) ++ [n mod 10] end.

Lemma fixed_length : forall w n, length (fixed w n) = w.
Proof. induction w; intros; cbn; [reflexivity|]. rewrite app_length, IHw. cbn. lia. Qed.

Lemma fixed_zero : forall w, fixed w 0 = repeat 0 w.
Proof.
  induction w; cbn; [reflexivity|]. change (0 / 10) with 0. change (0 mod 10) with 0. rewrite IHw.
  change [0] with (repeat 0 1). rewrite <- repeat_app. rewrite Nat.add_1_r. reflexivity.
Qed.

Lemma fixed_pad : forall k j n, 0 <= n < 10 ^ Z.of_nat k -> fixed (j + k) n = repeat 0 j ++ fixed k n.
Proof.
  induction k; intros j n H.
  - cbn in H. assert (n = 0) as -> by lia. rewrite Nat.add_0_r, app_nil_r. apply fixed_zero.
  - rewrite Nat.add_succ_r. cbn [fixed]. rewrite (IHk j (n / 10)).
    + rewrite app_assoc. reflexivity.
    + rewrite Nat2Z.inj_succ, Z.pow_succ_r in H by lia. split; [apply Z.div_pos; lia|]. apply Z.div_lt_upper_bound; lia.
Qed.

Lemma digits_fixed : forall fuel n, 0 <= n < 2 ^ Z.of_nat fuel -> (0 < fuel)%nat ->
  digits fuel n = fixed (length (digits fuel n)) n /\ n < 10 ^ Z.of_nat (length (digits fuel n)).
Proof.
  induction fuel; intros n H F; [lia|]. cbn [digits]. destruct (n <? 10) eqn:E.
  - cbn. rewrite Z.mod_small by lia. split; [reflexivity|lia].
  - rewrite Nat2Z.inj_succ, Z.pow_succ_r in H by lia.
    assert (Hf : (0 < fuel)%nat). { destruct fuel; [cbn in H; lia|lia]. }
    assert (Hq : 0 <= n / 10 < 2 ^ Z.of_nat fuel). { split; [apply Z.div_pos; lia|]. apply Z.div_lt_upper_bound; lia. }
    destruct (IHfuel (n / 10) Hq Hf) as [A B].
    rewrite app_length. cbn [length]. rewrite Nat.add_1_r. cbn [fixed]. rewrite <- A. split; [reflexivity|].
    rewrite Nat2Z.inj_succ, Z.pow_succ_r by lia. pose proof (Z.div_mod n 10). pose proof (Z.mod_pos_bound n 10). lia.
Qed.

Lemma digits_fuel : forall n, 0 <= n -> n < 2 ^ Z.of_nat (S (Z.to_nat (Z.log2 n))).
Proof.
  intros n H. destruct (Z.eq_dec n 0) as [->|N]; [cbn; lia|].
  pose proof (Z.log2_spec n ltac:(lia)) as [_ L]. pose proof (Z.log2_nonneg n).
  replace (Z.of_nat (S (Z.to_nat (Z.log2 n)))) with (Z.succ (Z.log2 n)) by lia. exact L.
Qed.

Lemma digits_short : forall w fuel n, 0 <= n < 10 ^ Z.of_nat w -> (0 < w)%nat -> (length (digits fuel n) <= w)%nat.
Proof.
  induction w; intros fuel n H W; [lia|]. destruct fuel; cbn; [lia|].
  destruct (n <? 10) eqn:E; [cbn; lia|]. rewrite app_length. cbn [length].
  rewrite Nat2Z.inj_succ, Z.pow_succ_r in H by lia.
  assert (0 < w)%nat. { destruct w; [cbn in H; lia|lia]. }
  specialize (IHw fuel (n / 10)). enough (length (digits fuel (n / 10)) <= w)%nat by lia. apply IHw; [|assumption].
  split; [apply Z.div_pos; lia|]. apply Z.div_lt_upper_bound; lia.
Qed.

Lemma fmt_fixed : forall w n, (0 < w)%nat -> 0 <= n < 10 ^ Z.of_nat w -> fmt w n = fixed w n.
Proof.
  intros w n W H. unfold fmt. set (fu := S (Z.to_nat (Z.log2 n))).
  pose proof (digits_fuel n ltac:(lia)) as L. fold fu in L.
  destruct (digits_fixed fu n ltac:(lia) ltac:(lia)) as [A B]. pose proof (digits_short w fu n H W) as C.
  rewrite A at 2. rewrite <- fixed_pad by lia. f_equal. lia.
Qed.

Lemma leb_app : forall a a' b b', length a = length a' ->
  leb (a ++ b) (a' ++ b') = (leb a a' && (negb (leb a' a) || leb b b')).
Proof.
  induction a; destruct a'; intros b b' L; cbn in L; try lia; cbn.
  - reflexivity.
  - destruct (a <? z) eqn:E; destruct (z <? a) eqn:E2; cbn; try reflexivity; try lia. apply IHa. lia.
Qed.

Lemma leb_one : forall x y, leb [x] [y] = (x <=? y).
Proof. intros. cbn. destruct (x <? y) eqn:E; destruct (y <? x) eqn:F; lia. Qed.

Lemma leb_fixed : forall w x y, 0 <= x < 10 ^ Z.of_nat w -> 0 <= y < 10 ^ Z.of_nat w ->
  leb (map (Z.add 48) (fixed w x)) (map (Z.add 48) (fixed w y)) = (x <=? y).
Proof.
  induction w; intros x y X Y.
  - cbn in *. lia.
  - cbn [fixed]. rewrite !map_app, leb_app by (rewrite !map_length, !fixed_length; reflexivity).
    rewrite Nat2Z.inj_succ, Z.pow_succ_r in X, Y by lia.
    assert (Qx : 0 <= x / 10 < 10 ^ Z.of_nat w). { split; [apply Z.div_pos; lia|]. apply Z.div_lt_upper_bound; lia. }
    assert (Qy : 0 <= y / 10 < 10 ^ Z.of_nat w). { split; [apply Z.div_pos; lia|]. apply Z.div_lt_upper_bound; lia. }
    rewrite !IHw by assumption. cbn [map]. rewrite leb_one.
    pose proof (Z.div_mod x 10 ltac:(lia)). pose proof (Z.div_mod y 10 ltac:(lia)).
    pose proof (Z.mod_pos_bound x 10 ltac:(lia)). pose proof (Z.mod_pos_bound y 10 ltac:(lia)). lia.
Qed.

(** Within the widths of the format the order of the names is the order of the points. *)
Lemma leb_key : forall e s e' s', 0 <= e < 1000 -> 0 <= e' < 1000 -> 0 <= s < 1000000 -> 0 <= s' < 1000000 ->
  leb (key e s) (key e' s') = true <-> earlier (e, s) (e', s').
Proof.
  intros e s e' s' H1 H2 H3 H4. unfold key, earlier. cbn [fst snd].
  change 1000 with (10 ^ Z.of_nat 3) in H1, H2. change 1000000 with (10 ^ Z.of_nat 6) in H3, H4.
  rewrite !fmt_fixed by lia.
  rewrite leb_app by (rewrite !map_length, !fixed_length; reflexivity).
  rewrite !leb_fixed by assumption. cbn [leb]. rewrite Z.ltb_irrefl. rewrite leb_fixed by assumption. lia.
Qed.

Section Sorting.
Context {weights : Type}.
Notation ckpt := (ckpt weights).
Notation ckey := (ckey weights).
Notation insert := (insert weights).
Notation sorted := (sorted weights).
Definition ord (a b : ckpt) : Prop := leb (ckey a) (ckey b) = true.

Lemma insert_perm : forall c l, Permutation (insert c l) (c :: l).
Proof.
  induction l; cbn; [reflexivity|]. destruct (leb _ _); [reflexivity|].
  rewrite IHl. apply perm_swap.
Qed.

Lemma sorted_perm : forall l, Permutation (sorted l) l.
Proof. induction l; cbn; [reflexivity|]. rewrite insert_perm. rewrite IHl. reflexivity. Qed.

Lemma insert_sorted : forall c l, StronglySorted ord l -> StronglySorted ord (insert c l).
Proof.
  induction l; intros H; cbn; [repeat constructor|]. inversion H as [|? ? Ht Hf]; subst.
  destruct (leb (ckey c) (ckey a)) eqn:E.
  - constructor; [assumption|]. constructor; [exact E|]. eapply Forall_impl; [|exact Hf].
    intros x Hx. unfold ord in *. eapply leb_trans; eassumption.
  - constructor; [auto|]. rewrite insert_perm. constructor; [|assumption].
    unfold ord. destruct (leb_total (ckey c) (ckey a)); congruence.
Qed.

Lemma sorted_sorted : forall l, StronglySorted ord (sorted l).
Proof. induction l; cbn; [constructor|]. apply insert_sorted; assumption. Qed.

Lemma sorted_id : forall l, StronglySorted ord l -> sorted l = l.
Proof.
  induction l; intros H; [reflexivity|]. inversion H as [|? ? Ht Hf]; subst.
  change (sorted (a :: l)) with (insert a (sorted l)). rewrite IHl by assumption.
  destruct l; cbn; [reflexivity|]. inversion Hf as [|? ? H1 H2]; subst. unfold ord in H1. rewrite H1. reflexivity.
Qed.

Lemma sorted_app : forall a b, StronglySorted ord (a ++ b) -> forall x y, In x a -> In y b -> ord x y.
Proof.
  induction a; intros b H x y X Y; [contradiction|]. cbn in H. inversion H as [|? ? Ht Hf]; subst.
  destruct X as [->|X]; [|eauto]. rewrite Forall_forall in Hf. apply Hf. rewrite in_app_iff. auto.
Qed.

Lemma sorted_skipn : forall k l, StronglySorted ord l -> StronglySorted ord (skipn k l).
Proof. induction k; intros l H; [exact H|]. destruct l; [exact H|]. cbn. apply IHk. inversion H; assumption. Qed.

Lemma loads_in : forall (d : list ckpt) (c : ckpt), loads d c -> In c d.
Proof.
  intros d c [l H]. eapply Permutation_in; [apply sorted_perm|]. rewrite H, in_app_iff. right. left. reflexivity.
Qed.

Lemma loads_max : forall (d : list ckpt) (c x : ckpt), loads d c -> In x d -> ord x c.
Proof.
  intros d c x [l H] I. pose proof (sorted_sorted d) as Ss. rewrite H in Ss.
  assert (In x (l ++ [c])) as J. { rewrite <- H. eapply Permutation_in; [symmetry; apply sorted_perm|exact I]. }
  rewrite in_app_iff in J. destruct J as [J|[->|[]]].
  - eapply sorted_app; [exact Ss|exact J|left; reflexivity].
  - apply leb_refl.
Qed.

Lemma loads_some : forall d : list ckpt, d <> [] -> exists c, loads d c.
Proof.
  intros d H. destruct (sorted d) as [|x t] eqn:E.
  - exfalso. apply H. apply Permutation_nil. rewrite <- E. apply sorted_perm.
  - destruct (exists_last (l := x :: t)) as (l & c & L); [discriminate|]. exists c, l. rewrite E. exact L.
Qed.

Lemma rotate_split : forall m (d : list ckpt), 0 < m ->
  exists gone, Permutation d (gone ++ rotate _ m d) /\ Z.of_nat (length (rotate _ m d)) <= m
    /\ (length (rotate _ m d) = Nat.min (Z.to_nat m) (length d))%nat
    /\ (forall x y, In x gone -> In y (rotate _ m d) -> ord x y).
Proof.
  intros m d M. unfold rotate. destruct ((0 <? m) && (m <? Z.of_nat (length d))) eqn:E.
  - exists (firstn (length d - Z.to_nat m) (sorted d)).
    pose proof (Permutation_length (sorted_perm d)) as L.
    refine (conj _ (conj _ (conj _ _))).
    + rewrite firstn_skipn. symmetry. apply sorted_perm.
    + rewrite skipn_length, L. lia.
    + rewrite skipn_length, L. lia.
    + apply sorted_app. rewrite firstn_skipn. apply sorted_sorted.
  - exists []. refine (conj _ (conj _ (conj _ _))); [reflexivity| lia | lia | intros x y []].
Qed.

Lemma rotate_in : forall m (d : list ckpt) x, In x (rotate _ m d) -> In x d.
Proof.
  intros m d x. unfold rotate. destruct (_ && _); [|auto]. intros H.
  eapply Permutation_in; [apply sorted_perm|]. rewrite <- (firstn_skipn (length d - Z.to_nat m) (sorted d)), in_app_iff. auto.
Qed.

Lemma rotate_loads : forall m (d : list ckpt) (c : ckpt), loads d c -> loads (rotate _ m d) c.
Proof.
  intros m d c [l H]. unfold rotate. destruct (_ && _) eqn:E; [|exists l; exact H].
  pose proof (Permutation_length (sorted_perm d)) as L. rewrite H, app_length in L. cbn in L.
  exists (skipn (length d - Z.to_nat m) l). rewrite sorted_id by (apply sorted_skipn, sorted_sorted).
  rewrite H, skipn_app. f_equal. replace (_ - length l)%nat with O by lia. reflexivity.
Qed.

Lemma put_in : forall (c : ckpt) d x, In x (put _ c d) -> x = c \/ In x d.
Proof. intros c d x. unfold put. rewrite in_app_iff, filter_In. cbn. intuition. Qed.

Lemma put_new : forall (c : ckpt) d, In c (put _ c d).
Proof. intros. unfold put. rewrite in_app_iff. right. left. reflexivity. Qed.

Lemma start_loads : forall (O : Type) (w0 : weights) (o0 : O) (d : list ckpt) (c : ckpt), loads d c ->
  start _ _ w0 o0 d = (c_epoch _ c, State _ _ (c_step _ c) (c_weights _ c) o0 0 d []).
Proof. intros O w0 o0 d c [l H]. unfold start. rewrite H, rev_app_distr. reflexivity. Qed.
End Sorting.

Section Training.
Context {batch weights optimizer : Type}.
Variable update : weights -> optimizer -> option nat -> batch -> weights * optimizer.
Variable cfg : config.
Notation save := (save weights optimizer cfg).
Notation one_step := (one_step _ _ _ update cfg).
Notation batches := (batches _ _ _ update cfg).
Notation one_epoch := (one_epoch _ _ _ update cfg).
Notation epochs := (epochs _ _ _ update).
Notation limit := (max_steps cfg).
Notation state := (state weights optimizer).

Definition inner (st : state) := (model _ _ st, opt _ _ st, position _ _ st).

Lemma save_inner : forall e st, inner (save e st) = inner st /\ step _ _ (save e st) = step _ _ st.
Proof. intros. unfold save. destruct (_ && _); split; reflexivity. Qed.

Lemma step_inner : forall e b st,
  inner (one_step e b st) = train_all update (0 <? limit) (inner st) [b] /\ step _ _ (one_step e b st) = step _ _ st + 1.
Proof.
  intros. unfold one_step. cbv zeta.
  match goal with |- context [if ?c then TrainModel.save _ _ _ _ ?s else _] => destruct c; [destruct (save_inner e s) as [A B]; rewrite A, B|] end;
    unfold train_all, inner; cbn; rewrite <- surjective_pairing; split; reflexivity.
Qed.

Lemma batches_skip : forall e l1 l2 i st, i + Z.of_nat (length l1) <= step _ _ st ->
  batches e i (l1 ++ l2) st = batches e (i + Z.of_nat (length l1)) l2 st.
Proof.
  induction l1; intros l2 i st H; cbn [app length] in *.
  - rewrite Z.add_0_r. reflexivity.
  - cbn [TrainModel.batches]. destruct (i <? step _ _ st) eqn:E; [|lia]. rewrite IHl1 by lia. f_equal. lia.
Qed.

Lemma batches_done : forall e l i st, i + Z.of_nat (length l) <= step _ _ st -> batches e i l st = st.
Proof. intros. rewrite <- (app_nil_r l). rewrite batches_skip by lia. reflexivity. Qed.

(** The batches that are left after the first [i]. *)
Definition rest (i : Z) (l : list batch) : list batch := if 0 <? limit then firstn (Z.to_nat (limit - i)) l else l.

Lemma batches_inner : forall e l i st, step _ _ st = i -> 0 <= i -> (0 < limit -> i < limit) ->
  inner (batches e i l st) = train_all update (0 <? limit) (inner st) (rest i l)
  /\ step _ _ (batches e i l st) = i + Z.of_nat (length (rest i l)).
Proof.
  induction l; intros i st H P L.
  - unfold rest. destruct (0 <? limit); [rewrite firstn_nil|]; cbn; split; [reflexivity|lia|reflexivity|lia].
  - cbn [TrainModel.batches]. rewrite H, Z.ltb_irrefl. cbv zeta. destruct (step_inner e a st) as [A B].
    unfold should_stop. rewrite B, H. unfold rest. destruct (0 <? limit) eqn:E; cbn [andb].
    + destruct (limit <=? i + 1) eqn:F.
      * replace (Z.to_nat (limit - i)) with 1%nat by lia. cbn [firstn length]. rewrite A, B. split; [reflexivity|lia].
      * replace (Z.to_nat (limit - i)) with (S (Z.to_nat (limit - (i + 1)))) by lia. cbn [firstn length].
        destruct (IHl (i + 1) (one_step e a st)) as [C D]; [lia|lia|lia|].
        unfold rest in C, D. rewrite E in C, D. rewrite C, D, A. split; [reflexivity|lia].
    + destruct (IHl (i + 1) (one_step e a st)) as [C D]; [lia|lia|lia|].
      unfold rest in C, D. rewrite E in C, D. rewrite C, D, A. cbn [length]. split; [reflexivity|lia].
Qed.

Lemma rest_zero : forall l, rest 0 l = taken limit l.
Proof. intros. unfold rest, taken. rewrite Z.sub_0_r. reflexivity. Qed.

Hypothesis saves : rank0 cfg = true -> save_by_epochs cfg <> 0.

Lemma one_epoch_ok : forall e l st, exists st', one_epoch e l st = Ok st' /\ step _ _ st' = 0
  /\ inner st' = inner (batches e 0 l st).
Proof.
  intros. unfold one_epoch. cbv zeta. destruct (rank0 cfg) eqn:Er.
  - destruct (save_by_epochs cfg =? 0) eqn:E; [exfalso; apply saves; [reflexivity|lia]|].
    eexists. split; [reflexivity|]. destruct (e mod save_by_epochs cfg =? 0); [|split; reflexivity].
    match goal with |- context [TrainModel.save _ _ _ ?e ?s] => destruct (save_inner e s) as [A B] end.
    rewrite A, B. split; reflexivity.
  - eexists. split; [reflexivity|]. split; reflexivity.
Qed.

Lemma train_all_app : forall b x l1 l2, train_all update b x (l1 ++ l2) = train_all update b (train_all update b x l1) l2.
Proof. intros. unfold train_all. apply fold_left_app. Qed.

Lemma epochs_inner : forall data n k e st, step _ _ st = 0 ->
  exists st', epochs data cfg n k e st = Ok st'
    /\ inner st' = train_all update (0 <? limit) (inner st) (flat_map (fun j => taken limit (data j)) (seq k n)).
Proof.
  induction n; intros k e st H.
  - exists st. split; reflexivity.
  - destruct (one_epoch_ok e (data k) st) as (s1 & A & B & C).
    destruct (IHn (S k) (e + 1) s1 B) as (s2 & D & F).
    exists s2. cbn [TrainModel.epochs]. rewrite A. cbn [bind]. split; [exact D|].
    rewrite F, C. destruct (batches_inner e (data k) 0 st H) as [G _]; [lia|lia|].
    rewrite G, rest_zero. cbn [seq flat_map]. rewrite train_all_app. reflexivity.
Qed.

Lemma run_fresh : forall data w0 o0, exists st, run _ _ _ update data cfg w0 o0 [] = Ok st
  /\ inner st = train_all update (0 <? limit) (w0, o0, O)
       (flat_map (fun k => taken limit (data k)) (seq 0 (Z.to_nat (num_epochs cfg)))).
Proof.
  intros. unfold run, start. cbn [sorted fold_right rev fst snd]. rewrite Z.sub_0_r.
  destruct (epochs_inner data (Z.to_nat (num_epochs cfg)) 0 0 (State _ _ 0 w0 o0 0 [] [])) as (st & A & B); [reflexivity|].
  exists st. split; assumption.
Qed.

(** ** Interrupted training *)
Variable f : weights -> batch -> weights.
Variable l : list batch.
Variable w0 : weights.
Hypothesis memoryless : forall w o p b, (limit <= 0 -> p = None) -> fst (update w o p b) = f w b.
Hypothesis nonneg : 0 <= num_epochs cfg.

Notation at_ := (weights_at f w0 (taken limit l)).

(** A checkpoint of the training. *)
Definition valid_point (e s : Z) : Prop :=
  0 <= e /\ 0 <= s <= Z.of_nat (length (taken limit l)) /\ (0 < limit -> s < limit)
  /\ (e < num_epochs cfg \/ e = num_epochs cfg /\ s = 0).
Definition valid (c : ckpt weights) : Prop :=
  valid_point (c_epoch _ c) (c_step _ c) /\ c_weights _ c = at_ (c_epoch _ c) (c_step _ c).
Definition good (d : list (ckpt weights)) : Prop := forall c, In c d -> valid c.

(** Everything on disk is valid, no later than (e, s), and what is loaded never goes back. *)
Definition bounded (e s : Z) (d : list (ckpt weights)) : Prop := forall c, In c d -> earlier (point c) (e, s).
Definition goes_on (x y : list (ckpt weights)) : Prop :=
  forall c, loads x c -> exists c', loads y c' /\ earlier (point c) (point c').
Definition small : Prop := num_epochs cfg < 1000 /\ Z.of_nat (length (taken limit l)) < 1000000.

Record inv (d0 : list (ckpt weights)) (e : Z) (st : state) : Prop := Inv {
  inv_good : forall d, In d (d0 :: dir _ _ st :: past _ _ st) -> good d;
  inv_bound : small -> forall d, In d (d0 :: dir _ _ st :: past _ _ st) -> bounded e (step _ _ st) d;
  inv_order : small -> forall a b x y, d0 :: past _ _ st = a ++ b -> In x a -> In y b -> goes_on x y;
  inv_last : small -> last (d0 :: past _ _ st) [] = dir _ _ st }.

Lemma earlier_trans : forall p q r, earlier p q -> earlier q r -> earlier p r.
Proof. unfold earlier. intros. lia. Qed.

Lemma inv_move : forall d0 e st e' st', inv d0 e st -> dir _ _ st' = dir _ _ st -> past _ _ st' = past _ _ st ->
  earlier (e, step _ _ st) (e', step _ _ st') -> inv d0 e' st'.
Proof.
  intros d0 e st e' st' [A B C D] Hd Hp H. constructor; rewrite ?Hd, ?Hp; auto.
  intros S1 d I c J. eapply earlier_trans; [eapply B; eassumption|exact H].
Qed.

Lemma valid_small : forall c, small -> valid c -> 0 <= c_epoch _ c < 1000 /\ 0 <= c_step _ c < 1000000.
Proof. unfold small, valid, valid_point. intros. lia. Qed.

Lemma ord_earlier : forall c c', small -> valid c -> valid c' -> ord c c' <-> earlier (point c) (point c').
Proof.
  intros c c' S1 V V'. destruct (valid_small c S1 V). destruct (valid_small c' S1 V').
  unfold ord, ckey, point. apply leb_key; assumption.
Qed.

Lemma loads_eq : forall d c c', @loads weights d c -> loads d c' -> c = c'.
Proof.
  intros d c c' [a A] [b B]. rewrite A in B. apply app_inj_tail in B. apply B.
Qed.

Lemma put_loads : forall c d, small -> good d -> valid c -> bounded (c_epoch _ c) (c_step _ c) d -> loads (put _ c d) c.
Proof.
  intros c d S1 G V Bd.
  destruct (loads_some (put _ c d)) as [x X]. { intros E. pose proof (put_new c d) as P. rewrite E in P. contradiction. }
  pose proof (loads_max _ _ _ X (put_new c d)) as M. pose proof (loads_in _ _ X) as I.
  unfold put in I. rewrite in_app_iff, filter_In in I. destruct I as [[I N]|[<-|[]]]; [|exact X]. exfalso.
  apply ord_earlier in M; [|assumption|assumption|auto].
  specialize (Bd _ I). unfold earlier, point in *. cbn [fst snd] in *. lia.
Qed.

Lemma save_inv : forall d0 e st, inv d0 e st ->
  ((0 <? limit) && (step _ _ st =? limit) = false -> valid_point e (step _ _ st)) -> model _ _ st = at_ e (step _ _ st) ->
  inv d0 e (save e st)
  /\ ((0 <? limit) && (step _ _ st =? limit) = false -> small ->
      loads (dir _ _ (save e st)) (Ck _ e (step _ _ st) (model _ _ st))).
Proof.
  intros d0 e st [A B C D] V M. unfold save. destruct (_ && _); [split; [constructor; auto|discriminate]|]. specialize (V eq_refl).
  set (c := Ck _ e (step _ _ st) (model _ _ st)). assert (Vc : valid c) by (split; assumption).
  assert (G1 : good (put _ c (dir _ _ st))). { intros x I. destruct (put_in _ _ _ I) as [->|J]; [exact Vc|]. eapply A; [|exact J]. right; left; reflexivity. }
  assert (B1 : small -> bounded e (step _ _ st) (put _ c (dir _ _ st))).
  { intros S1 x I. destruct (put_in _ _ _ I) as [->|J]; [unfold earlier, point; cbn; lia|]. eapply (B S1); [|exact J]. right; left; reflexivity. }
  assert (G2 : good (rotate _ (max_saved cfg) (put _ c (dir _ _ st)))). { intros x I. apply G1. eapply rotate_in; exact I. }
  assert (B2 : small -> bounded e (step _ _ st) (rotate _ (max_saved cfg) (put _ c (dir _ _ st)))). { intros S1 x I. apply (B1 S1). eapply rotate_in; exact I. }
  assert (Hin : forall d, In d (d0 :: rotate _ (max_saved cfg) (put _ c (dir _ _ st)) :: past _ _ st ++ [put _ c (dir _ _ st); rotate _ (max_saved cfg) (put _ c (dir _ _ st))]) ->
    In d (d0 :: dir _ _ st :: past _ _ st) \/ d = put _ c (dir _ _ st) \/ d = rotate _ (max_saved cfg) (put _ c (dir _ _ st))).
  { intros d. cbn. rewrite in_app_iff. cbn. intuition. }
  assert (L1 : small -> loads (put _ c (dir _ _ st)) c).
  { intros S1. apply put_loads; auto. - apply A. right; left; reflexivity. - apply (B S1). right; left; reflexivity. }
  assert (L2 : small -> loads (rotate _ (max_saved cfg) (put _ c (dir _ _ st))) c) by (intros S1; apply rotate_loads; auto).
  split; [|intros _; exact L2].
  constructor; cbn [dir past step].
  - intros d I. destruct (Hin d I) as [J|[->| ->]]; auto.
  - intros S1 d I. destruct (Hin d I) as [J|[->| ->]]; auto.
  - intros S1 a b x y E X Y. specialize (L1 S1). specialize (L2 S1).
    assert (Hold : forall x z, In x (d0 :: past _ _ st) -> loads z c -> goes_on x z).
    { intros x' z X' Z' c' Lc. exists c. split; [exact Z'|]. apply (B S1 x'); [destruct X' as [->|X']; [left; reflexivity|right; right; exact X']|]. apply loads_in; exact Lc. }
    assert (Hnew : goes_on (put _ c (dir _ _ st)) (rotate _ (max_saved cfg) (put _ c (dir _ _ st)))).
    { intros c' Lc. rewrite (loads_eq _ _ _ Lc L1). exists c. split; [exact L2|]. unfold earlier. lia. }
    change (d0 :: past _ _ st ++ ?z) with ((d0 :: past _ _ st) ++ z) in E.
    destruct (app_eq_app _ _ _ _ E) as (m & [[E1 E2]|[E1 E2]]).
    + destruct m as [|z m].
      * cbn in E2. rewrite app_nil_r in E1. subst a. rewrite E2 in Y.
        apply Hold; [exact X|]. destruct Y as [<-|[<-|[]]]; assumption.
      * rewrite E2, in_app_iff in Y. destruct Y as [Y|Y].
        -- eapply (C S1 a (z :: m)); [exact E1|exact X|exact Y].
        -- apply Hold; [rewrite E1, in_app_iff; left; exact X|]. destruct Y as [<-|[<-|[]]]; assumption.
    + rewrite E1, in_app_iff in X.
      assert (Yb : y = put _ c (dir _ _ st) \/ y = rotate _ (max_saved cfg) (put _ c (dir _ _ st))).
      { assert (I : In y (m ++ b)) by (rewrite in_app_iff; right; exact Y). rewrite <- E2 in I. destruct I as [<-|[<-|[]]]; auto. }
      destruct X as [X|X].
      * apply Hold; [exact X|]. destruct Yb as [->| ->]; assumption.
      * destruct m as [|m1 [|m2 m]]; [contradiction| |].
        -- cbn in E2. injection E2 as E3 E4. destruct X as [<-|[]]. subst m1. rewrite <- E4 in Y.
           destruct Y as [<-|[]]. exact Hnew.
        -- cbn in E2. injection E2 as E3 E4 E5. symmetry in E5. apply app_eq_nil in E5. destruct E5 as [_ ->]. contradiction.
  - intros _. change (d0 :: past _ _ st ++ ?z) with ((d0 :: past _ _ st) ++ z).
    change [put _ c (dir _ _ st); rotate _ (max_saved cfg) (put _ c (dir _ _ st))] with ([put _ c (dir _ _ st)] ++ [rotate _ (max_saved cfg) (put _ c (dir _ _ st))]).
    rewrite app_assoc, last_last. reflexivity.
Qed.

Lemma taken_whole : forall pre, l = pre -> (0 < limit -> Z.of_nat (length pre) < limit) -> taken limit l = l.
Proof. intros pre -> H. unfold taken. destruct (0 <? limit) eqn:E; [|reflexivity]. apply firstn_all2. lia. Qed.

Lemma taken_firstn : forall pre b suf, l = pre ++ b :: suf -> (0 < limit -> Z.of_nat (length pre) < limit) ->
  firstn (length pre) (taken limit l) = pre /\ firstn (S (length pre)) (taken limit l) = pre ++ [b]
  /\ (S (length pre) <= length (taken limit l))%nat.
Proof.
  intros pre b suf E H. unfold taken. destruct (0 <? limit) eqn:F.
  - assert (K : exists k, Z.to_nat limit = (length pre + S k)%nat) by (exists (Z.to_nat limit - S (length pre))%nat; lia).
    destruct K as [k K]. rewrite E, K, firstn_app_2. change (firstn (S k) (b :: suf)) with (b :: firstn k suf).
    refine (conj _ (conj _ _)).
    + rewrite firstn_app, firstn_all, Nat.sub_diag. cbn. apply app_nil_r.
    + rewrite firstn_app, firstn_all2 by lia. replace (S (length pre) - length pre)%nat with 1%nat by lia. reflexivity.
    + rewrite app_length. cbn. lia.
  - rewrite E. refine (conj _ (conj _ _)).
    + rewrite firstn_app, firstn_all, Nat.sub_diag. cbn. apply app_nil_r.
    + rewrite firstn_app, firstn_all2 by lia. replace (S (length pre) - length pre)%nat with 1%nat by lia. reflexivity.
    + rewrite app_length. cbn. lia.
Qed.

Lemma at_step : forall e pre b suf, l = pre ++ b :: suf -> (0 < limit -> Z.of_nat (length pre) < limit) ->
  at_ e (Z.of_nat (length pre) + 1) = f (at_ e (Z.of_nat (length pre))) b.
Proof.
  intros e pre b suf E H. destruct (taken_firstn _ _ _ E H) as (A & B & _). unfold weights_at.
  replace (Z.to_nat (Z.of_nat (length pre) + 1)) with (S (length pre)) by lia. rewrite Nat2Z.id, A, B.
  rewrite app_assoc, fold_left_app. reflexivity.
Qed.

Lemma at_epoch : forall e, 0 <= e -> at_ e (Z.of_nat (length (taken limit l))) = at_ (e + 1) 0.
Proof.
  intros e H. unfold weights_at. rewrite Nat2Z.id, firstn_all. cbn [firstn Z.to_nat]. rewrite app_nil_r.
  replace (Z.to_nat (e + 1)) with (Z.to_nat e + 1)%nat by lia. rewrite repeat_app, concat_app. cbn. rewrite app_nil_r. reflexivity.
Qed.

Lemma one_step_inv : forall d0 e pre b suf st, l = pre ++ b :: suf -> step _ _ st = Z.of_nat (length pre) ->
  (0 < limit -> Z.of_nat (length pre) < limit) -> 0 <= e < num_epochs cfg ->
  model _ _ st = at_ e (Z.of_nat (length pre)) -> inv d0 e st ->
  inv d0 e (one_step e b st) /\ model _ _ (one_step e b st) = at_ e (Z.of_nat (length pre) + 1)
  /\ step _ _ (one_step e b st) = Z.of_nat (length pre) + 1.
Proof.
  intros d0 e pre b suf st E H L He M J. destruct (step_inner e b st) as [In1 St1]. rewrite H in St1.
  assert (M1 : model _ _ (one_step e b st) = at_ e (Z.of_nat (length pre) + 1)).
  { rewrite (at_step e pre b suf E L), <- M. change (model _ _ (one_step e b st)) with (fst (fst (inner (one_step e b st)))).
    rewrite In1. unfold train_all. cbn. apply memoryless. intros K. destruct (0 <? limit) eqn:F; [lia|reflexivity]. }
  split; [|split; assumption]. unfold one_step in *. cbv zeta in *.
  match goal with |- context [if ?c then TrainModel.save _ _ _ _ ?s else _] => set (s1 := s) in * end.
  match goal with |- context [if ?c then TrainModel.save _ _ _ _ _ else _] => destruct c end.
  - refine (proj1 (save_inv d0 e s1 _ _ _)).
    + eapply inv_move; [exact J|reflexivity|reflexivity|]. unfold earlier. cbn. lia.
    + cbn. rewrite H. intros K. destruct (taken_firstn _ _ _ E L) as (_ & _ & T). unfold valid_point. lia.
    + destruct (save_inner e s1) as [A B]. assert (Am : model _ _ (save e s1) = model _ _ s1) by (injection A; auto).
      rewrite Am in M1. rewrite M1. cbn. rewrite H. reflexivity.
  - eapply inv_move; [exact J|reflexivity|reflexivity|]. unfold earlier. cbn. lia.
Qed.

Lemma batches_inv : forall d0 e suf pre st, l = pre ++ suf -> step _ _ st = Z.of_nat (length pre) ->
  (0 < limit -> Z.of_nat (length pre) < limit) -> 0 <= e < num_epochs cfg ->
  model _ _ st = at_ e (Z.of_nat (length pre)) -> inv d0 e st ->
  inv d0 e (batches e (Z.of_nat (length pre)) suf st)
  /\ model _ _ (batches e (Z.of_nat (length pre)) suf st) = at_ e (Z.of_nat (length (taken limit l))).
Proof.
  induction suf; intros pre st E H L He M J.
  - cbn. split; [exact J|]. rewrite app_nil_r in E. rewrite M. f_equal. rewrite (taken_whole pre E L), E. reflexivity.
  - cbn [TrainModel.batches]. rewrite H, Z.ltb_irrefl. cbv zeta.
    destruct (one_step_inv d0 e pre a suf st E H L He M J) as (A & B & C).
    destruct (should_stop _ _ cfg (one_step e a st)) eqn:F.
    + split; [exact A|]. rewrite B. f_equal. unfold should_stop in F. rewrite C in F.
      destruct (taken_firstn _ _ _ E L) as (_ & _ & T). unfold taken in *. destruct (0 <? limit) eqn:G; [|discriminate].
      rewrite firstn_length in *. lia.
    + unfold should_stop in F. rewrite C in F.
      replace (Z.of_nat (length pre) + 1) with (Z.of_nat (length (pre ++ [a]))) in * by (rewrite app_length; cbn; lia).
      apply IHsuf; auto; [rewrite <- app_assoc; exact E|lia].
Qed.

Lemma one_epoch_inv : forall d0 e st, valid_point e (step _ _ st) -> e < num_epochs cfg ->
  model _ _ st = at_ e (step _ _ st) -> inv d0 e st ->
  exists st', one_epoch e l st = Ok st' /\ step _ _ st' = 0 /\ model _ _ st' = at_ (e + 1) 0 /\ inv d0 (e + 1) st'
    /\ (rank0 cfg = true -> e mod save_by_epochs cfg = 0 -> small ->
        loads (dir _ _ st') (Ck _ (e + 1) 0 (at_ (e + 1) 0))).
Proof.
  intros d0 e st V He M J. destruct V as (V1 & V2 & V3 & V4).
  set (s := step _ _ st) in *.
  assert (Ls : Z.of_nat (length (firstn (Z.to_nat s) l)) = s).
  { rewrite firstn_length. unfold taken in V2. destruct (0 <? limit); [rewrite firstn_length in V2|]; lia. }
  assert (Eb : batches e 0 l st = batches e s (skipn (Z.to_nat s) l) st).
  { rewrite <- (firstn_skipn (Z.to_nat s) l) at 1. rewrite batches_skip by (fold s; lia). f_equal. lia. }
  destruct (batches_inv d0 e (skipn (Z.to_nat s) l) (firstn (Z.to_nat s) l) st) as [A B]; rewrite ?Ls; auto.
  { symmetry. apply firstn_skipn. }
  rewrite Ls, <- Eb in A, B. rewrite at_epoch in B by lia.
  unfold one_epoch. cbv zeta.
  set (s1 := State _ _ 0 (model _ _ (batches e 0 l st)) (opt _ _ (batches e 0 l st)) (position _ _ (batches e 0 l st))
               (dir _ _ (batches e 0 l st)) (past _ _ (batches e 0 l st))).
  assert (A1 : inv d0 (e + 1) s1). { eapply inv_move; [exact A|reflexivity|reflexivity|]. unfold earlier. cbn. lia. }
  assert (Vp : valid_point (e + 1) 0) by (unfold valid_point; lia).
  assert (Sv : inv d0 (e + 1) (save (e + 1) s1) /\ ((0 <? limit) && (0 =? limit) = false -> small ->
    loads (dir _ _ (save (e + 1) s1)) (Ck _ (e + 1) 0 (model _ _ s1)))).
  { apply (save_inv d0 (e + 1) s1); auto. }
  destruct Sv as [S1 S2].
  destruct (rank0 cfg) eqn:Er.
  - destruct (save_by_epochs cfg =? 0) eqn:E; [exfalso; apply saves; [reflexivity|lia]|].
    eexists. split; [reflexivity|]. destruct (e mod save_by_epochs cfg =? 0) eqn:E0.
    + destruct (save_inner (e + 1) s1) as [I1 I2]. rewrite I2.
      assert (Im : model _ _ (save (e + 1) s1) = model _ _ s1) by (injection I1; auto). rewrite Im.
      refine (conj eq_refl (conj B (conj S1 _))). intros _ _ Sm. cbn [s1 model] in S2. rewrite B in S2. apply S2; [lia|exact Sm].
    + refine (conj eq_refl (conj B (conj A1 _))). lia.
  - eexists. split; [reflexivity|]. refine (conj eq_refl (conj B (conj A1 _))). discriminate.
Qed.

Variable data : nat -> list batch.
Hypothesis same : forall k, data k = l.

Lemma epochs_inv : forall d0 n k e st, valid_point e (step _ _ st) -> e + Z.of_nat n = num_epochs cfg ->
  model _ _ st = at_ e (step _ _ st) -> inv d0 e st ->
  exists st', epochs data cfg n k e st = Ok st' /\ model _ _ st' = at_ (num_epochs cfg) 0 /\ inv d0 (num_epochs cfg) st'
    /\ ((0 < n)%nat -> rank0 cfg = true -> (num_epochs cfg - 1) mod save_by_epochs cfg = 0 -> small ->
        loads (dir _ _ st') (Ck _ (num_epochs cfg) 0 (at_ (num_epochs cfg) 0)))
    /\ (n = O -> st' = st).
Proof.
  induction n; intros k e st V He M J.
  - rewrite Z.add_0_r in He. subst e. exists st. destruct V as (_ & V2 & _ & V).
    assert (step _ _ st = 0) as E by lia. rewrite E in M. refine (conj eq_refl (conj M (conj J (conj _ _)))); [lia|reflexivity].
  - destruct (one_epoch_inv d0 e st V ltac:(lia) M J) as (s1 & A & B & C & D & F).
    destruct (IHn (S k) (e + 1) s1) as (s2 & A2 & B2 & C2 & D2 & F2); auto.
    { rewrite B. destruct V as (V1 & _). unfold valid_point. lia. } { lia. } { rewrite B. exact C. }
    exists s2. cbn [TrainModel.epochs]. rewrite same, A. cbn [bind].
    refine (conj A2 (conj B2 (conj C2 (conj _ _)))); [|discriminate].
    intros _ R Dv Sm. destruct n as [|n]; [|apply D2; auto; lia]. rewrite F2 by reflexivity.
    assert (num_epochs cfg = e + 1) as -> by lia. apply F; auto. rewrite <- Dv. f_equal. lia.
Qed.

Lemma run_inv : forall d w o, good d -> (d = [] -> w = w0) ->
  exists st, run _ _ _ update data cfg w o d = Ok st /\ model _ _ st = at_ (num_epochs cfg) 0 /\ inv d (num_epochs cfg) st
    /\ (0 < num_epochs cfg -> rank0 cfg = true -> (num_epochs cfg - 1) mod save_by_epochs cfg = 0 -> small ->
        loads (dir _ _ st) (Ck _ (num_epochs cfg) 0 (at_ (num_epochs cfg) 0))).
Proof.
  intros d w o G W. unfold run.
  destruct d as [|c0 d1].
  - specialize (W eq_refl). subst w. unfold start. cbn [sorted fold_right rev fst snd]. rewrite Z.sub_0_r.
    destruct (epochs_inv [] (Z.to_nat (num_epochs cfg)) 0 0 (State _ _ 0 w0 o 0 [] [])) as (st & A & B & C & D & F).
    + cbn. unfold valid_point. lia.
    + lia.
    + reflexivity.
    + constructor; cbn; [intros d [<-|[<-|[]]] c []|intros _ d [<-|[<-|[]]] c []| |reflexivity].
      intros _ a b x y E X Y c [z Z']. destruct a as [|a1 a]; [contradiction|]. injection E as <- E.
      symmetry in E. apply app_eq_nil in E. destruct E as [-> ->]. contradiction.
    + exists st. refine (conj A (conj B (conj C _))). intros. apply D; auto. lia.
  - set (d := c0 :: d1) in *. destruct (loads_some d) as [c Lc]; [discriminate|].
    rewrite (start_loads _ w o d c Lc). cbn [fst snd].
    destruct (G c (loads_in _ _ Lc)) as [V M]. pose proof V as V'. destruct V' as (V1 & V2 & V3 & V4).
    destruct (epochs_inv d (Z.to_nat (num_epochs cfg - c_epoch _ c)) 0 (c_epoch _ c)
                (State _ _ (c_step _ c) (c_weights _ c) o 0 d [])) as (st & A & B & C & D & F).
    + exact V.
    + lia.
    + exact M.
    + constructor; cbn [dir past].
      * intros x [<-|[<-|[]]]; exact G.
      * intros Sm x I y Y. assert (y_in : In y d) by (destruct I as [<-|[<-|[]]]; exact Y).
        apply (ord_earlier y c Sm); [auto|exact (conj V M)|]. eapply loads_max; eassumption.
      * intros _ a b x y E X Y. destruct a as [|a1 a]; [contradiction|]. injection E as E1 E.
        symmetry in E. apply app_eq_nil in E. destruct E as [-> ->]. contradiction.
      * reflexivity.
    + exists st. refine (conj A (conj B (conj C _))). intros P R Dv Sm.
      destruct (Z.eq_dec (c_epoch _ c) (num_epochs cfg)) as [Ee|Ne].
      * rewrite F by lia. cbn [dir]. assert (c = Ck _ (num_epochs cfg) 0 (at_ (num_epochs cfg) 0)) as <-; [|exact Lc].
        assert (c_step _ c = 0) as Es by lia. destruct c as [ce cs cw]. cbn in Ee, Es, M |- *. subst ce cs. rewrite M. reflexivity.
      * apply D; auto. lia.
Qed.

Lemma left_good : forall d, left_behind update data cfg w0 d -> good d.
Proof.
  induction 1 as [|d d' w o st H IH W R I]; [intros c []|].
  destruct (run_inv d w o IH W) as (st' & A & _ & C & _). rewrite A in R. injection R as <-.
  apply (inv_good _ _ _ C). right. right. exact I.
Qed.
End Training.

(** ** Evaluation and the number of steps *)
Lemma evaluated_training : forall batch (cfg : config) s (l : list batch),
  evaluated _ cfg true s l = if (0 <? max_steps cfg) && (max_steps cfg <=? s) then firstn 1 l else l.
Proof.
  intros batch cfg s. destruct (_ && _) eqn:E; induction l; cbn [evaluated firstn]; try reflexivity; rewrite E; [reflexivity|].
  rewrite IHl. reflexivity.
Qed.

Lemma evaluated_from : forall batch (cfg : config) (l : list batch) s, 0 <= s -> (0 < max_steps cfg -> s < max_steps cfg) ->
  evaluated _ cfg false s l = if 0 <? max_steps cfg then firstn (Z.to_nat (max_steps cfg - s)) l else l.
Proof.
  intros batch cfg. induction l; intros s H L; cbn [evaluated].
  - destruct (0 <? max_steps cfg); [rewrite firstn_nil|]; reflexivity.
  - destruct (0 <? max_steps cfg) eqn:E; cbn [andb].
    + destruct (max_steps cfg <=? s + 1) eqn:F.
      * replace (Z.to_nat (max_steps cfg - s)) with 1%nat by lia. reflexivity.
      * rewrite IHl by lia. replace (Z.to_nat (max_steps cfg - s)) with (S (Z.to_nat (max_steps cfg - (s + 1)))) by lia. reflexivity.
    + rewrite IHl by lia. reflexivity.
Qed.

Lemma evaluated_all : forall batch (cfg : config) (l : list batch), evaluated _ cfg false 0 l = taken (max_steps cfg) l.
Proof. intros. rewrite evaluated_from by lia. unfold taken. rewrite Z.sub_0_r. reflexivity. Qed.

Lemma limit_samples : forall batch (l : list batch) m w b, 0 < w -> 0 < b -> w * b <= m ->
  w * b * Z.of_nat (length (taken (steps_limit m w b) l)) <= m.
Proof.
  intros batch l m w b W B M. unfold steps_limit, taken. assert (0 < w * b) by (apply Z.mul_pos_pos; assumption).
  replace (0 <? m) with true by lia.
  assert (1 <= m / (w * b)). { apply Z.div_le_lower_bound; lia. }
  replace (0 <? m / (w * b)) with true by lia. rewrite firstn_length.
  pose proof (Z.mul_div_le m (w * b) H). 
  apply Z.le_trans with (w * b * (m / (w * b))); [|assumption]. apply Z.mul_le_mono_nonneg_l; lia.
Qed.

Lemma evaluated_early : forall batch (cfg : config) s (l : list batch),
  max_steps cfg <= 0 \/ s < max_steps cfg -> evaluated _ cfg true s l = l.
Proof. intros. rewrite evaluated_training. destruct (_ && _) eqn:E; [lia|reflexivity]. Qed.

Lemma loads_latest : forall weights (d : list (ckpt weights)) (c x : ckpt weights),
  (forall y, In y d -> 0 <= c_epoch _ y < 1000 /\ 0 <= c_step _ y < 1000000) ->
  loads d c -> In x d -> earlier (point x) (point c).
Proof.
  intros weights d c x H L I. pose proof (loads_max _ _ _ L I) as M. pose proof (H _ (loads_in _ _ L)). pose proof (H _ I).
  unfold ord, ckey in M. unfold point. apply leb_key; try tauto.
Qed.

Lemma rotate_keeps : forall weights (m : Z) (d : list (ckpt weights)), 0 < m ->
  exists gone, Permutation d (gone ++ rotate _ m d)
    /\ length (rotate _ m d) = Nat.min (Z.to_nat m) (length d)
    /\ forall x y, In x gone -> In y (rotate _ m d) ->
       (forall z, In z d -> 0 <= c_epoch _ z < 1000 /\ 0 <= c_step _ z < 1000000) -> earlier (point x) (point y).
Proof.
  intros weights m d H. destruct (rotate_split m d H) as (g & A & _ & C & D). exists g. refine (conj A (conj C _)).
  intros x y X Y B. specialize (D x y X Y).
  assert (Ix : In x d). { eapply Permutation_in; [symmetry; exact A|]. rewrite in_app_iff. auto. }
  pose proof (B _ Ix). pose proof (B _ (rotate_in _ _ _ Y)). unfold ord, ckey in D. unfold point. apply leb_key; try tauto.
Qed.

Section Results.
Context {batch weights optimizer : Type}.
Variable update : weights -> optimizer -> option nat -> batch -> weights * optimizer.

Lemma checkpoint_of : forall cfg, (rank0 cfg = true -> save_by_epochs cfg <> 0) ->
  forall (f : weights -> batch -> weights) (l : list batch) (w0 : weights),
  (forall w o p b, (max_steps cfg <= 0 -> p = None) -> fst (update w o p b) = f w b) ->
  0 <= num_epochs cfg ->
  forall data, (forall k, data k = l) -> forall d c, left_behind update data cfg w0 d -> In c d ->
  c_weights _ c = weights_at f w0 (taken (max_steps cfg) l) (c_epoch _ c) (c_step _ c)
  /\ 0 <= c_epoch _ c <= num_epochs cfg
  /\ 0 <= c_step _ c <= Z.of_nat (length (taken (max_steps cfg) l)).
Proof.
  intros cfg H1 f l w0 H2 H3 data H4 d c H5 H6.
  destruct (left_good update cfg H1 f l w0 H2 H3 data H4 d H5 c H6) as [V M]. unfold valid_point in V.
  split; [exact M|]. lia.
Qed.

Lemma run_order : forall cfg, (rank0 cfg = true -> save_by_epochs cfg <> 0) ->
  forall (f : weights -> batch -> weights) (l : list batch) (w0 : weights),
  (forall w o p b, (max_steps cfg <= 0 -> p = None) -> fst (update w o p b) = f w b) ->
  forall data, (forall k, data k = l) -> forall d w o st before after x y c,
  0 <= num_epochs cfg < 1000 -> Z.of_nat (length (taken (max_steps cfg) l)) < 1000000 ->
  left_behind update data cfg w0 d -> (d = [] -> w = w0) -> run _ _ _ update data cfg w o d = Ok st ->
  d :: past _ _ st = before ++ after -> In x before -> In y after ->
  loads x c -> exists c', loads y c' /\ earlier (point c) (point c').
Proof.
  intros cfg H1 f l w0 H2 data H4 d w o st before after x y c H3 Hl H5 H6 H7 E X Y.
  assert (H3' : 0 <= num_epochs cfg) by lia.
  destruct (run_inv update cfg H1 f l w0 H2 H3' data H4 d w o (left_good update cfg H1 f l w0 H2 H3' data H4 d H5) H6) as (st' & A & _ & C & _).
  rewrite A in H7. injection H7 as ->.
  exact (inv_order _ _ _ _ _ _ _ C (conj (proj2 H3) Hl) before after x y E X Y c).
Qed.

Lemma run_saved : forall cfg (f : weights -> batch -> weights) (l : list batch) (w0 : weights),
  (forall w o p b, (max_steps cfg <= 0 -> p = None) -> fst (update w o p b) = f w b) ->
  forall data, (forall k, data k = l) -> forall d w o st,
  rank0 cfg = true -> save_by_epochs cfg <> 0 -> (num_epochs cfg - 1) mod save_by_epochs cfg = 0 ->
  0 < num_epochs cfg < 1000 -> Z.of_nat (length (taken (max_steps cfg) l)) < 1000000 ->
  left_behind update data cfg w0 d -> (d = [] -> w = w0) -> run _ _ _ update data cfg w o d = Ok st ->
  loads (dir _ _ st) (Ck _ (num_epochs cfg) 0 (weights_at f w0 (taken (max_steps cfg) l) (num_epochs cfg) 0)).
Proof.
  intros cfg f l w0 H2 data H4 d w o st R Z0 Dv H3 Hl H5 H6 H7.
  assert (H3' : 0 <= num_epochs cfg) by lia. assert (H1 : rank0 cfg = true -> save_by_epochs cfg <> 0) by auto.
  destruct (run_inv update cfg H1 f l w0 H2 H3' data H4 d w o (left_good update cfg H1 f l w0 H2 H3' data H4 d H5) H6) as (st' & A & _ & _ & D).
  rewrite A in H7. injection H7 as ->. apply D; auto; [lia|]. exact (conj (proj2 H3) Hl).
Qed.

Lemma run_zero : forall data cfg (w0 : weights) o0,
  rank0 cfg = true -> save_by_epochs cfg = 0 -> 0 < num_epochs cfg ->
  run _ _ _ update data cfg w0 o0 [] = Fail EAssert.
Proof.
  intros data cfg w0 o0 R Z0 H. unfold run, start. cbn [sorted fold_right rev fst snd]. rewrite Z.sub_0_r.
  destruct (Z.to_nat (num_epochs cfg)) as [|n] eqn:E; [lia|]. cbn [epochs]. unfold one_epoch. cbv zeta. rewrite R, Z0. reflexivity.
Qed.
End Results.

(** ** Which points are saved *)
Section Scheduled.
Context {batch weights optimizer : Type}.
Variable update : weights -> optimizer -> option nat -> batch -> weights * optimizer.
Variable cfg : config.

Definition wanted (c : ckpt weights) : Prop :=
  c_step _ c = 0 /\ (c_epoch _ c - 1) mod save_by_epochs cfg = 0
  \/ 0 < save_by_steps cfg /\ c_step _ c mod save_by_steps cfg = 0.
Definition all_wanted (st : state weights optimizer) : Prop :=
  forall d, In d (dir _ _ st :: past _ _ st) -> forall c, In c d -> wanted c.

Lemma save_wanted : forall e st, all_wanted st -> wanted (Ck _ e (step _ _ st) (model _ _ st)) -> all_wanted (save _ _ cfg e st).
Proof.
  intros e st A W. unfold save. destruct (_ && _); [exact A|]. cbv zeta.
  set (c0 := Ck _ e (step _ _ st) (model _ _ st)) in *.
  assert (P1 : forall c, In c (put _ c0 (dir _ _ st)) -> wanted c).
  { intros c I. destruct (put_in _ _ _ I) as [->|J]; [exact W|]. eapply A; [left; reflexivity|exact J]. }
  intros d I c J. cbn [dir past] in I.
  destruct I as [<-|I]; [apply P1; eapply rotate_in; exact J|]. rewrite in_app_iff in I. destruct I as [I|[<-|[<-|[]]]].
  - eapply A; [right; exact I|exact J].
  - apply P1; exact J.
  - apply P1; eapply rotate_in; exact J.
Qed.

Lemma one_step_wanted : forall e b st, all_wanted st -> all_wanted (one_step _ _ _ update cfg e b st).
Proof.
  intros e b st A. unfold one_step. cbv zeta.
  match goal with |- context [save _ _ _ _ ?s] => set (s1 := s) end.
  destruct (rank0 cfg && (0 <? save_by_steps cfg) && (step _ _ s1 mod save_by_steps cfg =? 0)) eqn:E; [|exact A].
  apply save_wanted; [exact A|]. right. cbn [c_step]. lia.
Qed.

Lemma batches_wanted : forall e l i st, all_wanted st -> all_wanted (batches _ _ _ update cfg e i l st).
Proof.
  induction l; intros i st A; cbn [batches]; [exact A|]. destruct (i <? step _ _ st); [apply IHl; exact A|]. cbv zeta.
  destruct (should_stop _ _ _ _); [|apply IHl]; apply one_step_wanted; exact A.
Qed.

Lemma one_epoch_wanted : forall e l st st', all_wanted st -> one_epoch _ _ _ update cfg e l st = Ok st' -> all_wanted st'.
Proof.
  intros e l st st' A H. unfold one_epoch in H. cbv zeta in H. pose proof (batches_wanted e l 0 st A) as B.
  destruct (rank0 cfg); [|injection H as <-; exact B]. destruct (save_by_epochs cfg =? 0); [discriminate|]. injection H as <-.
  destruct (e mod save_by_epochs cfg =? 0) eqn:E; [|exact B].
  apply save_wanted; [exact B|]. left. cbn [c_step c_epoch step]. split; [reflexivity|]. replace (e + 1 - 1) with e by lia. lia.
Qed.

Lemma epochs_wanted : forall data n k e st st', all_wanted st -> epochs _ _ _ update data cfg n k e st = Ok st' -> all_wanted st'.
Proof.
  induction n; intros k e st st' A H; cbn [epochs] in H; [injection H as <-; exact A|].
  destruct (one_epoch _ _ _ update cfg e (data k) st) as [s1|] eqn:E; [|discriminate]. cbn [bind] in H.
  eapply IHn; [|exact H]. eapply one_epoch_wanted; eassumption.
Qed.

Lemma left_wanted : forall data w0 d c, left_behind update data cfg w0 d -> In c d -> wanted c.
Proof.
  intros data w0 d c H. revert c. induction H as [|d d' w o st H IH W R I]; [intros c []|].
  assert (A : all_wanted (snd (start _ _ w o d))).
  { unfold start. destruct (rev (sorted _ d)); cbn; intros x [<-|[]]; exact IH. }
  intros c Ic. unfold run in R. exact (epochs_wanted _ _ _ _ _ _ A R d' (or_intror I) c Ic).
Qed.
End Scheduled.
