From Coq Require Import QArith Qreduction Lia ZifyBool ZifyNat Setoid.
From Verif Require Import Base Dist ParallelModel ParallelSpec.
Local Open Scope Z_scope.

Lemma qnat_pos n : (0 < n)%nat -> ~ (qnat n == 0)%Q.
Proof. intros H E. unfold qnat, inject_Z, Qeq in E. cbn in E. lia. Qed.
Lemma qnat_mult a b : (qnat (a * b) == qnat a * qnat b)%Q.
Proof. unfold qnat, inject_Z, Qeq. cbn. lia. Qed.
Lemma qnat_plus a b : (qnat (a + b) == qnat a + qnat b)%Q.
Proof. unfold qnat, inject_Z, Qeq. cbn. lia. Qed.
Lemma concat_length_eq {A} (m : nat) (ls : list (list A)) : Forall (fun l => length l = m) ls -> length (concat ls) = (length ls * m)%nat.
Proof. induction 1 as [|l ls H _ IH]; [reflexivity|]. cbn [concat length]. rewrite app_length, IH, H. lia. Qed.
Lemma qsum_concat {A} (f : A -> Q) ls : (qsum f (concat ls) == qsum (qsum f) ls)%Q.
Proof. induction ls as [|l ls IH]; [reflexivity|]. cbn [concat qsum]. rewrite qsum_app, IH. reflexivity. Qed.

Lemma mean_of_means {A} (f : A -> Q) (ls : list (list A)) (m : nat) : (0 < m)%nat -> ls <> [] -> Forall (fun l => length l = m) ls ->
  (qsum (fun l => qsum f l / qnat (length l)) ls / qnat (length ls) == qsum f (concat ls) / qnat (length (concat ls)))%Q.
Proof.
  intros Hm Hn H. rewrite (concat_length_eq m ls H), qnat_mult, qsum_concat.
  assert (E : (qsum (fun l => qsum f l / qnat (length l)) ls == qsum (qsum f) ls * / qnat m)%Q).
  { rewrite <- qsum_scale_r. apply qsum_ext. intros l Hl. rewrite Forall_forall in H. rewrite (H l Hl). reflexivity. }
  rewrite E. assert (H1 : ~ (qnat m == 0)%Q) by (now apply qnat_pos).
  assert (H2 : ~ (qnat (length ls) == 0)%Q) by (apply qnat_pos; destruct ls; [congruence|cbn; lia]).
  field. tauto.
Qed.

Lemma combine_map_same {A B C} (f : A * B -> C) (a : A) n (bs : list B) : length bs = n -> map f (combine (repeat a n) bs) = map (fun b => f (a, b)) bs.
Proof. intros <-. induction bs as [|b bs IH]; [reflexivity|]. cbn [length repeat combine map]. now rewrite IH. Qed.
Lemma map_repeat_eq {A B} (f : A -> B) a n : map f (repeat a n) = repeat (f a) n.
Proof. induction n as [|n IH]; [reflexivity|]. cbn. now rewrite IH. Qed.

Section Parallel.
Context {W Opt X : Type}.
Variable d : nat.
Variable eg : W -> X -> nat -> Q.
Variable upd : Opt -> W -> list Q -> Opt * W.
Variable clip : list Q -> list Q.
Notation grad := (grad d eg).
Notation ddp_step := (ddp_step d eg upd clip).
Notation lockstep := (lockstep d eg upd clip).
Notation rank := (@rank W Opt).
Notation op := (@op X).

Lemma average_grad w (bs : list (list X)) m : (0 < m)%nat -> bs <> [] -> Forall (fun b => length b = m) bs ->
  average d (map (grad w) bs) = grad w (concat bs).
Proof.
  intros Hm Hn H. unfold average, ParallelModel.grad. apply map_ext_in. intros k Hk. apply in_seq in Hk. apply Qred_complete.
  rewrite qsum_map, map_length. rewrite <- (mean_of_means (fun x => eg w x k) bs m Hm Hn H).
  unfold Qdiv at 1 3. apply Qmult_comp; [|reflexivity]. apply qsum_ext. intros b _.
  rewrite (nth_indep _ 0%Q ((fun k => Qred (qsum (fun x => eg w x k) b / qnat (length b))%Q) 0%nat)) by (rewrite map_length, seq_length; lia).
  rewrite (map_nth (fun k => Qred (qsum (fun x => eg w x k) b / qnat (length b))%Q)), seq_nth by lia. apply Qred_correct.
Qed.

(** Replicas *)
Lemma step_same bs n w o : length bs = n -> bs <> [] ->
  ddp_step bs (repeat (Rank w o) n) = repeat (let x := upd o w (clip (average d (map (grad w) bs))) in Rank (snd x) (fst x)) n.
Proof.
  intros H _. unfold ParallelModel.ddp_step. rewrite map_repeat_eq. cbn [r_w r_o]. rewrite (combine_map_same (fun '(r, b) => grad (r_w r) b) _ n bs H). reflexivity.
Qed.
Lemma step_replicas bs n w o : exists w' o', ddp_step bs (repeat (Rank w o) n) = repeat (Rank w' o') n.
Proof. unfold ParallelModel.ddp_step. rewrite map_repeat_eq. cbn [r_w r_o]. eexists. eexists. reflexivity. Qed.
Lemma lockstep_replicas n fuel ps w o :
  exists w' o', lockstep fuel ps (repeat (Rank w o) n) = Done (repeat (Rank w' o') n) \/ lockstep fuel ps (repeat (Rank w o) n) = Stuck (repeat (Rank w' o') n).
Proof.
  revert ps w o. induction fuel as [|f IH]; intros ps w o; cbn [ParallelModel.lockstep]; destruct (ended ps); eauto.
  destruct (trains ps) as [[bs ps']|].
  - destruct (step_replicas bs n w o) as (w' & o' & ->). apply IH.
  - destruct (forwards ps); [apply IH|]. destruct (reduces ps); [apply IH|]. eauto.
Qed.
Lemma broadcast_same (rs : list rank) o : Forall (fun r => r_o r = o) rs -> forall r0 t, rs = r0 :: t -> broadcast rs = repeat (Rank (r_w r0) o) (length rs).
Proof.
  intros H r0 t E. unfold broadcast. rewrite E. rewrite <- E. clear t E. induction H as [|r rs H _ IH]; [reflexivity|]. cbn [map length repeat]. now rewrite H, IH.
Qed.
Lemma train_replicas ps (r0 : rank) t : Forall (fun r => r_o r = r_o r0) t -> exists w' o',
  ddp_train d eg upd clip ps (r0 :: t) = Done (repeat (Rank w' o') (S (length t))) \/
  ddp_train d eg upd clip ps (r0 :: t) = Stuck (repeat (Rank w' o') (S (length t))).
Proof.
  intro H. unfold ddp_train. rewrite (broadcast_same (r0 :: t) (r_o r0)) with (r0 := r0) (t := t); [|constructor; [reflexivity|exact H]|reflexivity].
  apply lockstep_replicas.
Qed.

(** Progress *)
Lemma trains_some (ps : list (list op)) bs ps' : trains ps = Some (bs, ps') <->
  length bs = length ps /\ length ps' = length ps /\ ps = map (fun '(b, p) => OTrain b :: p) (combine bs ps').
Proof.
  revert bs ps'. induction ps as [|p ps IH]; intros bs ps'; cbn [trains fold_right].
  - split; [intros [= <- <-]; repeat split|]. intros (H1 & H2 & _). destruct bs, ps'; try discriminate. reflexivity.
  - fold (trains ps). split.
    + destruct p as [|[b| |] p]; try discriminate; destruct (trains ps) as [[bs0 ps0]|]; try discriminate. intros [= <- <-].
      destruct (proj1 (IH bs0 ps0) eq_refl) as (H1 & H2 & H3). cbn [length combine map]. repeat split; congruence.
    + intros (H1 & H2 & H3). destruct bs as [|b bs], ps' as [|p' ps']; cbn in H1, H2; try discriminate. cbn [combine map] in H3. injection H3 as -> H3.
      rewrite (proj2 (IH bs ps')); [reflexivity|]. repeat split; congruence.
Qed.
Lemma forwards_some (ps : list (list op)) ps' : forwards ps = Some ps' <-> ps = map (cons OForward) ps'.
Proof.
  revert ps'. induction ps as [|p ps IH]; intro ps'; cbn [forwards fold_right].
  - split; [intros [= <-]; reflexivity|]. destruct ps'; [reflexivity|discriminate].
  - fold (forwards ps). split.
    + destruct p as [|[b| |] p]; try discriminate; destruct (forwards ps) as [ps0|]; try discriminate. intros [= <-]. cbn [map]. f_equal. now apply IH.
    + destruct ps' as [|p' ps']; [discriminate|]. cbn [map]. intros [= -> E]. now rewrite (proj2 (IH ps') E).
Qed.
Lemma reduces_some (ps : list (list op)) ps' : reduces ps = Some ps' <-> ps = map (cons OReduce) ps'.
Proof.
  revert ps'. induction ps as [|p ps IH]; intro ps'; cbn [reduces fold_right].
  - split; [intros [= <-]; reflexivity|]. destruct ps'; [reflexivity|discriminate].
  - fold (reduces ps). split.
    + destruct p as [|[b| |] p]; try discriminate; destruct (reduces ps) as [ps0|]; try discriminate. intros [= <-]. cbn [map]. f_equal. now apply IH.
    + destruct ps' as [|p' ps']; [discriminate|]. cbn [map]. intros [= -> E]. now rewrite (proj2 (IH ps') E).
Qed.

Definition shapes (p : list op) : list shape := map shape_of p.
Lemma split_train s (ps : list (list op)) : Forall (fun p => shapes p = STrain :: s) ps ->
  exists bs ps', trains ps = Some (bs, ps') /\ Forall (fun p => shapes p = s) ps' /\ length ps' = length ps /\ length bs = length ps /\
    map batches_of ps = map (fun '(b, p) => b :: batches_of p) (combine bs ps').
Proof.
  induction 1 as [|p ps H _ (bs & ps' & E & F & L & L' & B)].
  - exists [], []. repeat split; constructor.
  - destruct p as [|o p]; [discriminate|]. cbn in H. injection H as Ho Hs. destruct o as [b| |]; try discriminate.
    exists (b :: bs), (p :: ps'). cbn [trains fold_right]. fold (trains ps). rewrite E. split; [reflexivity|]. split; [now constructor|].
    split; [cbn; congruence|]. split; [cbn; congruence|]. cbn [map combine]. rewrite B. reflexivity.
Qed.
Lemma split_forward s (ps : list (list op)) : Forall (fun p => shapes p = SForward :: s) ps ->
  exists ps', forwards ps = Some ps' /\ Forall (fun p => shapes p = s) ps' /\ length ps' = length ps /\ map batches_of ps = map batches_of ps'.
Proof.
  induction 1 as [|p ps H _ (ps' & E & F & L & B)]; [exists []; repeat split; constructor|].
  destruct p as [|o p]; [discriminate|]. cbn in H. injection H as Ho Hs. destruct o as [b| |]; try discriminate.
  exists (p :: ps'). cbn [forwards fold_right]. fold (forwards ps). rewrite E. split; [reflexivity|]. split; [now constructor|].
  split; [cbn; congruence|]. cbn [map]. rewrite B. reflexivity.
Qed.
Lemma split_reduce s (ps : list (list op)) : Forall (fun p => shapes p = SReduce :: s) ps ->
  exists ps', reduces ps = Some ps' /\ Forall (fun p => shapes p = s) ps' /\ length ps' = length ps /\ map batches_of ps = map batches_of ps'.
Proof.
  induction 1 as [|p ps H _ (ps' & E & F & L & B)]; [exists []; repeat split; constructor|].
  destruct p as [|o p]; [discriminate|]. cbn in H. injection H as Ho Hs. destruct o as [b| |]; try discriminate.
  exists (p :: ps'). cbn [reduces fold_right]. fold (reduces ps). rewrite E. split; [reflexivity|]. split; [now constructor|].
  split; [cbn; congruence|]. cbn [map]. rewrite B. reflexivity.
Qed.
Lemma not_ended a s (ps : list (list op)) : ps <> [] -> Forall (fun p => shapes p = a :: s) ps -> ended ps = false.
Proof. intros HN H. destruct H as [|p ps H _]; [congruence|]. destruct p; [discriminate|reflexivity]. Qed.
Lemma no_trains s (ps : list (list op)) a : ps <> [] -> a <> STrain -> Forall (fun p => shapes p = a :: s) ps -> trains ps = None.
Proof.
  intros HN Ha H. destruct H as [|p ps H _]; [congruence|]. destruct p as [|[b| |] p]; try discriminate; cbn in H; try reflexivity.
  injection H as H _. congruence.
Qed.
Lemma no_forwards s (ps : list (list op)) : ps <> [] -> Forall (fun p => shapes p = SReduce :: s) ps -> forwards ps = None.
Proof. intros HN H. destruct H as [|p ps H _]; [congruence|]. destruct p as [|[b| |] p]; try discriminate; reflexivity. Qed.

(** The columns of batches of programs with the same shape. *)
Fixpoint columns (n : nat) (bss : list (list (list X))) : list (list (list X)) :=
  match n with O => [] | S m => map (fun bs => hd [] bs) bss :: columns m (map (@tl _) bss) end.
Definition steps_in (s : list shape) : nat := length (filter (fun a => match a with STrain => true | _ => false end) s).
Lemma lockstep_done s : forall (ps : list (list op)) rs, ps <> [] -> Forall (fun p => shapes p = s) ps ->
  lockstep (length s) ps rs = Done (fold_left (fun rs bs => ddp_step bs rs) (columns (steps_in s) (map batches_of ps)) rs).
Proof.
  induction s as [|a s IH]; intros ps rs HN H.
  - cbn [length ParallelModel.lockstep]. replace (ended ps) with true; [reflexivity|]. symmetry. unfold ended. apply forallb_forall. intros p Hp.
    rewrite Forall_forall in H. specialize (H p Hp). now destruct p.
  - cbn [length ParallelModel.lockstep]. rewrite (not_ended a s ps HN H). destruct a.
    + destruct (split_train s ps H) as (bs & ps' & -> & F & L & L' & B). rewrite IH; [|destruct ps, ps'; try discriminate; congruence|exact F].
      unfold steps_in. cbn [filter length columns fold_left]. rewrite B. f_equal.
      assert (E1 : map (fun bs0 => hd [] bs0) (map (fun '(b, p) => b :: batches_of p) (combine bs ps')) = bs).
      { rewrite map_map. rewrite (map_ext _ fst) by (now intros []). rewrite <- L in L'. clear -L'. revert ps' L'. induction bs as [|b bs IH]; intros [|p ps'] L'; cbn in *; try discriminate; [reflexivity|]. f_equal. apply IH. congruence. }
      assert (E2 : map (@tl _) (map (fun '(b, p) => b :: batches_of p) (combine bs ps')) = map batches_of ps').
      { rewrite map_map. rewrite (map_ext _ (fun x => batches_of (snd x))) by (now intros []). rewrite <- (map_map snd batches_of). f_equal.
        rewrite <- L in L'. clear -L'. revert ps' L'. induction bs as [|b bs IH]; intros [|p ps'] L'; cbn in *; try discriminate; [reflexivity|]. f_equal. apply IH. congruence. }
      rewrite E1, E2. reflexivity.
    + rewrite (no_trains s ps SForward HN) by (discriminate || exact H). destruct (split_forward s ps H) as (ps' & -> & F & L & B).
      rewrite IH; [|destruct ps, ps'; try discriminate; congruence|exact F]. now rewrite B.
    + rewrite (no_trains s ps SReduce HN) by (discriminate || exact H). rewrite (no_forwards s ps HN H). destruct (split_reduce s ps H) as (ps' & -> & F & L & B).
      rewrite IH; [|destruct ps, ps'; try discriminate; congruence|exact F]. now rewrite B.
Qed.
Lemma done_shapes fuel : forall (ps : list (list op)) rs rs', lockstep fuel ps rs = Done rs' -> exists s, Forall (fun p => shapes p = s) ps.
Proof.
  assert (EN : forall ps : list (list op), ended ps = true -> exists s, Forall (fun p => shapes p = s) ps).
  { intros ps H. exists []. apply Forall_forall. intros p Hp. unfold ended in H. rewrite forallb_forall in H. specialize (H p Hp). now destruct p. }
  induction fuel as [|f IH]; intros ps rs rs' H; cbn [ParallelModel.lockstep] in H; destruct (ended ps) eqn:E; try (now apply EN).
  destruct (trains ps) as [[bs ps']|] eqn:T.
  - apply trains_some in T. destruct T as (L1 & L2 & ->). destruct (IH _ _ _ H) as (s & F). exists (STrain :: s). clear -F.
    apply Forall_forall. intros p Hp. apply in_map_iff in Hp. destruct Hp as ([b q] & <- & Hq). apply in_combine_r in Hq. rewrite Forall_forall in F. cbn. f_equal. now apply F.
  - destruct (forwards ps) as [ps'|] eqn:T'.
    + apply forwards_some in T'. subst. destruct (IH _ _ _ H) as (s & F). exists (SForward :: s). apply Forall_forall. intros p Hp. apply in_map_iff in Hp.
      destruct Hp as (q & <- & Hq). rewrite Forall_forall in F. cbn. f_equal. now apply F.
    + destruct (reduces ps) as [ps'|] eqn:T''; [|discriminate]. apply reduces_some in T''. subst. destruct (IH _ _ _ H) as (s & F). exists (SReduce :: s). apply Forall_forall. intros p Hp. apply in_map_iff in Hp.
      destruct Hp as (q & <- & Hq). rewrite Forall_forall in F. cbn. f_equal. now apply F.
Qed.
Lemma ends_iff (ps : list (list op)) rs : ps <> [] ->
  ((exists rs', ddp_train d eg upd clip ps rs = Done rs') <-> (forall p q, In p ps -> In q ps -> map shape_of p = map shape_of q)).
Proof.
  intro HN. unfold ddp_train. split.
  - intros (rs' & H). destruct (done_shapes _ _ _ _ H) as (s & F). rewrite Forall_forall in F. intros p q Hp Hq. transitivity s; [now apply F|symmetry; now apply F].
  - intro H. destruct ps as [|p0 ps]; [congruence|]. eexists. cbn [hd]. rewrite <- (map_length shape_of p0). apply lockstep_done; [discriminate|].
    apply Forall_forall. intros p Hp. apply H; [exact Hp|now left].
Qed.

(** Equivalence with one process *)
Lemma sgd_columns m cols : (0 < m)%nat -> forall n w o, (0 < n)%nat -> Forall (fun bs => length bs = n /\ Forall (fun b => length b = m) bs) cols ->
  fold_left (fun rs bs => ddp_step bs rs) cols (repeat (Rank w o) n) =
  repeat (let x := sgd d eg upd clip (map (@concat X) cols) w o in Rank (snd x) (fst x)) n.
Proof.
  intros Hm n w o Hn H. revert w o. induction H as [|bs cols [L F] _ IH]; intros w o; [reflexivity|].
  cbn [fold_left map sgd]. assert (NB : bs <> []) by (destruct bs; [cbn in L; lia|discriminate]).
  rewrite (step_same bs n w o L NB), (average_grad w bs m Hm NB F). cbn zeta. rewrite IH. reflexivity.
Qed.
Lemma columns_merged n bss : map (@concat X) (columns n bss) = merged n bss.
Proof.
  unfold merged. revert bss. induction n as [|n IH]; intro bss; [reflexivity|]. cbn [columns map seq]. f_equal.
  - f_equal. apply map_ext. intros [|b bs]; reflexivity.
  - rewrite IH. rewrite <- seq_shift, map_map. apply map_ext. intro k. rewrite map_map. f_equal. apply map_ext. intros [|b bs]; [now destruct k|reflexivity].
Qed.
Lemma columns_sizes m s : forall (ps : list (list op)), Forall (fun p => shapes p = s /\ Forall (fun b => length b = m) (batches_of p)) ps ->
  Forall (fun bs => length bs = length ps /\ Forall (fun b => length b = m) bs) (columns (steps_in s) (map batches_of ps)).
Proof.
  intros ps H. assert (H' : Forall (fun bs => length bs = steps_in s /\ Forall (fun b => length b = m) bs) (map batches_of ps)).
  { apply Forall_forall. intros bs Hb. apply in_map_iff in Hb. destruct Hb as (p & <- & Hp). rewrite Forall_forall in H. destruct (H p Hp) as [<- F]. split; [|exact F].
    clear. unfold steps_in, shapes, batches_of. induction p as [|[b| |] p IH]; cbn; congruence. }
  rewrite <- (map_length batches_of ps). clear H. generalize dependent (map batches_of ps). induction (steps_in s) as [|n IH]; intros l H; [constructor|].
  cbn [columns]. constructor.
  - rewrite map_length. split; [reflexivity|]. apply Forall_forall. intros b Hb. apply in_map_iff in Hb. destruct Hb as (bs & <- & Hbs). rewrite Forall_forall in H.
    destruct (H bs Hbs) as [L F]. destruct bs as [|b bs]; [discriminate|]. now inversion F.
  - rewrite <- (map_length (@tl _) l). apply IH. apply Forall_forall. intros bs Hb. apply in_map_iff in Hb. destruct Hb as (bs' & <- & Hbs). rewrite Forall_forall in H.
    destruct (H bs' Hbs) as [L F]. destruct bs' as [|b bs']; [discriminate|]. inversion F. split; [cbn in L; cbn; congruence|assumption].
Qed.
Lemma one_process m (ps : list (list op)) (r0 : rank) t s : (0 < m)%nat -> length ps = S (length t) ->
  Forall (fun r => r_o r = r_o r0) t ->
  Forall (fun p => map shape_of p = s /\ Forall (fun b => length b = m) (batches_of p)) ps ->
  ddp_train d eg upd clip ps (r0 :: t) =
  Done (repeat (let x := sgd d eg upd clip (merged (length (batches_of (hd [] ps))) (map batches_of ps)) (r_w r0) (r_o r0) in Rank (snd x) (fst x)) (length ps)).
Proof.
  intros Hm L Ho H. unfold ddp_train. rewrite (broadcast_same (r0 :: t) (r_o r0)) with (r0 := r0) (t := t); [|constructor; [reflexivity|exact Ho]|reflexivity].
  cbn [length]. rewrite <- L. assert (HN : ps <> []) by (intros ->; discriminate).
  assert (Es : length (hd [] ps) = length s). { destruct H as [|p ps [<- _] _]; [congruence|]. cbn. now rewrite map_length. }
  rewrite Es. rewrite (lockstep_done s ps _ HN) by (eapply Forall_impl; [|exact H]; intros p Hp; apply Hp).
  rewrite (sgd_columns m) by (try assumption; try lia; now apply columns_sizes). rewrite columns_merged.
  replace (length (batches_of (hd [] ps))) with (steps_in s); [reflexivity|].
  destruct H as [|p ps [<- _] _]; [congruence|]. cbn [hd]. clear. unfold steps_in, batches_of. induction p as [|[b| |] p IH]; cbn; congruence.
Qed.

(** Programs *)
Variable cfg : config.
Lemma eval_shapes n n' step : c_buffers cfg = false \/ n = n' -> map shape_of (eval_ops (X := X) cfg n step) = map shape_of (eval_ops (X := X) cfg n' step).
Proof. intros [H| ->]; [|reflexivity]. unfold eval_ops. now rewrite H. Qed.
Definition matching (step : Z) (l l' : list (list X)) : Prop :=
  length l = length l' \/ (0 < c_max_steps cfg /\ step < c_max_steps cfg /\ c_max_steps cfg <= Z.of_nat (length l) /\ c_max_steps cfg <= Z.of_nat (length l')).
Lemma epoch_shapes n n' : c_buffers cfg = false \/ n = n' -> forall (l l' : list (list X)) i step,
  length l = length l' \/ (0 < c_max_steps cfg /\ step < c_max_steps cfg /\ i <= step /\ c_max_steps cfg <= i + Z.of_nat (length l) /\ c_max_steps cfg <= i + Z.of_nat (length l')) ->
  map shape_of (epoch_ops cfg n i step l) = map shape_of (epoch_ops cfg n' i step l').
Proof.
  intros Hn. induction l as [|b l IH]; intros [|b' l'] i step H; cbn [length] in H; [reflexivity|lia|lia|]. cbn [epoch_ops].
  destruct (i <? step) eqn:Q.
  - apply IH. lia.
  - cbn zeta. cbn [map shape_of]. rewrite !map_app. f_equal. f_equal.
    + destruct ((0 <? c_eval_by cfg) && ((step + 1) mod c_eval_by cfg =? 0)); [|reflexivity]. now apply eval_shapes.
    + unfold stop. destruct ((0 <? c_max_steps cfg) && (c_max_steps cfg <=? step + 1)) eqn:Q'; [reflexivity|]. apply IH. lia.
Qed.
Lemma train_shapes n n' data data' : c_buffers cfg = false \/ n = n' -> forall e step k,
  (forall j, matching (if Nat.eqb j k then step else 0) (data j) (data' j)) -> 0 <= step ->
  map shape_of (train_ops cfg n e step data k) = map shape_of (train_ops cfg n' e step data' k).
Proof.
  intros Hn. induction e as [|e IH]; intros step k H Hs; [reflexivity|]. cbn [train_ops]. rewrite !map_app. f_equal.
  - apply epoch_shapes; [exact Hn|]. specialize (H k). rewrite Nat.eqb_refl in H. unfold matching in H. lia.
  - apply IH; [|lia]. intro j. specialize (H j). unfold matching in *. destruct (Nat.eqb j k), (Nat.eqb j (S k)); lia.
Qed.
Lemma no_deadlock (ranks : list (nat * (nat -> list (list X)))) epoch step rs : ranks <> [] -> 0 <= step ->
  (forall r r', In r ranks -> In r' ranks -> (c_buffers cfg = false \/ fst r = fst r') /\
     forall j, matching (if Nat.eqb j 0 then step else 0) (snd r j) (snd r' j)) ->
  exists rs', ddp_train d eg upd clip (map (fun r => rank_ops cfg (fst r) epoch step (snd r)) ranks) rs = Done rs'.
Proof.
  intros HN Hs H. apply ends_iff; [destruct ranks; [congruence|discriminate]|]. intros p q Hp Hq. apply in_map_iff in Hp, Hq.
  destruct Hp as (r & <- & Hr), Hq as (r' & <- & Hr'). destruct (H r r' Hr Hr') as [Hb Hm]. unfold rank_ops. now apply train_shapes.
Qed.

(** Clipping *)
Lemma ddp_clipped (P : list Q -> Prop) bs rs : (forall g, P (clip g)) ->
  exists g, P g /\ ddp_step bs rs = map (fun r : rank => let x := upd (r_o r) (r_w r) g in Rank (snd x) (fst x)) rs.
Proof. intro H. eexists. split; [|reflexivity]. apply H. Qed.
Lemma hvd_unclipped seen bs rs : (forall g, clip g = g) -> length bs = length rs -> length seen = length rs ->
  hvd_step d eg upd clip seen bs rs = ddp_step bs rs.
Proof.
  intros Hc L1 L2. unfold hvd_step, ParallelModel.ddp_step. rewrite Hc. cbn zeta.
  match goal with |- context [average d (map ?f (combine (combine rs bs) seen))] => assert (E : map f (combine (combine rs bs) seen) = map (fun '(r, b) => grad (r_w r) b) (combine rs bs)) end.
  { clear -Hc L1 L2. revert bs seen L1 L2. induction rs as [|r rs IH]; intros [|b bs] [|s seen] L1 L2; cbn in L1, L2; try discriminate; [reflexivity|].
    cbn [combine map]. rewrite IH by congruence. f_equal. destruct s; [apply Hc|reflexivity]. }
  rewrite E. reflexivity.
Qed.
End Parallel.

(** Evaluation *)
Lemma reduced_mean k ls : (0 < k)%nat -> ls <> [] -> Forall (fun l => length l = k) ls -> mean_of (reduced ls) (concat ls).
Proof.
  intros Hk HN H. unfold mean_of, reduced.
  assert (E : (qsum rank_mean ls == qsum (fun l => qsum (fun x => x) l / qnat (length l)) ls)%Q).
  { apply qsum_ext. intros l Hl. rewrite Forall_forall in H. specialize (H l Hl). destruct l; [cbn in H; lia|reflexivity]. }
  rewrite E, (mean_of_means (fun x => x) ls k Hk HN H).
  assert (N0 : ~ (qnat (length (concat ls)) == 0)%Q).
  { apply qnat_pos. rewrite (concat_length_eq k ls H). destruct ls; [congruence|]. cbn. lia. }
  field. exact N0.
Qed.
Lemma reported_last every losses : forall step s v, In (s, v) (reported every step losses) ->
  exists k, (k < length losses)%nat /\ s = step + Z.of_nat k + 1 /\ s mod every = 0 /\ (v == nth k losses 0)%Q.
Proof.
  induction losses as [|x t IH]; intros step s v H; [destruct H|]. cbn [reported] in H. cbn zeta in H. apply in_app_or in H. destruct H as [H|H].
  - destruct ((0 <? every) && ((step + 1) mod every =? 0)) eqn:Q; [|destruct H]. destruct H as [H|[]]. injection H as <- <-.
    exists 0%nat. cbn [length nth]. split; [lia|]. split; [lia|]. split; [lia|]. unfold rank_mean. cbn. unfold qnat, inject_Z, Qdiv. cbn. unfold Qeq. cbn. lia.
  - destruct (IH _ _ _ H) as (k & H1 & H2 & H3 & H4). exists (S k). cbn [length nth]. repeat split; try lia. exact H4.
Qed.

Section Batches.
Context {X : Type}.
Variable cfg : config.
Lemma batches_app (p q : list (@op X)) : batches_of (p ++ q) = batches_of p ++ batches_of q.
Proof. unfold batches_of. apply flat_map_app. Qed.
Lemma batches_eval n step : batches_of (X := X) (eval_ops cfg n step) = [].
Proof. unfold eval_ops. rewrite batches_app. destruct (c_buffers cfg); [|reflexivity]. generalize (eval_batches cfg n step). intros k. induction k as [|k IH]; [reflexivity|exact IH]. Qed.
Lemma batches_rest evals (l : list (list X)) : forall i, 0 <= i ->
  batches_of (epoch_ops cfg evals i i l) = if 0 <? c_max_steps cfg then firstn (Z.to_nat (Z.max 1 (c_max_steps cfg - i))) l else l.
Proof.
  induction l as [|b t IH]; intros i Hi. { destruct (_ <? _); [now rewrite firstn_nil|reflexivity]. }
  cbn [epoch_ops]. rewrite Z.ltb_irrefl. match goal with |- batches_of (_ :: ?p) = _ => change (batches_of (OTrain b :: p)) with (b :: batches_of p) end. rewrite batches_app.
  assert (Ev : forall c : bool, batches_of (if c then eval_ops (X := X) cfg evals (i + 1) else []) = []) by (intros []; [apply batches_eval|reflexivity]).
  rewrite Ev. unfold stop. cbn [app].
  destruct (0 <? c_max_steps cfg) eqn:E; cbn [andb].
  - destruct (c_max_steps cfg <=? i + 1) eqn:F.
    + replace (Z.to_nat _) with 1%nat by lia. reflexivity.
    + rewrite IH by lia. replace (Z.to_nat (Z.max 1 (c_max_steps cfg - i))) with (S (Z.to_nat (Z.max 1 (c_max_steps cfg - (i + 1))))) by lia. reflexivity.
  - rewrite IH by lia. reflexivity.
Qed.
Lemma batches_epoch evals (l : list (list X)) : forall i step, 0 <= i <= step ->
  batches_of (epoch_ops cfg evals i step l) = epoch_batches (c_max_steps cfg) step (repeat [] (Z.to_nat i) ++ l).
Proof.
  induction l as [|b t IH]; intros i step Hi.
  - unfold epoch_batches. rewrite skipn_all2 by (rewrite app_length, repeat_length; cbn [length]; lia). rewrite firstn_nil. destruct (_ <? _); reflexivity.
  - destruct (Z.eq_dec i step) as [->|N].
    + rewrite batches_rest by lia. unfold epoch_batches. rewrite skipn_app, repeat_length, Nat.sub_diag, skipn_all2 by (rewrite repeat_length; lia). reflexivity.
    + cbn [epoch_ops]. replace (i <? step) with true by lia. rewrite IH by lia. unfold epoch_batches.
      replace (Z.to_nat (i + 1)) with (Z.to_nat i + 1)%nat by lia. rewrite repeat_app, <- app_assoc, !skipn_app, !repeat_length.
      replace (Z.to_nat step - Z.to_nat i)%nat with (S (Z.to_nat step - Z.to_nat i - 1)) by lia. cbn [skipn repeat]. rewrite skipn_nil, Nat.sub_succ, Nat.sub_0_r. reflexivity.
Qed.
Lemma batches_train evals data e : forall k step, 0 <= step -> batches_of (train_ops (X := X) cfg evals e step data k) =
  flat_map (fun j => epoch_batches (c_max_steps cfg) (if Nat.eqb j k then step else 0) (data j)) (seq k e).
Proof.
  induction e as [|e IH]; intros k step H; [reflexivity|]. cbn [train_ops seq flat_map]. rewrite batches_app, batches_epoch, Nat.eqb_refl by lia. cbn [Z.to_nat repeat app]. f_equal.
  rewrite IH by lia. rewrite !flat_map_concat_map. f_equal. apply map_ext_in. intros j Hj. apply in_seq in Hj.
  replace (Nat.eqb j k) with false by (symmetry; apply Nat.eqb_neq; lia). destruct (Nat.eqb _ _); reflexivity.
Qed.
Lemma batches_rank evals epoch step data : 0 <= step -> batches_of (rank_ops (X := X) cfg evals epoch step data) =
  flat_map (fun j => epoch_batches (c_max_steps cfg) (if Nat.eqb j 0 then step else 0) (data j)) (seq 0 (Z.to_nat (c_epochs cfg - epoch))).
Proof. intros H. unfold rank_ops. now rewrite batches_train. Qed.
End Batches.
