From Coq Require Import Permutation ZifyBool ZifyNat.
From Verif Require Import Base DispatchModel.

Lemma upd_same {A} (f : nat -> A) i a : upd f i a i = a.
Proof. unfold upd. now rewrite Nat.eqb_refl. Qed.
Lemma upd_other {A} (f : nat -> A) i a j : j <> i -> upd f i a j = f j.
Proof. intros H. unfold upd. destruct (Nat.eqb_spec j i); [congruence|reflexivity]. Qed.

Fixpoint total (f : nat -> nat) (k : nat) : nat := match k with O => 0 | S k => total f k + f k end.
Lemma total_upd f g i k : i < k -> (forall j, j <> i -> g j = f j) -> total g k + f i = total f k + g i.
Proof.
  induction k as [|k IH]; intros Hi H; [lia|]. cbn [total]. destruct (Nat.eq_dec i k) as [->|N].
  - assert (X : total g k = total f k). { clear IH Hi. assert (Y : forall m, m <= k -> total g m = total f m); [|apply Y; lia]. induction m as [|m IH]; intros Hm; [reflexivity|]. cbn [total]. rewrite IH by lia. rewrite (H m) by lia. reflexivity. }
    lia.
  - specialize (IH ltac:(lia) H). rewrite (H k) by lia. lia.
Qed.
Section Dispatcher.
Context {L W Rep : Type}.
Variable fresh : nat -> W.
Variable add : L -> W -> res W.
Variable close : nat -> W -> res Rep.
Variable n : nat.
Variable room : list (msg L) -> msg L -> bool.
Variable terminate use_threads : bool.
(** The lines of every partition and the partitions told to end. *)
Variable sends : list (nat * L).
Variable active : list nat.
Hypothesis Hnodup : NoDup active.
Hypothesis Hact : forall i, In i active -> i < n.
Hypothesis Hsends : forall i x, In (i, x) sends -> In i active.

Let expected := List.length active.
Let program : list (nat * msg L) := map (fun y => (fst y, Line (snd y))) sends ++ map (fun i => (i, AllDone)) active.
Let step := step add close n room expected terminate use_threads.
Let run := run add close n room expected terminate use_threads.
Let init : state L W Rep := init fresh program.

(** The lines of partition i, in order, and what its worker does with them. *)
Definition lines_of (s : list (nat * L)) (i : nat) : list L := map snd (filter (fun y => fst y =? i) s).
Fixpoint adds (xs : list L) (w : W) : res W :=
  match xs with [] => Ok w | x :: t => do w' <- add x w ;; adds t w' end.
Definition work (i : nat) (xs : list L)   : res Rep := do w <- adds xs (fresh i) ;; close i w.

Definition to (i : nat) (p : list (nat * msg L)) : list (msg L) := map snd (filter (fun y => fst y =? i) p).
Lemma to_app i p q : to i (p ++ q) = to i p ++ to i q.
Proof. unfold to. now rewrite filter_app, map_app. Qed.
Lemma to_program i : In i active -> to i program = map Line (lines_of sends i) ++ [AllDone].
Proof.
  intros Hi. unfold program. rewrite to_app. f_equal.
  - unfold to, lines_of. clear. induction sends as [|[j x] s IH]; [reflexivity|]. cbn [map filter fst snd]. destruct (j =? i); [|exact IH]. cbn [map fst snd]. now rewrite IH.
  - unfold to. clear - Hi Hnodup. induction active as [|j a IH]; [destruct Hi|]. inversion_clear Hnodup as [|? ? Hn Hd]. cbn [map filter fst].
    destruct (Nat.eqb_spec j i) as [->|N].
    + cbn [map snd]. f_equal. clear - Hn. induction a as [|k a IH]; [reflexivity|]. cbn [map filter fst]. destruct (Nat.eqb_spec k i) as [->|N]; [exfalso; apply Hn; now left|].
      apply IH. intros H. apply Hn. now right.
    + destruct Hi as [E|Hi]; [congruence|]. apply IH; assumption.
Qed.
Lemma to_nobody i : ~ In i active -> to i program = [].
Proof.
  intros Hi. unfold program. rewrite to_app. unfold to.
  assert (A : filter (fun y : nat * msg L => fst y =? i) (map (fun y => (fst y, Line (snd y))) sends) = []).
  { assert (H : forall y, In y sends -> fst y <> i) by (intros [j x] Hy E; apply Hi; cbn [fst] in E; subst j; exact (Hsends i x Hy)).
    clear - H. induction sends as [|y s IH]; [reflexivity|]. cbn [map filter fst]. destruct (Nat.eqb_spec (fst y) i) as [E|N]; [exfalso; exact (H y (or_introl eq_refl) E)|].
    apply IH. intros z Hz. apply H. now right. }
  assert (B : filter (fun y : nat * msg L => fst y =? i) (map (fun i => (i, AllDone)) active) = []).
  { clear - Hi. induction active as [|j a IH]; [reflexivity|]. cbn [map filter fst]. destruct (Nat.eqb_spec j i) as [E|N]; [exfalso; apply Hi; now left|].
    apply IH. intros H. apply Hi. now right. }
  now rewrite A, B.
Qed.

(** A worker after the messages [ms]. *)
Fixpoint replay (i : nat) (ms : list (msg L)) (s : worker W Rep) : worker W Rep :=
  match ms with
  | [] => s
  | m :: t =>
      replay i t
        match s with
        | Working w => match m with
                       | Line x => match add x w with Ok w' => Working w' | Fail _ => Raised end
                       | AllDone => match close i w with Ok o => Reporting o | Fail _ => Raised end
                       end
        | _ => s
        end
  end.
Lemma replay_snoc i ms m : forall s, replay i (ms ++ [m]) s =
  match replay i ms s with
  | Working w => match m with
                 | Line x => match add x w with Ok w' => Working w' | Fail _ => Raised end
                 | AllDone => match close i w with Ok o => Reporting o | Fail _ => Raised end
                 end
  | s' => s'
  end.
Proof. induction ms as [|a ms IH]; intros s; [destruct s; reflexivity|]. cbn [app replay]. apply IH. Qed.
Lemma replay_raised i ms : replay i ms Raised = Raised.
Proof. induction ms; [reflexivity|assumption]. Qed.
Lemma replay_lines i xs : forall w, replay i (map Line xs) (Working w) = match adds xs w with Ok w' => Working w' | Fail _ => Raised end.
Proof.
  induction xs as [|x xs IH]; intros w; [reflexivity|]. cbn [map replay adds]. destruct (add x w) as [w'|e]; cbn [bind]; [apply IH|apply replay_raised].
Qed.
Lemma replay_all i xs : replay i (map Line xs ++ [AllDone]) (Working (fresh i)) = match work i xs with Ok o => Reporting o | Fail _ => Raised end.
Proof.
  rewrite replay_snoc, replay_lines. unfold work. destruct (adds xs (fresh i)); reflexivity.
Qed.
(** Only with the last message does a worker report. *)
Lemma replay_reports i done rest o : In i active -> done ++ rest = to i program -> replay i done (Working (fresh i)) = Reporting o ->
  rest = [] /\ work i (lines_of sends i) = Ok o.
Proof.
  intros Hi E R. rewrite to_program in E by exact Hi.
  destruct rest as [|m r].
  - rewrite app_nil_r in E. subst done. rewrite replay_all in R. destruct (work i (lines_of sends i)); [|discriminate]. injection R as ->. now split.
  - exfalso. assert (X : exists ys, done = map Line ys).
    { clear - E. revert E. generalize (lines_of sends i). intros xs. revert xs. induction done as [|d done IH]; intros xs E; [now exists []|].
      destruct xs as [|x xs]; cbn [map app] in E.
      - injection E as _ E. apply app_eq_nil in E as [_ E]. discriminate.
      - injection E as -> E. destruct (IH xs E) as [ys ->]. now exists (x :: ys). }
    destruct X as [ys ->]. rewrite replay_lines in R. destruct (adds ys (fresh i)); discriminate.
Qed.

Definition todo (st : state L W Rep) : list (nat * msg L) := match dispatcher st with Sending t => t | _ => [] end.
Definition output (i : nat) (s : worker W Rep) : list Rep :=
  match s with Ended => match work i (lines_of sends i) with Ok o => [o] | Fail _ => [] end | _ => [] end.
Definition outputs (st : state L W Rep) : list Rep := flat_map (fun i => output i (workers st i)) active.
Record inv (st : state L W Rep) : Prop := Inv {
  i_taken : forall i, i < n -> exists done, done ++ pipes st i ++ to i (todo st) = to i program /\
    (workers st i = replay i done (Working (fresh i)) \/
     workers st i = Ended /\ exists o, replay i done (Working (fresh i)) = Reporting o);
  i_sent : forall i m, In (i, m) (todo st) -> In i active;
  i_out : Permutation (arrived st ++ out st) (outputs st);
  i_left : match dispatcher st with
           | Sending _ => arrived st = []
           | Getting k => List.length (arrived st) + k = expected
           | Returned => List.length (arrived st) = expected
           | Failed => terminate = true /\ use_threads = true
           end
}.
Lemma program_active i m : In (i, m) program -> In i active.
Proof.
  unfold program. rewrite in_app_iff, !in_map_iff. intros [((j & x) & E & H)|(j & E & H)]; cbn [fst] in E; injection E as -> _; [exact (Hsends i x H)|exact H].
Qed.
Lemma inv_init : inv init.
Proof.
  constructor; cbn.
  - intros i _. exists []. split; [reflexivity|now left].
  - apply program_active.
  - unfold outputs. cbn [workers init]. clear. induction active as [|a l IH]; [constructor|exact IH].
  - reflexivity.
Qed.
Lemma outputs_same st f : (forall i, In i active -> output i (f i) = output i (workers st i)) -> flat_map (fun i => output i (f i)) active = outputs st.
Proof.
  intros H. unfold outputs. clear - H. induction active as [|a l IH]; [reflexivity|]. cbn [flat_map]. rewrite (H a (or_introl eq_refl)), IH; [reflexivity|].
  intros i Hi. apply H. now right.
Qed.
Lemma outputs_one st i o : In i active -> output i (workers st i) = [] -> work i (lines_of sends i) = Ok o ->
  Permutation (o :: outputs st) (flat_map (fun j => output j (upd (workers st) i Ended j)) active).
Proof.
  intros Hi E Wk. unfold outputs. clear - Hnodup Hi E Wk. induction active as [|a l IH]; [destruct Hi|]. inversion_clear Hnodup as [|? ? Hn Hd]. cbn [flat_map].
  destruct (Nat.eq_dec a i) as [->|N].
  - rewrite E, upd_same. unfold output at 2. rewrite Wk. cbn [app]. apply Permutation_cons; [reflexivity|].
    replace (flat_map (fun j => output j (upd (workers st) i Ended j)) l) with (flat_map (fun j => output j (workers st j)) l); [reflexivity|].
    clear - Hn. induction l as [|b l IH]; [reflexivity|]. cbn [flat_map]. rewrite upd_other by (intros ->; apply Hn; now left). rewrite IH; [reflexivity|].
    intros H. apply Hn. now right.
  - rewrite (upd_other (workers st) i Ended a) by exact N. destruct Hi as [Hi|Hi]; [congruence|].
    etransitivity; [apply Permutation_middle|]. apply Permutation_app_head. apply IH; assumption.
Qed.
Lemma inv_step st e st' : inv st -> step st e = Some st' -> inv st'.
Proof.
  intros [T S Ou Le] H. unfold step, DispatchModel.step in H. destruct e as [| | |i|i].
  - destruct (dispatcher st) as [td|k| |] eqn:D; try discriminate. destruct td as [|[i m] t].
    + injection H as <-. constructor; cbn [dispatcher pipes workers out arrived todo]; unfold todo in T, S; rewrite D in *.
      * exact T.
      * intros i m [].
      * exact Ou.
      * rewrite Le. reflexivity.
    + destruct (Nat.ltb_spec i n) as [Hi|Hi].
      2:{ exfalso. unfold todo in S. rewrite D in S. assert (In i active) by (apply (S i m); now left). apply Hact in H0. lia. }
      destruct (room (pipes st i) m); [|discriminate]. injection H as <-. unfold todo in T, S. rewrite D in *. constructor; cbn [dispatcher pipes workers out arrived]; unfold todo; cbn [dispatcher].
      * intros j Hj. destruct (T j Hj) as (done & E & R). exists done. split; [|exact R]. rewrite <- E. unfold to. cbn [filter fst].
        destruct (Nat.eqb_spec i j) as [->|N]; [rewrite upd_same; cbn [map snd]; now rewrite <- app_assoc|now rewrite upd_other by congruence].
      * intros j m' Hj. apply (S j m'). now right.
      * exact Ou.
      * exact Le.
  - destruct (dispatcher st) as [td|k| |] eqn:D; try discriminate. destruct k as [|k]; [discriminate|]. destruct (out st) as [|o t] eqn:Eo; [discriminate|].
    injection H as <-. unfold todo in T, S. rewrite D in *. constructor; cbn [dispatcher pipes workers out arrived]; unfold todo; cbn [dispatcher].
    + exact T.
    + exact S.
    + rewrite <- app_assoc. exact Ou.
    + rewrite app_length. cbn [List.length]. lia.
  - destruct (dispatcher st) as [td|k| |] eqn:D; try discriminate. destruct k as [|k]; [|discriminate]. injection H as <-. unfold todo in T, S. rewrite D in *.
    constructor; cbn [dispatcher pipes workers out arrived].
    + intros i Hi. destruct (T i Hi) as (done & E & R). exists done. split; [|exact R]. rewrite <- E. unfold todo. cbn [dispatcher]. destruct (_ && _ && _); reflexivity.
    + intros i m. unfold todo. cbn [dispatcher]. destruct (_ && _ && _); intros [].
    + exact Ou.
    + destruct (terminate && use_threads && negb (n =? 0)) eqn:X; [|lia]. apply andb_true_iff in X as [X _]. now apply andb_true_iff in X.
  - destruct (Nat.ltb_spec i n) as [Hi|Hi]; [|discriminate]. destruct (workers st i) as [w| | |] eqn:Ew; try discriminate.
    destruct (pipes st i) as [|m t] eqn:Ep; [discriminate|]. injection H as <-. constructor; cbn [dispatcher pipes workers out arrived].
    + intros j Hj. destruct (Nat.eq_dec j i) as [->|N].
      * destruct (T i Hi) as (done & E & R). exists (done ++ [m]). rewrite !upd_same. split; [rewrite <- E, Ep, <- app_assoc; reflexivity|]. left.
        rewrite replay_snoc. destruct R as [R|[R _]]; [|congruence]. rewrite <- R, Ew. reflexivity.
      * rewrite !upd_other by exact N. exact (T j Hj).
    + exact S.
    + unfold outputs at 1. cbn [workers]. rewrite (outputs_same st); [exact Ou|]. intros j _. destruct (Nat.eq_dec j i) as [->|N]; [|now rewrite upd_other].
      rewrite upd_same, Ew. destruct m; [destruct (add x w)|destruct (close i w)]; reflexivity.
    + exact Le.
  - destruct (Nat.ltb_spec i n) as [Hi|Hi]; [|discriminate]. destruct (workers st i) as [w|o| |] eqn:Ew; try discriminate.
    destruct (List.length (out st) <? n); [|discriminate]. injection H as <-.
    destruct (T i Hi) as (done & E & R). destruct R as [R|[R _]]; [|congruence]. rewrite Ew in R. symmetry in R.
    assert (Ha : In i active).
    { destruct (in_dec Nat.eq_dec i active) as [Y|Y]; [exact Y|]. exfalso. rewrite to_nobody in E by exact Y. apply app_eq_nil in E as [-> _]. discriminate. }
    destruct (replay_reports i done _ o Ha E R) as [_ Wk].
    constructor; cbn [dispatcher pipes workers out arrived].
    + intros j Hj. destruct (Nat.eq_dec j i) as [->|N]; [|rewrite upd_other by exact N; exact (T j Hj)].
      exists done. split; [exact E|]. rewrite upd_same. right. split; [reflexivity|]. now exists o.
    + exact S.
    + unfold outputs at 1. cbn [workers]. rewrite <- (outputs_one st i o Ha); [|now rewrite Ew|exact Wk].
      rewrite app_assoc. rewrite <- Permutation_cons_append. now constructor.
    + exact Le.
Qed.
Lemma inv_run es : forall st st', inv st -> run st es = Some st' -> inv st'.
Proof.
  induction es as [|e es IH]; intros st st' I H; cbn in H; [injection H as <-; exact I|].
  destruct (DispatchModel.step _ _ _ _ _ _ _ st e) as [s|] eqn:E; [|discriminate]. exact (IH s st' (inv_step st e s I E) H).
Qed.

Lemma output_short i s : List.length (output i s) <= 1.
Proof. unfold output. destruct s; cbn; try lia. destruct (work i (lines_of sends i)); cbn; lia. Qed.
Lemma outputs_short (st : state L W Rep) l : List.length (flat_map (fun i => output i (workers st i)) l) <= List.length l.
Proof. induction l as [|a l IH]; [reflexivity|]. cbn [flat_map List.length]. rewrite app_length. pose proof (output_short a (workers st a)). lia. Qed.
Lemma outputs_full (st : state L W Rep) l : List.length (flat_map (fun i => output i (workers st i)) l) = List.length l ->
  mapM (fun i => work i (lines_of sends i)) l = Ok (flat_map (fun i => output i (workers st i)) l).
Proof.
  induction l as [|a l IH]; intros H; [reflexivity|]. cbn [flat_map List.length mapM] in *. rewrite app_length in H.
  pose proof (output_short a (workers st a)). pose proof (outputs_short st l). rewrite (IH ltac:(lia)).
  assert (X : List.length (output a (workers st a)) = 1) by lia. unfold output in *. destruct (workers st a); try discriminate. destruct (work a (lines_of sends a)); [|discriminate]. reflexivity.
Qed.

(** A join that returns has got the result of every worker. *)
Lemma results es st : run init es = Some st -> dispatcher st = Returned ->
  exists outs, mapM (fun i => work i (lines_of sends i)) active = Ok outs /\ Permutation (arrived st) outs /\ out st = [].
Proof.
  intros H D. pose proof (inv_run es _ _ inv_init H) as [_ _ Ou Le]. rewrite D in Le. unfold outputs in Ou.
  pose proof (Permutation_length Ou) as X. rewrite app_length in X. pose proof (outputs_short st active). unfold expected in Le.
  assert (E : out st = []) by (destruct (out st); [reflexivity|cbn [List.length] in X; lia]). rewrite E, app_nil_r in *. cbn [List.length] in X.
  eexists. split; [apply (outputs_full st active); lia|]. now split.
Qed.
(** With one worker that fails join never returns. *)
Lemma hangs es st i e : run init es = Some st -> In i active -> work i (lines_of sends i) = Fail e -> dispatcher st <> Returned.
Proof.
  intros H Hi F D. destruct (results es st H D) as (outs & M & _). clear - M Hi F. revert outs M. induction active as [|a l IH]; [destruct Hi|]. intros outs M. cbn [mapM] in M.
  destruct Hi as [->|Hi]; [rewrite F in M; discriminate|]. destruct (work a (lines_of sends a)); [|discriminate]. cbn [bind] in M.
  destruct (mapM _ l) as [o'|] eqn:E; [|discriminate]. exact (IH Hi o' eq_refl).
Qed.

(** ** Progress *)
Hypothesis Hroom : forall m, room [] m = true.
Lemma nodup_length : List.length active <= n.
Proof. rewrite <- (seq_length n 0). apply NoDup_incl_length; [exact Hnodup|]. intros i Hi. apply in_seq. apply Hact in Hi. lia. Qed.
Lemma find_worker (P : nat -> bool) : (exists i, i < n /\ P i = true) \/ (forall i, i < n -> P i = false).
Proof.
  destruct (existsb P (seq 0 n)) eqn:E.
  - left. apply existsb_exists in E as (i & H & Hp). apply in_seq in H. exists i. split; [lia|exact Hp].
  - right. intros i Hi. destruct (P i) eqn:Ep; [|reflexivity]. assert (X : existsb P (seq 0 n) = true) by (apply existsb_exists; exists i; split; [apply in_seq; lia|exact Ep]). congruence.
Qed.
Lemma progress es st : (forall i, In i active -> exists o, work i (lines_of sends i) = Ok o) -> run init es = Some st ->
  dispatcher st = Returned \/ dispatcher st = Failed \/ exists e st', step st e = Some st'.
Proof.
  intros Ok_ H. pose proof (inv_run es _ _ inv_init H) as [T S Ou Le].
  destruct (find_worker (fun i => match workers st i with Reporting _ => true | _ => false end)) as [(i & Hi & Hr)|NoRep].
  { right. right. exists (Put i). destruct (workers st i) as [|o| |] eqn:Ew; try discriminate. eexists. unfold step, DispatchModel.step. rewrite (proj2 (Nat.ltb_lt i n) Hi), Ew.
    destruct (T i Hi) as (done & E & R). destruct R as [R|[R _]]; [|congruence]. rewrite Ew in R. symmetry in R.
    assert (Ha : In i active).
    { destruct (in_dec Nat.eq_dec i active) as [Y|Y]; [exact Y|]. exfalso. rewrite to_nobody in E by exact Y. apply app_eq_nil in E as [-> _]. discriminate. }
    destruct (replay_reports i done _ o Ha E R) as [_ Wk].
    pose proof (Permutation_length (outputs_one st i o Ha ltac:(now rewrite Ew) Wk)) as X. cbn [List.length] in X.
    pose proof (outputs_short (State (dispatcher st) (pipes st) (upd (workers st) i Ended) (out st) (arrived st)) active) as Y. cbn [workers] in Y.
    pose proof (Permutation_length Ou) as Z. rewrite app_length in Z. pose proof nodup_length.
    replace (List.length (out st) <? n) with true by (symmetry; apply Nat.ltb_lt; lia). reflexivity. }
  destruct (find_worker (fun i => match workers st i with Working _ => match pipes st i with [] => false | _ => true end | _ => false end)) as [(i & Hi & Hr)|NoRecv].
  { right. right. exists (Recv i). destruct (workers st i) as [w| | |] eqn:Ew; try discriminate. destruct (pipes st i) as [|m t] eqn:Ep; [discriminate|].
    eexists. unfold step, DispatchModel.step. rewrite (proj2 (Nat.ltb_lt i n) Hi), Ew, Ep. reflexivity. }
  (* every active worker waits for a message or has ended *)
  assert (A : forall i, In i active -> (exists w, workers st i = Working w /\ pipes st i = [] /\ to i (todo st) <> []) \/ (workers st i = Ended /\ to i (todo st) = [])).
  { intros i Ha. pose proof (Hact i Ha) as Hi. destruct (T i Hi) as (done & E & R). specialize (NoRep i Hi). specialize (NoRecv i Hi). destruct (Ok_ i Ha) as [o Ho].
    destruct R as [R|[R (o' & R')]].
    - destruct (workers st i) as [w|o'| |] eqn:Ew.
      + left. exists w. destruct (pipes st i) as [|m t] eqn:Ep; [|discriminate]. split; [reflexivity|]. split; [reflexivity|]. intros X. rewrite X in E. cbn [app] in E. rewrite app_nil_r in E.
        subst done. rewrite to_program, replay_all, Ho in R by exact Ha. discriminate.
      + discriminate.
      + exfalso. symmetry in R. clear - R. assert (X : forall ms s, replay i ms s = Ended -> s = Ended).
        { induction ms as [|m ms IH]; intros s Hs; [exact Hs|]. cbn [replay] in Hs. apply IH in Hs. destruct s; try discriminate; [|reflexivity]. destruct m as [x|]; [destruct (add x w)|destruct (close i w)]; discriminate. }
        apply X in R. discriminate.
      + exfalso. symmetry in R. assert (X : replay i (to i program) (Working (fresh i)) = Raised).
        { rewrite <- E. clear - R. revert R. generalize (Working (fresh i) : worker W Rep). induction done as [|d done IH]; intros s R; cbn [app replay] in *; [subst s; apply replay_raised|]. apply IH. exact R. }
        rewrite to_program, replay_all, Ho in X by exact Ha. discriminate.
    - right. split; [exact R|]. destruct (replay_reports i done _ o' Ha E R') as [X _]. now apply app_eq_nil in X as [_ X]. }
  destruct (dispatcher st) as [td|k| |] eqn:D; [right; right|right; right|now left|now right; left].
  - exists Send. unfold step, DispatchModel.step. rewrite D. destruct td as [|[i m] t]; [eexists; reflexivity|].
    assert (Ha : In i active) by (apply (S i m); unfold todo; rewrite D; now left). rewrite (proj2 (Nat.ltb_lt i n) (Hact i Ha)).
    destruct (A i Ha) as [(w & _ & -> & _)|[_ X]]; [rewrite Hroom; eexists; reflexivity|]. exfalso. unfold todo in X. rewrite D in X. unfold to in X. cbn [filter fst] in X.
    rewrite Nat.eqb_refl in X. discriminate.
  - destruct k as [|k]; [exists End; eexists; unfold step, DispatchModel.step; rewrite D; reflexivity|]. exists Get. unfold step, DispatchModel.step. rewrite D.
    destruct (out st) as [|o t] eqn:Eo; [|eexists; reflexivity]. exfalso.
    assert (B : forall i, In i active -> List.length (output i (workers st i)) = 1).
    { intros i Ha. destruct (A i Ha) as [(w & _ & _ & X)|[X _]]; [exfalso; apply X; unfold todo; now rewrite D|]. rewrite X. unfold output. destruct (Ok_ i Ha) as [o ->]. reflexivity. }
    assert (C : List.length (outputs st) = List.length active).
    { unfold outputs. clear - B. induction active as [|a l IH]; [reflexivity|]. cbn [flat_map List.length]. rewrite app_length, (B a (or_introl eq_refl)), IH; [reflexivity|].
      intros i Hi. apply B. now right. }
    pose proof (Permutation_length Ou) as X. rewrite app_length in X. cbn [List.length] in X. unfold expected in Le. lia.
Qed.

(** ** Termination *)
Definition alive (s : worker W Rep) : nat := match s with Working _ | Reporting _ => 1 | _ => 0 end.
Definition load (st : state L W Rep) (i : nat) : nat := List.length (pipes st i) + alive (workers st i).
Definition cost (st : state L W Rep) : nat :=
  match dispatcher st with Sending t => 2 * List.length t + expected + 2 | Getting k => k + 1 | _ => 0 end + total (load st) n.
Lemma cost_step st e st' : (forall i m, In (i, m) (todo st) -> i < n) -> step st e = Some st' -> cost st' < cost st.
Proof.
  clear Hroom.
  intros S H. unfold step, DispatchModel.step in H. unfold cost. destruct e as [| | |i|i].
  - destruct (dispatcher st) as [td|k| |] eqn:D; try discriminate. destruct td as [|[i m] t].
    + injection H as <-. cbn [dispatcher List.length]. change (load _) with (load st). lia.
    + destruct (Nat.ltb_spec i n) as [Hi|Hi]; [|exfalso; assert (i < n) by (apply (S i m); unfold todo; rewrite D; now left); lia].
      destruct (room _ _); [|discriminate]. injection H as <-. cbn [dispatcher List.length].
      pose proof (total_upd (load st) (load (State (Sending t) (upd (pipes st) i (pipes st i ++ [m])) (workers st) (out st) (arrived st))) i n Hi) as X.
      specialize (X ltac:(intros j Hj; unfold load; cbn [pipes workers]; now rewrite upd_other)). unfold load at 2 4 in X. cbn [pipes workers] in X. rewrite upd_same, app_length in X. cbn [List.length] in X. lia.
  - destruct (dispatcher st) as [td|k| |] eqn:D; try discriminate. destruct k as [|k]; [discriminate|]. destruct (out st); [discriminate|]. injection H as <-. cbn [dispatcher].
    change (load _) with (load st). lia.
  - destruct (dispatcher st) as [td|k| |] eqn:D; try discriminate. destruct k as [|k]; [|discriminate]. injection H as <-. cbn [dispatcher]. change (load _) with (load st).
    destruct (_ && _ && _); lia.
  - destruct (Nat.ltb_spec i n) as [Hi|Hi]; [|discriminate]. destruct (workers st i) as [w| | |] eqn:Ew; try discriminate. destruct (pipes st i) as [|m t] eqn:Ep; [discriminate|].
    injection H as <-. cbn [dispatcher]. set (s := match m with Line _ => _ | AllDone => _ end).
    pose proof (total_upd (load st) (load (State (dispatcher st) (upd (pipes st) i t) (upd (workers st) i s) (out st) (arrived st))) i n Hi) as X.
    specialize (X ltac:(intros j Hj; unfold load; cbn [pipes workers]; now rewrite !upd_other)). unfold load at 2 4 in X. cbn [pipes workers] in X. rewrite !upd_same, Ew, Ep in X. cbn [List.length alive] in X.
    assert (alive s <= 1) by (destruct s; cbn; lia). lia.
  - destruct (Nat.ltb_spec i n) as [Hi|Hi]; [|discriminate]. destruct (workers st i) as [w|o| |] eqn:Ew; try discriminate. destruct (_ <? _); [|discriminate]. injection H as <-. cbn [dispatcher].
    pose proof (total_upd (load st) (load (State (dispatcher st) (pipes st) (upd (workers st) i Ended) (out st ++ [o]) (arrived st))) i n Hi) as X.
    specialize (X ltac:(intros j Hj; unfold load; cbn [pipes workers]; now rewrite upd_other)). unfold load at 2 4 in X. cbn [pipes workers] in X. rewrite upd_same, Ew in X. cbn [alive] in X. lia.
Qed.
Lemma terminates es st : run init es = Some st -> List.length es <= 2 * List.length program + List.length active + 2 + n.
Proof.
  clear Hroom.
  intros H. assert (G : forall es s s', inv s -> run s es = Some s' -> List.length es + cost s' <= cost s).
  { clear es st H. induction es as [|e es IH]; intros s s' I H; cbn in H; [injection H as <-; cbn; lia|].
    destruct (DispatchModel.step _ _ _ _ _ _ _ s e) as [s1|] eqn:E; [|discriminate]. pose proof (cost_step s e s1 (fun i m Hm => Hact i (i_sent s I i m Hm)) E).
    specialize (IH s1 s' (inv_step s e s1 I E) H). cbn [List.length]. lia. }
  specialize (G es _ _ inv_init H).
  assert (X : cost init = 2 * List.length program + expected + 2 + n).
  { unfold cost. cbn [dispatcher init DispatchModel.init]. f_equal. assert (Y : forall k, total (load init) k = k); [|apply Y]. induction k as [|k IH]; [reflexivity|]. cbn [total]. rewrite IH. unfold load. cbn. lia. }
  unfold expected in X. lia.
Qed.
End Dispatcher.

(** Threads cannot be terminated. *)
Lemma threads_fail {L W Rep} (add : L -> W -> res W) (close : nat -> W -> res Rep) n room expected es : forall st st',
  0 < n -> run add close n room expected true true st es = Some st' -> dispatcher st <> Returned -> dispatcher st' <> Returned.
Proof.
  induction es as [|e es IH]; intros st st' Hn H D; cbn [run] in H; [injection H as <-; exact D|].
  destruct (step add close n room expected true true st e) as [s|] eqn:E; [|discriminate]. apply (IH s st' Hn H). clear IH H.
  unfold step in E. destruct e as [| | |i|i].
  - destruct (dispatcher st) as [[|[i m] t]|k| |]; try discriminate.
    + injection E as <-. discriminate.
    + destruct (i <? n); [destruct (room _ _); [|discriminate]|]; injection E as <-; discriminate.
  - destruct (dispatcher st) as [|[|k]| |]; try discriminate. destruct (out st); [discriminate|]. injection E as <-. discriminate.
  - destruct (dispatcher st) as [|[|k]| |]; try discriminate. injection E as <-. cbn [dispatcher andb]. destruct (Nat.eqb_spec n 0); [lia|discriminate].
  - destruct (i <? n); [|discriminate]. destruct (workers st i); try discriminate. destruct (pipes st i); [discriminate|]. injection E as <-. exact D.
  - destruct (i <? n); [|discriminate]. destruct (workers st i); try discriminate. destruct (_ <? n); [|discriminate]. injection E as <-. exact D.
Qed.

(** ** Conversions *)
From Verif Require Import WriterModel MetaModel MetaSpec MetaProofs.
Section Convert.
Context {L : Type}.
Variable decode : L -> res (list record).
Variable wval : N -> Z.
Variable wm : option Z.
Variable offset n : nat.
Let add := convert_add decode wval wm.
Let close := convert_close offset.
Let fresh := fun _ : nat => winit wm.
Lemma adds_batches xs : forall s s', adds add xs s = Ok s' <-> exists bs, mapM decode xs = Ok bs /\ add_batches wval (is_temporal wm) bs s = Ok s'.
Proof.
  induction xs as [|x xs IH]; intros s s'; cbn [adds mapM].
  - split; [intros H; exists []; now split|intros (bs & E & H)]. injection E as <-. exact H.
  - unfold add at 1, convert_add. destruct (decode x) as [b|e]; cbn [bind]; [|split; [discriminate|intros (bs & E & _); discriminate]].
    destruct (add_batch wval (is_temporal wm) b s) as [s1|e] eqn:A; cbn [bind].
    + rewrite IH. split.
      * intros (bs & E & H). exists (b :: bs). rewrite E. cbn [bind add_batches]. rewrite A. now split.
      * intros (bs & E & H). destruct (mapM decode xs) as [bs'|]; [|discriminate]. cbn [bind] in E. injection E as <-. cbn [add_batches] in H. rewrite A in H. now exists bs'.
    + split; [discriminate|]. intros (bs & E & H). destruct (mapM decode xs) as [bs'|]; [|discriminate]. cbn [bind] in E. injection E as <-. cbn [add_batches] in H. rewrite A in H. discriminate.
Qed.
Lemma work_worker i xs o : work fresh add close i xs = Ok o <-> MetaModel.worker decode wval wm (offset + i, xs) = Ok o.
Proof.
  unfold work, MetaModel.worker, write_partition. cbn [fst snd]. split.
  - intros H. destruct (adds add xs (fresh i)) as [s|] eqn:A; [|discriminate]. cbn [bind] in H. apply adds_batches in A as (bs & E & A). rewrite E. cbn [bind].
    unfold fresh in A. rewrite A. cbn [bind]. exact H.
  - intros H. destruct (mapM decode xs) as [bs|] eqn:E; [|discriminate]. cbn [bind] in H. destruct (add_batches _ _ bs _) as [s|] eqn:A; [|discriminate]. cbn [bind] in H.
    rewrite (proj2 (adds_batches xs (fresh i) s)); [exact H|]. now exists bs.
Qed.
Lemma mapM_work (g : nat -> list L) l outs : mapM (fun i => work fresh add close i (g i)) l = Ok outs -> mapM (MetaModel.worker decode wval wm) (map (fun i => (offset + i, g i)) l) = Ok outs.
Proof.
  revert outs. induction l as [|i l IH]; intros outs H; [exact H|]. cbn [mapM map] in *. destruct (work fresh add close i (g i)) as [o|] eqn:E; [|discriminate].
  apply work_worker in E. rewrite E. cbn [bind] in *. destruct (mapM _ l) as [os|]; [|discriminate]. now rewrite (IH os eq_refl).
Qed.

Variable lines : list L.
Let pipe_sends := map (fun x => (fst x mod n, snd x)) (combine (seq 0 (List.length lines)) lines).
Lemma pipe_program_sends : pipe_program n lines = map (fun y => (fst y, Line (snd y))) pipe_sends ++ map (fun i => (i, AllDone)) (seq 0 n).
Proof. unfold pipe_program, pipe_sends. now rewrite map_map. Qed.
Lemma pipe_sends_in i x : 0 < n -> In (i, x) pipe_sends -> In i (seq 0 n).
Proof. intros Hn H. apply in_map_iff in H as ([k y] & E & _). cbn [fst snd] in E. injection E as <- _. apply in_seq. pose proof (Nat.mod_upper_bound k n). lia. Qed.
Lemma pipe_lines_of i : lines_of pipe_sends i = share n i lines.
Proof.
  unfold lines_of, pipe_sends, share. induction (combine (seq 0 (List.length lines)) lines) as [|[k x] l IH]; [reflexivity|]. cbn [map filter fst snd].
  destruct (k mod n =? i); [|exact IH]. cbn [map snd]. now rewrite IH.
Qed.
Lemma pipe_result room es st : 0 < n ->
  run add close n room n false false (init fresh (pipe_program n lines)) es = Some st -> dispatcher st = Returned ->
  pipe_meta wval decode wm offset n lines (meta_of wm (arrived st)).
Proof.
  intros Hn H D. rewrite pipe_program_sends in H. assert (H' : run add close n room (List.length (seq 0 n)) false false (init fresh (map (fun y => (fst y, Line (snd y))) pipe_sends ++ map (fun i => (i, AllDone)) (seq 0 n))) es = Some st) by (rewrite seq_length; exact H). clear H. rename H' into H.
  destruct (results fresh add close n room false false pipe_sends (seq 0 n) (seq_NoDup n 0) ltac:(intros i Hi; apply in_seq in Hi; lia) (fun i x => pipe_sends_in i x Hn) es st H D) as (outs & M & P & _).
  destruct (pipe_dispatch_total n lines Hn (0, repeat [] n)) as [s Hs]; [apply repeat_length|].
  assert (W : pipe_workers offset n lines = Ok (combine (seq offset n) (snd s))) by (unfold pipe_workers; now rewrite Hs).
  exists (combine (seq offset n) (snd s)), outs, (arrived st). split; [exact W|]. split; [|split; [exact P|reflexivity]].
  rewrite (pipe_workers_spec offset n lines _ W).
  apply mapM_work. rewrite <- M. apply mapM_ext_in. intros i _. now rewrite pipe_lines_of.
Qed.
Lemma pipe_progress room es st : 0 < n -> (forall m, room [] m = true) ->
  (forall i, i < n -> exists o, MetaModel.worker decode wval wm (offset + i, share n i lines) = Ok o) ->
  run add close n room n false false (init fresh (pipe_program n lines)) es = Some st ->
  dispatcher st = Returned \/ exists e st', step add close n room n false false st e = Some st'.
Proof.
  intros Hn R Hw H. rewrite pipe_program_sends in H. assert (H' : run add close n room (List.length (seq 0 n)) false false (init fresh (map (fun y => (fst y, Line (snd y))) pipe_sends ++ map (fun i => (i, AllDone)) (seq 0 n))) es = Some st) by (rewrite seq_length; exact H). clear H. rename H' into H.
  assert (Ha : forall i, In i (seq 0 n) -> i < n) by (intros i Hi; apply in_seq in Hi; lia).
  destruct (progress fresh add close n room false false pipe_sends (seq 0 n) (seq_NoDup n 0) Ha (fun i x => pipe_sends_in i x Hn) R es st) as [P|[P|P]].
  - intros i Hi. rewrite pipe_lines_of. destruct (Hw i (Ha i Hi)) as [o Ho]. exists o. now apply work_worker.
  - exact H.
  - now left.
  - pose proof (inv_run fresh add close n room false false pipe_sends (seq 0 n) (seq_NoDup n 0) Ha (fun i x => pipe_sends_in i x Hn) es _ _
      (inv_init fresh add close n false false pipe_sends (seq 0 n) (fun i x => pipe_sends_in i x Hn)) H) as I.
    apply i_left in I. rewrite P in I. destruct I. discriminate.
  - right. rewrite seq_length in P. exact P.
Qed.
Lemma pipe_terminates room es st : 0 < n ->
  run add close n room n false false (init fresh (pipe_program n lines)) es = Some st -> List.length es <= 2 * List.length lines + 4 * n + 2.
Proof.
  intros Hn H. rewrite pipe_program_sends in H. assert (H' : run add close n room (List.length (seq 0 n)) false false (init fresh (map (fun y => (fst y, Line (snd y))) pipe_sends ++ map (fun i => (i, AllDone)) (seq 0 n))) es = Some st) by (rewrite seq_length; exact H). clear H. rename H' into H.
  assert (Ha : forall i, In i (seq 0 n) -> i < n) by (intros i Hi; apply in_seq in Hi; lia).
  pose proof (terminates fresh add close n room false false pipe_sends (seq 0 n) (seq_NoDup n 0) Ha (fun i x => pipe_sends_in i x Hn) es st H) as T.
  rewrite app_length, !map_length in T. unfold pipe_sends in T. rewrite map_length, combine_length, !seq_length, Nat.min_id in T. lia.
Qed.
Lemma pipe_hangs room es st i e : 0 < n -> i < n -> MetaModel.worker decode wval wm (offset + i, share n i lines) = Fail e ->
  run add close n room n false false (init fresh (pipe_program n lines)) es = Some st -> dispatcher st <> Returned.
Proof.
  intros Hn Hi F H. rewrite pipe_program_sends in H. assert (H' : run add close n room (List.length (seq 0 n)) false false (init fresh (map (fun y => (fst y, Line (snd y))) pipe_sends ++ map (fun i => (i, AllDone)) (seq 0 n))) es = Some st) by (rewrite seq_length; exact H). clear H. rename H' into H.
  assert (Ha : forall i, In i (seq 0 n) -> i < n) by (intros j Hj; apply in_seq in Hj; lia).
  destruct (work fresh add close i (share n i lines)) as [o|e'] eqn:Wk; [apply work_worker in Wk; congruence|].
  apply (hangs fresh add close n room false false pipe_sends (seq 0 n) (seq_NoDup n 0) Ha (fun i x => pipe_sends_in i x Hn) es st i e' H); [apply in_seq; lia|].
  now rewrite pipe_lines_of.
Qed.

(** QueueDispatcher. *)
Variable f : L -> nat.
Variable order : list nat.
Hypothesis Hf : forall x, In x lines -> f x < n.
Hypothesis Hd : NoDup order.
Hypothesis Ho : forall i, In i order <-> exists x, In x lines /\ f x = i.
Let queue_sends := map (fun x => (f x, x)) lines.
Lemma queue_program_sends : queue_program f order lines = map (fun y => (fst y, Line (snd y))) queue_sends ++ map (fun i => (i, AllDone)) order.
Proof. unfold queue_program, queue_sends. now rewrite map_map. Qed.
Lemma queue_sends_in i x : In (i, x) queue_sends -> In i order.
Proof. intros H. apply in_map_iff in H as (y & E & Hy). injection E as <- <-. apply Ho. now exists y. Qed.
Lemma order_lt i : In i order -> i < n.
Proof. intros H. apply Ho in H as (x & Hx & <-). now apply Hf. Qed.
Lemma queue_lines_of i : lines_of queue_sends i = filter (fun x => f x =? i) lines.
Proof.
  unfold lines_of, queue_sends. clear. induction lines as [|x l IH]; [reflexivity|]. cbn [map filter fst snd]. destruct (f x =? i); [|exact IH]. cbn [map snd]. now rewrite IH.
Qed.
Lemma mapM_perm {A B} (g : A -> res B) l l' : Permutation l l' -> forall outs, mapM g l = Ok outs -> exists outs', mapM g l' = Ok outs' /\ Permutation outs outs'.
Proof.
  induction 1 as [|x l l' P IH|x y l|l l1 l2 P1 IH1 P2 IH2]; intros outs H.
  - injection H as <-. now exists [].
  - cbn [mapM] in *. destruct (g x) as [o|]; [|discriminate]. cbn [bind] in *. destruct (mapM g l) as [os|]; [|discriminate]. injection H as <-.
    destruct (IH os eq_refl) as (os' & -> & Q). exists (o :: os'). split; [reflexivity|now constructor].
  - cbn [mapM] in *. destruct (g y) as [o|]; [|discriminate]. cbn [bind] in *. destruct (g x) as [o'|]; [|discriminate]. cbn [bind] in *. destruct (mapM g l) as [os|]; [|discriminate]. injection H as <-.
    exists (o' :: o :: os). split; [reflexivity|constructor].
  - destruct (IH1 outs H) as (o1 & H1 & Q1). destruct (IH2 o1 H1) as (o2 & H2 & Q2). exists o2. split; [exact H2|now transitivity o1].
Qed.
Lemma queue_result room es st :
  run add close n room (List.length order) true false (init fresh (queue_program f order lines)) es = Some st -> dispatcher st = Returned ->
  queue_meta wval decode wm f offset n lines (meta_of wm (arrived st)).
Proof.
  intros H D. rewrite queue_program_sends in H.
  destruct (results fresh add close n room true false queue_sends order Hd order_lt queue_sends_in es st H D) as (outs & M & P & _).
  assert (S : exists s, dispatch_all (queue_dispatch f) lines ((0, repeat [] n), []) = Ok s).
  { assert (G : forall ls s, (forall x, In x ls -> f x < n) -> List.length (snd (fst s)) = n -> exists s', dispatch_all (queue_dispatch f) ls s = Ok s').
    { induction ls as [|x ls IH]; intros s Hx Hl; [now exists s|]. cbn [dispatch_all]. unfold queue_dispatch at 1. unfold send. unfold dstate in *.
      destruct (nth_error (snd (fst s)) (f x)) as [q|] eqn:E; [|exfalso; apply nth_error_None in E; specialize (Hx x (or_introl eq_refl)); unfold dstate in *; lia]. cbn [bind].
      apply IH; [intros y Hy; apply Hx; now right|]. cbn [fst snd]. rewrite app_length. cbn [List.length]. rewrite firstn_length, skipn_length.
      specialize (Hx x (or_introl eq_refl)). unfold dstate in *. lia. }
    apply G; [exact Hf|apply repeat_length]. }
  destruct S as [s Hs]. pose proof Hs as Hs'.
  apply (queue_queues f n lines []) in Hs'; cbn [fst snd];
    [|apply repeat_length|intros i Hi; now rewrite nth_repeat|constructor|intros i; split; [intros []|intros X; discriminate]|intros x []].
  destruct Hs' as (Q & Nd & Ac & _). cbn [app] in Q, Ac.
  assert (Pm : Permutation order (snd s)).
  { apply NoDup_Permutation; [exact Hd|exact Nd|]. intros i. rewrite Ac, Ho. unfold active. rewrite existsb_exists. split; intros (x & Hx & E); exists x; (split; [exact Hx|now apply Nat.eqb_eq]). }
  destruct (mapM_perm _ _ _ Pm outs M) as (outs' & M' & P').
  exists (map (fun i => (offset + i, nth i (snd (fst s)) [])) (snd s)), outs', (arrived st). split; [unfold queue_workers; now rewrite Hs|]. split; [|split; [now transitivity outs|reflexivity]].
  apply (mapM_work (fun i => nth i (snd (fst s)) [])). rewrite <- M'. apply mapM_ext_in. intros i Hi. rewrite queue_lines_of, Q; [reflexivity|]. apply order_lt. apply (Permutation_in _ (Permutation_sym Pm) Hi).
Qed.
Lemma queue_progress room es st : (forall m, room [] m = true) ->
  (forall i, In i order -> exists o, MetaModel.worker decode wval wm (offset + i, filter (fun x => f x =? i) lines) = Ok o) ->
  run add close n room (List.length order) true false (init fresh (queue_program f order lines)) es = Some st ->
  dispatcher st = Returned \/ exists e st', step add close n room (List.length order) true false st e = Some st'.
Proof.
  intros R Hw H. rewrite queue_program_sends in H.
  destruct (progress fresh add close n room true false queue_sends order Hd order_lt queue_sends_in R es st) as [P|[P|P]].
  - intros i Hi. rewrite queue_lines_of. destruct (Hw i Hi) as [o X]. exists o. now apply work_worker.
  - exact H.
  - now left.
  - pose proof (inv_run fresh add close n room true false queue_sends order Hd order_lt queue_sends_in es _ _
      (inv_init fresh add close n true false queue_sends order queue_sends_in) H) as I.
    apply i_left in I. rewrite P in I. destruct I. discriminate.
  - right. exact P.
Qed.
Lemma queue_terminates room es st th :
  run add close n room (List.length order) true th (init fresh (queue_program f order lines)) es = Some st -> List.length es <= 2 * List.length lines + 4 * n + 2.
Proof.
  intros H. rewrite queue_program_sends in H.
  pose proof (terminates fresh add close n room true th queue_sends order Hd order_lt queue_sends_in es st H) as T.
  rewrite app_length, !map_length in T. unfold queue_sends in T. rewrite map_length in T.
  assert (X : List.length order <= n) by (rewrite <- (seq_length n 0); apply NoDup_incl_length; [exact Hd|]; intros i Hi; apply in_seq; apply order_lt in Hi; lia).
  lia.
Qed.
End Convert.
