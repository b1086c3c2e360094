From Verif Require Import Base LogModel LogSpec.

Section Log.
Variable default : bool.
Variable obj : nat.
Notation step := (step default obj).
Notation run := (run default obj).

Lemma at_same th i p : at_ th i p i = p. Proof. unfold at_. now rewrite Nat.eqb_refl. Qed.
Lemma at_other th i p j : j <> i -> at_ th i p j = th j. Proof. intros H. unfold at_. now rewrite (proj2 (Nat.eqb_neq j i) H). Qed.
Lemma at_cases th i p j : (j = i /\ at_ th i p j = p) \/ (j <> i /\ at_ th i p j = th j).
Proof. destruct (Nat.eq_dec j i) as [->|H]; [left|right]; split; auto using at_same, at_other. Qed.

(** What holds at a place of the program. *)
Definition local (s : state) (p : pc) : Prop :=
  match p with
  | Azure _ => configs s <> []
  | Mark _ => default = true -> configs s <> []
  | Assign => init_ s = true
  | Release (Got v) | Stop (Got v) => v = Some obj /\ logger s = Some obj
  | Enable _ | Config _ => default = true
  | _ => True
  end.
Record inv (s : state) : Prop := Inv {
  i_lock : forall i, inside (threads s i) = true <-> lock s = Some i;
  i_logger : logger s = None \/ (logger s = Some obj /\ init_ s = true);
  i_init : init_ s = true -> default = true -> configs s <> [];
  i_local : forall i, local s (threads s i) }.

Ltac thr j i := destruct (at_cases) with (j := j) (i := i) as [[? ->]|[? ->]].

Lemma lock_keep s i p l : (forall i, inside (threads s i) = true <-> lock s = Some i) -> l = lock s ->
  inside p = inside (threads s i) -> forall j, inside (at_ (threads s) i p j) = true <-> l = Some j.
Proof.
  intros H -> E j. destruct (at_cases (threads s) i p j) as [[-> ->]|[N ->]]; [rewrite E|]; apply H.
Qed.

Lemma step_inv i bad key s s' : inv s -> step i bad key s = Some s' -> inv s'.
Proof.
  intros [L G I C] E. unfold LogModel.step in E. pose proof (C i) as Ci. pose proof (L i) as Li.
  assert (K : forall p l, l = lock s -> inside p = inside (threads s i) ->
     forall j, inside (at_ (threads s) i p j) = true <-> l = Some j) by (intros; eapply lock_keep; eassumption).
  destruct (threads s i) eqn:T; cbn [local inside] in Ci, Li, K.
  - (* Fast *) injection E as <-. split; cbn [LogModel.threads lock logger init_ configs move]; auto.
    + apply K; [reflexivity|]. destruct (logger s); reflexivity.
    + intros j. destruct (at_cases (threads s) i (match logger s with Some l => Stop (Got (Some l)) | None => Acquire end) j) as [[-> ->]|[N ->]].
      * destruct (logger s) eqn:El; [|exact Logic.I]. cbn [local LogModel.logger move]. destruct G as [G|[G _]]; [discriminate|]. split; congruence.
      * apply C.
  - (* Acquire *) destruct (lock s) eqn:El; [discriminate|]. injection E as <-. split; cbn [LogModel.threads lock logger init_ configs]; auto.
    + intros j. destruct (at_cases (threads s) i Second j) as [[-> ->]|[N ->]]; cbn [inside]; [tauto|].
      rewrite L. split; [discriminate|]. congruence.
    + intros j. destruct (at_cases (threads s) i Second j) as [[-> ->]|[N ->]]; [exact Logic.I|apply C].
  - (* Second *) injection E as <-. split; cbn [LogModel.threads lock logger init_ configs move]; auto.
    + apply K; [reflexivity|]. destruct (logger s); reflexivity.
    + intros j. destruct (at_cases (threads s) i (match logger s with Some l => Release (Got (Some l)) | None => Inited end) j) as [[-> ->]|[N ->]].
      * destruct (logger s) eqn:El; [|exact Logic.I]. cbn [local LogModel.logger move]. destruct G as [G|[G _]]; [discriminate|]. split; congruence.
      * apply C.
  - (* Inited *) injection E as <-. split; cbn [LogModel.threads lock logger init_ configs move]; auto.
    + apply K; [reflexivity|]. destruct (init_ s); reflexivity.
    + intros j. destruct (at_cases (threads s) i (if init_ s then Assign else Class_ Inner) j) as [[-> ->]|[N ->]]; [|apply C].
      destruct (init_ s) eqn:Ei; [exact Ei|exact Logic.I].
  - (* Class_ *) injection E as <-. split; cbn [LogModel.threads lock logger init_ configs move]; auto.
    + apply K; [reflexivity|]. destruct default; reflexivity.
    + intros j. destruct (at_cases (threads s) i (if default then Enable c else Mark c) j) as [[-> ->]|[N ->]]; [|apply C].
      destruct default eqn:Ed; [exact Ed|]. intros X. congruence.
  - (* Enable *) injection E as <-. split; cbn [LogModel.threads lock logger init_ configs]; auto.
    intros j. destruct (at_cases (threads s) i (Config c) j) as [[-> ->]|[N ->]]; [exact Ci|apply C].
  - (* Config *) destruct bad; injection E as <-; split; cbn [LogModel.threads lock logger init_ configs move]; auto.
    + apply K; [reflexivity|]. destruct c; reflexivity.
    + intros j. destruct (at_cases (threads s) i (raised c) j) as [[-> ->]|[N ->]]; [destruct c; exact Logic.I|apply C].
    + intros _ _. discriminate.
    + intros j. destruct (at_cases (threads s) i (Azure c) j) as [[-> ->]|[N ->]]; [cbn; discriminate|].
      specialize (C j). destruct (threads s j); cbn [local logger init_ configs] in *; auto; discriminate.
  - (* Azure *) destruct key; injection E as <-; split; cbn [LogModel.threads lock logger init_ configs]; auto;
      intros j; (destruct (at_cases (threads s) i (Mark c) j) as [[-> ->]|[N ->]]; [cbn; auto|apply C]).
  - (* Mark *) injection E as <-. split; cbn [LogModel.threads lock logger init_ configs]; auto.
    + apply K; [reflexivity|]. destruct c; reflexivity.
    + destruct G as [G|[G _]]; auto.
    + intros j. destruct (at_cases (threads s) i (match c with User _ => Stop Returned | Inner => Assign end) j) as [[-> ->]|[N ->]].
      * destruct c; [exact Logic.I|reflexivity].
      * specialize (C j). destruct (threads s j); cbn [local logger init_ configs] in *; auto.
  - (* Assign *) injection E as <-. split; cbn [LogModel.threads lock logger init_ configs]; auto.
    intros j. destruct (at_cases (threads s) i (Release (Got (Some obj))) j) as [[-> ->]|[N ->]]; [cbn; auto|].
    specialize (C j). destruct (threads s j) as [| | | | | | | | | |o|o]; cbn [local logger init_ configs] in *; auto;
      destruct o; tauto.
  - (* Release *) injection E as <-. split; cbn [LogModel.threads lock logger init_ configs]; auto.
    + intros j. destruct (at_cases (threads s) i (Stop o) j) as [[-> ->]|[N ->]]; cbn [inside]; [split; discriminate|].
      rewrite L. destruct Li as [Li _]. rewrite Li by reflexivity. split; [congruence|discriminate].
    + intros j. destruct (at_cases (threads s) i (Stop o) j) as [[-> ->]|[N ->]]; [exact Ci|apply C].
  - discriminate.
Qed.
Lemma start_inv progs : inv (start progs).
Proof.
  split; cbn [start threads lock logger init_ configs]; auto; try discriminate.
  - intros i. destruct (progs i); cbn; split; discriminate.
  - intros i. destruct (progs i); exact Logic.I.
Qed.
Lemma run_inv sched : forall s, inv s -> inv (run sched s).
Proof.
  induction sched as [|[[i bad] key] t IH]; intros s H; [exact H|]. cbn [LogModel.run]. apply IH.
  destruct (step i bad key s) eqn:E; [eapply step_inv; eassumption|exact H].
Qed.
Theorem returns progs sched i v : threads (run sched (start progs)) i = Stop (Got v) ->
  v = Some obj /\ init_ (run sched (start progs)) = true /\ (default = true -> configs (run sched (start progs)) <> []).
Proof.
  intros T. pose proof (run_inv sched _ (start_inv progs)) as [L G I C]. pose proof (C i) as Ci. rewrite T in Ci. destruct Ci as [-> El].
  destruct G as [G|[_ G]]; [congruence|]. auto.
Qed.
Theorem exclusive progs sched i j : let s := run sched (start progs) in
  inside (threads s i) = true -> inside (threads s j) = true -> i = j.
Proof.
  cbv zeta. intros A B. pose proof (run_inv sched _ (start_inv progs)) as [L _ _ _]. apply L in A. apply L in B. congruence.
Qed.
Theorem progress progs sched i : let s := run sched (start progs) in ended (threads s i) = false ->
  exists j, forall bad key, exists s', step j bad key s = Some s'.
Proof.
  cbv zeta. set (s := run sched (start progs)). intros E. pose proof (run_inv sched _ (start_inv progs)) as [L _ _ _]. fold s in L.
  assert (Can : forall j, ended (threads s j) = false -> threads s j <> Acquire -> forall bad key, exists s', step j bad key s = Some s').
  { intros j Ej Nj bad key. unfold LogModel.step. destruct (threads s j); try congruence; try discriminate; try (eexists; reflexivity).
    - destruct bad; eexists; reflexivity.
    - destruct key; eexists; reflexivity. }
  destruct (lock s) as [k|] eqn:El.
  - exists k. apply Can.
    + assert (X : inside (threads s k) = true) by now apply L. destruct (threads s k); try discriminate; reflexivity.
    + intros X. assert (Y : inside (threads s k) = true) by now apply L. rewrite X in Y. discriminate.
  - exists i. intros bad key. destruct (threads s i) eqn:T; try discriminate; try (apply Can; rewrite T; [reflexivity|discriminate]).
    unfold LogModel.step. rewrite T, El. eexists. reflexivity.
Qed.
Lemma run_app a : forall b s, run (a ++ b) s = run b (run a s).
Proof. induction a as [|[[i bad] key] a IH]; intros b s; [reflexivity|]. cbn [List.app LogModel.run]. apply IH. Qed.
Lemma run_ended i bad key n : forall s, ended (threads s i) = true -> run (repeat (i, bad, key) n) s = s.
Proof.
  induction n as [|n IH]; intros s T; [reflexivity|]. cbn [repeat LogModel.run].
  unfold LogModel.step. destruct (threads s i) eqn:E; try discriminate T. apply IH. now rewrite E.
Qed.
(** Every step of a thread brings it nearer to its end. *)
Definition rank (p : pc) : nat :=
  match p with
  | Fast => 11 | Acquire => 10 | Second => 9 | Inited => 8 | Class_ _ => 7 | Enable _ => 6 | Config _ => 5 | Azure _ => 4
  | Mark _ => 3 | Assign => 2 | Release _ => 1 | Stop _ => 0
  end.
Theorem ranked i bad key s s' : step i bad key s = Some s' ->
  rank (threads s' i) < rank (threads s i) /\ forall j, j <> i -> threads s' j = threads s j.
Proof.
  unfold LogModel.step. intros E. destruct (threads s i) eqn:T.
  all: repeat match goal with
       | E : context [match ?x with _ => _ end] |- _ => destruct x
       end; try discriminate; injection E as <-; cbn [threads move]; rewrite at_same; split;
    try (intros j Hj; now apply at_other); try destruct c; cbn [rank raised]; lia.
Qed.

(** ** Once *)
Definition early (p : pc) : bool := match p with Class_ Inner | Enable Inner | Config Inner => true | _ => false end.
Definition late (p : pc) : bool := match p with Azure Inner | Mark Inner => true | _ => false end.
Definition inners (s : state) : nat := length (filter inner (configs s)).
Record once (s : state) : Prop := Once {
  o_early : forall i, early (threads s i) = true -> inners s = 0;
  o_max : inners s <= 1;
  o_done : inners s = 1 -> init_ s = true \/ exists i, late (threads s i) = true }.
Lemma once_move s s' i p : once s -> threads s' = at_ (threads s) i p -> configs s' = configs s -> (init_ s = true -> init_ s' = true) ->
  (early p = true -> inners s = 0) -> (late (threads s i) = true -> late p = true \/ init_ s' = true) -> once s'.
Proof.
  intros [A B C] T D I E F. assert (N : inners s' = inners s) by (unfold inners; now rewrite D). split; rewrite ?N; auto.
  - intros j. rewrite T. destruct (at_cases (threads s) i p j) as [[-> ->]|[X ->]]; auto. apply A.
  - intros H. destruct (C H) as [X|(j & X)]; [left; auto|]. rewrite T. destruct (Nat.eq_dec j i) as [->|Y].
    + destruct (F X) as [Z|Z]; [right; exists i; now rewrite at_same|now left].
    + right. exists j. now rewrite at_other.
Qed.
Lemma step_once i bad key s s' : inv s -> once s -> step i bad key s = Some s' -> once s'.
Proof.
  intros [L _ _ _] O E. unfold LogModel.step in E. destruct (threads s i) eqn:T.
  - injection E as <-. eapply once_move; try reflexivity; auto; rewrite ?T; [|discriminate]. destruct (logger s); discriminate.
  - destruct (lock s); [discriminate|]. injection E as <-. eapply once_move; try reflexivity; auto; rewrite ?T; discriminate.
  - injection E as <-. eapply once_move; try reflexivity; auto; rewrite ?T; [|discriminate]. destruct (logger s); discriminate.
  - injection E as <-. eapply once_move; try reflexivity; auto; rewrite ?T; [|discriminate].
    destruct (init_ s) eqn:Ei; [discriminate|]. intros _. destruct O as [A B C].
    destruct (Nat.eq_dec (inners s) 1) as [X|X]; [|lia]. destruct (C X) as [Y|(j & Y)]; [congruence|].
    assert (Hi : inside (threads s i) = true) by now rewrite T. assert (Hj : inside (threads s j) = true).
    { destruct (threads s j) as [| | | | | | |c|c| | |]; try discriminate; destruct c; try discriminate; reflexivity. }
    apply L in Hi. apply L in Hj. assert (i = j) by congruence. subst j. rewrite T in Y. discriminate.
  - injection E as <-. eapply once_move; try reflexivity; auto; rewrite ?T; [|discriminate]. destruct default; [|destruct c; discriminate].
    intros X. destruct O as [A _ _]. apply (A i). rewrite T. exact X.
  - injection E as <-. eapply once_move; try reflexivity; auto; rewrite ?T; [|discriminate].
    intros X. destruct O as [A _ _]. apply (A i). rewrite T. exact X.
  - destruct bad; injection E as <-.
    + eapply once_move; try reflexivity; auto; rewrite ?T; [|discriminate]. destruct c; discriminate.
    + destruct O as [A B C]. destruct c as [e|].
      * split; unfold inners; cbn [configs filter inner threads init_]; [|exact B|].
        -- intros j. destruct (at_cases (threads s) i (Azure (User e)) j) as [[-> ->]|[X ->]]; [discriminate|]. apply A.
        -- intros H. destruct (C H) as [X|(j & X)]; [now left|]. right. exists j. rewrite at_other; [exact X|]. intros ->. rewrite T in X. discriminate.
      * assert (Z : inners s = 0) by (apply (A i); now rewrite T). split; unfold inners in *; cbn [configs filter inner threads init_ length]; [|lia|].
        -- intros j. destruct (at_cases (threads s) i (Azure Inner) j) as [[-> ->]|[X ->]]; [discriminate|]. intros Y. exfalso.
           assert (Hi : inside (threads s i) = true) by now rewrite T. assert (Hj : inside (threads s j) = true).
           { destruct (threads s j) as [| | | |c|c|c| | | | |]; try discriminate; destruct c; try discriminate; reflexivity. }
           apply L in Hi. apply L in Hj. congruence.
        -- intros _. right. exists i. now rewrite at_same.
  - destruct key; injection E as <-; eapply once_move; try reflexivity; auto; rewrite ?T; destruct c; cbn [early late]; auto; discriminate.
  - injection E as <-. eapply once_move; try reflexivity; auto; rewrite ?T; destruct c; cbn [early late]; auto; discriminate.
  - injection E as <-. eapply once_move; try reflexivity; auto; rewrite ?T; discriminate.
  - injection E as <-. eapply once_move; try reflexivity; auto; rewrite ?T; discriminate.
  - discriminate.
Qed.
Theorem configured_once progs sched : length (filter inner (configs (run sched (start progs)))) <= 1.
Proof.
  assert (H : forall t s, inv s -> once s -> once (run t s)).
  { induction t as [|[[i bad] key] t IH]; intros s I O; [exact O|]. cbn [LogModel.run]. destruct (step i bad key s) eqn:E; [|now apply IH].
    apply IH; [eapply step_inv; eassumption|eapply step_once; eassumption]. }
  apply (o_max (run sched (start progs))). apply H; [apply start_inv|]. split; cbn [start threads]; unfold inners; cbn; auto; try discriminate.
Qed.

(** ** Getters leave the settings of others alone *)
Definition idle (p : pc) : bool := match p with Fast | Acquire | Second | Inited | Assign | Release _ | Stop _ => true | _ => false end.
Lemma settled sched : forall s, init_ s = true -> (forall i, idle (threads s i) = true) ->
  let s' := run sched s in enabled s' = enabled s /\ handlers s' = handlers s /\ configs s' = configs s.
Proof.
  induction sched as [|[[i bad] key] t IH]; intros s I A; cbv zeta; [auto|]. cbn [LogModel.run].
  destruct (step i bad key s) as [s'|] eqn:E; [|now apply IH].
  assert (X : init_ s' = true /\ (forall j, idle (threads s' j) = true) /\ enabled s' = enabled s /\ handlers s' = handlers s /\ configs s' = configs s).
  { unfold LogModel.step in E. pose proof (A i) as Ai. destruct (threads s i) eqn:T; try discriminate Ai.
    - injection E as <-. cbn. repeat split; auto. intros j. destruct (at_cases (threads s) i (match logger s with Some l => Stop (Got (Some l)) | None => Acquire end) j) as [[-> ->]|[N ->]]; auto. now destruct (logger s).
    - destruct (lock s); [discriminate|]. injection E as <-. cbn. repeat split; auto. intros j. destruct (at_cases (threads s) i Second j) as [[-> ->]|[N ->]]; auto.
    - injection E as <-. cbn. repeat split; auto. intros j. destruct (at_cases (threads s) i (match logger s with Some l => Release (Got (Some l)) | None => Inited end) j) as [[-> ->]|[N ->]]; auto. now destruct (logger s).
    - injection E as <-. cbn. rewrite I. repeat split; auto. intros j. destruct (at_cases (threads s) i Assign j) as [[-> ->]|[N ->]]; auto.
    - injection E as <-. cbn. repeat split; auto. intros j. destruct (at_cases (threads s) i (Release (Got (Some obj))) j) as [[-> ->]|[N ->]]; auto.
    - injection E as <-. cbn. repeat split; auto. intros j. destruct (at_cases (threads s) i (Stop o) j) as [[-> ->]|[N ->]]; auto.
    - discriminate. }
  destruct X as (X1 & X2 & X3 & X4 & X5). destruct (IH s' X1 X2) as (Y1 & Y2 & Y3). rewrite <- X3, <- X4, <- X5. auto.
Qed.

(** ** Only getters *)
Definition quiet (p : pc) : bool := match p with Class_ (User _) | Enable (User _) | Config (User _) | Azure (User _) | Mark (User _) => false | _ => true end.
Definition telemetry (s : state) : nat := length (filter (fun h => match h with Telemetry => true | Console => false end) (handlers s)).
Record only (s : state) : Prop := Only {
  n_quiet : forall i, quiet (threads s i) = true;
  n_off : enabled s = false;
  n_hand : handlers s = [] \/ handlers s = [Console] \/ handlers s = [Console; Telemetry];
  n_azure : forall i, threads s i = Azure Inner -> handlers s = [Console] }.
Lemma only_move s s' i p : only s -> threads s' = at_ (threads s) i p -> handlers s' = handlers s -> enabled s' = false ->
  quiet p = true -> (p = Azure Inner -> handlers s = [Console]) -> only s'.
Proof.
  intros [A B C D] T H E Q Z. split; rewrite ?H; auto.
  - intros j. rewrite T. destruct (at_cases (threads s) i p j) as [[-> ->]|[X ->]]; auto.
  - intros j. rewrite T. destruct (at_cases (threads s) i p j) as [[-> ->]|[X ->]]; auto. apply D.
Qed.
Lemma step_only i bad key s s' : inv s -> only s -> step i bad key s = Some s' -> only s'.
Proof.
  intros [L _ _ _] O E. unfold LogModel.step in E. pose proof O as [A B C D]. pose proof (A i) as Ai. destruct (threads s i) eqn:T.
  - injection E as <-. eapply only_move; try reflexivity; auto; destruct (logger s); reflexivity || discriminate.
  - destruct (lock s); [discriminate|]. injection E as <-. eapply only_move; try reflexivity; auto; discriminate.
  - injection E as <-. eapply only_move; try reflexivity; auto; destruct (logger s); reflexivity || discriminate.
  - injection E as <-. eapply only_move; try reflexivity; auto; destruct (init_ s); reflexivity || discriminate.
  - destruct c; [discriminate|]. injection E as <-. eapply only_move; try reflexivity; auto; destruct default; reflexivity || discriminate.
  - destruct c; [discriminate|]. injection E as <-. eapply only_move; try reflexivity; auto; discriminate.
  - destruct c; [discriminate|]. destruct bad; injection E as <-.
    + eapply only_move; try reflexivity; auto; discriminate.
    + split; cbn [threads handlers enabled]; auto.
      intros j. destruct (at_cases (threads s) i (Azure Inner) j) as [[-> ->]|[X ->]]; auto.
  - destruct c; [discriminate|]. destruct key; injection E as <-.
    + split; cbn [threads handlers enabled]; auto.
      * intros j. destruct (at_cases (threads s) i (Mark Inner) j) as [[-> ->]|[X ->]]; auto.
      * rewrite (D i T). auto.
      * intros j. destruct (at_cases (threads s) i (Mark Inner) j) as [[-> ->]|[X ->]]; [discriminate|]. intros Y. exfalso.
        assert (Hi : inside (threads s i) = true) by now rewrite T. assert (Hj : inside (threads s j) = true) by now rewrite Y.
        apply L in Hi. apply L in Hj. congruence.
    + eapply only_move; try reflexivity; auto; discriminate.
  - destruct c; [discriminate|]. injection E as <-. eapply only_move; try reflexivity; auto; discriminate.
  - injection E as <-. eapply only_move; try reflexivity; auto; discriminate.
  - injection E as <-. eapply only_move; try reflexivity; auto; discriminate.
  - discriminate.
Qed.
Theorem only_getters progs sched : getters progs -> let s := run sched (start progs) in
  enabled s = false /\ (handlers s = [] \/ handlers s = [Console] \/ handlers s = [Console; Telemetry]).
Proof.
  intros H. cbv zeta. assert (X : forall t s, inv s -> only s -> only (run t s)).
  { induction t as [|[[i bad] key] t IH]; intros s I O; [exact O|]. cbn [LogModel.run]. destruct (step i bad key s) eqn:E; [|now apply IH].
    apply IH; [eapply step_inv; eassumption|eapply step_only; eassumption]. }
  destruct (X sched _ (start_inv progs)) as [A B C D]; [|auto]. split; cbn [start threads handlers enabled]; auto.
  - intros i. destruct (H i) as [->| ->]; reflexivity.
  - intros i. destruct (H i) as [->| ->]; discriminate.
Qed.
End Log.
