From Verif Require Import Base CallModel.
From Coq Require Import Permutation ZifyBool ZifyNat ZifyN.

(** *** Specification on lists of events *)
(** Accesses to the locals of the caller by others: gRPC stores a reply, a callback runs. *)
Definition touches_locals (k : nat) (e : event) : Prop :=
  match e with ELand j _ | ECallback j _ => j = k | _ => False end.
(** Accesses to the call object of a shard. *)
Definition touches_call (k : nat) (e : event) : Prop :=
  match e with
  | EFuture j | ESend j | ELand j _ | ETake j | ECallback j _ | EPromise j | EDelete j => j = k
  | _ => False
  end.
Definition ended (tr : list event) : Prop := In EReturn tr \/ exists k, In (EThrow k) tr.
Definition failed (tr : list event) (k : nat) : Prop := In (ELand k false) tr \/ In (ECallback k false) tr.
(** The shards whose callbacks ran, in order. *)
Definition callbacks (tr : list event) : list nat :=
  flat_map (fun e => match e with ECallback k _ => [k] | _ => [] end) tr.

(** *** Runs *)
Section Call.
Variable n : nat.
Variables queue threads : nat -> nat.
Notation step := (step n queue threads).
Notation run := (run n queue threads).
Notation runs tr st := (run (init n) tr = Some st).

Lemma run_app st a b : run st (a ++ b) = match run st a with Some s => run s b | None => None end.
Proof. revert st; induction a as [|e a IH]; intros st; [reflexivity|]; cbn [CallModel.run app]. destruct (step st e); auto. Qed.

Lemma run_ind (P : list event -> state -> Prop) :
  P [] (init n) ->
  (forall tr st e st', runs tr st -> P tr st -> step st e = Some st' -> P (tr ++ [e]) st') ->
  forall tr st, runs tr st -> P tr st.
Proof.
  intros P0 PS tr; induction tr as [|e tr IH] using rev_ind; intros st R.
  - cbn in R. injection R as <-. exact P0.
  - rewrite run_app in R. destruct (run (init n) tr) as [s|] eqn:Rs; [|discriminate].
    cbn [CallModel.run] in R. destruct (step s e) as [s'|] eqn:Se; [|discriminate]. injection R as <-. eauto.
Qed.

Lemma upd_same {A} (f : nat -> A) i a : upd f i a i = a.
Proof. unfold upd. now rewrite Nat.eqb_refl. Qed.
Lemma upd_other {A} (f : nat -> A) i j a : j <> i -> upd f i a j = f j.
Proof. unfold upd. intros D. apply Nat.eqb_neq in D. now rewrite D. Qed.
Lemma In_snoc {A} (x : A) l y : In x (l ++ [y]) <-> In x l \/ y = x.
Proof. rewrite in_app_iff. cbn. intuition. Qed.

(** The events of a shard up to a state. *)
Definition of_shard (k : nat) (e : event) : bool :=
  match e with
  | ENew j | EFuture j | ESend j | ELand j _ | ETake j | ECallback j _ | EPromise j | EDelete j => j =? k
  | _ => false
  end.
Definition status_of (ran : option bool) : bool := match ran with None => false | Some _ => true end.
Definition path (k : nat) (h : shard) : list event :=
  match h with
  | HNone => []
  | HAlloc => [ENew k]
  | HFuture => [ENew k; EFuture k]
  | HSent => [ENew k; EFuture k; ESend k]
  | HLanded ok => [ENew k; EFuture k; ESend k; ELand k ok]
  | HTaken ok => [ENew k; EFuture k; ESend k; ELand k ok; ETake k]
  | HRan r => [ENew k; EFuture k; ESend k; ELand k true; ETake k; ECallback k r]
  | HSet ran => [ENew k; EFuture k; ESend k; ELand k (status_of ran); ETake k] ++ match ran with Some r => [ECallback k r] | None => [] end ++ [EPromise k]
  | HDeleted ran => [ENew k; EFuture k; ESend k; ELand k (status_of ran); ETake k] ++ match ran with Some r => [ECallback k r] | None => [] end ++ [EPromise k; EDelete k]
  end.
Definition shard_of (e : event) : option nat :=
  match e with
  | ENew j | EFuture j | ESend j | ELand j _ | ETake j | ECallback j _ | EPromise j | EDelete j => Some j
  | _ => None
  end.
Lemma of_shard_eq k e : of_shard k e = true <-> shard_of e = Some k.
Proof. destruct e; cbn; rewrite ?Nat.eqb_eq; split; congruence. Qed.

Ltac break_step H :=
  repeat match type of H with
  | None = Some _ => discriminate H
  | context [match ?x with _ => _ end] => let E := fresh "E" in destruct x eqn:E
  | context [if ?x then _ else _] => let E := fresh "E" in destruct x eqn:E
  end; try discriminate H; try (injection H as <-).

(** One step on the shard it is about, and on the others. *)
Lemma step_shard st e st' : step st e = Some st' ->
  match shard_of e with
  | Some k => path k (sh st' k) = path k (sh st k) ++ [e] /\ forall j, j <> k -> sh st' j = sh st j
  | None => sh st' = sh st /\ fut st' = fut st
  end.
Proof.
  intros H. destruct e; cbn [CallModel.step shard_of] in *; break_step H;
    unfold set_sh, set_who, set_fut, set_busy; cbn [sh fut]; try (now split);
    rewrite upd_same; (split; [|intros j D; now apply upd_other]);
    repeat match goal with E : sh ?s _ = _ |- _ => rewrite E; clear E end; try reflexivity;
    try (destruct ok; reflexivity); try (destruct ran as [[|]|]; reflexivity).
Qed.

Lemma paths tr st : runs tr st -> forall k, filter (of_shard k) tr = path k (sh st k).
Proof.
  apply (run_ind (fun tr st => forall k, filter (of_shard k) tr = path k (sh st k))); [reflexivity|].
  clear tr st. intros tr st e st' R IH H k. rewrite filter_app. cbn [filter]. rewrite IH. apply step_shard in H.
  destruct (of_shard k e) eqn:O.
  - apply of_shard_eq in O. rewrite O in H. now destruct H as [-> _].
  - rewrite app_nil_r. destruct (shard_of e) as [j|] eqn:Es.
    + destruct H as [_ H]. rewrite H; [reflexivity|]. intros ->. apply of_shard_eq in Es. congruence.
    + destruct H as [-> _]. reflexivity.
Qed.

(** Futures and promises. *)
Definition result (h : shard) : option bool :=
  match h with HSet ran | HDeleted ran => Some (value_of ran) | _ => None end.
Lemma futures tr st : runs tr st -> forall k, fut st k = result (sh st k).
Proof.
  apply (run_ind (fun tr st => forall k, fut st k = result (sh st k))); [reflexivity|].
  clear tr st. intros tr st e st' R IH H k.
  destruct e; cbn [CallModel.step] in H; break_step H; unfold set_sh, set_who, set_fut, set_busy; cbn [sh fut]; auto.
  all: unfold upd; destruct (Nat.eqb_spec k k0) as [->|]; auto; rewrite ?IH; cbn [result];
    repeat match goal with E : sh ?s _ = _ |- _ => rewrite E; clear E end; reflexivity.
Qed.

(** The caller. *)
Definition ending (e : event) : Prop := match e with EReturn | EThrow _ => True | _ => False end.
Definition sent (h : shard) : Prop := match h with HNone | HAlloc | HFuture => False | _ => True end.
Lemma step_mono tr st e st' : runs tr st -> step st e = Some st' -> forall k,
  (sent (sh st k) -> sent (sh st' k)) /\ (forall b, fut st k = Some b -> fut st' k = Some b).
Proof.
  intros R H k. pose proof (futures _ _ R k) as F.
  destruct e; cbn [CallModel.step] in H; break_step H; unfold set_sh, set_who, set_fut, set_busy; cbn [sh fut]; auto;
    unfold upd; destruct (Nat.eqb_spec k k0) as [->|]; auto;
    repeat match goal with E : sh ?s _ = _ |- _ => rewrite E in *; clear E end; cbn in *; split; auto; intros; congruence.
Qed.

Lemma sending_eq st k : sending st k = true -> who st = KSend k.
Proof. unfold sending. destruct (who st); try discriminate. intros E. apply Nat.eqb_eq in E. now subst. Qed.
Lemma waiting_eq st k : waiting st k = true -> who st = KWait k.
Proof. unfold waiting. destruct (who st); try discriminate. intros E. apply Nat.eqb_eq in E. now subst. Qed.

Definition placed (tr : list event) (st : state) : Prop :=
  (forall k, n <= k -> sh st k = HNone) /\
  match who st with
  | KSend j => j < n /\ (forall k, k < j -> sent (sh st k)) /\ (forall k, j < k -> sh st k = HNone)
      /\ ~ sent (sh st j) /\ (forall e, In e tr -> ~ ending e)
  | KWait j => j <= n /\ (forall k, k < n -> sent (sh st k)) /\ (forall k, k < j -> fut st k = Some true)
      /\ (forall e, In e tr -> ~ ending e)
  | KReturned => (forall k, k < n -> fut st k = Some true) /\ (forall e, In e tr -> ending e -> e = EReturn)
  | KThrew j => j < n /\ (forall k, k < n -> sent (sh st k)) /\ (forall k, k < j -> fut st k = Some true) /\ fut st j = Some false
      /\ (forall e, In e tr -> ending e -> e = EThrow j)
  end.
Lemma not_ending tr e : (forall x, In x tr -> ~ ending x) -> ~ ending e -> forall x, In x (tr ++ [e]) -> ~ ending x.
Proof. intros A B x I. apply In_snoc in I. destruct I as [I|<-]; auto. Qed.
Lemma only_ending tr e y : (forall x, In x tr -> ending x -> x = y) -> ~ ending e -> forall x, In x (tr ++ [e]) -> ending x -> x = y.
Proof. intros A B x I E. apply In_snoc in I. destruct I as [I|<-]; [auto|contradiction]. Qed.

Lemma placed_runs tr st : runs tr st -> placed tr st.
Proof.
  apply run_ind.
  { unfold placed, init, send_next. cbn [sh who]. split; [auto|]. destruct (Nat.ltb_spec 0 n); cbn; repeat split; intros; auto; lia. }
  clear tr st. intros tr st e st' R [P0 P] H. unfold placed.
  pose proof (step_mono _ _ _ _ R H) as M. pose proof (step_shard _ _ _ H) as SS.
  (* steps of gRPC and of the threads *)
  assert (SAME : (exists k, shard_of e = Some k /\ sent (sh st k)) -> who st' = who st -> ~ ending e -> placed (tr ++ [e]) st').
  { intros (k & Ek & Sk) W NE. rewrite Ek in SS. destruct SS as [_ SS].
    assert (P0' : forall j, n <= j -> sh st' j = HNone).
    { intros j Hj. destruct (Nat.eq_dec j k) as [->|D]; [rewrite (P0 k Hj) in Sk; destruct Sk|]. rewrite SS by assumption. auto. }
    unfold placed. rewrite W. split; [assumption|]. destruct (who st) as [j|j| |j].
    - destruct P as (A & B & C & D & E). repeat split; auto.
      + intros i Hi. apply M; auto.
      + intros i Hi. rewrite SS; [auto|]. intros ->. rewrite (C k Hi) in Sk. destruct Sk.
      + rewrite SS; [assumption|]. intros ->. contradiction.
      + now apply not_ending.
    - destruct P as (A & B & C & D). repeat split; auto.
      + intros i Hi. apply M; auto.
      + intros i Hi. apply M; auto.
      + now apply not_ending.
    - destruct P as (A & B). split.
      + intros i Hi. apply M; auto.
      + now apply only_ending.
    - destruct P as (A & B & C & D & E). repeat split; auto.
      + intros i Hi. apply M; auto.
      + intros i Hi. apply M; auto.
      + now apply M.
      + now apply only_ending. }
  destruct e; cbn [shard_of] in *.
  1-3: assert (W : who st = KSend k) by (cbn [CallModel.step] in H; break_step H; now apply sending_eq);
    rewrite W in P; destruct P as (A & B & C & D & E); destruct SS as [_ SS];
    (split; [intros i Hi; rewrite SS by lia; auto|]).
  1-2: assert (W' : who st' = KSend k /\ ~ sent (sh st' k)) by
    (cbn [CallModel.step] in H; break_step H; unfold set_sh; cbn [who sh]; rewrite upd_same; cbn; auto);
    destruct W' as [-> D']; repeat split; auto;
    [ intros i Hi; apply M; auto | intros i Hi; rewrite SS by lia; auto | now apply not_ending].
  - assert (W' : who st' = send_next n (S k) /\ sent (sh st' k)) by
      (cbn [CallModel.step] in H; break_step H; unfold set_sh, set_who; cbn [who sh]; rewrite upd_same; now cbn).
    destruct W' as [-> D']. unfold send_next. destruct (Nat.ltb_spec (S k) n) as [L|L].
    + repeat split; auto.
      * intros i Hi. destruct (Nat.eq_dec i k) as [->|]; [assumption|]. apply M, B. lia.
      * intros i Hi. rewrite SS by lia. apply C. lia.
      * rewrite SS by lia. rewrite (C (S k)) by lia. auto.
      * now apply not_ending.
    + repeat split; auto; try lia.
      * intros i Hi. destruct (Nat.eq_dec i k) as [->|]; [assumption|]. apply M, B. lia.
      * now apply not_ending.
  - apply SAME; auto; cbn [CallModel.step] in H; break_step H; [|reflexivity]. exists k. split; [reflexivity|]. now rewrite E.
  - apply SAME; auto; cbn [CallModel.step] in H; break_step H; [|reflexivity]. exists k. split; [reflexivity|]. now rewrite E.
  - apply SAME; auto; cbn [CallModel.step] in H; break_step H; [|reflexivity]. exists k. split; [reflexivity|]. now rewrite E.
  - apply SAME; auto; cbn [CallModel.step] in H; break_step H; try reflexivity; exists k; (split; [reflexivity|]); now rewrite E.
  - apply SAME; auto; cbn [CallModel.step] in H; break_step H; [|reflexivity]. exists k. split; [reflexivity|]. now rewrite E.
  - (* EWait *) cbn [CallModel.step] in H. break_step H.
    apply andb_prop in E1. destruct E1 as [E1 E2]. apply waiting_eq in E1. apply Nat.ltb_lt in E2. rewrite E1 in P.
    unfold set_who. cbn [who sh fut]. destruct P as (A & B & C & D). repeat split; auto.
    + intros i Hi. destruct (Nat.eq_dec i k) as [->|]; [assumption|]. apply C. lia.
    + now apply not_ending.
  - (* EThrow *) cbn [CallModel.step] in H. break_step H.
    apply andb_prop in E1. destruct E1 as [E1 E2]. apply waiting_eq in E1. apply Nat.ltb_lt in E2. rewrite E1 in P.
    unfold set_who. cbn [who sh fut]. destruct P as (A & B & C & D). repeat split; auto.
    intros x I X. apply In_snoc in I. destruct I as [I|<-]; [|reflexivity]. now apply D in I.
  - cbn [CallModel.step] in H. break_step H. apply waiting_eq in E. rewrite E in P.
    unfold set_who. cbn [who sh fut]. destruct P as (A & B & C & D). repeat split; auto.
    intros x I X. apply In_snoc in I. destruct I as [I|<-]; [|reflexivity]. now apply D in I.
Qed.

Lemma ended_who tr st : runs tr st ->
  (who st = KReturned <-> In EReturn tr) /\ (forall j, who st = KThrew j <-> In (EThrow j) tr).
Proof.
  intros R. pose proof (placed_runs _ _ R) as [_ P].
  assert (F : (who st = KReturned -> In EReturn tr) /\ (forall j, who st = KThrew j -> In (EThrow j) tr)).
  { clear P. revert tr st R. apply run_ind.
    - unfold init, send_next. cbn [who]. destruct (0 <? n); split; intros; discriminate.
    - intros tr st e st' R [A B] H. destruct e; cbn [CallModel.step] in H; break_step H;
        unfold set_sh, set_who, set_fut, set_busy; cbn [who]; (split; [intros W|intros j W]); try discriminate;
        try (apply in_or_app; left; now auto).
      + unfold send_next in W. destruct (S k <? n); discriminate.
      + unfold send_next in W. destruct (S k <? n); discriminate.
      + injection W as ->. apply In_snoc. auto.
      + apply In_snoc. auto. }
  destruct F as [F1 F2]. split; [split; [assumption|]|intros j; split; [auto|]]; intros I.
  - destruct (who st) as [j|j| |j]; [| |reflexivity|].
    + destruct P as (_ & _ & _ & _ & N). exfalso. exact (N _ I Logic.I).
    + destruct P as (_ & _ & _ & N). exfalso. exact (N _ I Logic.I).
    + destruct P as (_ & _ & _ & _ & N). discriminate (N _ I Logic.I).
  - destruct (who st) as [i|i| |i].
    + destruct P as (_ & _ & _ & _ & N). exfalso. exact (N _ I Logic.I).
    + destruct P as (_ & _ & _ & N). exfalso. exact (N _ I Logic.I).
    + destruct P as (_ & N). discriminate (N _ I Logic.I).
    + destruct P as (_ & _ & _ & _ & N). pose proof (N _ I Logic.I) as E. injection E as ->. reflexivity.
Qed.

(** *** Accesses to the locals *)
Lemma split_run tr l1 e l2 : execution n queue threads tr -> tr = l1 ++ e :: l2 ->
  exists st st', runs l1 st /\ step st e = Some st' /\ runs (l1 ++ [e]) st'.
Proof.
  unfold execution. intros R ->. rewrite run_app in R. destruct (run (init n) l1) as [st|] eqn:R1; [|congruence].
  cbn [CallModel.run] in R. destruct (step st e) as [st'|] eqn:S; [|congruence]. exists st, st'.
  repeat split; auto. rewrite run_app, R1. cbn [CallModel.run]. now rewrite S.
Qed.

Theorem late_touch tr l1 e l2 k : execution n queue threads tr -> tr = l1 ++ e :: l2 -> touches_locals k e ->
  ~ In EReturn l1 /\ forall j, In (EThrow j) l1 -> j < k.
Proof.
  intros R E T. destruct (split_run _ _ _ _ R E) as (st & st' & R1 & S & _). clear R E.
  pose proof (placed_runs _ _ R1) as [P0 P]. destruct (ended_who _ _ R1) as [ER ET].
  pose proof (futures _ _ R1 k) as F.
  assert (K : k < n /\ fut st k = None).
  { destruct (Nat.lt_ge_cases k n) as [L|G].
    - split; [assumption|]. destruct e; cbn in T; try contradiction; subst k0; cbn [CallModel.step] in S; break_step S; assumption.
    - specialize (P0 k G). destruct e; cbn in T; try contradiction; subst k0; cbn [CallModel.step] in S; rewrite P0 in S; discriminate. }
  destruct K as [L N]. split.
  - intros I. apply ER in I. rewrite I in P. destruct P as [A _]. rewrite (A k L) in N. discriminate.
  - intros j I. apply ET in I. rewrite I in P. destruct P as (_ & _ & A & B & _).
    destruct (Nat.lt_trichotomy j k) as [D|[->|D]]; [assumption| |].
    + rewrite B in N. discriminate.
    + rewrite (A k D) in N. discriminate.
Qed.

(** *** What is reported *)
Lemma set_events tr st k b : runs tr st -> fut st k = Some b ->
  if b then In (ELand k true) tr /\ In (ECallback k true) tr /\ ~ failed tr k else failed tr k.
Proof.
  intros R F. rewrite (futures _ _ R) in F. pose proof (paths _ _ R k) as P.
  assert (IN : forall x, of_shard k x = true -> In x tr <-> In x (path k (sh st k))).
  { intros x O. rewrite <- P, filter_In. tauto. }
  assert (OL : forall b, of_shard k (ELand k b) = true) by (intros; cbn; apply Nat.eqb_refl).
  assert (OC : forall b, of_shard k (ECallback k b) = true) by (intros; cbn; apply Nat.eqb_refl).
  unfold failed. destruct b; rewrite !IN by auto.
  all: destruct (sh st k) as [| | | | | | |ran|ran]; try discriminate; destruct ran as [[|]|]; try discriminate F; cbn; intuition discriminate.
Qed.

Theorem returned_all tr : execution n queue threads tr -> In EReturn tr ->
  forall k, k < n -> In (ELand k true) tr /\ In (ECallback k true) tr /\ ~ failed tr k.
Proof.
  unfold execution. intros R I k L. destruct (run (init n) tr) as [st|] eqn:Rs; [|congruence].
  apply (ended_who _ _ Rs) in I. destruct (placed_runs _ _ Rs) as [_ P]. rewrite I in P. destruct P as [A _].
  exact (set_events _ _ _ _ Rs (A k L)).
Qed.
Theorem threw_first tr k : execution n queue threads tr -> In (EThrow k) tr ->
  k < n /\ failed tr k /\ forall j, j < k -> ~ failed tr j.
Proof.
  unfold execution. intros R I. destruct (run (init n) tr) as [st|] eqn:Rs; [|congruence].
  apply (ended_who _ _ Rs) in I. destruct (placed_runs _ _ Rs) as [_ P]. rewrite I in P. destruct P as (A & _ & B & C & _).
  split; [assumption|]. split; [exact (set_events _ _ _ _ Rs C)|]. intros j Hj. apply (set_events _ _ _ _ Rs (B j Hj)).
Qed.

Theorem safe_without_failure tr l1 e l2 k : execution n queue threads tr -> tr = l1 ++ e :: l2 -> touches_locals k e ->
  (forall j, S j < n -> ~ failed tr j) -> ~ ended l1.
Proof.
  intros R E T NF. pose proof (late_touch _ _ _ _ _ R E T) as [A B]. intros [C|(j & C)]; [contradiction|].
  pose proof (B j C) as Hj.
  assert (Ct : In (EThrow j) tr) by (rewrite E; apply in_or_app; auto).
  destruct (threw_first _ _ R Ct) as (_ & F & _).
  destruct (split_run _ _ _ _ R E) as (st & st' & R1 & S & _). destruct (placed_runs _ _ R1) as [P0 _].
  assert (k < n).
  { destruct (Nat.lt_ge_cases k n) as [L|G]; [assumption|exfalso]. specialize (P0 k G).
    destruct e; cbn in T; try contradiction; subst k0; cbn [CallModel.step] in S; rewrite P0 in S; discriminate. }
  apply (NF j); [lia|assumption].
Qed.

(** *** Call objects *)
Lemma touches_of_shard k e : touches_call k e -> of_shard k e = true.
Proof. destruct e; cbn; try contradiction; intros ->; apply Nat.eqb_refl. Qed.
Lemma last_tail {A} (x : A) a b c : a ++ x :: b = c ++ [x] -> ~ In x c -> b = [].
Proof.
  intros E N. destruct b as [|y b _] using rev_ind; [reflexivity|exfalso].
  assert (E' : (a ++ x :: b) ++ [y] = c ++ [x]) by (rewrite <- E, <- app_assoc; reflexivity).
  apply app_inj_tail in E'. destruct E' as [<- ->]. apply N, in_or_app. right. now left.
Qed.
Theorem deleted_last tr k l1 l2 : execution n queue threads tr -> tr = l1 ++ EDelete k :: l2 ->
  forall e, In e l2 -> ~ touches_call k e.
Proof.
  unfold execution. intros R E e I T. destruct (run (init n) tr) as [st|] eqn:Rs; [|congruence].
  pose proof (paths _ _ Rs k) as P. rewrite E, filter_app in P. cbn [filter of_shard] in P. rewrite Nat.eqb_refl in P.
  assert (D : filter (of_shard k) l2 = []).
  { assert (C : exists c, path k (sh st k) = c ++ [EDelete k] /\ ~ In (EDelete k) c).
    { assert (J : In (EDelete k) (path k (sh st k))) by (rewrite <- P; apply in_or_app; right; now left).
      destruct (sh st k) as [| | | | | | |[r|]|[r|]]; cbn in J; try (intuition discriminate).
      - exists [ENew k; EFuture k; ESend k; ELand k true; ETake k; ECallback k r; EPromise k]. split; [reflexivity|]. cbn. intuition discriminate.
      - exists [ENew k; EFuture k; ESend k; ELand k false; ETake k; EPromise k]. split; [reflexivity|]. cbn. intuition discriminate. }
    destruct C as (c & C1 & C2). rewrite C1 in P. exact (last_tail _ _ _ _ P C2). }
  assert (In e (filter (of_shard k) l2)) by (apply filter_In; split; [assumption|now apply touches_of_shard]).
  rewrite D in H. destruct H.
Qed.
Theorem made_first tr k l1 l2 : execution n queue threads tr -> tr = l1 ++ ENew k :: l2 ->
  forall e, In e l1 -> ~ touches_call k e.
Proof.
  unfold execution. intros R E e I T. destruct (run (init n) tr) as [st|] eqn:Rs; [|congruence].
  pose proof (paths _ _ Rs k) as P. rewrite E, filter_app in P. cbn [filter of_shard] in P. rewrite Nat.eqb_refl in P.
  assert (D : filter (of_shard k) l1 = []).
  { assert (C : exists c, path k (sh st k) = ENew k :: c /\ ~ In (ENew k) c).
    { assert (J : In (ENew k) (path k (sh st k))) by (rewrite <- P; apply in_or_app; right; now left).
      destruct (sh st k) as [| | | | | | |[r|]|[r|]]; [destruct J| | | | | | | | | |]; (eexists; split; [reflexivity|]; cbn; intuition discriminate). }
    destruct C as (c & C1 & C2). rewrite C1 in P. destruct (filter (of_shard k) l1) as [|x l]; [reflexivity|].
    cbn in P. injection P as -> P. exfalso. apply C2. rewrite <- P. apply in_or_app. right. now left. }
  assert (In e (filter (of_shard k) l1)) by (apply filter_In; split; [assumption|now apply touches_of_shard]).
  rewrite D in H. destruct H.
Qed.
(** Every access to a call object comes after its allocation. *)
Theorem made_before tr l1 e l2 k : execution n queue threads tr -> tr = l1 ++ e :: l2 -> touches_call k e -> In (ENew k) l1.
Proof.
  intros R E T. destruct (split_run _ _ _ _ R E) as (st & st' & R1 & S & _).
  assert (J : In (ENew k) (path k (sh st k))).
  { destruct e; cbn in T; try contradiction; subst k0; cbn [CallModel.step] in S; break_step S; cbn; tauto. }
  rewrite <- (paths _ _ R1 k) in J. apply filter_In in J. tauto.
Qed.

(** *** Callbacks *)
Lemma callbacks_count tr k : count_occ Nat.eq_dec (callbacks tr) k = length (callbacks (filter (of_shard k) tr)).
Proof.
  induction tr as [|e tr IH]; [reflexivity|].
  change (callbacks (e :: tr)) with (match e with ECallback k _ => [k] | _ => [] end ++ callbacks tr).
  rewrite count_occ_app, IH. cbn [filter]. destruct e; cbn [of_shard]; try (destruct (Nat.eqb_spec k0 k)); cbn [app count_occ]; try reflexivity.
  - destruct (Nat.eq_dec k0 k); [|contradiction]. reflexivity.
  - destruct (Nat.eq_dec k0 k); [contradiction|]. reflexivity.
Qed.
Theorem callbacks_nodup tr : execution n queue threads tr -> NoDup (callbacks tr).
Proof.
  unfold execution. intros R. destruct (run (init n) tr) as [st|] eqn:Rs; [|congruence].
  apply (NoDup_count_occ Nat.eq_dec). intros k. rewrite callbacks_count, (paths _ _ Rs).
  destruct (sh st k) as [| | | | | | |[r|]|[r|]]; cbn; lia.
Qed.
Lemma callbacks_In tr k : In k (callbacks tr) <-> exists b, In (ECallback k b) tr.
Proof.
  unfold callbacks. rewrite in_flat_map. split.
  - intros (e & I & J). destruct e; try contradiction. destruct J as [<-|[]]. eauto.
  - intros (b & I). exists (ECallback k b). split; [assumption|]. now left.
Qed.
Theorem callbacks_all tr : execution n queue threads tr -> In EReturn tr -> Permutation (callbacks tr) (seq 0 n).
Proof.
  intros R I. apply NoDup_Permutation; [now apply callbacks_nodup|apply seq_NoDup|]. intros k. rewrite in_seq, callbacks_In. split.
  - intros (b & J). apply in_split in J. destruct J as (l1 & l2 & E).
    destruct (split_run _ _ _ _ R E) as (st & st' & R1 & S & _). destruct (placed_runs _ _ R1) as [P0 _].
    destruct (Nat.lt_ge_cases k n) as [L|G]; [lia|exfalso]. cbn [CallModel.step] in S. rewrite (P0 k G) in S. discriminate.
  - intros [_ L]. exists true. apply (returned_all _ R I k). lia.
Qed.

(** *** Progress *)
Definition total (f : nat -> nat) (m : nat) : nat := list_sum (map f (seq 0 m)).
Lemma total_S f m : total f (S m) = total f m + f m.
Proof. unfold total. rewrite seq_S, map_app, list_sum_app. cbn. lia. Qed.
Lemma total_ext f g m : (forall j, j < m -> f j = g j) -> total f m = total g m.
Proof. induction m as [|m IH]; intros H; [reflexivity|]. rewrite !total_S, (H m) by lia. rewrite IH; auto. Qed.
Lemma total_upd f g k m : k < m -> (forall j, j <> k -> g j = f j) -> total g m + f k = total f m + g k.
Proof.
  induction m as [|m IH]; intros L E; [lia|]. rewrite !total_S. destruct (Nat.eq_dec k m) as [->|D].
  - rewrite (total_ext g f m); [lia|]. intros j Hj. apply E. lia.
  - rewrite (E m) by auto. specialize (IH ltac:(lia) E). lia.
Qed.
Lemma total_pos f m : 0 < total f m -> exists k, k < m /\ 0 < f k.
Proof.
  induction m as [|m IH]; [cbn; lia|]. rewrite total_S. intros H. destruct (Nat.eq_dec (f m) 0) as [E|E].
  - destruct IH as (k & L & P); [lia|]. exists k. split; [lia|assumption].
  - exists m. lia.
Qed.

Definition working (h : shard) : bool := match h with HTaken _ | HRan _ | HSet _ => true | _ => false end.
Definition load (st : state) (q k : nat) : nat := if (queue k =? q) && working (sh st k) then 1 else 0.
Lemma step_bound st e st' k tr : runs tr st -> step st e = Some st' -> shard_of e = Some k -> k < n.
Proof.
  intros R H E. destruct (placed_runs _ _ R) as [P0 P]. destruct (Nat.lt_ge_cases k n) as [L|G]; [assumption|exfalso].
  specialize (P0 k G). destruct e; cbn in E; try discriminate; injection E as ->; cbn [CallModel.step] in H; rewrite P0 in H; try discriminate.
  destruct (sending st k) eqn:S; [|discriminate]. apply sending_eq in S. rewrite S in P. lia.
Qed.
Lemma busy_runs tr st : runs tr st -> forall q, busy st q = total (load st q) n.
Proof.
  apply (run_ind (fun tr st => forall q, busy st q = total (load st q) n)).
  { intros q. unfold init, load. cbn. induction n as [|m IH]; [reflexivity|]. rewrite total_S, <- IH. destruct (_ =? q); reflexivity. }
  clear tr st. intros tr st e st' R IH H q. pose proof (step_shard _ _ _ H) as S. destruct (shard_of e) as [k|] eqn:E.
  - pose proof (step_bound _ _ _ _ _ R H E) as L. destruct S as [_ S].
    assert (T : total (load st' q) n + load st q k = total (load st q) n + load st' q k).
    { apply total_upd; [assumption|]. intros j D. unfold load. now rewrite (S j D). }
    rewrite <- (IH q) in T.
    assert (B : busy st' q + load st q k = busy st q + load st' q k).
    { unfold load. destruct e; cbn in E; try discriminate; injection E as ->; cbn [CallModel.step] in H; break_step H;
        unfold set_sh, set_who, set_fut, set_busy; cbn [busy sh]; rewrite ?upd_same; rewrite ?E; cbn [working]; rewrite ?andb_false_r, ?andb_true_r;
        try lia.
      - unfold upd. rewrite (Nat.eqb_sym q). destruct (Nat.eqb_spec (queue k) q) as [->|]; lia.
      - unfold upd. rewrite (Nat.eqb_sym q). destruct (Nat.eqb_spec (queue k) q) as [<-|]; [|lia].
        assert (load st (queue k) k = 1) by (unfold load; rewrite Nat.eqb_refl, E; reflexivity).
        assert (0 < busy st (queue k)); [|lia]. rewrite IH.
        pose proof (total_upd (load st (queue k)) (fun j => if j =? k then 0 else load st (queue k) j) k n L) as U.
        cbv beta in U. rewrite Nat.eqb_refl in U. rewrite H in U. destruct (total (load st (queue k)) n); [|lia].
        exfalso. assert (total (fun j => if j =? k then 0 else load st (queue k) j) n + 1 = 0); [|lia].
        rewrite U; [lia|]. intros j D. apply Nat.eqb_neq in D. now rewrite D. }
    lia.
  - destruct S as [S _]. assert (Q : busy st' = busy st).
    { destruct e; cbn in E; try discriminate; cbn [CallModel.step] in H; break_step H; reflexivity. }
    rewrite Q, IH. unfold load. now rewrite S.
Qed.

Theorem progress tr : (forall k, k < n -> 1 <= threads (queue k)) -> execution n queue threads tr ->
  (exists e, execution n queue threads (tr ++ [e])) \/ (ended tr /\ forall k, k < n -> In (EDelete k) tr).
Proof.
  intros TH. unfold execution. intros R. destruct (run (init n) tr) as [st|] eqn:Rs; [|congruence]. clear R.
  assert (GO : forall e, step st e <> None -> exists e, run (init n) (tr ++ [e]) <> None).
  { intros e H. exists e. rewrite run_app, Rs. cbn [CallModel.run]. destruct (step st e); congruence. }
  destruct (placed_runs _ _ Rs) as [P0 P]. pose proof (futures _ _ Rs) as F. destruct (ended_who _ _ Rs) as [ER ET].
  assert (WORK : forall k, working (sh st k) = true -> exists e, step st e <> None).
  { intros k W. destruct (sh st k) as [| | | | |[|]|r|ran|] eqn:E; try discriminate.
    - exists (ECallback k true). cbn [CallModel.step]. rewrite E. discriminate.
    - exists (EPromise k). cbn [CallModel.step]. rewrite E. discriminate.
    - exists (EPromise k). cbn [CallModel.step]. rewrite E. discriminate.
    - exists (EDelete k). cbn [CallModel.step]. rewrite E. discriminate. }
  assert (DEC : (exists e, step st e <> None) \/ (forall k, k < n -> exists ran, sh st k = HDeleted ran)).
  { assert (ALL : (exists e, step st e <> None) \/ forall k, k < n -> sent (sh st k)).
    { destruct (who st) as [j|j| |j] eqn:W.
      - left. destruct P as (A & B & C & D & _). assert (S : sending st j = true) by (unfold sending; rewrite W; apply Nat.eqb_refl).
        destruct (sh st j) eqn:E; try (exfalso; apply D; exact Logic.I).
        + exists (ENew j). cbn [CallModel.step]. rewrite E, S. discriminate.
        + exists (EFuture j). cbn [CallModel.step]. rewrite E, S. discriminate.
        + exists (ESend j). cbn [CallModel.step]. rewrite E, S. discriminate.
      - right. apply P.
      - right. intros k L. destruct P as [A _]. specialize (A k L). rewrite F in A. destruct (sh st k); try discriminate; exact Logic.I.
      - right. apply P. }
    destruct ALL as [ALL|ALL]; [auto|].
    assert (IND : forall m, m <= n -> (exists e, step st e <> None) \/ (forall k, k < m -> exists ran, sh st k = HDeleted ran)).
    { induction m as [|m IH]; intros Lm; [right; lia|]. destruct IH as [IH|IH]; [lia|auto|].
      specialize (ALL m ltac:(lia)). destruct (sh st m) as [| | | |ok|ok|r|ran|ran] eqn:E; try contradiction.
      - left. exists (ELand m true). cbn [CallModel.step]. rewrite E. discriminate.
      - left. destruct (Nat.ltb_spec (busy st (queue m)) (threads (queue m))) as [L|G].
        + exists (ETake m). cbn [CallModel.step]. rewrite E. apply Nat.ltb_lt in L. rewrite L. discriminate.
        + specialize (TH m ltac:(lia)). rewrite (busy_runs _ _ Rs) in G.
          destruct (total_pos (load st (queue m)) n) as (k & Lk & Pk); [lia|]. apply (WORK k).
          unfold load in Pk. destruct (working (sh st k)); [reflexivity|]. rewrite andb_false_r in Pk. lia.
      - left. apply (WORK m). now rewrite E.
      - left. apply (WORK m). now rewrite E.
      - left. apply (WORK m). now rewrite E.
      - right. intros k Hk. destruct (Nat.eq_dec k m) as [->|]; [eauto|apply IH; lia]. }
    exact (IND n (Nat.le_refl n)). }
  destruct DEC as [(e & H)|DEC]; [left; eauto|].
  destruct (who st) as [j|j| |j] eqn:W.
  - exfalso. destruct P as (A & _ & _ & D & _). destruct (DEC j A) as (ran & E). rewrite E in D. apply D. exact Logic.I.
  - left. destruct P as (A & _). destruct (Nat.eq_dec j n) as [->|D].
    + apply (GO EReturn). cbn [CallModel.step]. unfold waiting. rewrite W, Nat.eqb_refl. discriminate.
    + assert (Lj : j < n) by lia. destruct (DEC j Lj) as (ran & E). specialize (F j). rewrite E in F. cbn in F.
      apply Nat.ltb_lt in Lj. destruct (value_of ran).
      * apply (GO (EWait j)). cbn [CallModel.step]. unfold waiting. rewrite W, F, Nat.eqb_refl, Lj. discriminate.
      * apply (GO (EThrow j)). cbn [CallModel.step]. unfold waiting. rewrite W, F, Nat.eqb_refl, Lj. discriminate.
  - right. split; [left; now apply ER|]. intros k L. destruct (DEC k L) as (ran & E).
    assert (J : In (EDelete k) (path k (sh st k))) by (rewrite E; destruct ran; cbn; tauto).
    rewrite <- (paths _ _ Rs) in J. apply filter_In in J. tauto.
  - right. split; [right; exists j; now apply ET|]. intros k L. destruct (DEC k L) as (ran & E).
    assert (J : In (EDelete k) (path k (sh st k))) by (rewrite E; destruct ran; cbn; tauto).
    rewrite <- (paths _ _ Rs) in J. apply filter_In in J. tauto.
Qed.

Definition at_caller (w : caller) : nat := match w with KSend _ => 0 | KWait j => j | KReturned => n + 1 | KThrew j => j + 1 end.
Lemma length_runs tr st : runs tr st -> length tr = total (fun k => length (path k (sh st k))) n + at_caller (who st).
Proof.
  apply (run_ind (fun tr st => length tr = total (fun k => length (path k (sh st k))) n + at_caller (who st))).
  { unfold init, send_next. cbn [sh who path length]. assert (total (fun _ => 0) n = 0) as -> by (induction n; [reflexivity|]; now rewrite total_S, IHn0).
    destruct (0 <? n); reflexivity. }
  clear tr st. intros tr st e st' R IH H. pose proof (step_shard _ _ _ H) as S. rewrite app_length. cbn [length].
  destruct (shard_of e) as [k|] eqn:E.
  - pose proof (step_bound _ _ _ _ _ R H E) as L. destruct S as [S1 S2].
    pose proof (total_upd (fun k => length (path k (sh st k))) (fun k => length (path k (sh st' k))) k n L) as T.
    cbv beta in T. rewrite S1, app_length in T. cbn [length] in T. specialize (T ltac:(intros j D; now rewrite (S2 j D))).
    assert (W : at_caller (who st') = at_caller (who st)).
    { destruct e; cbn in E; try discriminate; cbn [CallModel.step] in H; break_step H; try reflexivity.
      match goal with Q : sending _ _ = true |- _ => apply sending_eq in Q; unfold set_who, set_sh, send_next; cbn [who]; rewrite Q end.
      destruct (_ <? n); reflexivity. }
    lia.
  - destruct S as [S _]. rewrite S. destruct e; cbn in E; try discriminate; cbn [CallModel.step] in H; break_step H; unfold set_who; cbn [who sh] in *.
    + apply andb_prop in E2. destruct E2 as [E2 _]. apply waiting_eq in E2. rewrite E2 in IH. cbn in *. lia.
    + apply andb_prop in E2. destruct E2 as [E2 _]. apply waiting_eq in E2. rewrite E2 in IH. cbn in *. lia.
    + apply waiting_eq in E0. rewrite E0 in IH. cbn in *. lia.
Qed.
Theorem bounded_length tr : execution n queue threads tr -> length tr <= 9 * n + 1.
Proof.
  unfold execution. intros R. destruct (run (init n) tr) as [st|] eqn:Rs; [|congruence].
  rewrite (length_runs _ _ Rs). destruct (placed_runs _ _ Rs) as [_ P].
  assert (A : at_caller (who st) <= n + 1).
  { destruct (who st) as [j|j| |j]; cbn; [lia| | |]; [|lia|]; destruct P; lia. }
  assert (B : forall m, total (fun k => length (path k (sh st k))) m <= 8 * m).
  { clear P A Rs R. induction m as [|m IH]; [cbn; lia|]. rewrite total_S.
    assert (length (path m (sh st m)) <= 8) by (destruct (sh st m) as [| | | | | | |[r|]|[r|]]; cbn; lia). lia. }
  specialize (B n). lia.
Qed.
End Call.

(** *** Queues *)
Lemma queues_served t p : (N.max 1 t + N.max 1 p - 1 < 2 ^ 32)%N ->
  (1 <= num_queues t p)%N /\
  (forall q, (q < num_queues t p)%N -> exists i, (i < N.max 1 t)%N /\ thread_queue t p i = q) /\
  forall c, (next_queue t p c < num_queues t p)%N.
Proof.
  intros L. unfold thread_queue, next_queue, num_queues. rewrite N.mod_small by assumption.
  set (a := N.max 1 t) in *. set (b := N.max 1 p) in *. assert (1 <= a)%N by (unfold a; lia). assert (1 <= b)%N by (unfold b; lia). clearbody a b.
  set (m := ((a + b - 1) / b)%N).
  assert (M1 : (1 <= m)%N). { unfold m. apply N.div_le_lower_bound; lia. }
  assert (M2 : (m <= a)%N). { unfold m. apply N.lt_succ_r. apply N.div_lt_upper_bound; [lia|]. nia. }
  clearbody m. split; [assumption|]. split.
  - intros q Hq. exists q. split; [lia|]. now apply N.mod_small.
  - intros c. apply N.mod_lt. lia.
Qed.
