From Verif Require Import Base SyncModel.
From Coq Require Import ZifyBool ZifyNat.

(** *** Specification on lists of events *)

Definition put {A} (c : nat) (a : A) (f : nat -> A) : nat -> A := fun x => if x =? c then a else f x.
(** Does object [c] hold a connection? *)
Definition live_step (f : nat -> bool) (e : event) : nat -> bool :=
  match e with
  | CConnect c _ => put c true f
  | CClose c _ | CCrash c => put c false f
  | CFork c d => put d (f c) f
  | _ => f
  end.
Definition live (tr : list event) : nat -> bool := fold_left live_step tr (fun _ => false).
(** The object of the process that created the lock file an object relies on. *)
Definition root_step (f : nat -> nat) (e : event) : nat -> nat :=
  match e with CFork c d => put d (f c) f | _ => f end.
Definition root (tr : list event) : nat -> nat := fold_left root_step tr (fun c => c).

(** Executions in which no server gives up waiting, no client is constructed after a
    server has found no client, and a lock file is deleted once, after which no object that
    relies on it is or gets connected. *)
Record orderly (tr : list event) : Prop := Orderly {
  o_patient : forall i, ~ In (SGiveUp i) tr;
  o_first : forall l1 l2 c r, tr = l1 ++ CNew c r :: l2 -> forall i, ~ In (SPoll i) l1;
  o_closed : forall l1 l2 a t, tr = l1 ++ CUnlink a t :: l2 -> forall b, root l1 b = a -> live l1 b = false;
  o_once : forall l1 l2 a t, tr = l1 ++ CUnlink a t :: l2 -> forall t', ~ In (CUnlink a t') l2;
  o_last : forall l1 l2 a t b, tr = l1 ++ CConnect b t :: l2 -> a = root l1 b -> forall t', ~ In (CUnlink a t') l1 }.

(** *** Runs *)
Lemma run_app n st a b : run n st (a ++ b) = match run n st a with Some s => run n s b | None => None end.
Proof. revert st; induction a as [|e a IH]; intros st; [reflexivity|]; cbn. destruct (step n st e); auto. Qed.

(** Induction over executions. *)
Lemma run_ind n (P : list event -> state -> Prop) st0 :
  P [] st0 ->
  (forall tr st e st', run n st0 tr = Some st -> P tr st -> step n st e = Some st' -> P (tr ++ [e]) st') ->
  forall tr st, run n st0 tr = Some st -> P tr st.
Proof.
  intros P0 PS tr; induction tr as [|e tr IH] using rev_ind; intros st R.
  - cbn in R. injection R as <-. exact P0.
  - rewrite run_app in R. destruct (run n st0 tr) as [s|] eqn:Rs; [|discriminate].
    cbn in R. destruct (step n s e) as [s'|] eqn:Se; [|discriminate]. injection R as <-. eauto.
Qed.

Lemma has_In r l : has r l = true <-> In r l.
Proof.
  unfold has. rewrite existsb_exists. split.
  - intros [x [I E]]. apply Nat.eqb_eq in E. now subst.
  - intros I. exists r. now rewrite Nat.eqb_refl.
Qed.
Lemma has_not r l : has r l = false <-> ~ In r l.
Proof. rewrite <- has_In. destruct (has r l); intuition congruence. Qed.
Lemma drop_In r x l : In x (drop r l) <-> In x l /\ x <> r.
Proof. unfold drop. rewrite filter_In. destruct (Nat.eqb_spec x r); cbn; intuition congruence. Qed.
Lemma drop_not r l : ~ In r l -> drop r l = l.
Proof.
  induction l as [|x l IH]; cbn; intros N; [reflexivity|].
  destruct (Nat.eqb_spec x r) as [->|D]; [tauto|]. cbn. f_equal. tauto.
Qed.
Lemma upd_same {A} (f : nat -> A) i a : upd f i a i = a.
Proof. unfold upd. now rewrite Nat.eqb_refl. Qed.
Lemma upd_other {A} (f : nat -> A) i j a : j <> i -> upd f i a j = f j.
Proof. unfold upd. intros D. apply Nat.eqb_neq in D. now rewrite D. Qed.
Lemma In_snoc {A} (x : A) l y : In x (l ++ [y]) <-> In x l \/ y = x.
Proof. rewrite in_app_iff. cbn. intuition. Qed.
Lemma not_In_snoc {A} (x : A) l y : ~ In x (l ++ [y]) <-> ~ In x l /\ y <> x.
Proof. rewrite In_snoc. intuition. Qed.
Lemma live_snoc tr e : live (tr ++ [e]) = live_step (live tr) e.
Proof. unfold live. now rewrite fold_left_app. Qed.
Lemma root_snoc tr e : root (tr ++ [e]) = root_step (root tr) e.
Proof. unfold root. now rewrite fold_left_app. Qed.

Lemma orderly_prefix p q : orderly (p ++ q) -> orderly p.
Proof.
  intros [A B C D E]; split.
  - intros i I. apply (A i), in_or_app; auto.
  - intros l1 l2 c r -> i. apply (B l1 (l2 ++ q) c r). now rewrite <- app_assoc.
  - intros l1 l2 a t -> b. apply (C l1 (l2 ++ q) a t). now rewrite <- app_assoc.
  - intros l1 l2 a t -> t' I. apply (D l1 (l2 ++ q) a t) with (t' := t'); [now rewrite <- app_assoc|]. apply in_or_app; auto.
  - intros l1 l2 a t b -> R. apply (E l1 (l2 ++ q) a t b); [now rewrite <- app_assoc|assumption].
Qed.

(** Case analysis of one step. *)
Ltac break_step H :=
  repeat match type of H with
  | None = Some _ => discriminate H
  | context [match ?x with _ => _ end] => let E := fresh "E" in destruct x eqn:E
  | context [if ?x then _ else _] => let E := fresh "E" in destruct x eqn:E
  end; try discriminate H; try (injection H as <-).
Ltac inv_step e H := destruct e; cbn [step] in H; unfold server_step, client_step in H; cbv zeta in H; break_step H.

(** Clients before and after a step. *)
Definition ranks_kept (st st' : state) : Prop := forall c k, clients st c = Some k ->
  exists k', clients st' c = Some k' /\ c_rank k' = c_rank k /\ c_owner k' = c_owner k.
Ltac upd_tac := unfold set_client, set_server, set_sfiles, set_cfiles, log, unlink_s in *;
  cbn [clients servers sfiles cfiles raised] in *.

Lemma step_kept n st e st' : step n st e = Some st' -> ranks_kept st st'.
Proof.
  intros H c0 k0 C0. inv_step e H; upd_tac; try (exists k0; now repeat split);
  try (break_step H; upd_tac).
  all: try (destruct (has _ _); cbn [clients]; exists k0; now repeat split).
  all: try (destruct late; cbn [clients]).
  all: unfold upd; match goal with |- context [?x =? ?y] => destruct (Nat.eqb_spec x y) as [->|]; [|exists k0; now repeat split] end.
  all: try congruence.
  all: match goal with A : clients ?s ?x = Some ?k1, B : clients ?s ?x = Some ?k2 |- _ => rewrite A in B; injection B as -> end.
  all: eexists; split; [reflexivity|]; now split.
Qed.

(** What a step does to one client, by the event. *)
Lemma step_clients n st e st' : step n st e = Some st' ->
  match e with
  | CNew c r => clients st c = None /\ ~ In r (cfiles st) /\ cfiles st' = r :: cfiles st
      /\ clients st' = upd (clients st) c (Some (Client r true Never false (fun _ => TRest)))
  | CFork c d => exists k, clients st c = Some k /\ clients st d = None /\ cfiles st' = cfiles st
      /\ clients st' = upd (clients st) d (Some (Client (c_rank k) false (c_conn k) (c_lock k) (fun _ => TRest)))
  | CUnlink c t => exists k k', clients st c = Some k /\ clients st' = upd (clients st) c (Some k')
      /\ c_rank k' = c_rank k /\ c_owner k' = c_owner k /\ c_conn k' = c_conn k
      /\ (exists late, c_threads k t = TClosing late)
      /\ cfiles st' = if c_owner k then drop (c_rank k) (cfiles st) else cfiles st
  | CConnect c _ => cfiles st' = cfiles st /\ exists k k', clients st c = Some k /\ clients st' = upd (clients st) c (Some k')
      /\ c_rank k' = c_rank k /\ c_owner k' = c_owner k /\ c_conn k' = Live
  | CClose c _ => cfiles st' = cfiles st /\ exists k k', clients st c = Some k /\ clients st' = upd (clients st) c (Some k')
      /\ c_rank k' = c_rank k /\ c_owner k' = c_owner k /\ c_conn k' = close_conn (c_conn k)
  | CCrash c => cfiles st' = cfiles st /\ exists k k', clients st c = Some k /\ clients st' = upd (clients st) c (Some k')
      /\ c_rank k' = c_rank k /\ c_owner k' = c_owner k /\ c_conn k' = Dead
  | CEnter c _ | CSee c _ _ | CExpire c _ | CLate c _ | CReset c _ =>
      cfiles st' = cfiles st /\ exists k k', clients st c = Some k /\ clients st' = upd (clients st) c (Some k')
      /\ c_rank k' = c_rank k /\ c_owner k' = c_owner k /\ c_conn k' = c_conn k
  | _ => cfiles st' = cfiles st /\ clients st' = clients st
  end.
Proof.
  intros H. destruct e.
  all: cbn [step] in H; unfold server_step, client_step in H; cbv zeta in H; break_step H; upd_tac.
  all: try (split; reflexivity).
  all: try (match goal with |- context [has ?a ?b] => destruct (has a b) end; split; reflexivity).
  all: try (split; [reflexivity|]; eexists; eexists; split; [reflexivity|]; split; [reflexivity|]; now repeat split).
  all: try (repeat split; [now apply has_not|reflexivity]).
  all: try (eexists; now repeat split).
  all: try (eexists; eexists; split; [reflexivity|]; split; [reflexivity|]; repeat split; eauto).
  all: repeat match goal with E : has _ _ = _ |- _ => first [rewrite has_In in E | rewrite has_not in E] end.
  all: try (match goal with late : bool |- _ => destruct late end; reflexivity).
  all: try (now repeat split).
  all: match goal with E : c_owner _ = _ |- _ => rewrite E end; try reflexivity.
  all: symmetry; now apply drop_not.
Qed.

(** The event, if any, that is about a client or about the files of clients. *)
Lemma upd_get {A} (f : nat -> A) i j a : upd f i a j = if j =? i then a else f j.
Proof. reflexivity. Qed.
Ltac cases_upd := repeat match goal with
  | H : context [upd _ ?i _ ?j] |- _ => rewrite (upd_get _ i j) in H; destruct (Nat.eqb_spec j i); subst
  | |- context [upd _ ?i _ ?j] => rewrite (upd_get _ i j); destruct (Nat.eqb_spec j i); subst
  end.

Section Invariant.
Variable n : nat.
Variables sf cf : list nat.
Notation runs tr st := (run n (init sf cf) tr = Some st).

(** Connections. *)
Lemma live_conn tr st : runs tr st -> forall c,
  match clients st c with
  | None => live tr c = false
  | Some k => live tr c = true <-> c_conn k = Live
  end.
Proof.
  apply (run_ind n (fun tr st => forall c, match clients st c with
    | None => live tr c = false | Some k => live tr c = true <-> c_conn k = Live end)).
  - intros c. reflexivity.
  - clear tr st. intros tr st e st' R IH H c. rewrite live_snoc. apply step_clients in H.
    destruct e; cbn [live_step]; unfold put.
    all: try (destruct H as [_ ->]; apply IH).
    + (* CNew *) destruct H as (C & _ & _ & ->). rewrite upd_get. destruct (Nat.eqb_spec c c0) as [->|]; [|apply IH].
      specialize (IH c0). rewrite C in IH. rewrite IH. cbn. intuition discriminate.
    + (* CFork *) destruct H as (k & C & D & _ & ->). rewrite upd_get.
      destruct (Nat.eqb_spec c d); [|apply IH]. cbn. specialize (IH c0). now rewrite C in IH.
    + destruct H as (_ & k & k' & C & -> & _ & _ & Q). rewrite upd_get. destruct (Nat.eqb_spec c c0); [|apply IH].
      subst. specialize (IH c0). rewrite C in IH. now rewrite Q.
    + destruct H as (_ & k & k' & C & -> & _ & _ & Q). rewrite upd_get. destruct (Nat.eqb_spec c c0); [|apply IH].
      subst. specialize (IH c0). rewrite C in IH. now rewrite Q.
    + destruct H as (_ & k & k' & C & -> & _ & _ & Q). rewrite upd_get. destruct (Nat.eqb_spec c c0); [|apply IH].
      rewrite Q. tauto.
    + destruct H as (_ & k & k' & C & -> & _ & _ & Q). rewrite upd_get. destruct (Nat.eqb_spec c c0); [|apply IH].
      subst. specialize (IH c0). rewrite C in IH. now rewrite Q.
    + destruct H as (_ & k & k' & C & -> & _ & _ & Q). rewrite upd_get. destruct (Nat.eqb_spec c c0); [|apply IH].
      subst. specialize (IH c0). rewrite C in IH. now rewrite Q.
    + destruct H as (_ & k & k' & C & -> & _ & _ & Q). rewrite upd_get. destruct (Nat.eqb_spec c c0); [|apply IH].
      subst. specialize (IH c0). rewrite C in IH. now rewrite Q.
    + destruct H as (_ & k & k' & C & -> & _ & _ & Q). rewrite upd_get. destruct (Nat.eqb_spec c c0); [|apply IH].
      rewrite Q. destruct (c_conn k); cbn; intuition discriminate.
    + destruct H as (k & k' & C & -> & _ & _ & Q & _). rewrite upd_get. destruct (Nat.eqb_spec c c0); [|apply IH].
      subst. specialize (IH c0). rewrite C in IH. now rewrite Q.
    + destruct H as (_ & k & k' & C & -> & _ & _ & Q). rewrite upd_get. destruct (Nat.eqb_spec c c0); [|apply IH].
      rewrite Q. intuition discriminate.
Qed.

(** Every client goes back to an owner of the same rank. *)
Definition rooted (tr : list event) (st : state) : Prop :=
  (forall c, clients st c = None -> root tr c = c) /\
  forall c k, clients st c = Some k ->
    (c_owner k = true -> root tr c = c) /\
    exists a, clients st (root tr c) = Some a /\ c_owner a = true /\ c_rank a = c_rank k.
Lemma rooted_runs tr st : runs tr st -> rooted tr st.
Proof.
  apply run_ind; [split; [reflexivity|discriminate]|].
  clear tr st. intros tr st e st' R [IN IS] H. pose proof (step_kept _ _ _ _ H) as K. apply step_clients in H.
  assert (G : (forall c, clients st' c = None -> clients st c = None) /\ (forall c k, clients st' c = Some k ->
    (exists k0, clients st c = Some k0 /\ c_owner k0 = c_owner k /\ c_rank k0 = c_rank k)
    \/ (exists r, e = CNew c r /\ clients st c = None /\ c_owner k = true /\ c_rank k = r)
    \/ (exists d k0, e = CFork d c /\ clients st c = None /\ clients st d = Some k0 /\ c_owner k = false /\ c_rank k = c_rank k0))).
  { destruct e; repeat match goal with
    | H : exists _, _ |- _ => destruct H as [? H]
    | H : _ /\ _ |- _ => let H1 := fresh in destruct H as [H1 H]
    end; repeat match goal with E : clients st' = _ |- _ => rewrite E in *; clear E end.
    all: split; [intros z C | intros z k0 C]; try (match type of C with context [upd _ ?i _ ?j] => rewrite (upd_get _ i j) in C; destruct (Nat.eqb_spec j i); subst end); try discriminate; eauto.
    all: try (injection C as <-).
    all: try (left; eexists; split; [eassumption|]; split; congruence).
    - right; left. eexists. repeat split; assumption.
    - right; right. exists c, x. repeat split; assumption. }
  destruct G as [GN GS]. unfold rooted. rewrite root_snoc.
  assert (RS : forall c, clients st c <> None -> root_step (root tr) e c = root tr c).
  { intros c C. destruct e; try reflexivity. cbn. unfold put. destruct (Nat.eqb_spec c d) as [->|]; [|reflexivity].
    destruct H as (k & _ & D & _). congruence. }
  split.
  - intros c C. pose proof (GN _ C) as C0. destruct e; cbn [root_step]; auto. unfold put.
    destruct (Nat.eqb_spec c d) as [->|]; [|auto]. destruct H as (k & Ck & D & _ & Q). rewrite Q, upd_same in C. discriminate.
  - intros c k C. destruct (GS _ _ C) as [(k0 & C0 & O & Rk) | [(r & -> & C0 & O & Rk) | (d & k0 & -> & C0 & C1 & O & Rk)]].
    + destruct (IS _ _ C0) as [I1 (a & A1 & A2 & A3)]. rewrite RS by congruence. split; [rewrite <- O; exact I1|].
      destruct (K _ _ A1) as (a' & B1 & B2 & B3). exists a'. repeat split; congruence.
    + cbn [root_step]. rewrite (IN _ C0). split; [reflexivity|]. exists k. auto.
    + cbn [root_step]. unfold put. rewrite Nat.eqb_refl. split; [rewrite O; discriminate|].
      destruct (IS _ _ C1) as [I1 (a & A1 & A2 & A3)].
      destruct (K _ _ A1) as (a' & B1 & B2 & B3). exists a'. repeat split; congruence.
Qed.

(** Lock files of owners that have not deleted theirs. *)
Definition tracked (tr : list event) (st : state) : Prop :=
  (forall a k, clients st a = Some k -> c_owner k = true -> (forall t, ~ In (CUnlink a t) tr) -> In (c_rank k) (cfiles st)) /\
  (forall a b k l, clients st a = Some k -> clients st b = Some l -> c_owner k = true -> c_owner l = true ->
     (forall t, ~ In (CUnlink a t) tr) -> (forall t, ~ In (CUnlink b t) tr) -> c_rank k = c_rank l -> a = b).
Definition once (tr : list event) : Prop :=
  forall l1 l2 a t, tr = l1 ++ CUnlink a t :: l2 -> forall t', ~ In (CUnlink a t') l2.
Lemma once_prefix p q : once (p ++ q) -> once p.
Proof.
  intros D l1 l2 a t -> t' I. apply (D l1 (l2 ++ q) a t) with (t' := t'); [now rewrite <- app_assoc|]. apply in_or_app; auto.
Qed.

Lemma tracked_runs tr st : runs tr st -> once tr -> tracked tr st.
Proof.
  apply (run_ind n (fun tr st => once tr -> tracked tr st)).
  { split; discriminate. }
  clear tr st. intros tr st e st' R IH H O. specialize (IH (once_prefix _ _ O)). destruct IH as [IF IU].
  apply step_clients in H.
  assert (KEEP : (forall a k, clients st' a = Some k -> exists k0, clients st a = Some k0 /\ c_rank k0 = c_rank k /\ c_owner k0 = c_owner k) ->
    cfiles st' = cfiles st -> tracked (tr ++ [e]) st').
  { intros KB CF. split.
    - intros a k C Ow NU. destruct (KB _ _ C) as (k0 & C0 & Rk & Ok). rewrite CF, <- Rk. apply (IF a); [assumption|congruence|].
      intros t I. apply (NU t), in_or_app; auto.
    - intros a b k l Ca Cb Oa Ob Na Nb Q.
      destruct (KB _ _ Ca) as (k0 & Ca0 & Rk & Ok). destruct (KB _ _ Cb) as (l0 & Cb0 & Rl & Ol).
      apply (IU a b k0 l0); try assumption; try congruence; intros t I; [apply (Na t)|apply (Nb t)]; apply in_or_app; auto. }
  assert (SAME : forall c k k', clients st c = Some k -> clients st' = upd (clients st) c (Some k') -> c_rank k' = c_rank k -> c_owner k' = c_owner k ->
     forall a k1, clients st' a = Some k1 -> exists k0, clients st a = Some k0 /\ c_rank k0 = c_rank k1 /\ c_owner k0 = c_owner k1).
  { intros c k k' C E Rk Ok a k1 Ca. rewrite E, upd_get in Ca. destruct (Nat.eqb_spec a c) as [->|]; [|eauto].
    injection Ca as <-. eauto. }
  destruct e.
  all: try (destruct H as [CF CE]; apply KEEP; [rewrite CE; eauto|assumption]).
  all: try (destruct H as (CF & k & k' & C & E & Rk & Ok & _); apply KEEP; [eapply SAME; eassumption|assumption]).
  - (* CNew *)
    destruct H as (C & NR & CF & E). split.
    + intros a k Ca Oa Na. rewrite CF. rewrite E, upd_get in Ca. destruct (Nat.eqb_spec a c) as [->|].
      * injection Ca as <-. now left.
      * right. apply (IF a); try assumption. intros t I. apply (Na t), in_or_app; auto.
    + intros a b k l Ca Cb Oa Ob Na Nb Q. rewrite E, upd_get in Ca, Cb.
      destruct (Nat.eqb_spec a c) as [->|], (Nat.eqb_spec b c) as [->|]; [reflexivity| | |].
      * injection Ca as <-. cbn in Q. exfalso. apply NR. rewrite Q. apply (IF b); try assumption. intros t I. apply (Nb t), in_or_app; auto.
      * injection Cb as <-. cbn in Q. exfalso. apply NR. rewrite <- Q. apply (IF a); try assumption. intros t I. apply (Na t), in_or_app; auto.
      * apply (IU a b k l); try assumption; intros t I; [apply (Na t)|apply (Nb t)]; apply in_or_app; auto.
  - (* CFork *)
    destruct H as (k & C & D & CF & E). split.
    + intros a k1 Ca Oa Na. rewrite E, upd_get in Ca. destruct (Nat.eqb_spec a d) as [->|].
      * injection Ca as <-. discriminate.
      * rewrite CF. apply (IF a); try assumption. intros t I. apply (Na t), in_or_app; auto.
    + intros a b k1 l Ca Cb Oa Ob Na Nb Q. rewrite E, upd_get in Ca, Cb.
      destruct (Nat.eqb_spec a d) as [->|]; [injection Ca as <-; discriminate|].
      destruct (Nat.eqb_spec b d) as [->|]; [injection Cb as <-; discriminate|].
      apply (IU a b k1 l); try assumption; intros t I; [apply (Na t)|apply (Nb t)]; apply in_or_app; auto.
  - (* CUnlink *)
    destruct H as (k & k' & C & E & Rk & Ok & _ & _ & CF).
    assert (B := SAME _ _ _ C E Rk Ok). destruct (c_owner k) eqn:Ow.
    + split.
      * intros a k1 Ca Oa Na. destruct (B _ _ Ca) as (k0 & Ca0 & R0 & O0). rewrite CF, drop_In.
        assert (Nat' : forall t0, ~ In (CUnlink a t0) tr) by (intros t0 I; apply (Na t0), in_or_app; auto).
        assert (Nct : forall t0, ~ In (CUnlink c t0) tr).
        { intros t0 I. apply in_split in I. destruct I as (l1 & l2 & ->).
          apply (O l1 (l2 ++ [CUnlink c t]) c t0) with (t' := t); [now rewrite <- app_assoc|apply in_or_app; cbn; auto]. }
        split; [rewrite <- R0; apply (IF a); [assumption|congruence|assumption]|].
        intros Q. assert (a = c) by (apply (IU a c k0 k); try assumption; congruence). subst a.
        apply (Na t), in_or_app. cbn. auto.
      * intros a b k1 l Ca Cb Oa Ob Na Nb Q.
        destruct (B _ _ Ca) as (k0 & Ca0 & R0 & O0). destruct (B _ _ Cb) as (l0 & Cb0 & Rl & Ol).
        apply (IU a b k0 l0); try assumption; try congruence; intros t0 I; [apply (Na t0)|apply (Nb t0)]; apply in_or_app; auto.
    + apply KEEP; assumption.
Qed.

(** What a step does to the servers. *)
Lemma step_servers st e st' : step n st e = Some st' ->
  match e with
  | SStart i => exists v', servers st' = upd (servers st) i v' /\ v_child (servers st i) = NotYet /\ sfiles st' = sfiles st
      /\ v' = Server Booting PRun false
  | SBuild i => exists v', servers st' = upd (servers st) i v' /\ v_child (servers st i) = Booting /\ sfiles st' = sfiles st
      /\ v' = Server Built (v_parent (servers st i)) (v_stop (servers st i))
  | SList i => exists v', servers st' = upd (servers st) i v' /\ v_child (servers st i) = Built /\ ~ In i (sfiles st) /\ sfiles st' = i :: sfiles st
      /\ v' = Server Listed (v_parent (servers st i)) (v_stop (servers st i))
  | SRefuse i => exists v', servers st' = upd (servers st) i v' /\ v_child (servers st i) = Built /\ In i (sfiles st) /\ sfiles st' = sfiles st
      /\ v' = Server Crashed (v_parent (servers st i)) (v_stop (servers st i))
  | SReset i => exists v', servers st' = upd (servers st) i v' /\ v_parent (servers st i) <> PNone /\ sfiles st' = sfiles st
      /\ v' = Server (v_child (servers st i)) PWait (v_stop (servers st i))
  | SPoll i => exists v', servers st' = upd (servers st) i v' /\ v_parent (servers st i) = PWait /\ sfiles st' = sfiles st /\ cfiles st = []
      /\ v' = Server (v_child (servers st i)) PPassed (v_stop (servers st i))
  | SGiveUp i => exists v', servers st' = upd (servers st) i v' /\ v_parent (servers st i) = PWait /\ sfiles st' = sfiles st
      /\ v' = Server (v_child (servers st i)) PPassed (v_stop (servers st i))
  | SSet i => exists v', servers st' = upd (servers st) i v' /\ v_parent (servers st i) = PPassed /\ sfiles st' = sfiles st
      /\ v' = Server (v_child (servers st i)) PSet true
  | SExit i => exists v', servers st' = upd (servers st) i v' /\ v_child (servers st i) = Listed /\ v_stop (servers st i) = true /\ sfiles st' = sfiles st
      /\ v' = Server Exited (v_parent (servers st i)) true
  | SUnlink i => exists v', servers st' = upd (servers st) i v' /\ v_parent (servers st i) = PSet /\ sfiles st' = drop i (sfiles st)
      /\ v' = Server (v_child (servers st i)) PGone (v_stop (servers st i))
  | SCrash i => exists v', servers st' = upd (servers st) i v' /\ v_child (servers st i) <> NotYet /\ sfiles st' = sfiles st
      /\ v' = Server Crashed (v_parent (servers st i)) (v_stop (servers st i))
  | _ => servers st' = servers st /\ sfiles st' = sfiles st
  end.
Proof.
  intros H. destruct e.
  all: cbn [step] in H; unfold server_step, client_step in H; cbv zeta in H; break_step H; upd_tac.
  all: try (split; reflexivity).
  all: repeat match goal with E : has _ _ = true |- _ => rewrite has_In in E | E : has _ _ = false |- _ => rewrite has_not in E end.
  all: try (eexists; repeat split; first [reflexivity | assumption | congruence]).
  all: try (match goal with |- context [has ?a ?b] => destruct (has a b) eqn:Eh end; cbn [servers sfiles]; eexists; repeat split; try reflexivity).
  all: try (symmetry; apply drop_not; now apply has_not).
  all: idtac.
Qed.

(** A server that has stopped has found no client, unless it gave up. *)
Definition passed (tr : list event) (st : state) : Prop :=
  (forall i, In (SExit i) tr -> v_stop (servers st i) = true) /\
  (forall i, v_stop (servers st i) = true \/ v_parent (servers st i) = PPassed -> exists j, In (SPoll j) tr \/ In (SGiveUp j) tr) /\
  (forall i, v_child (servers st i) = NotYet -> v_stop (servers st i) = false /\ v_parent (servers st i) = PNone).
Lemma passed_runs tr st : runs tr st -> passed tr st.
Proof.
  apply run_ind; [split; [intros i []|split; [intros i [|]; discriminate|now split]]|].
  clear tr st. intros tr st e st' R (IE & IP & IN) H. apply step_servers in H. unfold passed.
  assert (W : forall i, v_stop (servers st i) = true \/ v_parent (servers st i) = PPassed ->
    exists j, In (SPoll j) (tr ++ [e]) \/ In (SGiveUp j) (tr ++ [e])).
  { intros i S. destruct (IP i S) as (j & [I|I]); exists j; [left|right]; apply in_or_app; auto. }
  assert (SV : forall i, (forall j, e <> SExit j) -> In (SExit i) (tr ++ [e]) -> v_stop (servers st i) = true).
  { intros i N I. apply In_snoc in I. destruct I as [I|I]; [auto|]. now apply N in I. }
  destruct e; repeat match goal with
    | H : exists _, _ |- _ => destruct H as [? H]
    | H : _ /\ _ |- _ => let H1 := fresh "Q" in destruct H as [H1 H]
    end; subst; repeat match goal with E : servers st' = _ |- _ => rewrite E in *; clear E end.
  all: split; [intros z I; first [apply SV in I; [|intros; discriminate]|apply In_snoc in I] | split; [intros z C|intros z]].
  all: try match goal with |- context [upd _ ?i _ ?j] => rewrite (upd_get _ i j); destruct (Nat.eqb_spec j i); subst end.
  all: try match type of C with context [upd _ ?i _ ?j] => rewrite ?(upd_get _ i j) in C; destruct (Nat.eqb_spec j i); subst end.
  all: cbn [v_stop v_child v_parent] in *; auto; try discriminate.
  all: try (destruct C; discriminate).
  all: try (eapply W; eauto; fail).
  all: try (eapply W; destruct C; [left; eassumption|discriminate]).
  all: try (exists i; left; apply In_snoc; tauto).
  all: try (exists i; right; apply In_snoc; tauto).
  all: try (intros N; destruct (IN i N); congruence).
  all: try (apply (IN i); assumption).
  all: try (destruct (IN i) as [A B]; congruence).
  all: destruct I as [I|I]; [auto|injection I as ->; contradiction].
Qed.

Definition first (tr : list event) : Prop :=
  forall l1 l2 c r, tr = l1 ++ CNew c r :: l2 -> forall i, ~ In (SPoll i) l1.
Lemma polled_runs tr st : runs tr st -> first tr -> forall i, In (SPoll i) tr -> cfiles st = [].
Proof.
  apply (run_ind n (fun tr st => first tr -> forall i, In (SPoll i) tr -> cfiles st = [])).
  { intros _ i []. }
  clear tr st. intros tr st e st' R IH H F i I.
  assert (F0 : first tr).
  { intros l1 l2 c r -> j. apply (F l1 (l2 ++ [e]) c r). now rewrite <- app_assoc. }
  specialize (IH F0). apply In_snoc in I. destruct I as [I|I].
  - specialize (IH i I). pose proof H as HC. apply step_clients in HC. destruct e.
    all: try (destruct HC as [-> _]; assumption).
    + exfalso. eapply (F tr [] c r); [reflexivity|eassumption].
    + destruct HC as (? & _ & _ & -> & _). assumption.
    + destruct HC as (k & k' & _ & _ & _ & _ & _ & _ & ->). rewrite IH. now destruct (c_owner k).
  - subst e. pose proof H as HC. apply step_clients in HC. destruct HC as [-> _].
    apply step_servers in H. now destruct H as (v & _ & _ & _ & E & _).
Qed.

(** Server files come from servers that are listed, unless they were there before. *)
Definition listed (tr : list event) (st : state) : Prop :=
  (forall i, In i (sfiles st) -> In i sf \/ In (SList i) tr) /\
  (forall c k, clients st c = Some k ->
     (forall t seen i, c_threads k t = TWait seen -> In i seen -> In i sf \/ In (SList i) tr) /\
     (c_conn k = Live -> forall i, i < n -> In i sf \/ In (SList i) tr)).
Lemma listed_runs tr st : runs tr st -> listed tr st.
Proof.
  apply run_ind.
  { split; [cbn; auto|discriminate]. }
  clear tr st. intros tr st e st' R (IF & IC) H.
  assert (UP : forall i, In i sf \/ In (SList i) tr -> In i sf \/ In (SList i) (tr ++ [e])).
  { intros i [A|A]; [auto|right; apply in_or_app; auto]. }
  split.
  - intros i I. apply step_servers in H.
    destruct e; repeat match goal with
    | H : exists _, _ |- _ => destruct H as [? H]
    | H : _ /\ _ |- _ => let H1 := fresh "Q" in destruct H as [H1 H]
    end; repeat match goal with E : sfiles st' = _ |- _ => rewrite E in *; clear E end; auto.
    + destruct I as [<-|I]; [right; apply In_snoc; auto|auto].
    + apply drop_In in I. apply UP, IF, I.
  - intros c0 k0 C0.
    assert (OLD : forall k, clients st c0 = Some k -> (c_conn k0 = Live -> c_conn k = Live) ->
      (forall t seen, c_threads k0 t = TWait seen -> seen = [] \/ c_threads k t = TWait seen) ->
      (forall t seen i, c_threads k0 t = TWait seen -> In i seen -> In i sf \/ In (SList i) (tr ++ [e])) /\
     (c_conn k0 = Live -> forall i, i < n -> In i sf \/ In (SList i) (tr ++ [e]))).
    { intros k Ck Lk Tk. destruct (IC _ _ Ck) as [I1 I2]. split.
      - intros t seen i Ts Is. destruct (Tk _ _ Ts) as [->|Tk']; [destruct Is|]. apply UP. eapply I1; eassumption.
      - intros L i Hi. apply UP. apply I2; auto. }
    assert (SAME : clients st c0 = Some k0 -> (forall t seen i, c_threads k0 t = TWait seen -> In i seen -> In i sf \/ In (SList i) (tr ++ [e])) /\
     (c_conn k0 = Live -> forall i, i < n -> In i sf \/ In (SList i) (tr ++ [e]))).
    { intros C. apply (OLD k0); auto. }
    inv_step e H; upd_tac; auto.
    all: try (match type of C0 with context [clients (if ?b then _ else _)] => destruct b end; cbn [clients] in C0; auto; fail).
    all: try match type of C0 with upd _ ?i _ ?j = _ => rewrite (upd_get _ i j) in C0; destruct (Nat.eqb_spec j i); [subst; injection C0 as <-|auto] end.
    all: cbn [set_thread set_lock set_conn c_threads c_conn c_rank c_owner c_lock] in *.
    all: try (match goal with Ek : clients ?s _ = Some _ |- _ => destruct (IC _ _ Ek) as [I1 I2] end).
    all: clear OLD SAME; split;
      [ intros t0 s0 i0 T0 J0; try (rewrite upd_get in T0; destruct (Nat.eqb_spec t0 t); [subst|]); try discriminate
      | intros L i0 L0; try discriminate].
    all: try (eapply UP, I1; eassumption).
    all: try (eapply UP, I2; eassumption).
    + injection T0 as <-. destruct J0.
    + injection T0 as <-. apply andb_prop in E1. destruct E1 as [_ E1]. apply has_In in E1.
      destruct J0 as [<-|J0]; apply UP; [auto|eapply I1; eassumption].
    + rewrite forallb_forall in E1. specialize (E1 i0). rewrite has_In in E1.
      eapply UP, I1; [eassumption|]. apply E1, in_seq. lia.
    + destruct (c_conn c1); discriminate.
Qed.

(** *** Start-up *)
Theorem up_before tr l1 l2 c t : execution n sf cf tr -> tr = l1 ++ CConnect c t :: l2 ->
  forall i, i < n -> In i sf \/ In (SList i) l1.
Proof.
  unfold execution. intros R -> i Hi. rewrite run_app in R.
  destruct (run n (init sf cf) l1) as [st|] eqn:R1; [|congruence]. cbn [run] in R.
  destruct (step n st (CConnect c t)) as [st'|] eqn:S; [|congruence].
  assert (R2 : run n (init sf cf) (l1 ++ [CConnect c t]) = Some st') by (rewrite run_app, R1; cbn [run]; now rewrite S).
  destruct (listed_runs _ _ R2) as [_ LC]. pose proof (step_clients _ _ _ _ S) as (_ & k & k' & C & E & _ & _ & L).
  destruct (LC c k') as [_ H]; [now rewrite E, upd_same|]. destruct (H L i Hi) as [A|A]; [auto|].
  right. apply In_snoc in A. destruct A as [A|A]; [assumption|discriminate].
Qed.

(** Nothing is connected to a lock file that is gone. *)
Lemma live_tracked tr st : runs tr st -> orderly tr -> forall c, live tr c = true -> forall t, ~ In (CUnlink (root tr c) t) tr.
Proof.
  apply (run_ind n (fun tr st => orderly tr -> forall c, live tr c = true -> forall t, ~ In (CUnlink (root tr c) t) tr)).
  { intros _ c L. discriminate. }
  clear tr st. intros tr st e st' R IH H O c L t I.
  specialize (IH (orderly_prefix _ _ O)). rewrite live_snoc in L. rewrite root_snoc in I.
  assert (OLD : forall d, live tr d = true -> ~ In (CUnlink (root tr d) t) (tr ++ [e])).
  { intros d Ld J. apply In_snoc in J. destruct J as [J|J]; [now apply (IH d Ld t)|]. subst e.
    rewrite (o_closed _ O tr [] (root tr d) t eq_refl d eq_refl) in Ld. discriminate. }
  destruct e; cbn [root_step live_step] in *; try (now apply (OLD c)).
  - unfold put in *. destruct (Nat.eqb_spec c d); [now apply (OLD c0)|now apply (OLD c)].
  - unfold put in L. destruct (Nat.eqb_spec c c0); [|now apply (OLD c)]. subst c0.
    apply In_snoc in I. destruct I as [I|I]; [|discriminate].
    exact (o_last _ O tr [] (root tr c) t0 c eq_refl eq_refl t I).
  - unfold put in L. destruct (Nat.eqb_spec c c0); [discriminate|now apply (OLD c)].
  - unfold put in L. destruct (Nat.eqb_spec c c0); [discriminate|now apply (OLD c)].
Qed.

(** *** Shutdown *)
Theorem none_stopped tr : execution n sf cf tr -> orderly tr -> forall c, live tr c = true -> forall i, ~ In (SExit i) tr.
Proof.
  unfold execution. intros R O c L i X. destruct (run n (init sf cf) tr) as [st|] eqn:Rs; [|congruence].
  pose proof (live_conn _ _ Rs c) as LC. destruct (clients st c) as [k|] eqn:C; [|congruence].
  destruct (rooted_runs _ _ Rs) as [_ RT]. destruct (RT _ _ C) as [_ (a & Ca & Oa & _)].
  destruct (tracked_runs _ _ Rs (o_once _ O)) as [TF _].
  pose proof (TF _ _ Ca Oa (live_tracked _ _ Rs O c L)) as F.
  destruct (passed_runs _ _ Rs) as (PE & PS & _).
  destruct (PS i) as (j & [P|P]); [left; auto| |].
  - rewrite (polled_runs _ _ Rs (o_first _ O) j P) in F. destruct F.
  - exact (o_patient _ O j P).
Qed.

(** *** Cleaning up *)
Definition ranked (tr : list event) (st : state) : Prop :=
  (forall c r, In (CNew c r) tr -> exists k, clients st c = Some k /\ c_rank k = r /\ c_owner k = true) /\
  (forall r, In r (cfiles st) -> In r cf \/ exists c, In (CNew c r) tr /\ forall t, ~ In (CUnlink c t) tr) /\
  (forall c t, In (CUnlink c t) tr -> clients st c <> None).
Lemma ranked_runs tr st : runs tr st -> ranked tr st.
Proof.
  apply run_ind.
  { repeat split; cbn; intros; tauto. }
  clear tr st. intros tr st e st' R (IN & IF & IU) H. pose proof (step_kept _ _ _ _ H) as K. apply step_clients in H.
  assert (KN : forall c, clients st c <> None -> clients st' c <> None).
  { intros c C. destruct (clients st c) as [k|] eqn:Ck; [|congruence]. destruct (K _ _ Ck) as (k' & -> & _). discriminate. }
  assert (A1 : (forall c r, e <> CNew c r) -> forall c r, In (CNew c r) (tr ++ [e]) -> exists k, clients st' c = Some k /\ c_rank k = r /\ c_owner k = true).
  { intros N c r I. apply In_snoc in I. destruct I as [I|I]; [|now apply N in I].
    destruct (IN _ _ I) as (k & Ck & Rk & Ok). destruct (K _ _ Ck) as (k' & C' & R' & O'). exists k'. repeat split; congruence. }
  assert (A2 : (forall c t, e <> CUnlink c t) -> cfiles st' = cfiles st -> forall r, In r (cfiles st') -> In r cf \/ exists c, In (CNew c r) (tr ++ [e]) /\ forall t, ~ In (CUnlink c t) (tr ++ [e])).
  { intros N E r I. rewrite E in I. destruct (IF _ I) as [F|(c & C1 & C2)]; [auto|right]. exists c. split; [apply in_or_app; auto|].
    intros t J. apply In_snoc in J. destruct J as [J|J]; [now apply (C2 t)|now apply N in J]. }
  assert (A3 : (forall c t, e <> CUnlink c t) -> forall c t, In (CUnlink c t) (tr ++ [e]) -> clients st' c <> None).
  { intros N c t J. apply In_snoc in J. destruct J as [J|J]; [eauto|now apply N in J]. }
  destruct e.
  all: try (split; [apply A1; intros; discriminate|split; [apply A2; [intros; discriminate|]|apply A3; intros; discriminate]];
    repeat match goal with
    | H : exists _, _ |- _ => destruct H as [? H]
    | H : _ /\ _ |- _ => let H1 := fresh "Q" in destruct H as [H1 H]
    end; congruence).
  - destruct H as (C & NR & CF & E). split; [|split; [|apply A3; intros; discriminate]].
    + intros c0 r0 I. apply In_snoc in I. destruct I as [I|I].
      * destruct (IN _ _ I) as (k & Ck & Rk & Ok). destruct (K _ _ Ck) as (k' & C' & R' & O'). exists k'. repeat split; congruence.
      * injection I as <- <-. rewrite E, upd_same. eexists. repeat split.
    + intros r0 I. rewrite CF in I. destruct I as [<-|I].
      * right. exists c. split; [apply In_snoc; auto|]. intros t J. apply In_snoc in J. destruct J as [J|J]; [|discriminate].
        now apply IU in J.
      * destruct (IF _ I) as [F|(c0 & C1 & C2)]; [auto|right]. exists c0. split; [apply in_or_app; auto|].
        intros t J. apply In_snoc in J. destruct J as [J|J]; [now apply (C2 t)|discriminate].
  - destruct H as (k & k' & C & E & Rk & Ok & _ & _ & CF). split; [apply A1; intros; discriminate|split].
    + intros r I.
      assert (I0 : In r (cfiles st) /\ (c_owner k = true -> r <> c_rank k)).
      { rewrite CF in I. destruct (c_owner k); [apply drop_In in I; tauto|]. split; [assumption|discriminate]. }
      destruct I0 as [I0 I1]. destruct (IF _ I0) as [F|(c0 & C1 & C2)]; [auto|right]. exists c0. split; [apply in_or_app; auto|].
      intros t0 J. apply In_snoc in J. destruct J as [J|J]; [now apply (C2 t0)|]. injection J as <- <-.
      destruct (IN _ _ C1) as (k0 & Ck & R0 & O0). rewrite C in Ck. injection Ck as <-. now apply I1.
    + intros c0 t0 J. apply In_snoc in J. destruct J as [J|J]; [eauto|]. injection J as <- <-. apply KN. congruence.
Qed.

Definition filed (tr : list event) (st : state) : Prop :=
  forall i, In i (sfiles st) -> (In i sf /\ ~ In (SUnlink i) tr) \/ exists l1 l2, tr = l1 ++ SList i :: l2 /\ ~ In (SUnlink i) l2.
Lemma filed_runs tr st : runs tr st -> filed tr st.
Proof.
  apply run_ind.
  { intros i I. left. cbn in *. tauto. }
  clear tr st. intros tr st e st' R IH H i I. apply step_servers in H.
  assert (OLD : In i (sfiles st) -> e <> SUnlink i -> (In i sf /\ ~ In (SUnlink i) (tr ++ [e])) \/ exists l1 l2, tr ++ [e] = l1 ++ SList i :: l2 /\ ~ In (SUnlink i) l2).
  { intros J N. destruct (IH i J) as [[A B]|(l1 & l2 & -> & B)]; [left|right].
    - split; [assumption|]. rewrite In_snoc. intuition.
    - exists l1, (l2 ++ [e]). split; [now rewrite <- app_assoc|]. rewrite In_snoc. intuition. }
  destruct e; repeat match goal with
    | H : exists _, _ |- _ => destruct H as [? H]
    | H : _ /\ _ |- _ => let H1 := fresh "Q" in destruct H as [H1 H]
    end; repeat match goal with E : sfiles st' = _ |- _ => rewrite E in *; clear E end; try (apply OLD; [assumption|discriminate]).
  - destruct I as [<-|I]; [|apply OLD; [assumption|discriminate]]. right. exists tr, []. auto.
  - apply drop_In in I. destruct I as [I D]. apply OLD; [assumption|congruence].
Qed.

Lemma filed_back tr st : runs tr st -> forall i,
  (exists l1 l2, tr = l1 ++ SList i :: l2 /\ ~ In (SUnlink i) l2) -> In i (sfiles st).
Proof.
  apply (run_ind n (fun tr st => forall i, (exists l1 l2, tr = l1 ++ SList i :: l2 /\ ~ In (SUnlink i) l2) -> In i (sfiles st))).
  { intros i (l1 & l2 & E & _). destruct l1; discriminate. }
  clear tr st. intros tr st e st' R IH H i (l1 & l2 & E & N). apply step_servers in H.
  destruct l2 as [|x l2 _] using rev_ind.
  - apply app_inj_tail in E. destruct E as [-> ->]. destruct H as (v & _ & _ & _ & -> & _). now left.
  - assert (E' : tr ++ [e] = (l1 ++ SList i :: l2) ++ [x]) by (rewrite E, <- app_assoc; reflexivity).
    apply app_inj_tail in E'. destruct E' as [-> ->]. rewrite In_snoc in N.
    assert (I : In i (sfiles st)) by (apply IH; exists l1, l2; tauto).
    destruct x; repeat match goal with
    | H : exists _, _ |- _ => destruct H as [? H]
    | H : _ /\ _ |- _ => let H1 := fresh "Q" in destruct H as [H1 H]
    end; repeat match goal with E : sfiles st' = _ |- _ => rewrite E in *; clear E end; try assumption.
    + now right.
    + apply drop_In. split; [assumption|]. intros ->. tauto.
Qed.

Theorem all_clean tr st : sf = [] -> cf = [] -> runs tr st ->
  (forall i, In (SList i) tr -> exists l1 l2, tr = l1 ++ SUnlink i :: l2 /\ ~ In (SList i) l2) ->
  (forall c r, In (CNew c r) tr -> exists t, In (CUnlink c t) tr) ->
  sfiles st = [] /\ cfiles st = [].
Proof.
  intros S0 C0 R HS HC. split.
  - destruct (sfiles st) as [|i l] eqn:E; [reflexivity|exfalso].
    destruct (filed_runs _ _ R i) as [[A _]|(l1 & l2 & -> & B)]; [rewrite E; now left|rewrite S0 in A; destruct A|].
    destruct (HS i) as (m1 & m2 & Em & N); [apply in_or_app; right; now left|].
    assert (X : forall (a b c d : list event), a ++ SList i :: b = c ++ SUnlink i :: d -> ~ In (SUnlink i) b -> ~ In (SList i) d -> False).
    { clear. induction a as [|x a IH]; intros b c d E N1 N2.
      - destruct c as [|y c]; cbn in E; [discriminate|]. injection E as <- ->. apply N1. apply in_or_app. right. now left.
      - destruct c as [|y c]; cbn in E.
        + injection E as -> <-. apply N2. apply in_or_app. right. now left.
        + injection E as -> E. eauto. }
    exact (X _ _ _ _ Em B N).
  - destruct (cfiles st) as [|r l] eqn:E; [reflexivity|exfalso].
    destruct (ranked_runs _ _ R) as (_ & RF & _).
    destruct (RF r) as [A|(c & C1 & C2)]; [rewrite E; now left|rewrite C0 in A; destruct A|].
    destruct (HC c r C1) as (t & I). now apply (C2 t).
Qed.

(** *** Progress *)
Theorem released tr i : cf = [] -> execution n sf cf (tr ++ [SReset i]) ->
  (forall c r, In (CNew c r) tr -> exists t, In (CUnlink c t) tr) ->
  execution n sf cf (tr ++ [SReset i; SPoll i; SSet i; SUnlink i]).
Proof.
  unfold execution. intros C0 R HC. rewrite run_app in *.
  destruct (run n (init sf cf) tr) as [st|] eqn:Rs; [|congruence].
  change (run n st [SReset i]) with (match step n st (SReset i) with Some st' => Some st' | None => None end) in R.
  destruct (step n st (SReset i)) as [s1|] eqn:S1; [|congruence].
  change (run n st [SReset i; SPoll i; SSet i; SUnlink i])
    with (match step n st (SReset i) with Some st' => run n st' [SPoll i; SSet i; SUnlink i] | None => None end).
  rewrite S1. pose proof (step_servers _ _ _ S1) as (v & E1 & _ & _ & Ev). pose proof (step_clients _ _ _ _ S1) as [CF _].
  assert (F : cfiles s1 = []).
  { rewrite CF. destruct (cfiles st) as [|r l] eqn:E; [reflexivity|exfalso].
    destruct (ranked_runs _ _ Rs) as (_ & RF & _).
    destruct (RF r) as [A|(c & C1 & C2)]; [rewrite E; now left|rewrite C0 in A; destruct A|].
    destruct (HC c r C1) as (t & I). now apply (C2 t). }
  subst v. cbn [run step]. unfold server_step at 1. rewrite E1, upd_same. cbn [v_child v_parent v_stop]. rewrite F.
  destruct (v_child (servers st i)); unfold server_step at 1, set_server; cbn [servers]; rewrite upd_same; cbn [v_child v_parent v_stop];
    unfold server_step, set_server; cbn [servers]; rewrite upd_same; cbn [v_child v_parent v_stop]; discriminate.
Qed.

Theorem connects tr c t : execution n sf cf (tr ++ [CEnter c t]) ->
  (forall i, i < n -> exists l1 l2, tr = l1 ++ SList i :: l2 /\ ~ In (SUnlink i) l2) ->
  execution n sf cf (tr ++ CEnter c t :: map (CSee c t) (seq 0 n) ++ [CConnect c t]).
Proof.
  unfold execution. intros R HL. rewrite run_app in *.
  destruct (run n (init sf cf) tr) as [st|] eqn:Rs; [|congruence].
  change (run n st [CEnter c t]) with (match step n st (CEnter c t) with Some st' => Some st' | None => None end) in R.
  cbn [run]. destruct (step n st (CEnter c t)) as [s1|] eqn:S1; [|congruence]. clear R.
  pose proof (step_servers _ _ _ S1) as [_ SF].
  assert (ALL : forall i, i < n -> In i (sfiles s1)) by (intros i Hi; rewrite SF; apply (filed_back _ _ Rs), HL, Hi).
  assert (W : exists k, clients s1 c = Some k /\ c_threads k t = TWait []).
  { cbn [step] in S1. destruct (clients st c) as [k|]; [|discriminate]. unfold client_step in S1.
    destruct (c_threads k t); try discriminate. destruct (c_conn k), (c_lock k); try discriminate. injection S1 as <-.
    unfold set_client. cbn [clients]. rewrite upd_same. eexists. split; [reflexivity|]. cbn. apply upd_same. }
  clear S1 Rs SF. destruct W as (k & C & T).
  assert (G : forall m s st k, s + m = n -> clients st c = Some k -> (forall i, i < n -> In i (sfiles st)) ->
     (exists seen, c_threads k t = TWait seen /\ forall i, i < s -> In i seen) ->
     run n st (map (CSee c t) (seq s m) ++ [CConnect c t]) <> None).
  { clear. induction m as [|m IH]; intros s st k E C ALL (seen & T & SEEN).
    - cbn [seq map app run step]. rewrite C. unfold client_step. rewrite T.
      assert (F : forallb (fun i => has i seen) (seq 0 n) = true).
      { apply forallb_forall. intros i Hi. apply in_seq in Hi. apply has_In, SEEN. lia. }
      rewrite F. discriminate.
    - cbn [seq map app run step]. rewrite C. unfold client_step at 1. rewrite T.
      assert (F : (s <? n) && has s (sfiles st) = true).
      { apply andb_true_intro. split; [apply Nat.ltb_lt; lia|]. apply has_In, ALL. lia. }
      rewrite F. eapply (IH (Datatypes.S s)).
      + lia.
      + unfold set_client. cbn [clients]. apply upd_same.
      + exact ALL.
      + exists (s :: seen). cbn [set_thread c_threads]. rewrite upd_same. split; [reflexivity|].
        intros i Hi. destruct (Nat.eq_dec i s) as [->|]; [now left|right; apply SEEN; lia]. }
  apply (G n 0 s1 k); auto. exists []. split; [assumption|]. intros i Hi. lia.
Qed.
End Invariant.

(** *** States without way out *)
Section Stuck.
Variable n : nat.

(** The file of server [i] is gone for good. *)
Lemma stranded i c tr : i < n -> forall st,
  ~ In i (sfiles st) -> match v_child (servers st i) with Listed | Exited | Crashed => True | _ => False end ->
  (exists k, clients st c = Some k /\ forall t seen, c_threads k t = TWait seen -> ~ In i seen) ->
  run n st tr <> None -> forall t, ~ In (CConnect c t) tr.
Proof.
  intros Hi. induction tr as [|e tr IH]; intros st F V (k & C & T) R t I; [destruct I|].
  cbn [run] in R. destruct (step n st e) as [st'|] eqn:S; [|congruence].
  assert (G : ~ In i (sfiles st') /\ match v_child (servers st' i) with Listed | Exited | Crashed => True | _ => False end).
  { pose proof (step_servers _ _ _ _ S) as H. destruct e; repeat match goal with
    | H : exists _, _ |- _ => destruct H as [? H]
    | H : _ /\ _ |- _ => let H1 := fresh "Q" in destruct H as [H1 H]
    end; repeat match goal with E : sfiles st' = _ |- _ => rewrite E in *; clear E end;
    repeat match goal with E : servers st' = _ |- _ => rewrite E in *; clear E end; subst; try (split; assumption).
    all: try (match goal with |- context [upd _ ?a _ ?b] => destruct (Nat.eq_dec b a) as [->|]; [rewrite upd_same|rewrite upd_other by assumption] end;
      cbn [v_child]; try (split; [assumption|]; now auto); try (repeat match goal with Q : v_child _ = _ |- _ => rewrite Q in V; clear Q end; contradiction)).
    - split; [cbn; intuition|assumption].
    - split; [rewrite drop_In; tauto|assumption].
    - split; [rewrite drop_In; tauto|assumption]. }
  assert (W : e <> CConnect c t /\ exists k, clients st' c = Some k /\ forall t seen, c_threads k t = TWait seen -> ~ In i seen).
  { clear IH R I G.
    inv_step e S; upd_tac.
    all: try (split; [discriminate|]; exists k; now split).
    all: try (split; [discriminate|]; destruct (has _ _); cbn [clients]; exists k; now split).
    all: split; [try discriminate|].
    all: try (match goal with |- context [upd (clients ?s) ?a _ ?b] => destruct (Nat.eq_dec b a) as [->|]; [rewrite upd_same|rewrite upd_other by assumption; exists k; now split] end).
    all: try congruence.
    all: try (match goal with A : clients ?s ?x = Some ?k1, B : clients ?s ?x = Some ?k2 |- _ => rewrite A in B; injection B as -> end).
    all: try (eexists; split; [reflexivity|]; cbn [set_thread set_lock set_conn c_threads]; intros u sn U;
      try (rewrite upd_get in U; destruct (Nat.eqb_spec u t0); [subst|now apply (T u)]); try discriminate; try (injection U as <-)).
    - cbn. tauto.
    - intros [J|J]; [|exact (T t0 seen E0 J)]. subst i0. apply andb_prop in E1. destruct E1 as [_ E1]. apply has_In in E1. tauto.
    - intros J. injection J as -> ->. rewrite forallb_forall in E1. specialize (E1 i). rewrite has_In in E1.
      rewrite C in E. injection E as <-. apply (T t seen E0), E1, in_seq. lia. }
  destruct I as [I|I]; [tauto|]. destruct G, W. eapply (IH st'); eassumption.
Qed.

(** A lock file whose owner has crashed stays. *)
Lemma blocked r tr : forall st,
  In r (cfiles st) ->
  (forall c k, clients st c = Some k -> c_owner k = true -> c_rank k = r ->
     c_lock k = true /\ forall t, match c_threads k t with TRest | TReset _ => True | _ => False end) ->
  run n st tr <> None -> forall i, ~ In (SPoll i) tr.
Proof.
  induction tr as [|e tr IH]; intros st F K R i I; [destruct I|].
  cbn [run] in R. destruct (step n st e) as [st'|] eqn:S; [|congruence].
  assert (G : e <> SPoll i /\ In r (cfiles st')).
  { split.
    - intros ->. apply step_servers in S. destruct S as (v & _ & _ & _ & E & _). rewrite E in F. destruct F.
    - pose proof (step_clients _ _ _ _ S) as H. destruct e; repeat match goal with
    | H : exists _, _ |- _ => destruct H as [? H]
    | H : _ /\ _ |- _ => let H1 := fresh "Q" in destruct H as [H1 H]
    end; repeat match goal with E : cfiles st' = _ |- _ => rewrite E in *; clear E end; try assumption.
    + now right.
    + destruct (c_owner x) eqn:O; [|assumption]. apply drop_In. split; [assumption|]. intros J.
      destruct (K _ _ Q O (eq_sym J)) as [_ T]. specialize (T t). rewrite Q4 in T. destruct T. }
  assert (W : forall c k, clients st' c = Some k -> c_owner k = true -> c_rank k = r ->
     c_lock k = true /\ forall t, match c_threads k t with TRest | TReset _ => True | _ => False end).
  { clear IH R I G. intros c0 k0 C0 O0 R0.
    inv_step e S; upd_tac.
    all: try (eapply K; eassumption).
    all: try (match type of C0 with context [clients (if ?b then _ else _)] => destruct b end; cbn [clients] in C0; eapply K; eassumption).
    all: try match type of C0 with upd _ ?i _ ?j = _ => rewrite (upd_get _ i j) in C0; destruct (Nat.eqb_spec j i); [subst c0; injection C0 as <-|eapply K; eassumption] end.
    all: cbn [set_thread set_lock set_conn c_threads c_conn c_rank c_owner c_lock] in *.
    all: try discriminate.
    all: try (match goal with Ek : clients ?s _ = Some _ |- _ => destruct (K _ _ Ek) as [K1 K2]; [assumption|assumption|] end).
    all: try congruence.
    all: try (match goal with Et : c_threads _ ?t = _ |- _ => specialize (K2 t); rewrite Et in K2; contradiction end).
    - subst r0. apply has_not in E0. contradiction.
    - split; [assumption|]. intros u. rewrite upd_get. destruct (Nat.eqb_spec u t); [exact Logic.I|apply K2].
    - split; [reflexivity|]. intros u. exact Logic.I. }
  destruct I as [I|I]; [tauto|]. destruct G. eapply (IH st'); eassumption.
Qed.
End Stuck.

(** One thread at a time is inside the lock, and only while there is no connection it waits. *)
Section Lock.
Variable n : nat.
Definition inside (th : thread) : bool := match th with TWait _ | TClosing _ => true | _ => false end.
Definition one_inside (k : client) : Prop :=
  (forall t, inside (c_threads k t) = true -> c_lock k = true /\ forall t', inside (c_threads k t') = true -> t' = t) /\
  (forall t seen, c_threads k t = TWait seen -> c_conn k = Never).
Definition locked (st : state) : Prop := forall c k, clients st c = Some k -> one_inside k.

Lemma alone_inside k t : one_inside k -> inside (c_threads k t) = true -> forall t', t' <> t -> inside (c_threads k t') = false.
Proof. intros [L _] H t' N. destruct (inside (c_threads k t')) eqn:E; [|reflexivity]. destruct (L t H) as [_ U]. now destruct (N (U t' E)). Qed.
Lemma alone_free k : one_inside k -> c_lock k = false -> forall t', inside (c_threads k t') = false.
Proof. intros [L _] H t'. destruct (inside (c_threads k t')) eqn:E; [|reflexivity]. destruct (L t' E). congruence. Qed.

Lemma one_alone k k' t : (forall t', t' <> t -> c_threads k' t' = c_threads k t' /\ inside (c_threads k t') = false) ->
  (inside (c_threads k' t) = true -> c_lock k' = true) -> (forall seen, c_threads k' t = TWait seen -> c_conn k' = Never) -> one_inside k'.
Proof.
  intros O H1 H2. split.
  - intros u U. destruct (Nat.eq_dec u t) as [->|N]; [|destruct (O u N) as [E F]; rewrite E in U; congruence].
    split; [now apply H1|]. intros w W. destruct (Nat.eq_dec w t) as [->|N]; [reflexivity|]. destruct (O w N) as [E F]. rewrite E in W. congruence.
  - intros u seen U. destruct (Nat.eq_dec u t) as [->|N]; [now apply (H2 seen)|]. destruct (O u N) as [E F]. rewrite E in U. rewrite U in F. discriminate.
Qed.
Lemma one_outside k k' t : one_inside k -> (forall t', t' <> t -> c_threads k' t' = c_threads k t') -> inside (c_threads k' t) = false ->
  c_lock k' = c_lock k -> c_conn k' = c_conn k -> one_inside k'.
Proof.
  intros [L1 L2] O H El Ec. split.
  - intros u U. destruct (Nat.eq_dec u t) as [->|N]; [congruence|]. rewrite (O u N) in U. destruct (L1 u U) as [A B]. split; [congruence|].
    intros w W. destruct (Nat.eq_dec w t) as [->|M]; [congruence|]. rewrite (O w M) in W. auto.
  - intros u seen U. destruct (Nat.eq_dec u t) as [->|N]; [rewrite U in H; discriminate|]. rewrite (O u N) in U. rewrite Ec. eauto.
Qed.

Lemma locked_step st e st' : step n st e = Some st' -> locked st -> locked st'.
Proof.
  intros S L c0 k0 C0. inv_step e S; upd_tac.
  all: try (eapply L; eassumption).
  all: try (match type of C0 with context [clients (if ?b then _ else _)] => destruct b end; cbn [clients] in C0; try (eapply L; eassumption)).
  all: match type of C0 with upd _ ?i _ ?j = _ => rewrite (upd_get _ i j) in C0; destruct (Nat.eqb_spec j i); [subst c0; injection C0 as <-|eapply L; eassumption] end.
  all: try (split; cbn; intros; discriminate).
  all: match goal with Ek : clients ?s _ = Some ?k, Et : c_threads ?k ?t = _ |- _ => pose proof (L _ _ Ek) as LK end.
  all: match goal with Et : c_threads ?k ?t = ?th |- _ =>
    first [ apply (one_alone k _ t); [intros t' N; cbn; rewrite upd_other by assumption; split; [reflexivity|];
              first [now apply (alone_free k LK) | apply (alone_inside k t LK); [rewrite Et; reflexivity|assumption]]
            | cbn; rewrite ?upd_same; first [reflexivity | discriminate | assumption | (intros _; destruct LK as [LK _]; apply (LK t); rewrite Et; reflexivity)]
            | cbn; rewrite ?upd_same; intros ss; first [discriminate | (intros _; destruct LK as [_ LK]; eapply LK; eassumption) | (intros _; assumption)] ]
          | apply (one_outside k _ t LK); [intros t' N; cbn; now rewrite upd_other by assumption|cbn; rewrite upd_same; try reflexivity; destruct (c_conn k); reflexivity|reflexivity|reflexivity] ] end.
Qed.

Lemma conn_stays st e st' c k : step n st e = Some st' -> clients st c = Some k -> c_conn k <> Never ->
  exists k', clients st' c = Some k' /\ c_conn k' <> Never.
Proof.
  intros S C N. pose proof (step_clients _ _ _ _ S) as H.
  destruct e; repeat match goal with
    | H : exists _, _ |- _ => destruct H as [? H]
    | H : _ /\ _ |- _ => let H1 := fresh "Q" in destruct H as [H1 H]
    end; repeat match goal with E : clients st' = _ |- _ => rewrite E in *; clear E end; eauto.
  all: rewrite upd_get; destruct (Nat.eqb_spec c c0) as [<-|]; eauto; try congruence.
  all: try (destruct (Nat.eqb_spec c d) as [<-|]; eauto; congruence).
  all: eexists; split; [reflexivity|].
  all: repeat match goal with A : clients ?s ?x = Some ?k1, B : clients ?s ?x = Some ?k2 |- _ => rewrite A in B; injection B as -> end; try congruence.
  destruct (c_conn _); cbn in *; congruence.
Qed.

Lemma run_locked tr : forall st st', run n st tr = Some st' -> locked st -> locked st'.
Proof.
  induction tr as [|e tr IH]; intros st st' R L; cbn [run] in R; [now injection R as <-|]. destruct (step n st e) as [s|] eqn:S; [|discriminate].
  eapply IH; [exact R|]. eapply locked_step; eassumption.
Qed.
Lemma run_conn tr c : forall st st' k, run n st tr = Some st' -> clients st c = Some k -> c_conn k <> Never ->
  exists k', clients st' c = Some k' /\ c_conn k' <> Never.
Proof.
  induction tr as [|e tr IH]; intros st st' k R C N; cbn [run] in R; [injection R as <-; eauto|]. destruct (step n st e) as [s|] eqn:S; [|discriminate].
  destruct (conn_stays _ _ _ _ _ S C N) as (k' & C' & N'). eauto.
Qed.
Lemma init_locked sf cf : locked (init sf cf).
Proof. intros c k H. discriminate. Qed.

Lemma after_connect sf cf l1 l2 c t st : run n (init sf cf) (l1 ++ CConnect c t :: l2) = Some st ->
  locked st /\ exists k, clients st c = Some k /\ c_conn k <> Never.
Proof.
  intro R. split; [eapply run_locked; [exact R|apply init_locked]|]. rewrite run_app in R. destruct (run n (init sf cf) l1) as [s|]; [|discriminate].
  cbn [run] in R. destruct (step n s (CConnect c t)) as [s'|] eqn:S; [|discriminate].
  apply step_clients in S. destruct S as (_ & k & k' & _ & E & _ & _ & E2). eapply run_conn; [exact R|rewrite E, upd_same; reflexivity|congruence].
Qed.

(** An object is connected at most once. *)
Theorem connected_once sf cf l1 l2 c t : execution n sf cf (l1 ++ CConnect c t :: l2) -> forall t', ~ In (CConnect c t') l2.
Proof.
  intros X t' H. apply in_split in H as (m1 & m2 & ->). unfold execution in X.
  replace (l1 ++ CConnect c t :: m1 ++ CConnect c t' :: m2) with ((l1 ++ CConnect c t :: m1) ++ CConnect c t' :: m2) in X by (now rewrite <- app_assoc).
  rewrite run_app in X. destruct (run n (init sf cf) (l1 ++ CConnect c t :: m1)) as [st|] eqn:R; [|congruence].
  destruct (after_connect _ _ _ _ _ _ _ R) as (L & k & C & N). cbn [run step] in X. rewrite C in X. unfold client_step in X. cbv zeta in X.
  destruct (c_threads k t') eqn:T; try congruence. destruct (L c k C) as [_ L2]. apply N. eauto.
Qed.

Lemma wait_stays st e st' c k t seen : step n st e = Some st' -> clients st c = Some k -> c_threads k t = TWait seen ->
  e <> CConnect c t -> e <> CExpire c t -> e <> CCrash c ->
  exists k' seen', clients st' c = Some k' /\ c_threads k' t = TWait seen'.
Proof.
  intros S C T N1 N2 N3. inv_step e S; upd_tac; eauto.
  all: try (match goal with |- context [clients (if ?b then _ else _)] => destruct b end; cbn [clients]; eauto).
  all: rewrite upd_get; match goal with |- context [?x =? ?y] => destruct (Nat.eqb_spec x y); [subst|eauto] end; try congruence.
  all: match goal with A : clients ?s ?x = Some ?k1, B : clients ?s ?x = Some ?k2 |- _ => rewrite A in B; injection B as -> end.
  all: match goal with N : _ <> CConnect _ ?u |- context [set_thread _ ?x _] => destruct (Nat.eq_dec u x); [subst|] end.
  all: try (eexists; eexists; split; [reflexivity|cbn [set_thread set_lock set_conn c_threads]; rewrite upd_other by congruence; eassumption]).
  all: try congruence.
  eexists; eexists; split; [reflexivity|]. cbn. rewrite upd_same. reflexivity.
Qed.

(** While a thread waits for the servers no other thread does. *)
Theorem one_waits sf cf l1 l2 c t t' : execution n sf cf (l1 ++ CEnter c t :: l2 ++ [CEnter c t']) ->
  In (CConnect c t) l2 \/ In (CExpire c t) l2 \/ In (CCrash c) l2.
Proof.
  intro X. unfold execution in X. rewrite run_app in X. destruct (run n (init sf cf) l1) as [s|] eqn:R; [|congruence].
  pose proof (run_locked _ _ _ R (init_locked sf cf)) as L. cbn [run] in X. destruct (step n s (CEnter c t)) as [s'|] eqn:S; [|congruence].
  pose proof (locked_step _ _ _ S L) as L'.
  assert (W : exists k seen, clients s' c = Some k /\ c_threads k t = TWait seen).
  { cbn [step] in S. destruct (clients s c) as [k|]; [|discriminate]. unfold client_step in S. cbv zeta in S. break_step S. upd_tac.
    eexists; eexists; split; [apply upd_same|]. cbn. apply upd_same. }
  clear S L R. revert s' L' W X. induction l2 as [|e l2 IH]; intros st L (k & seen & C & T) X.
  - exfalso. cbn [app run step] in X. rewrite C in X. unfold client_step in X. cbv zeta in X. destruct (c_threads k t'); try congruence.
    destruct (L c k C) as [L1 _]. destruct (L1 t) as [El _]; [now rewrite T|]. rewrite El in X. destruct (c_conn k); congruence.
  - cbn [app run] in X. destruct (step n st e) as [st'|] eqn:S; [|congruence].
    assert (D : (e = CConnect c t \/ e = CExpire c t \/ e = CCrash c) \/ e <> CConnect c t /\ e <> CExpire c t /\ e <> CCrash c).
    { destruct e; try (right; repeat split; discriminate).
      - destruct (Nat.eq_dec c0 c), (Nat.eq_dec t0 t); subst; [tauto|right..]; repeat split; congruence.
      - destruct (Nat.eq_dec c0 c), (Nat.eq_dec t0 t); subst; [tauto|right..]; repeat split; congruence.
      - destruct (Nat.eq_dec c0 c); subst; [tauto|right; repeat split; congruence]. }
    destruct D as [D|(D1 & D2 & D3)]; [cbn [In]; intuition|].
    destruct (IH st' (locked_step _ _ _ S L) (wait_stays _ _ _ _ _ _ _ S C T D1 D2 D3) X) as [?|[?|?]]; cbn [In]; tauto.
Qed.

(** A thread that gave up waiting does not reset what another one connected before. *)
Theorem rescued sf cf l1 l2 c t t' : ~ execution n sf cf (l1 ++ CConnect c t :: l2 ++ [CLate c t'; CClose c t']).
Proof.
  intro X. unfold execution in X. change (l1 ++ CConnect c t :: l2 ++ [CLate c t'; CClose c t']) with (l1 ++ (CConnect c t :: l2) ++ [CLate c t'; CClose c t']) in X.
  rewrite app_assoc, run_app in X. destruct (run n (init sf cf) (l1 ++ CConnect c t :: l2)) as [st|] eqn:R; [|congruence].
  destruct (after_connect _ _ _ _ _ _ _ R) as (L & k & C & N). cbn [run step] in X. rewrite C in X. unfold client_step at 1 in X. cbv zeta in X.
  destruct (c_threads k t'); try congruence. upd_tac. rewrite upd_same in X. unfold client_step in X. cbv zeta in X. cbn in X. rewrite upd_same in X.
  destruct (c_conn k); try congruence.
Qed.
(** A lock whose holder is in another process stays taken. *)
Definition frozen (st : state) (d : nat) : Prop := exists k, clients st d = Some k /\ c_lock k = true /\
  forall t, match c_threads k t with TRest | TReset _ => True | _ => False end.
Lemma frozen_step st e st' d : step n st e = Some st' -> frozen st d -> frozen st' d /\
  forall t, e <> CConnect d t /\ e <> CExpire d t /\ e <> CClose d t /\ e <> CUnlink d t.
Proof.
  intros S (k & C & El & T).
  assert (D : forall t, e <> CConnect d t /\ e <> CExpire d t /\ e <> CClose d t /\ e <> CUnlink d t).
  { intro t. specialize (T t). repeat split; intros ->; cbn [step] in S; rewrite C in S; unfold client_step in S; cbv zeta in S;
      destruct (c_threads k t); try contradiction; try discriminate. rewrite El in S. discriminate. }
  split; [|exact D]. inv_step e S; upd_tac; try (exists k; now auto).
  all: unfold frozen.
  all: try (match goal with |- context [clients (if ?b then _ else _)] => destruct b end; cbn [clients]; try (exists k; now auto)).
  all: cbn [clients]; rewrite upd_get; match goal with |- context [?x =? ?y] => destruct (Nat.eqb_spec x y); [subst|exists k; now auto] end; try congruence.
  all: match goal with A : clients ?s ?x = Some ?k1, B : clients ?s ?x = Some ?k2 |- _ => rewrite A in B; injection B as -> end.
  all: try (match goal with Et : c_threads _ ?u = _, D : forall t, _ |- _ => exfalso; destruct (D u) as (D1 & D2 & D3 & D4); congruence end).
  all: try congruence.
  all: try (match goal with Et : c_threads _ ?u = _ |- _ => specialize (T u); rewrite Et in T; contradiction end).
  all: eexists; (split; [reflexivity|]); cbn; (split; [auto|]); intro u; rewrite ?upd_get; auto.
  destruct (Nat.eqb_spec u t); [exact Logic.I|apply T].
Qed.
Lemma frozen_run d tr : forall st, frozen st d -> run n st tr <> None ->
  forall t, ~ In (CConnect d t) tr /\ ~ In (CExpire d t) tr /\ ~ In (CUnlink d t) tr.
Proof.
  induction tr as [|e tr IH]; intros st F R t; [cbn; tauto|]. cbn [run] in R. destruct (step n st e) as [st'|] eqn:S; [|congruence].
  destruct (frozen_step _ _ _ _ S F) as [F' D]. destruct (IH st' F' R t) as (I1 & I2 & I3). destruct (D t) as (D1 & D2 & D3 & D4). cbn [In]. tauto.
Qed.
End Lock.
