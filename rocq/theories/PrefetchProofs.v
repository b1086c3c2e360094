From Verif Require Import Base PrefetchModel.
From Coq Require Import Permutation ZifyBool ZifyNat ZifyN.

(** *** Specification on lists of events *)
(** What __next__ returned, in order. *)
Definition returned (tr : list event) : list item := flat_map (fun e => match e with EReturn x => [x] | _ => [] end) tr.
(** How often __next__ was called, and how often it raised. *)
Definition asks (tr : list event) : nat := length (filter (fun e => match e with EAsk => true | _ => false end) tr).
Definition raises (tr : list event) : nat := length (filter (fun e => match e with ERaise => true | _ => false end) tr).
(** Calls of __next__ that have not answered. *)
Definition answers (tr : list event) : nat :=
  length (filter (fun e => match e with EReturn _ | EStop | ERaise => true | _ => false end) tr).
Definition exceptions (l : list item) : nat := length (filter (fun x => match x with IExc => true | _ => false end) l).

(** The batches among the returned results. *)
Definition batches (l : list item) : list nat := flat_map (fun x => match x with IRes i => [i] | _ => [] end) l.

(** *** Parts of a trace *)
Definition gets (tr : list event) : list item := flat_map (fun e => match e with EGet x => [x] | _ => [] end) tr.
Definition drains (tr : list event) : list item := flat_map (fun e => match e with EDrain x => [x] | _ => [] end) tr.
Definition prods (tr : list event) : list item := flat_map (fun e => match e with EPutProd x => [x] | _ => [] end) tr.
Definition dones (tr : list event) : list nat := flat_map (fun e => match e with EPut i => [i] | _ => [] end) tr.

Lemma item_eqb_eq x y : item_eqb x y = true <-> x = y.
Proof. destruct x, y; cbn; rewrite ?Nat.eqb_eq; split; congruence. Qed.

(** Sums over the tasks. *)
Definition total (f : nat -> nat) (m : nat) : nat := list_sum (map f (seq 0 m)).
Lemma total_S f m : total f (S m) = total f m + f m.
Proof. unfold total. rewrite seq_S, map_app, list_sum_app. cbn. lia. Qed.
Lemma total_ext f g m : (forall j, j < m -> f j = g j) -> total f m = total g m.
Proof. induction m as [|m IH]; intros H; [reflexivity|]. rewrite !total_S, (H m) by lia. rewrite IH; auto. Qed.
Lemma total_upd f g k m : k < m -> (forall j, j <> k -> g j = f j) -> total g m + f k = total f m + g k.
Proof.
  induction m as [|m IH]; intros L E; [lia|]. rewrite !total_S. destruct (Nat.eq_dec k m) as [->|D].
  - rewrite (total_ext g f m); [lia|]. intros j Hj. apply E. lia.
  - rewrite (E m) by congruence. specialize (IH ltac:(lia) E). lia.
Qed.
Lemma total_le f m c : (forall j, j < m -> f j <= c) -> total f m <= c * m.
Proof. induction m as [|m IH]; intros H; [cbn; lia|]. rewrite total_S. specialize (IH ltac:(auto)). specialize (H m ltac:(lia)). lia. Qed.
Lemma total_full f m : (forall j, j < m -> f j <= 1) -> m <= total f m -> forall j, j < m -> f j = 1.
Proof.
  intros H T j L. pose proof (H j L). destruct (Nat.eq_dec (f j) 0) as [E|]; [|lia]. exfalso.
  assert (U : total f m <= m - 1); [|lia]. clear T. induction m as [|m IH]; [lia|]. rewrite total_S.
  destruct (Nat.eq_dec j m) as [->|D]; [rewrite E; pose proof (total_le f m 1 ltac:(auto)); lia|].
  specialize (IH ltac:(auto) ltac:(lia)). specialize (H m ltac:(lia)). lia.
Qed.

Lemma In_snoc {A} (x : A) l y : In x (l ++ [y]) <-> In x l \/ y = x.
Proof. rewrite in_app_iff. cbn. intuition. Qed.
Lemma upd_same {A} (f : nat -> A) i a : upd f i a i = a.
Proof. unfold upd. now rewrite Nat.eqb_refl. Qed.
Lemma upd_other {A} (f : nat -> A) i j a : j <> i -> upd f i a j = f j.
Proof. unfold upd. intros D. apply Nat.eqb_neq in D. now rewrite D. Qed.

Lemma NoDup_app_l {A} (l l' : list A) : NoDup (l ++ l') -> NoDup l.
Proof. induction l as [|x l IH]; intros N; [constructor|]. inversion N as [|? ? X Y]; subst. constructor; [|auto]. intros I. apply X, in_app_iff. now left. Qed.
Lemma total_tail f a b : a <= b -> (forall j, a <= j < b -> f j = 0) -> total f b = total f a.
Proof.
  induction b as [|b IH]; intros L Z; [now replace a with 0 by lia|]. destruct (Nat.eq_dec a (S b)) as [->|]; [reflexivity|].
  rewrite total_S, (Z b) by lia. rewrite Nat.add_0_r. apply IH; [lia|]. intros j Hj. apply Z. lia.
Qed.
Lemma total_lt f m : total f m < m -> exists i, i < m /\ f i = 0.
Proof.
  induction m as [|m IH]; [lia|]. rewrite total_S. intros H. destruct (f m) as [|k] eqn:E; [eauto|]. destruct IH as (i & L & Z); [lia|]. exists i. split; [lia|assumption].
Qed.
Lemma NoDup_snoc {A} (l : list A) x : NoDup l -> ~ In x l -> NoDup (l ++ [x]).
Proof. intros N I. apply (Permutation_NoDup (l := x :: l)); [apply Permutation_cons_append|now constructor]. Qed.

Section Prefetch.
Variable n : nat.
Variable ends : bool.
Variable ok : nat -> bool.
Variables cap threads bound : nat.
Notation step := (step n ends ok cap threads).
Notation run := (run n ends ok cap threads).
Notation init := (init threads bound).
Notation runs tr st := (run init tr = Some st).
Notation out := (out ok).

Lemma run_app st a b : run st (a ++ b) = match run st a with Some s => run s b | None => None end.
Proof. revert st; induction a as [|e a IH]; intros st; [reflexivity|]; cbn [PrefetchModel.run app]. destruct (step st e); auto. Qed.
Lemma run_snoc tr e st : runs (tr ++ [e]) st -> exists s, runs tr s /\ step s e = Some st.
Proof.
  rewrite run_app. destruct (run init tr) as [s|]; [|discriminate]. cbn [PrefetchModel.run].
  destruct (step s e) as [s'|] eqn:E; [|discriminate]. intros X. injection X as <-. eauto.
Qed.
Lemma run_ind (P : list event -> state -> Prop) :
  P [] init ->
  (forall tr st e st', runs tr st -> P tr st -> step st e = Some st' -> P (tr ++ [e]) st') ->
  forall tr st, runs tr st -> P tr st.
Proof.
  intros P0 PS tr; induction tr as [|e tr IH] using rev_ind; intros st R.
  - cbn in R. injection R as <-. exact P0.
  - apply run_snoc in R as (s & R & H). eauto.
Qed.

Ltac break_step H :=
  repeat match type of H with
  | None = Some _ => discriminate H
  | context [match ?x with _ => _ end] => let E := fresh "E" in destruct x eqn:E
  | context [if ?x then _ else _] => let E := fresh "E" in destruct x eqn:E
  end; try discriminate H; try (injection H as <-).
Ltac sets := unfold set_prod, set_task, set_permits, set_queue, set_cons, got in *;
  cbn [prod submitted started over tasks permits shut queue cons count index stop] in *.
Ltac parts := unfold gets, drains, prods, dones, returned, asks, raises, answers in *; rewrite ?flat_map_app, ?filter_app, ?app_length; cbn [flat_map filter length app]; rewrite ?app_nil_r, ?Nat.add_0_r.

(** *** Producer and tasks *)
Definition is_over (t : task) : nat := match t with TOver => 1 | _ => 0 end.
Definition task_ok (i : nat) (t : task) : Prop :=
  match t with TNone | TQueued => False | TPut => ok i = true | TFail | TShut => ok i = false | _ => True end.
Definition prod_ok (st : state) : Prop :=
  match prod st with
  | PNext k => k = submitted st /\ k <= n
  | PGot k | PAcquire k | PSubmit k => k = submitted st /\ k < n
  | PPut (ICount c) => c = n /\ submitted st = n /\ ends = true
  | PPut (IRes _) => False
  | PPut IExc | PLeave | POver => True
  end.
Record wf (st : state) : Prop := {
  wf_started : started st <= submitted st;
  wf_submitted : submitted st <= n;
  wf_none : forall i, submitted st <= i -> tasks st i = TNone;
  wf_queued : forall i, started st <= i < submitted st -> tasks st i = TQueued;
  wf_task : forall i, i < started st -> task_ok i (tasks st i);
  wf_over : over st = total (fun i => is_over (tasks st i)) (submitted st);
  wf_prod : prod_ok st;
  wf_permits : permits st + submitted st + match prod st with PSubmit _ => 1 | _ => 0 end = bound + over st
}.

Lemma task_running st i : wf st -> tasks st i <> TNone -> tasks st i <> TQueued -> i < started st.
Proof.
  intros W A B. destruct (Nat.lt_ge_cases i (started st)) as [|L]; [assumption|]. exfalso.
  destruct (Nat.lt_ge_cases i (submitted st)) as [|L2]; [apply B; apply (wf_queued _ W); lia|apply A; now apply (wf_none _ W)].
Qed.

(** A step that only moves task i on. *)
Lemma wf_move st i t st' : wf st -> i < started st -> task_ok i t -> tasks st i <> TOver ->
  started st' = started st -> submitted st' = submitted st -> tasks st' = upd (tasks st) i t ->
  over st' = over st + is_over t -> prod st' = prod st -> permits st' = permits st + is_over t -> wf st'.
Proof.
  intros W L T N Es Eu Et Eo Ep Em. pose proof (wf_started _ W).
  constructor; rewrite ?Es, ?Eu; try apply W.
  - intros j Hj. rewrite Et, upd_other by lia. now apply (wf_none _ W).
  - intros j Hj. rewrite Et, upd_other by lia. now apply (wf_queued _ W).
  - intros j Hj. rewrite Et. destruct (Nat.eq_dec j i) as [->|D]; [now rewrite upd_same|rewrite upd_other by assumption; now apply (wf_task _ W)].
  - pose proof (total_upd (fun i => is_over (tasks st i)) (fun i => is_over (tasks st' i)) i (submitted st) ltac:(lia)) as U.
    rewrite Et in *. cbv beta in U. rewrite upd_same in U. rewrite Eo, (wf_over _ W).
    assert (is_over (tasks st i) = 0) as Z by (destruct (tasks st i); congruence || reflexivity).
    rewrite Z in U. rewrite <- U; [lia|]. intros j D. now rewrite upd_other.
  - pose proof (wf_prod _ W) as P. unfold prod_ok in *. rewrite Ep, Eu. exact P.
  - pose proof (wf_permits _ W) as P. rewrite Ep, Em, Eo. lia.
Qed.

Lemma wf_step st e st' : wf st -> step st e = Some st' -> wf st'.
Proof.
  intros W H. pose proof (wf_prod _ W) as P. unfold prod_ok in P. pose proof (wf_permits _ W) as M.
  destruct e; cbn [PrefetchModel.step] in H; break_step H; sets;
    try match goal with E : prod _ = _ |- _ => rewrite E in P, M end;
    try (destruct P as [-> P]).
  (* task steps *)
  all: try match goal with
    E : tasks ?s ?i = _ |- _ =>
      eapply (wf_move s i); try reflexivity; sets; cbn [is_over]; try lia;
      [exact W|apply task_running; [exact W|congruence|congruence]| |congruence];
      cbn; auto
    end.
  all: try (pose proof (wf_task _ W i) as X; rewrite E in X; apply X; apply task_running; [exact W|congruence|congruence]).
  all: try (constructor; sets; unfold prod_ok; sets; try apply W; try rewrite E; auto; try lia; fail).
  all: try (constructor; sets; unfold prod_ok; sets; try apply W; try (split; [lia|split; [lia|reflexivity]]); try lia; fail).
  - pose proof (wf_started _ W). constructor; sets; unfold prod_ok; sets; try lia.
    + intros i Hi. rewrite upd_other by lia. apply (wf_none _ W). lia.
    + intros i Hi. destruct (Nat.eq_dec i (submitted st)) as [->|D]; [apply upd_same|]. rewrite upd_other by assumption. apply (wf_queued _ W). lia.
    + intros i Hi. rewrite upd_other by lia. now apply (wf_task _ W).
    + rewrite total_S, upd_same. cbn [is_over]. rewrite (wf_over _ W), Nat.add_0_r. apply total_ext. intros j Hj. now rewrite upd_other by lia.
  - assert (L : started st < submitted st) by lia. constructor; sets; unfold prod_ok; sets; try lia; try apply W.
    + intros i Hi. rewrite upd_other by lia. apply (wf_none _ W). lia.
    + intros i Hi. rewrite upd_other by lia. apply (wf_queued _ W). lia.
    + intros i Hi. destruct (Nat.eq_dec i (started st)) as [->|D]; [now rewrite upd_same|]. rewrite upd_other by assumption. apply (wf_task _ W). lia.
    + rewrite (wf_over _ W). apply total_ext. intros j Hj. destruct (Nat.eq_dec j (started st)) as [->|D]; [|now rewrite upd_other].
      rewrite upd_same. now rewrite (wf_queued _ W) by lia.
Qed.

Lemma wf_runs tr st : runs tr st -> wf st.
Proof.
  apply (run_ind (fun _ st => wf st)); [|intros; eapply wf_step; eassumption].
  constructor; unfold PrefetchModel.init; sets; try reflexivity; try lia.
  - unfold prod_ok. sets. destruct (threads =? 0); [exact Logic.I|]. lia.
  - destruct (threads =? 0); lia.
Qed.

(** *** Items *)
Definition has_put (t : task) : Prop := match t with TShut | TEnd | TOver => True | _ => False end.

Lemma items_runs tr st : runs tr st -> Permutation (gets tr ++ drains tr ++ queue st) (prods tr ++ map out (dones tr)).
Proof.
  apply (run_ind (fun tr st => Permutation (gets tr ++ drains tr ++ queue st) (prods tr ++ map out (dones tr)))); [reflexivity|].
  clear tr st. intros tr st e st' R IH H. pose proof (wf_runs _ _ R) as W.
  destruct e; cbn [PrefetchModel.step] in H; break_step H; sets; parts; rewrite ?map_app; cbn [map]; try exact IH.
  - (* EPutProd *) rewrite (app_assoc _ (queue st)), (app_assoc _ (_ ++ _) [x]), IH, <- !app_assoc. cbn [app].
    apply Permutation_app_head. symmetry. apply Permutation_cons_append.
  - rewrite !app_assoc in *. apply Permutation_app; [exact IH|].
    pose proof (wf_task _ W i) as T. rewrite E in T. unfold PrefetchModel.out. rewrite T; [reflexivity|].
    apply (task_running _ _ W); congruence.
  - rewrite !app_assoc in *. apply Permutation_app; [exact IH|].
    pose proof (wf_task _ W i) as T. rewrite E in T. unfold PrefetchModel.out. rewrite T; [reflexivity|].
    apply (task_running _ _ W); congruence.
  - apply item_eqb_eq in E0. subst. rewrite <- IH, <- app_assoc. cbn [app]. apply Permutation_app_head. apply Permutation_middle.
  - apply item_eqb_eq in E0. subst. rewrite <- IH, <- app_assoc. cbn [app]. apply Permutation_app_head. apply Permutation_middle.
  - apply item_eqb_eq in E1. subst. rewrite <- IH, <- app_assoc. reflexivity.
  - rewrite E0, ?app_nil_r in *; exact IH.
Qed.

Lemma dones_runs tr st : runs tr st -> NoDup (dones tr) /\ forall i, In i (dones tr) <-> has_put (tasks st i).
Proof.
  apply (run_ind (fun tr st => NoDup (dones tr) /\ forall i, In i (dones tr) <-> has_put (tasks st i))); [split; [constructor|reflexivity]|].
  clear tr st. intros tr st e st' R [ND IN] H. pose proof (wf_runs _ _ R) as W.
  destruct e; cbn [PrefetchModel.step] in H; break_step H; sets; parts; try (split; [exact ND|exact IN]).
  all: try (split; [exact ND|]; intros j; rewrite IN; unfold upd; destruct (Nat.eqb_spec j i) as [->|]; [|reflexivity]; rewrite E; cbn; destruct (ok i); reflexivity).
  - split; [exact ND|]. intros j. rewrite IN. unfold upd. destruct (Nat.eqb_spec j (submitted st)) as [->|]; [|reflexivity]. rewrite (wf_none _ W) by lia. reflexivity.
  - split; [exact ND|]. intros j. rewrite IN. unfold upd. destruct (Nat.eqb_spec j (started st)) as [->|]; [|reflexivity]. rewrite (wf_queued _ W) by lia. reflexivity.
  - split; [apply NoDup_snoc; [exact ND|rewrite IN, E; cbn; tauto]|]. intros j. rewrite in_app_iff, IN. unfold upd.
    destruct (Nat.eqb_spec j i) as [->|D]; cbn; [tauto|]. split; [intros [|[->|[]]]; congruence || assumption|tauto].
  - split; [apply NoDup_snoc; [exact ND|rewrite IN, E; cbn; tauto]|]. intros j. rewrite in_app_iff, IN. unfold upd.
    destruct (Nat.eqb_spec j i) as [->|D]; cbn; [tauto|]. split; [intros [|[->|[]]]; congruence || assumption|tauto].
Qed.

Lemma prods_runs tr st : runs tr st ->
  match prod st with
  | PLeave | POver => (prods tr = [] /\ (stop st = true \/ threads = 0)) \/ prods tr = [IExc] \/ (prods tr = [ICount n] /\ submitted st = n /\ ends = true)
  | _ => prods tr = []
  end.
Proof.
  apply (run_ind (fun tr st => match prod st with
    | PLeave | POver => (prods tr = [] /\ (stop st = true \/ threads = 0)) \/ prods tr = [IExc] \/ (prods tr = [ICount n] /\ submitted st = n /\ ends = true)
    | _ => prods tr = [] end)).
  { unfold PrefetchModel.init. sets. destruct (Nat.eqb_spec threads 0); auto. }
  clear tr st. intros tr st e st' R IH H. pose proof (wf_prod _ (wf_runs _ _ R)) as P. unfold prod_ok in P.
  destruct e; cbn [PrefetchModel.step] in H; break_step H; sets; parts; rewrite ?E in *; auto; try exact IH.
  - apply andb_prop in E0 as [X _]. apply item_eqb_eq in X. subst x. rewrite IH.
    destruct x0; [contradiction|auto|]. destruct P as (-> & P). auto.
  - destruct (prod st); auto. 1-2: intuition.
Qed.

(** *** How many items there are *)
Definition is_count (x : item) : bool := match x with ICount _ => true | _ => false end.
Definition cnt (tr : list event) : list item := filter is_count (gets tr).

Lemma filter_perm {A} (f : A -> bool) l l' : Permutation l l' -> Permutation (filter f l) (filter f l').
Proof. induction 1; cbn; repeat match goal with |- context [f ?x] => destruct (f x) end; eauto using perm_skip, perm_swap, perm_trans. Qed.
Lemma dones_lt tr st i : runs tr st -> In i (dones tr) -> i < submitted st.
Proof.
  intros R I. apply (proj2 (dones_runs _ _ R)) in I. pose proof (wf_runs _ _ R) as W.
  destruct (Nat.lt_ge_cases i (submitted st)) as [|L]; [assumption|]. rewrite (wf_none _ W) in I by assumption. contradiction.
Qed.
Lemma dones_length tr st : runs tr st -> length (dones tr) <= submitted st.
Proof.
  intros R. rewrite <- (seq_length (submitted st) 0). apply NoDup_incl_length; [apply (dones_runs _ _ R)|].
  intros i I. apply in_seq. pose proof (dones_lt _ _ _ R I). lia.
Qed.
Lemma prods_cases tr st : runs tr st -> prods tr = [] \/ prods tr = [IExc] \/ (prods tr = [ICount n] /\ submitted st = n /\ ends = true).
Proof. intros R. pose proof (prods_runs _ _ R) as P. destruct (prod st); auto; intuition. Qed.
Lemma cnt_cases tr st : runs tr st -> cnt tr = [] \/ (cnt tr = [ICount n] /\ filter is_count (queue st) = [] /\ prods tr = [ICount n]).
Proof.
  intros R. pose proof (items_runs _ _ R) as I. apply (filter_perm is_count) in I. rewrite !filter_app in I. fold (cnt tr) in I.
  assert (filter is_count (map out (dones tr)) = []) as Z.
  { clear I. induction (dones tr) as [|i l IH]; [reflexivity|]. cbn [map filter]. unfold PrefetchModel.out at 1 2. destruct (ok i); exact IH. }
  rewrite Z, app_nil_r in I. destruct (prods_cases _ _ R) as [P|[P|(P & _)]]; rewrite P in I |- *; cbn in I; symmetry in I.
  1-2: apply Permutation_nil, app_eq_nil in I; left; apply I.
  apply Permutation_length_1_inv in I. destruct (cnt tr) as [|x l]; [now left|]. right. cbn in I. injection I as -> I.
  apply app_eq_nil in I as (-> & I). apply app_eq_nil in I as (_ & ->). auto.
Qed.
Lemma gets_length tr st : runs tr st -> length (gets tr) + length (drains tr) + length (queue st) <= 1 + submitted st.
Proof.
  intros R. pose proof (Permutation_length (items_runs _ _ R)) as L. rewrite !app_length, map_length in L.
  pose proof (dones_length _ _ R). assert (length (prods tr) <= 1); [|lia].
  destruct (prods_cases _ _ R) as [->|[->|(-> & _)]]; cbn; lia.
Qed.

(** *** The consumer *)
Definition pend (c : consumer) : list item := match c with CReturn x => [x] | _ => [] end.
Definition pend_exc (c : consumer) : nat := match c with CRaise => 1 | _ => 0 end.
Record seen (tr : list event) (st : state) : Prop := {
  seen_index : index st = length (gets tr);
  seen_count : count st = match cnt tr with [] => 0 | _ => n end;
  seen_items : Permutation (gets tr) (returned tr ++ pend (cons st) ++ cnt tr ++ repeat IExc (raises tr + pend_exc (cons st)));
  seen_exc : exceptions (returned tr ++ pend (cons st)) <= match cnt tr, cons st with [], _ | _, CGet2 => 0 | _, _ => 1 end;
  seen_data : Forall (fun x => is_count x = false) (returned tr ++ pend (cons st));
  seen_stop : cons st = CStop \/ In EStop tr -> cnt tr <> [] /\ length (gets tr) = n + 1;
  seen_get2 : cons st = CGet2 -> cnt tr <> [] /\ length (gets tr) <> n + 1;
  seen_get : cons st = CGet -> cnt tr <> [] -> n > 0 -> length (gets tr) <> n + 1;
  seen_zero : n = 0 -> cnt tr <> [] -> cons st = CStop \/ In EStop tr
}.

Lemma exceptions_app a b : exceptions (a ++ b) = exceptions a + exceptions b.
Proof. unfold exceptions. now rewrite filter_app, app_length. Qed.

Lemma gets_app a b : gets (a ++ b) = gets a ++ gets b. Proof. apply flat_map_app. Qed.
Lemma returned_app a b : returned (a ++ b) = returned a ++ returned b. Proof. apply flat_map_app. Qed.
Lemma raises_app a b : raises (a ++ b) = raises a + raises b. Proof. unfold raises. now rewrite filter_app, app_length. Qed.
Lemma cnt_app a b : cnt (a ++ b) = cnt a ++ cnt b. Proof. unfold cnt. now rewrite gets_app, filter_app. Qed.

Definition of_consumer (e : event) : bool :=
  match e with EAsk | EGet _ | EReturn _ | EStop | ERaise | EJoin | EJoined => true | _ => false end.
Lemma step_quiet st e st' : step st e = Some st' -> of_consumer e = false -> cons st' = cons st /\ count st' = count st /\ index st' = index st.
Proof. intros H. destruct e; intros O; try discriminate O; cbn [PrefetchModel.step] in H; break_step H; sets; auto. Qed.
Ltac simp_trace := rewrite ?gets_app, ?returned_app, ?raises_app, ?cnt_app, ?In_snoc;
  repeat (change (gets [?e]) with (@nil item) || idtac); unfold gets, returned, raises, cnt at 2; cbn [flat_map filter length app is_count].

Lemma seen_quiet tr e st st' : seen tr st -> of_consumer e = false ->
  cons st' = cons st -> count st' = count st -> index st' = index st -> seen (tr ++ [e]) st'.
Proof.
  intros S O Ec En Ei.
  assert (G : gets (tr ++ [e]) = gets tr) by (rewrite gets_app; destruct e; try discriminate O; apply app_nil_r).
  assert (Rt : returned (tr ++ [e]) = returned tr) by (rewrite returned_app; destruct e; try discriminate O; apply app_nil_r).
  assert (Ra : raises (tr ++ [e]) = raises tr) by (rewrite raises_app; destruct e; try discriminate O; apply Nat.add_0_r).
  assert (Cn : cnt (tr ++ [e]) = cnt tr) by (unfold cnt; now rewrite G).
  assert (St : In EStop (tr ++ [e]) <-> In EStop tr) by (rewrite In_snoc; destruct e; try discriminate O; intuition discriminate).
  destruct S. constructor; rewrite ?G, ?Rt, ?Ra, ?Cn, ?St, ?Ec, ?En, ?Ei; assumption.
Qed.
Lemma seen_step tr st e st' : runs tr st -> seen tr st -> step st e = Some st' -> seen (tr ++ [e]) st'.
Proof.
  intros R SE H. destruct (of_consumer e) eqn:O.
  2:{ destruct (step_quiet _ _ _ H O) as (A & B & D). eapply seen_quiet; eassumption. }
  assert (R' : runs (tr ++ [e]) st') by (rewrite run_app, R; cbn [PrefetchModel.run]; now rewrite H).
  pose proof (cnt_cases _ _ R) as C.
  destruct e; try discriminate O; clear O; cbn [PrefetchModel.step] in H.
  - (* EAsk *) destruct (cons st) eqn:Ec; try discriminate. injection H as <-. sets.
    destruct SE as [Si Sc Sp Se Sd Ss S2 S1 Sz]. rewrite Ec in *. unfold ask.
    assert (St : In EStop (tr ++ [EAsk]) <-> In EStop tr) by (rewrite In_snoc; intuition discriminate).
    constructor; sets; rewrite ?St, ?gets_app, ?returned_app, ?raises_app, ?cnt_app, ?app_nil_r, ?Nat.add_0_r; cbn [gets returned raises cnt flat_map filter length];
      rewrite ?app_nil_r, ?Nat.add_0_r in *; auto.
    all: destruct ((0 <? count st) && (index st =? count st + 1)) eqn:B; cbn [pend pend_exc app] in *; rewrite ?app_nil_r, ?Nat.add_0_r in *; auto.
    all: try (destruct (cnt tr); auto; fail); try (intuition discriminate).
    + intros _. rewrite Sc, Si in B. destruct C as [C|C]; [rewrite C in B; cbn in B; discriminate|].
      destruct C as (C & _). rewrite C in *. split; [discriminate|lia].
    + intros _ C2 N. rewrite Sc, Si in B. destruct (cnt tr); [congruence|]. lia.
  - (* EGet *) destruct (queue st) as [|y q] eqn:Eq; [discriminate|]. destruct (item_eqb x y) eqn:Ex; [|discriminate].
    apply item_eqb_eq in Ex. subst y.
    assert (St : In EStop (tr ++ [EGet x]) <-> In EStop tr) by (rewrite In_snoc; intuition discriminate).
    assert (G : gets (tr ++ [EGet x]) = gets tr ++ [x]) by apply gets_app.
    assert (Rt : returned (tr ++ [EGet x]) = returned tr) by (rewrite returned_app; apply app_nil_r).
    assert (Ra : raises (tr ++ [EGet x]) = raises tr) by (rewrite raises_app; apply Nat.add_0_r).
    assert (Cn : cnt (tr ++ [EGet x]) = cnt tr ++ filter is_count [x]) by apply cnt_app.
    assert (Lg : length (gets (tr ++ [EGet x])) = S (length (gets tr))) by (rewrite G, app_length; cbn; lia).
    pose proof (cnt_cases _ _ R') as C'. rewrite Cn in C'.
    pose proof (gets_length _ _ R') as LL. pose proof (wf_submitted _ (wf_runs _ _ R')) as LS.
    destruct SE as [Si Sc Sp Se Sd Ss S2 S1 Sz]. destruct (cons st) eqn:Ec; try discriminate; cbn [pend pend_exc app] in *; rewrite ?app_nil_r, ?Nat.add_0_r in *.
    + (* the first get *) assert (NS : ~ In EStop tr \/ n = 0).
      { destruct (Nat.eq_dec n 0); [now right|]. left. intros I. destruct (Ss (or_intror I)). apply S1; auto. lia. }
      assert (NS' : ~ In EStop tr).
      { intros I. destruct (Ss (or_intror I)) as (A & B). rewrite Lg in LL. lia. }
      destruct x as [i| |c]; cbn [handle] in H; [injection H as <-|injection H as <-|destruct (S (index st) =? c + 1) eqn:B; injection H as <-]; cbn [filter is_count] in Cn, C'; rewrite ?app_nil_r in Cn, C'.
      * constructor; sets; rewrite ?St, ?Rt, ?Ra, ?Cn, ?Lg, ?G; cbn [pend pend_exc]; rewrite ?Nat.add_0_r; auto; try discriminate.
        -- rewrite Sp, <- app_assoc. apply Permutation_app_head. symmetry. apply Permutation_cons_append.
        -- rewrite exceptions_app. cbn. destruct (cnt tr); cbn in *; lia.
        -- apply Forall_app. split; [assumption|]. repeat constructor.
        -- intros [X|X]; [discriminate|contradiction].
        -- intros Z Y. destruct (Sz Z Y); [discriminate|auto].
      * constructor; sets; rewrite ?St, ?Rt, ?Ra, ?Cn, ?Lg, ?G; cbn [pend pend_exc]; rewrite ?Nat.add_0_r; auto; try discriminate.
        -- rewrite Sp, <- !app_assoc. cbn [app]. rewrite Nat.add_1_r. do 2 apply Permutation_app_head. cbn [repeat]. symmetry. apply Permutation_cons_append.
        -- rewrite app_nil_r. destruct (cnt tr); auto.
        -- now rewrite app_nil_r.
        -- intros [X|X]; [discriminate|contradiction].
        -- intros Z Y. destruct (Sz Z Y); [discriminate|auto].
      * assert (C0 : cnt tr = [] /\ c = n).
        { destruct C' as [C'|(C' & _)]; [destruct (cnt tr); discriminate|]. destruct (cnt tr) as [|z [|? ?]]; try discriminate. now injection C' as <-. }
        destruct C0 as (C0 & ->). rewrite C0 in *. cbn [app] in *.
        constructor; sets; rewrite ?St, ?Rt, ?Ra, ?Cn, ?Lg, ?G; cbn [pend pend_exc app]; rewrite ?Nat.add_0_r, ?app_nil_r; auto; try discriminate; try lia.
        -- rewrite Sp, <- app_assoc. apply Permutation_app_head. symmetry. apply Permutation_cons_append.
        -- intros X. split; [discriminate|lia].
      * assert (C0 : cnt tr = [] /\ c = n).
        { destruct C' as [C'|(C' & _)]; [destruct (cnt tr); discriminate|]. destruct (cnt tr) as [|z [|? ?]]; try discriminate. now injection C' as <-. }
        destruct C0 as (C0 & ->). rewrite C0 in *. cbn [app] in *.
        constructor; sets; rewrite ?St, ?Rt, ?Ra, ?Cn, ?Lg, ?G; cbn [pend pend_exc app]; rewrite ?Nat.add_0_r, ?app_nil_r; auto; try discriminate; try lia.
        -- rewrite Sp, <- app_assoc. apply Permutation_app_head. symmetry. apply Permutation_cons_append.
        -- intros [X|X]; [discriminate|contradiction].
        -- intros _. split; [discriminate|lia].
    + (* the second *) destruct (S2 eq_refl) as (N2 & L2). injection H as <-.
      assert (NC : is_count x = false).
      { destruct C as [C|(_ & C & _)]; [contradiction|]. cbn in C. destruct (is_count x); [discriminate|reflexivity]. }
      cbn [filter] in Cn. rewrite NC, app_nil_r in Cn.
      assert (NS' : ~ In EStop tr). { intros I. destruct (Ss (or_intror I)) as (A & B). congruence. }
      constructor; sets; rewrite ?St, ?Rt, ?Ra, ?Cn, ?Lg, ?G; cbn [pend pend_exc]; rewrite ?Nat.add_0_r; auto; try discriminate.
      * rewrite Sp, <- app_assoc. apply Permutation_app_head. symmetry. apply Permutation_cons_append.
      * rewrite exceptions_app. destruct (cnt tr); [congruence|]. destruct x; cbn in *; lia.
      * apply Forall_app. split; [assumption|]. now repeat constructor.
      * intros [X|X]; [discriminate|contradiction].
      * intros Z Y. destruct (Sz Z Y); [discriminate|auto].
  - (* EReturn *) destruct (cons st) eqn:Ec; try discriminate. destruct (item_eqb x x0) eqn:Ex; [|discriminate]. injection H as <-. apply item_eqb_eq in Ex. subst x0. sets.
    destruct SE as [Si Sc Sp Se Sd Ss S2 S1 Sz]. rewrite Ec in *. cbn [pend pend_exc] in *.
    assert (St : In EStop (tr ++ [EReturn x]) <-> In EStop tr) by (rewrite In_snoc; intuition discriminate).
    assert (G : gets (tr ++ [EReturn x]) = gets tr) by (rewrite gets_app; apply app_nil_r).
    assert (Rt : returned (tr ++ [EReturn x]) = returned tr ++ [x]) by apply returned_app.
    assert (Ra : raises (tr ++ [EReturn x]) = raises tr) by (rewrite raises_app; apply Nat.add_0_r).
    assert (Cn : cnt (tr ++ [EReturn x]) = cnt tr) by (unfold cnt; now rewrite G).
    constructor; sets; rewrite ?St, ?Rt, ?Ra, ?Cn, ?G; cbn [pend pend_exc app]; rewrite ?Nat.add_0_r, ?app_nil_r in *; auto; try discriminate.
    + now rewrite <- app_assoc.
    + intros [X|X]; [discriminate|auto].
    + intros Z Y. destruct (Sz Z Y); [discriminate|auto].
  - (* EStop *) destruct (cons st) eqn:Ec; try discriminate. injection H as <-. sets.
    destruct SE as [Si Sc Sp Se Sd Ss S2 S1 Sz]. rewrite Ec in *. cbn [pend pend_exc] in *.
    assert (G : gets (tr ++ [EStop]) = gets tr) by (rewrite gets_app; apply app_nil_r).
    assert (Rt : returned (tr ++ [EStop]) = returned tr) by (rewrite returned_app; apply app_nil_r).
    assert (Ra : raises (tr ++ [EStop]) = raises tr) by (rewrite raises_app; apply Nat.add_0_r).
    assert (Cn : cnt (tr ++ [EStop]) = cnt tr) by (unfold cnt; now rewrite G).
    constructor; sets; rewrite ?In_snoc, ?Rt, ?Ra, ?Cn, ?G; cbn [pend pend_exc app]; rewrite ?Nat.add_0_r, ?app_nil_r in *; auto; try discriminate.
  - (* ERaise *) destruct (cons st) eqn:Ec; try discriminate. injection H as <-. sets.
    destruct SE as [Si Sc Sp Se Sd Ss S2 S1 Sz]. rewrite Ec in *. cbn [pend pend_exc] in *.
    assert (St : In EStop (tr ++ [ERaise]) <-> In EStop tr) by (rewrite In_snoc; intuition discriminate).
    assert (G : gets (tr ++ [ERaise]) = gets tr) by (rewrite gets_app; apply app_nil_r).
    assert (Rt : returned (tr ++ [ERaise]) = returned tr) by (rewrite returned_app; apply app_nil_r).
    assert (Ra : raises (tr ++ [ERaise]) = raises tr + 1) by apply raises_app.
    assert (Cn : cnt (tr ++ [ERaise]) = cnt tr) by (unfold cnt; now rewrite G).
    constructor; sets; rewrite ?St, ?Rt, ?Ra, ?Cn, ?G; cbn [pend pend_exc app]; rewrite ?Nat.add_0_r, ?app_nil_r in *; auto; try discriminate.
    + intros [X|X]; [discriminate|auto].
    + intros Z Y. destruct (Sz Z Y); [discriminate|auto].
  - (* EJoin *) destruct (cons st) eqn:Ec; try discriminate. injection H as <-. sets.
    destruct SE as [Si Sc Sp Se Sd Ss S2 S1 Sz]. rewrite Ec in *. cbn [pend pend_exc] in *.
    assert (St : In EStop (tr ++ [EJoin]) <-> In EStop tr) by (rewrite In_snoc; intuition discriminate).
    assert (G : gets (tr ++ [EJoin]) = gets tr) by (rewrite gets_app; apply app_nil_r).
    assert (Rt : returned (tr ++ [EJoin]) = returned tr) by (rewrite returned_app; apply app_nil_r).
    assert (Ra : raises (tr ++ [EJoin]) = raises tr) by (rewrite raises_app; apply Nat.add_0_r).
    assert (Cn : cnt (tr ++ [EJoin]) = cnt tr) by (unfold cnt; now rewrite G).
    constructor; sets; rewrite ?St, ?Rt, ?Ra, ?Cn, ?G; cbn [pend pend_exc app]; rewrite ?Nat.add_0_r, ?app_nil_r in *; auto; try discriminate.
    + intros [X|X]; [discriminate|auto].
    + intros Z Y. destruct (Sz Z Y); [discriminate|auto].
  - (* EJoined *) destruct (prod st); try discriminate. destruct (queue st); try discriminate. destruct (cons st) eqn:Ec; try discriminate. injection H as <-. sets.
    destruct SE as [Si Sc Sp Se Sd Ss S2 S1 Sz]. rewrite Ec in *. cbn [pend pend_exc] in *.
    assert (St : In EStop (tr ++ [EJoined]) <-> In EStop tr) by (rewrite In_snoc; intuition discriminate).
    assert (G : gets (tr ++ [EJoined]) = gets tr) by (rewrite gets_app; apply app_nil_r).
    assert (Rt : returned (tr ++ [EJoined]) = returned tr) by (rewrite returned_app; apply app_nil_r).
    assert (Ra : raises (tr ++ [EJoined]) = raises tr) by (rewrite raises_app; apply Nat.add_0_r).
    assert (Cn : cnt (tr ++ [EJoined]) = cnt tr) by (unfold cnt; now rewrite G).
    constructor; sets; rewrite ?St, ?Rt, ?Ra, ?Cn, ?G; cbn [pend pend_exc app]; rewrite ?Nat.add_0_r, ?app_nil_r in *; auto; try discriminate.
    + intros [X|X]; [discriminate|auto].
    + intros Z Y. destruct (Sz Z Y); [discriminate|auto].
Qed.
Lemma seen_runs tr st : runs tr st -> seen tr st.
Proof.
  apply (run_ind seen); [|intros; eapply seen_step; eassumption].
  constructor; unfold PrefetchModel.init; sets; try reflexivity; try discriminate; auto; try congruence.
  - constructor.
  - intros [X|[]]; discriminate.
  - intros _ X. now contradiction X.
Qed.

(** *** StopIteration *)
Lemma stop_full tr st : runs tr st -> cons st = CStop \/ In EStop tr ->
  ends = true /\ drains tr = [] /\ queue st = [] /\ cnt tr = [ICount n] /\ Permutation (gets tr) (ICount n :: map out (seq 0 n)).
Proof.
  intros R X. destruct (seen_stop _ _ (seen_runs _ _ R) X) as (C & L).
  destruct (cnt_cases _ _ R) as [|(C1 & _ & P)]; [congruence|]. pose proof (gets_length _ _ R) as GL. pose proof (wf_submitted _ (wf_runs _ _ R)) as WS.
  assert (ends = true) as En by (destruct (prods_cases _ _ R) as [P'|[P'|(_ & _ & En)]]; congruence).
  assert (drains tr = []) as D by (apply length_zero_iff_nil; lia). assert (queue st = []) as Q by (apply length_zero_iff_nil; lia).
  pose proof (items_runs _ _ R) as I. rewrite D, Q, P, !app_nil_r in I.
  split; [assumption|]. split; [assumption|]. split; [assumption|]. split; [assumption|]. rewrite I. cbn [app]. constructor. apply Permutation_map.
  apply NoDup_Permutation_bis; [apply (dones_runs _ _ R)| |intros i Hi; apply in_seq; pose proof (dones_lt _ _ _ R Hi); lia].
  apply Permutation_length in I. cbn in I. rewrite map_length in I. rewrite seq_length. lia.
Qed.

Theorem stop_all tr st : runs (tr ++ [EStop]) st ->
  ends = true /\ Permutation (returned tr ++ repeat IExc (raises tr)) (map out (seq 0 n)) /\ exceptions (returned tr) <= 1.
Proof.
  intros R. apply run_snoc in R as (s & R & H). cbn [PrefetchModel.step] in H. destruct (cons s) eqn:Ec; try discriminate.
  destruct (stop_full _ _ R (or_introl Ec)) as (En & _ & _ & C & P). pose proof (seen_runs _ _ R) as SE. split; [assumption|]. split.
  - pose proof (seen_items _ _ SE) as I. rewrite Ec, C, P in I. cbn [pend pend_exc app] in I. rewrite Nat.add_0_r in I.
    apply Permutation_cons_app_inv in I. now symmetry.
  - pose proof (seen_exc _ _ SE) as X. rewrite Ec, C in X. cbn [pend] in X. now rewrite app_nil_r in X.
Qed.

Lemma stop_stays_state tr st : runs tr st -> In EStop tr -> match cons st with CIdle | CStop | CJoin | CGone => True | CGet => n = 0 | _ => False end.
Proof.
  apply (run_ind (fun tr st => In EStop tr -> match cons st with CIdle | CStop | CJoin | CGone => True | CGet => n = 0 | _ => False end)); [intros []|].
  clear tr st. intros tr st e st' R IH H I. apply In_snoc in I. destruct (of_consumer e) eqn:O.
  2:{ destruct (step_quiet _ _ _ H O) as (-> & _ & _). apply IH. destruct I; [assumption|]. now subst. }
  pose proof (seen_runs _ _ R) as SE.
  destruct e; try discriminate O; cbn [PrefetchModel.step] in H; try (break_step H; sets; exact Logic.I).
  - destruct (cons st) eqn:Ec; try discriminate. injection H as <-. sets. destruct I as [I|]; [|discriminate].
    destruct (stop_full _ _ R (or_intror I)) as (_ & _ & _ & C & _). destruct (seen_stop _ _ SE (or_intror I)) as (_ & L).
    unfold ask. rewrite (seen_count _ _ SE), (seen_index _ _ SE), C, L. rewrite Nat.eqb_refl, andb_true_r. destruct (Nat.ltb_spec 0 n); [exact Logic.I|lia].
  - destruct I as [I|]; [|discriminate]. destruct (stop_full _ _ R (or_intror I)) as (_ & _ & Q & _). now rewrite Q in H.
Qed.

Lemma runs_prefix tr1 tr2 st : runs (tr1 ++ tr2) st -> exists s, runs tr1 s.
Proof. rewrite run_app. destruct (run init tr1) as [s|]; [eauto|discriminate]. Qed.

Theorem stop_stays tr1 tr2 st : runs (tr1 ++ EStop :: tr2) st ->
  returned tr2 = [] /\ raises tr2 = 0.
Proof.
  revert st; induction tr2 as [|e tr2 IH] using rev_ind; intros st R; [now split|].
  change (EStop :: tr2 ++ [e]) with ((EStop :: tr2) ++ [e]) in R. rewrite app_assoc in R.
  apply run_snoc in R as (s & R & H). destruct (IH _ R) as (A & B).
  assert (I : In EStop (tr1 ++ EStop :: tr2)) by (apply in_app_iff; right; now left).
  pose proof (stop_stays_state _ _ R I) as K. rewrite returned_app, raises_app, A, B.
  destruct e; try (now split); cbn [PrefetchModel.step] in H; destruct (cons s); try discriminate; contradiction.
Qed.

(** *** Every result at most once *)
Lemma batches_app a b : batches (a ++ b) = batches a ++ batches b. Proof. apply flat_map_app. Qed.
Lemma batches_perm a b : Permutation a b -> Permutation (batches a) (batches b).
Proof. apply Permutation_flat_map. Qed.
Lemma batches_out l : batches (map out l) = filter ok l.
Proof. induction l as [|i l IH]; [reflexivity|]. cbn. unfold PrefetchModel.out at 1. rewrite <- IH. destruct (ok i); reflexivity. Qed.

Theorem once tr st : runs tr st -> NoDup (batches (returned tr)) /\ (forall i, In i (batches (returned tr)) -> i < n /\ ok i = true) /\
  (forall c, ~ In (ICount c) (returned tr)).
Proof.
  intros R. pose proof (seen_runs _ _ R) as SE. pose proof (items_runs _ _ R) as I. rewrite (seen_items _ _ SE) in I.
  apply batches_perm in I. rewrite !batches_app, batches_out in I.
  assert (P0 : batches (prods tr) = []) by (destruct (prods_cases _ _ R) as [->|[->|(-> & _)]]; reflexivity).
  rewrite P0 in I. cbn [app] in I. rewrite <- !app_assoc in I. split; [|split].
  - apply NoDup_app_l with (l' := batches (pend (cons st)) ++ batches (cnt tr) ++ batches (repeat IExc (raises tr + pend_exc (cons st))) ++ batches (drains tr) ++ batches (queue st)).
    eapply Permutation_NoDup; [symmetry; exact I|]. apply NoDup_filter, (dones_runs _ _ R).
  - intros i Hi. assert (J : In i (filter ok (dones tr))) by (eapply Permutation_in; [exact I|]; apply in_app_iff; now left).
    apply filter_In in J as (J & K). split; [|assumption]. pose proof (dones_lt _ _ _ R J). pose proof (wf_submitted _ (wf_runs _ _ R)). lia.
  - intros c Hc. pose proof (seen_data _ _ SE) as F. rewrite Forall_app in F. destruct F as (F & _).
    rewrite Forall_forall in F. now specialize (F _ Hc).
Qed.

(** *** Exceptions *)
Definition fault : Prop := exists i, i < n /\ ok i = false.
Lemma faults tr st : runs tr st -> (shut st = true -> fault) /\ (prod st = PPut IExc \/ In IExc (prods tr) -> ends = false \/ fault).
Proof.
  apply (run_ind (fun tr st => (shut st = true -> fault) /\ (prod st = PPut IExc \/ In IExc (prods tr) -> ends = false \/ fault))).
  { unfold PrefetchModel.init. sets. split; [discriminate|]. intros [X|[]]. destruct (threads =? 0); discriminate. }
  clear tr st. intros tr st e st' R (A & B) H. pose proof (wf_runs _ _ R) as W.
  assert (Pe : forall e, prods (tr ++ [e]) = prods tr ++ prods [e]) by (intros; apply flat_map_app).
  rewrite Pe. clear Pe.
  destruct e; cbn [PrefetchModel.step] in H; break_step H; sets; cbn [prods flat_map app]; rewrite ?app_nil_r; try (split; [assumption|]); auto.
  all: try (intros [X|X]; [discriminate|auto]; fail).
  - intros [X|X]; [discriminate|]. apply andb_prop in E0 as (Ex & _). apply item_eqb_eq in Ex. subst x. apply In_snoc in X as [X| ->]; auto.
  - split; [|assumption]. intros _. exists i. pose proof (wf_task _ W i) as T.
    pose proof (wf_submitted _ W). pose proof (wf_started _ W). assert (i < started st) by (apply (task_running _ _ W); congruence). rewrite E in T. split; [lia|now apply T].
  - rewrite E. exact B.
Qed.

Theorem no_exceptions tr st : runs tr st -> ends = true -> (forall i, i < n -> ok i = true) ->
  raises tr = 0 /\ returned tr = map IRes (batches (returned tr)).
Proof.
  intros R En Ok. assert (NF : ~ fault) by (intros (i & L & K); now rewrite Ok in K).
  pose proof (seen_runs _ _ R) as SE. pose proof (items_runs _ _ R) as I. rewrite (seen_items _ _ SE) in I.
  assert (NE : forall x, In x (prods tr ++ map out (dones tr)) -> x <> IExc).
  { intros x Hx ->. apply in_app_iff in Hx as [Hx|Hx].
    - destruct (proj2 (faults _ _ R) (or_intror Hx)); [congruence|contradiction].
    - apply in_map_iff in Hx as (i & Hi & Hd). unfold PrefetchModel.out in Hi. rewrite Ok in Hi; [discriminate|].
      pose proof (dones_lt _ _ _ R Hd). pose proof (wf_submitted _ (wf_runs _ _ R)). lia. }
  split.
  - destruct (raises tr) as [|m] eqn:E; [reflexivity|]. exfalso. apply (NE IExc); [|reflexivity]. eapply Permutation_in; [exact I|].
    rewrite !in_app_iff. left. right. right. right. now left.
  - assert (F : Forall (fun x => is_count x = false /\ x <> IExc) (returned tr)).
    { apply Forall_forall. intros x Hx. split.
      - pose proof (seen_data _ _ SE) as F. rewrite Forall_app in F. destruct F as (F & _). rewrite Forall_forall in F. now apply F.
      - apply NE. eapply Permutation_in; [exact I|]. rewrite !in_app_iff. auto. }
    clear - F. induction F as [|x l (Hc & Hx) F IH]; [reflexivity|]. destruct x; [|congruence|discriminate]. change (batches (IRes i :: l)) with (i :: batches l). cbn [map]. congruence.
Qed.

(** *** Progress *)
Definition can_step (st : state) (quiet : event -> Prop) : Prop := exists e st', quiet e /\ step st e = Some st'.
Definition own (e : event) : Prop := e <> EAsk /\ e <> EJoin.

Lemma room_nil : room cap [] = true. Proof. unfold room. destruct cap; reflexivity. Qed.
Lemma tasks_move tr st : runs tr st -> threads > 0 -> queue st = [] -> over st < submitted st -> can_step st own.
Proof.
  intros R T Q L. pose proof (wf_runs _ _ R) as W. pose proof (wf_started _ W) as WS.
  assert (O : over st = total (fun i => is_over (tasks st i)) (started st)).
  { rewrite (wf_over _ W). apply total_tail; [assumption|]. intros j Hj. now rewrite (wf_queued _ W). }
  destruct (Nat.eq_dec (over st) (started st)) as [F|F].
  - exists ETake. eexists. split; [split; discriminate|]. cbn [PrefetchModel.step]. rewrite F, Nat.sub_diag.
    destruct (Nat.ltb_spec (started st) (submitted st)); [|lia]. destruct (Nat.ltb_spec 0 threads); [reflexivity|lia].
  - assert (total (fun i => is_over (tasks st i)) (started st) < started st) as LT.
    { pose proof (total_le (fun i => is_over (tasks st i)) (started st) 1) as X. cbv beta in X.
      specialize (X ltac:(intros; destruct (tasks st j); cbn; lia)). lia. }
    apply total_lt in LT as (i & Li & Z). pose proof (wf_task _ W i Li) as K.
    destruct (tasks st i) eqn:Et; try contradiction; try discriminate Z.
    + exists (EQuery i). eexists. split; [split; discriminate|]. cbn [PrefetchModel.step]. now rewrite Et.
    + exists (EPut i). eexists. split; [split; discriminate|]. cbn [PrefetchModel.step]. now rewrite Et, Q, room_nil.
    + exists (EPut i). eexists. split; [split; discriminate|]. cbn [PrefetchModel.step]. now rewrite Et, Q, room_nil.
    + exists (EShut i). eexists. split; [split; discriminate|]. cbn [PrefetchModel.step]. now rewrite Et.
    + exists (EOver i). eexists. split; [split; discriminate|]. cbn [PrefetchModel.step]. now rewrite Et.
Qed.

Lemma over_le tr st : runs tr st -> over st <= submitted st.
Proof.
  intros R. pose proof (wf_runs _ _ R) as W. rewrite (wf_over _ W). pose proof (total_le (fun i => is_over (tasks st i)) (submitted st) 1) as X. cbv beta in X.
  specialize (X ltac:(intros; destruct (tasks st j); cbn; lia)). lia.
Qed.

Lemma over_done tr st : runs tr st -> prod st = POver -> over st = submitted st.
Proof.
  revert tr st. apply (run_ind (fun _ st => prod st = POver -> over st = submitted st)); [reflexivity|].
  intros tr st e st' R IH H. assert (R' : runs (tr ++ [e]) st') by (rewrite run_app, R; cbn [PrefetchModel.run]; now rewrite H).
  pose proof (over_le _ _ R') as L. destruct e; cbn [PrefetchModel.step] in H; break_step H; sets; auto; try discriminate; intros X; try lia.
Qed.

(** With an empty queue the producer and its pool can go on until all is over. *)
Lemma producer_moves tr st : runs tr st -> threads > 0 -> bound > 0 -> queue st = [] -> prod st <> POver -> can_step st own.
Proof.
  intros R T B Q NP. pose proof (wf_runs _ _ R) as W. pose proof (over_le _ _ R) as OL.
  pose proof (wf_prod _ W) as P. unfold prod_ok in P. pose proof (wf_permits _ W) as M.
  destruct (prod st) as [k|k|k|k|x| |] eqn:E; [..|congruence].
  - destruct (Nat.eq_dec k n) as [->|D].
    + exists EEnd. eexists. split; [split; discriminate|]. cbn [PrefetchModel.step]. now rewrite E, Nat.eqb_refl.
    + exists EYield. eexists. split; [split; discriminate|]. cbn [PrefetchModel.step]. rewrite E. destruct (Nat.ltb_spec k n); [reflexivity|lia].
  - destruct (stop st) eqn:S; [exists EStopped|exists EContinue]; eexists; (split; [split; discriminate|]); cbn [PrefetchModel.step]; now rewrite E, S.
  - destruct (permits st) as [|m] eqn:Pm.
    + apply (tasks_move tr); auto. lia.
    + exists EAcquire. eexists. split; [split; discriminate|]. cbn [PrefetchModel.step]. now rewrite E, Pm.
  - destruct (shut st) eqn:S; [exists EReject|exists ESubmit]; eexists; (split; [split; discriminate|]); cbn [PrefetchModel.step]; now rewrite E, S.
  - exists (EPutProd x). eexists. split; [split; discriminate|]. cbn [PrefetchModel.step]. rewrite E, Q, room_nil.
    assert (item_eqb x x = true) as -> by now apply item_eqb_eq. reflexivity.
  - destruct (Nat.eq_dec (over st) (submitted st)) as [F|F]; [|apply (tasks_move tr); auto; lia].
    exists ELeave. eexists. split; [split; discriminate|]. cbn [PrefetchModel.step]. now rewrite E, F, Nat.eqb_refl.
Qed.

Lemma asked_runs tr st : runs tr st -> match cons st with CIdle | CJoin | CGone => asks tr = answers tr | _ => asks tr = S (answers tr) end.
Proof.
  revert tr st.
  apply run_ind; [reflexivity|]. clear. intros tr st e st' R IH H.
  assert (As : asks (tr ++ [e]) = asks tr + asks [e]) by (unfold asks; now rewrite filter_app, app_length).
  assert (An : answers (tr ++ [e]) = answers tr + answers [e]) by (unfold answers; now rewrite filter_app, app_length).
  rewrite As, An. destruct e; cbn [PrefetchModel.step] in H.
  all: try (break_step H; sets; cbn [asks answers filter length]; rewrite ?Nat.add_0_r; rewrite ?E in IH; try lia; exact IH).
  - destruct (cons st); try discriminate. injection H as <-. sets. cbn. unfold ask. destruct (_ && _); lia.
  - destruct (queue st); [discriminate|]. destruct (item_eqb x i); [|discriminate]. destruct (cons st); try discriminate.
    + destruct (handle (count st) (S (index st)) i) as (c, m) eqn:Hd. injection H as <-. sets. cbn.
    destruct i; cbn [handle] in Hd; [| |destruct (S (index st) =? _) in Hd]; injection Hd as <- <-; lia.
    + injection H as <-. sets. cbn. lia.
  - destruct (queue st); [discriminate|]. destruct (cons st) eqn:Ec; try discriminate. destruct (item_eqb x i); [|discriminate]. injection H as <-. sets. rewrite Ec. cbn. lia.
Qed.
Lemma live_runs tr st : runs tr st -> match cons st with CJoin | CGone => True | _ => drains tr = [] /\ stop st = false end.
Proof.
  revert tr st. apply run_ind; [now split|]. clear. intros tr st e st' R IH H.
  assert (Dr : drains (tr ++ [e]) = drains tr ++ drains [e]) by apply flat_map_app.
  rewrite Dr. destruct e; cbn [PrefetchModel.step] in H.
  all: try (break_step H; sets; cbn [drains flat_map]; rewrite ?app_nil_r; rewrite ?E in IH; try (destruct (cons st)); auto; fail).
  - break_step H. sets. cbn [drains flat_map]. rewrite app_nil_r, E0. destruct (cons st); auto; destruct IH; discriminate.
  - break_step H. sets. cbn [drains flat_map]. rewrite app_nil_r, E0. destruct (cons st); auto; destruct IH; discriminate.
  - destruct (cons st); try discriminate. injection H as <-. sets. cbn [drains flat_map]. rewrite app_nil_r. unfold ask. destruct (_ && _); assumption.
  - destruct (queue st); [discriminate|]. destruct (item_eqb x i); [|discriminate]. destruct (cons st); try discriminate; cbn [drains flat_map]; rewrite app_nil_r.
    + destruct (handle (count st) (S (index st)) i) as (c, m) eqn:Hd. injection H as <-. sets.
      destruct i; cbn [handle] in Hd; [| |destruct (S (index st) =? _) in Hd]; injection Hd as <- <-; assumption.
    + injection H as <-. sets. assumption.
  - destruct (queue st); [discriminate|]. destruct (cons st) eqn:Ec; try discriminate. destruct (item_eqb x i); [|discriminate]. injection H as <-. sets. rewrite Ec. auto.
Qed.

Lemma joined_runs tr st : runs tr st -> (In EJoin tr -> cons st = CJoin \/ cons st = CGone) /\ (cons st = CGone -> In EJoined tr).
Proof.
  revert tr st. apply run_ind; [split; [intros []|discriminate]|]. clear. intros tr st e st' R (A & B) H. rewrite !In_snoc.
  destruct (of_consumer e) eqn:O.
  2:{ destruct (step_quiet _ _ _ H O) as (-> & _). destruct e; try discriminate O; intuition discriminate. }
  destruct e; try discriminate O; cbn [PrefetchModel.step] in H.
  2:{ destruct (queue st); [discriminate|]. destruct (item_eqb x i); [|discriminate]. destruct (cons st); try discriminate; (split; [intros [X|X]; [destruct (A X); discriminate|discriminate]|]).
      - destruct (handle (count st) (S (index st)) i) as (c, m) eqn:Hd. injection H as <-. sets.
        destruct i; cbn [handle] in Hd; [| |destruct (S (index st) =? _) in Hd]; injection Hd as <- <-; discriminate.
      - injection H as <-. sets. discriminate. }
  all: break_step H; sets; try (split; [intros [X|X]; [destruct (A X); discriminate|discriminate]|discriminate]); auto.
  - split; [intros [X|X]; [destruct (A X); discriminate|discriminate]|]. unfold ask. destruct (_ && _); discriminate.
  - split; [auto|discriminate].
Qed.

(** When the producer is over and the queue is empty, and nothing raised, the consumer knows. *)
Lemma over_known tr st : runs tr st -> threads > 0 -> prod st = POver -> queue st = [] -> stop st = false -> drains tr = [] ->
  raises tr = 0 -> pend_exc (cons st) = 0 -> pend (cons st) = [] -> cnt tr = [ICount n] /\ length (gets tr) = n + 1.
Proof.
  intros R T NP Q Sf D Ra Pe Pd. pose proof (seen_runs _ _ R) as SE. pose proof (wf_runs _ _ R) as W.
  pose proof (prods_runs _ _ R) as P. rewrite NP in P. pose proof (items_runs _ _ R) as I. rewrite D, Q, !app_nil_r in I.
  pose proof (seen_items _ _ SE) as G. rewrite Ra, Pe, Pd in G. cbn [Nat.add repeat app] in G. rewrite app_nil_r in G.
  destruct P as [(P & [X|X])|[P|(P & Sn & _)]]; [congruence|lia| |].
  - (* the producer put an exception *) exfalso.
    assert (C0 : cnt tr = []). { destruct (cnt_cases _ _ R) as [|(_ & _ & X)]; congruence. }
    pose proof (seen_exc _ _ SE) as X. rewrite C0, Pd, app_nil_r in *.
    assert (IG : In IExc (returned tr)).
    { eapply Permutation_in; [exact G|]. eapply Permutation_in; [symmetry; exact I|]. rewrite P. now left. }
    unfold exceptions in X. assert (In IExc (filter (fun x => match x with IExc => true | _ => false end) (returned tr))) as Y by (now apply filter_In).
    destruct (filter _ (returned tr)); [contradiction|cbn in X; lia].
  - assert (CN : cnt tr <> []).
    { unfold cnt. assert (In (ICount n) (filter is_count (gets tr))) as Y.
      { apply filter_In. split; [|reflexivity]. eapply Permutation_in; [symmetry; exact I|]. rewrite P. now left. }
      intros Z. now rewrite Z in Y. }
    split; [destruct (cnt_cases _ _ R) as [|(? & _)]; congruence|].
    apply Permutation_length in I. rewrite I, app_length, map_length, P. cbn [length].
    assert (length (dones tr) = n); [|lia]. apply Nat.le_antisymm; [rewrite <- Sn; now apply (dones_length tr)|].
    rewrite <- (seq_length n 0). apply NoDup_incl_length; [apply seq_NoDup|]. intros i Hi. apply in_seq in Hi. apply (dones_runs _ _ R).
    assert (OV : over st = submitted st) by (now apply (over_done tr)).
    rewrite (wf_over _ W) in OV. pose proof (total_full (fun i => is_over (tasks st i)) (submitted st)) as F. cbv beta in F.
    specialize (F ltac:(intros; destruct (tasks st j); cbn; lia) ltac:(lia) i ltac:(lia)). destruct (tasks st i); try discriminate. exact Logic.I.
Qed.

(** A call of __next__ that neither answered nor can ever be answered: only after an exception
    or after StopIteration. *)
Theorem ask_moves tr st : runs tr st -> threads > 0 -> bound > 0 -> asks tr > answers tr -> raises tr = 0 -> ~ In EStop tr -> can_step st own.
Proof.
  intros R T B A Ra NS.
  pose proof (asked_runs _ _ R) as CI. pose proof (live_runs _ _ R) as LV. pose proof (seen_runs _ _ R) as SE.
  destruct (cons st) eqn:Ec; try lia.
  3:{ exists (EReturn x). eexists. split; [split; discriminate|]. cbn [PrefetchModel.step]. rewrite Ec. assert (item_eqb x x = true) as -> by now apply item_eqb_eq. reflexivity. }
  3:{ exists EStop. eexists. split; [split; discriminate|]. cbn [PrefetchModel.step]. now rewrite Ec. }
  3:{ exists ERaise. eexists. split; [split; discriminate|]. cbn [PrefetchModel.step]. now rewrite Ec. }
  1-2: destruct (queue st) as [|y q] eqn:Q;
    [|exists (EGet y); assert (item_eqb y y = true) as Ey by (now apply item_eqb_eq); cbn [PrefetchModel.step]; rewrite Q, Ey, Ec;
      try destruct (handle (count st) (S (index st)) y); eexists; (split; [split; discriminate|reflexivity])].
  all: assert (NP : prod st = POver \/ prod st <> POver) by (destruct (prod st); (now left) || (right; discriminate)).
  all: destruct NP as [NP|NP]; [|now apply (producer_moves tr)]; exfalso.
  all: destruct LV as (D & Sf); destruct (over_known _ _ R T NP Q Sf D Ra) as (C & L); try (rewrite Ec; reflexivity).
  - destruct (Nat.eq_dec n 0) as [Z|Z].
    + destruct (seen_zero _ _ SE Z) as [X|X]; [congruence|congruence|contradiction].
    + apply (seen_get _ _ SE Ec); [congruence|lia|assumption].
  - now apply (seen_get2 _ _ SE Ec).
Qed.

(** join() can always go on. *)
Theorem join_moves tr st : runs tr st -> bound > 0 -> cons st = CJoin -> can_step st own.
Proof.
  intros R B Ec. destruct (queue st) as [|y q] eqn:Q.
  2:{ exists (EDrain y). eexists. split; [split; discriminate|]. cbn [PrefetchModel.step]. rewrite Q, Ec. assert (item_eqb y y = true) as -> by now apply item_eqb_eq. reflexivity. }
  assert (NP : prod st = POver \/ prod st <> POver) by (destruct (prod st); (now left) || (right; discriminate)).
  destruct NP as [NP|NP]; [exists EJoined; eexists; (split; [split; discriminate|]); cbn [PrefetchModel.step]; now rewrite NP, Q, Ec|].
  apply (producer_moves tr); auto. destruct (Nat.eq_dec threads 0) as [Z|]; [|lia]. exfalso. apply NP.
  clear - R Z. revert tr st R. apply run_ind; [unfold PrefetchModel.init; sets; now rewrite Z|].
  intros tr st e st' R IH H. destruct e; cbn [PrefetchModel.step] in H; break_step H; sets; congruence.
Qed.

(** *** Bounds *)
Theorem bounds tr st : runs tr st -> (cap > 0 -> length (queue st) <= cap) /\ submitted st - over st <= bound /\ started st - over st <= threads.
Proof.
  intros R. split; [|split].
  - revert tr st R. apply (run_ind (fun _ st => cap > 0 -> length (queue st) <= cap)); [cbn; lia|].
    intros tr st e st' R IH H C. specialize (IH C).
    assert (RM : forall q (x : item), room cap q = true -> length (q ++ [x]) <= cap) by (intros q x X; unfold room in X; rewrite app_length; cbn; lia).
    destruct e; cbn [PrefetchModel.step] in H; break_step H; sets; try assumption; try (cbn in *; lia); try (apply RM; assumption).
    + apply RM. now apply andb_prop in E0.
    + rewrite E0. cbn. lia.
  - pose proof (wf_permits _ (wf_runs _ _ R)). lia.
  - revert tr st R. apply (run_ind (fun _ st => started st - over st <= threads)); [cbn; lia|].
    intros tr st e st' R IH H. destruct e; cbn [PrefetchModel.step] in H; break_step H; sets; try assumption; lia.
Qed.

(** Length of executions. *)
Definition trank (t : task) : nat := match t with TNone | TOver => 0 | TQueued => 6 | TRun => 5 | TPut | TFail => 4 | TShut => 2 | TEnd => 1 end.
Definition prank (p : producer) : nat :=
  match p with
  | PNext k => 10 * (n - k) + 4 | PGot k => 10 * (n - k) + 3 | PAcquire k => 10 * (n - k) + 2 | PSubmit k => 10 * (n - k) + 1
  | PPut _ => 3 | PLeave => 1 | POver => 0 end.
Definition crank (c : consumer) : nat := match c with CIdle => 2 | CGet => 5 | CGet2 => 4 | CReturn _ | CStop | CRaise => 3 | CJoin => 1 | CGone => 0 end.
Definition rank (st : state) : nat := prank (prod st) + total (fun i => trank (tasks st i)) (submitted st) + length (queue st) + crank (cons st).

Lemma rank_task st i t st' : i < submitted st -> tasks st' = upd (tasks st) i t -> submitted st' = submitted st ->
  total (fun i => trank (tasks st' i)) (submitted st') + trank (tasks st i) = total (fun i => trank (tasks st i)) (submitted st) + trank t.
Proof.
  intros L Et Es. rewrite Es. pose proof (total_upd (fun i => trank (tasks st i)) (fun i => trank (tasks st' i)) i (submitted st) L) as U. cbv beta in U.
  rewrite U; [|intros j D; rewrite Et; now rewrite upd_other]. rewrite Et, upd_same. lia.
Qed.

Lemma rank_step tr st e st' : runs tr st -> step st e = Some st' -> S (rank st') <= rank st + 4 * asks [e].
Proof.
  intros R H. pose proof (wf_runs _ _ R) as W. pose proof (wf_prod _ W) as P. unfold prod_ok in P. unfold rank.
  pose proof (wf_started _ W) as WS.
  assert (TU : forall i, tasks st i <> TNone -> tasks st i <> TQueued -> i < submitted st) by (intros i A B; pose proof (task_running _ _ W A B); lia).
  destruct e; cbn [PrefetchModel.step] in H.
  all: try (break_step H; sets; rewrite ?app_length; cbn [prank crank length asks filter]; destruct P; subst; try lia; fail).
  all: try (break_step H; sets; rewrite ?E, ?E0, ?E1; cbn [prank crank length asks filter]; lia; fail).
  - (* ESubmit *) break_step H. sets. destruct P as [-> P]. rewrite total_S, upd_same.
    rewrite (total_ext (fun i => trank (upd (tasks st) (submitted st) TQueued i)) (fun i => trank (tasks st i))) by (intros j Hj; now rewrite upd_other by lia).
    cbn [prank trank asks filter length]. lia.
  - (* EPutProd *) break_step H. sets. rewrite app_length. cbn [prank length asks filter]. lia.
  - (* ETake *) destruct (_ && _) eqn:B; [|discriminate]. injection H as <-. sets.
    pose proof (rank_task st (started st) TRun (State (prod st) (submitted st) (S (started st)) (over st) (upd (tasks st) (started st) TRun)
                   (permits st) (shut st) (queue st) (cons st) (count st) (index st) (stop st)) ltac:(lia) eq_refl eq_refl) as U. sets.
    rewrite (wf_queued _ W) in U by lia. cbn [trank] in U. cbn [asks filter length]. lia.
  - (* EQuery *) destruct (tasks st i) eqn:E; try discriminate. injection H as <-. sets.
    pose proof (rank_task st i (if ok i then TPut else TFail) (set_task st i (if ok i then TPut else TFail)) (TU i ltac:(congruence) ltac:(congruence)) eq_refl eq_refl) as U. sets.
    rewrite E in U. destruct (ok i); cbn [trank] in U; cbn [asks filter length]; lia.
  - (* EPut *) destruct (tasks st i) eqn:E; try discriminate; (destruct (room cap (queue st)) eqn:Rm; [|discriminate]); injection H as <-; sets.
    + pose proof (rank_task st i TEnd (set_task st i TEnd) (TU i ltac:(congruence) ltac:(congruence)) eq_refl eq_refl) as U. sets.
      rewrite E in U. cbn [trank] in U. rewrite app_length. cbn [asks filter length]. lia.
    + pose proof (rank_task st i TShut (set_task st i TShut) (TU i ltac:(congruence) ltac:(congruence)) eq_refl eq_refl) as U. sets.
      rewrite E in U. cbn [trank] in U. rewrite app_length. cbn [asks filter length]. lia.
  - (* EShut *) destruct (tasks st i) eqn:E; try discriminate. injection H as <-. sets.
    pose proof (rank_task st i TEnd (set_task st i TEnd) (TU i ltac:(congruence) ltac:(congruence)) eq_refl eq_refl) as U. sets.
    rewrite E in U. cbn [trank] in U; cbn [asks filter length]; lia.
  - (* EOver *) destruct (tasks st i) eqn:E; try discriminate. injection H as <-. sets.
    pose proof (rank_task st i TOver (set_task st i TOver) (TU i ltac:(congruence) ltac:(congruence)) eq_refl eq_refl) as U. sets.
    rewrite E in U. cbn [trank] in U; cbn [asks filter length]; lia.
  - (* EAsk *) destruct (cons st); try discriminate. injection H as <-. sets. unfold ask. destruct (_ && _); cbn [crank asks filter length]; lia.
  - (* EGet *) destruct (queue st); [discriminate|]. destruct (item_eqb x i); [|discriminate]. destruct (cons st); try discriminate.
    + destruct (handle (count st) (S (index st)) i) as (c, m) eqn:Hd. injection H as <-. sets. cbn [asks filter length].
      destruct i; cbn [handle] in Hd; [| |destruct (S (index st) =? _) in Hd]; injection Hd as <- <-; cbn [crank]; lia.
    + injection H as <-. sets. cbn [crank asks filter length]. lia.
Qed.

Theorem length_bound tr st : runs tr st -> length tr <= 10 * n + 6 + 4 * asks tr.
Proof.
  intros R. enough (length tr + rank st <= 10 * n + 6 + 4 * asks tr) by lia. revert tr st R.
  apply (run_ind (fun tr st => length tr + rank st <= 10 * n + 6 + 4 * asks tr)).
  { unfold rank, PrefetchModel.init, asks. sets. cbn [length filter crank]. rewrite (total_ext _ (fun _ => 0)) by reflexivity. change (total (fun _ => 0) 0) with 0. destruct (threads =? 0); cbn [prank]; lia. }
  intros tr st e st' R IH H. apply (rank_step _ _ _ _ R) in H. rewrite app_length. cbn [length].
  assert (As : asks (tr ++ [e]) = asks tr + asks [e]) by (unfold asks; now rewrite filter_app, app_length). lia.
Qed.
End Prefetch.

(** *** Executions *)
Lemma execution_runs n ends ok cap threads bound tr : execution n ends ok cap threads bound tr ->
  exists st, run n ends ok cap threads (init threads bound) tr = Some st.
Proof. unfold execution. destruct (run n ends ok cap threads (init threads bound) tr) as [st|]; [eauto|congruence]. Qed.
Lemma extend n ends ok cap threads bound tr st e st' : run n ends ok cap threads (init threads bound) tr = Some st ->
  step n ends ok cap threads st e = Some st' -> execution n ends ok cap threads bound (tr ++ [e]).
Proof. intros R H. unfold execution. rewrite run_app, R. cbn [run]. now rewrite H. Qed.
Lemma can_extend n ends ok cap threads bound tr st : run n ends ok cap threads (init threads bound) tr = Some st ->
  can_step n ends ok cap threads st own -> exists e, e <> EAsk /\ e <> EJoin /\ execution n ends ok cap threads bound (tr ++ [e]).
Proof. intros R (e & st' & (A & B) & H). exists e. split; [assumption|]. split; [assumption|]. eapply extend; eassumption. Qed.
Definition happened (p : event -> bool) (tr : list event) : nat := length (filter p tr).
Definition is_submit e := match e with ESubmit => true | _ => false end.
Definition is_take e := match e with ETake => true | _ => false end.
Definition is_done e := match e with EOver _ => true | _ => false end.
Definition is_in e := match e with EPut _ | EPutProd _ => true | _ => false end.
Definition is_out e := match e with EGet _ | EDrain _ => true | _ => false end.
Lemma counters n ends ok cap threads bound tr st : run n ends ok cap threads (init threads bound) tr = Some st ->
  happened is_submit tr = submitted st /\ happened is_take tr = started st /\ happened is_done tr = over st /\
  happened is_in tr = happened is_out tr + length (queue st).
Proof.
  revert tr st. apply (run_ind n ends ok cap threads bound (fun tr st => happened is_submit tr = submitted st /\ happened is_take tr = started st /\ happened is_done tr = over st /\
    happened is_in tr = happened is_out tr + length (queue st))); [now repeat split|].
  intros tr st e st' R IH H.
  assert (Ap : forall p, happened p (tr ++ [e]) = happened p tr + happened p [e]) by (intros p; unfold happened; now rewrite filter_app, app_length).
  rewrite !Ap. destruct IH as (A & B & C & D).
  destruct e; cbn [step] in H;
  repeat match type of H with
  | None = Some _ => discriminate H
  | context [match ?x with _ => _ end] => let E := fresh "E" in destruct x eqn:E
  end; try discriminate H; injection H as <-;
  unfold set_prod, set_task, set_permits, set_queue, set_cons, got;
  cbn [prod submitted started over tasks permits shut queue cons count index stop]; cbn [happened filter is_submit is_take is_done is_in is_out length] in *;
  rewrite ?app_length; cbn [length]; try (rewrite E0 in * ); cbn [length] in *; lia.
Qed.
Lemma once_lemma n ends ok cap threads bound tr : execution n ends ok cap threads bound tr ->
  NoDup (batches (returned tr)) /\ (forall i, In i (batches (returned tr)) -> i < n /\ ok i = true) /\ (forall c, ~ In (ICount c) (returned tr)).
Proof. intros X. apply execution_runs in X as (st & R). eapply once; eassumption. Qed.
Lemma all_lemma n cap threads bound ok tr : (forall i, i < n -> ok i = true) -> execution n true ok cap threads bound tr ->
  raises tr = 0 /\ returned tr = map IRes (batches (returned tr)) /\
  (execution n true ok cap threads bound (tr ++ [EStop]) -> Permutation (returned tr) (map IRes (seq 0 n))).
Proof.
  intros Ok X. apply execution_runs in X as (st & R). destruct (no_exceptions _ _ _ _ _ _ _ _ R eq_refl Ok) as (A & B).
  split; [assumption|]. split; [assumption|]. intros X. apply execution_runs in X as (st' & R').
  destruct (stop_all _ _ _ _ _ _ _ _ R') as (_ & P & _). rewrite A in P. cbn [repeat] in P. rewrite app_nil_r in P. rewrite P.
  replace (map (out ok) (seq 0 n)) with (map IRes (seq 0 n)); [reflexivity|]. apply map_ext_in. intros i Hi. apply in_seq in Hi. unfold out. now rewrite Ok by lia.
Qed.
Lemma raises_lemma n ends ok cap threads bound tr : execution n ends ok cap threads bound (tr ++ [EStop]) -> raises tr = 0 ->
  ends = true /\ length (filter (fun i => negb (ok i)) (seq 0 n)) <= 1 /\
  Permutation (returned tr) (map (fun i => if ok i then IRes i else IExc) (seq 0 n)).
Proof.
  intros X Ra. apply execution_runs in X as (st & R). destruct (stop_all _ _ _ _ _ _ _ _ R) as (A & P & E).
  rewrite Ra in P. cbn [repeat] in P. rewrite app_nil_r in P. split; [assumption|]. split; [|exact P].
  unfold exceptions in E. rewrite (Permutation_length (filter_perm _ _ _ P)) in E. etransitivity; [|exact E].
  clear. induction (seq 0 n) as [|i l IH]; [cbn; lia|]. cbn [map filter]. unfold out at 1. destruct (ok i); cbn [negb length]; lia.
Qed.
Lemma stays_lemma n ends ok cap threads bound tr1 tr2 : execution n ends ok cap threads bound (tr1 ++ EStop :: tr2) ->
  returned tr2 = [] /\ raises tr2 = 0.
Proof. intros X. apply execution_runs in X as (st & R). eapply stop_stays; eassumption. Qed.
Lemma again_lemma n ends ok cap threads bound tr : n > 0 -> execution n ends ok cap threads bound (tr ++ [EAsk]) -> In EStop tr ->
  execution n ends ok cap threads bound (tr ++ [EAsk; EStop]).
Proof.
  intros N X I. change [EAsk; EStop] with ([EAsk] ++ [EStop]). rewrite app_assoc. apply execution_runs in X as (st & R).
  pose proof (stop_stays_state _ _ _ _ _ _ _ _ R) as K. rewrite In_snoc in K. specialize (K (or_introl I)).
  pose proof (asked_runs _ _ _ _ _ _ _ _ R) as A. apply run_snoc in R as R0. destruct R0 as (s & R0 & H).
  pose proof (asked_runs _ _ _ _ _ _ _ _ R0) as A0. cbn [step] in H. destruct (cons s) eqn:Es; try discriminate.
  assert (asks (tr ++ [EAsk]) = S (asks tr)) as E1 by (unfold asks; rewrite filter_app, app_length; cbn; lia).
  assert (answers (tr ++ [EAsk]) = answers tr) as E2 by (unfold answers; rewrite filter_app, app_length; cbn; lia).
  destruct (cons st) eqn:Ec; try contradiction; try lia.
  eapply extend; [exact R|]. cbn [step]. rewrite Ec. reflexivity.
Qed.
Lemma answers_lemma n ends ok cap threads bound tr : threads > 0 -> bound > 0 -> execution n ends ok cap threads bound tr ->
  asks tr > answers tr -> raises tr = 0 -> ~ In EStop tr ->
  exists e, e <> EAsk /\ e <> EJoin /\ execution n ends ok cap threads bound (tr ++ [e]).
Proof. intros T B X A Ra NS. apply execution_runs in X as (st & R). eapply can_extend; [exact R|]. eapply ask_moves; eassumption. Qed.
Lemma length_lemma n ends ok cap threads bound tr : execution n ends ok cap threads bound tr -> length tr <= 10 * n + 6 + 4 * asks tr.
Proof. intros X. apply execution_runs in X as (st & R). eapply length_bound; eassumption. Qed.
Lemma join_lemma n ends ok cap threads bound tr : bound > 0 -> execution n ends ok cap threads bound tr -> In EJoin tr -> ~ In EJoined tr ->
  exists e, e <> EAsk /\ e <> EJoin /\ execution n ends ok cap threads bound (tr ++ [e]).
Proof.
  intros B X J NJ. apply execution_runs in X as (st & R). eapply can_extend; [exact R|]. destruct (joined_runs _ _ _ _ _ _ _ _ R) as (P & Q).
  eapply join_moves; [exact R|assumption|]. destruct (P J) as [|G]; [assumption|]. destruct (NJ (Q G)).
Qed.
Lemma bounds_lemma n ends ok cap threads bound tr : execution n ends ok cap threads bound tr ->
  (cap > 0 -> happened is_in tr <= happened is_out tr + cap) /\ happened is_submit tr <= happened is_done tr + bound /\ happened is_take tr <= happened is_done tr + threads.
Proof.
  intros X. apply execution_runs in X as (st & R). destruct (counters _ _ _ _ _ _ _ _ R) as (A & B & C & D). destruct (bounds _ _ _ _ _ _ _ _ R) as (E & F & G).
  rewrite A, B, C, D. lia.
Qed.
Lemma bound_lemma max_workers bound : (0 < bound_of max_workers bound)%Z /\ (max_workers <= bound_of max_workers bound)%Z.
Proof. unfold bound_of. destruct (Z.leb_spec bound 0); [destruct ((0 <? max_workers) && (20 <? max_workers))%Z eqn:B|destruct ((0 <? max_workers) && (bound <? max_workers))%Z eqn:B]; lia. Qed.
