(** C103: the logger of the package, used by many threads.

    Full statement: get_logger answers the one logger of the package, configured once, to every thread;
    nothing blocks; what setup_default_logging_config was asked for stays in force. *)
From Verif Require Import Base LogModel LogSpec LogProofs.

(** Any number of threads, any interleaving, any failures: an answer of get_logger is the logger, and
    somebody had configured it before. *)
Theorem C103_answer : forall default obj progs sched i v,
  threads (run default obj sched (start progs)) i = Stop (Got v) ->
  v = Some obj /\ init_ (run default obj sched (start progs)) = true /\
  (default = true -> configs (run default obj sched (start progs)) <> []).
Proof. exact returns. Qed.
Print Assumptions C103_answer.
(** One thread at a time holds the lock, and get_logger configures at most once. *)
Theorem C103_exclusive : forall default obj progs sched i j, let s := run default obj sched (start progs) in
  inside (threads s i) = true -> inside (threads s j) = true -> i = j.
Proof. exact exclusive. Qed.
Print Assumptions C103_exclusive.
Theorem C103_once : forall default obj progs sched,
  length (filter inner (configs (run default obj sched (start progs)))) <= 1.
Proof. exact configured_once. Qed.
Print Assumptions C103_once.
(** As long as a thread has not ended some thread can move, whatever fails, and no thread moves more
    than eleven times: all threads end, also after exceptions. *)
Theorem C103_progress : forall default obj progs sched i, let s := run default obj sched (start progs) in
  ended (threads s i) = false -> exists j, forall bad key, exists s', step default obj j bad key s = Some s'.
Proof. exact progress. Qed.
Print Assumptions C103_progress.
Theorem C103_steps : forall default obj, exists rank : pc -> nat,
  (forall p, rank p <= 11) /\ (forall p, rank p = 0 -> ended p = true) /\
  forall i bad key s s', step default obj i bad key s = Some s' ->
    rank (threads s' i) < rank (threads s i) /\ forall j, j <> i -> threads s' j = threads s j.
Proof.
  intros default obj. exists rank. split; [|split].
  - intros p. destruct p; cbn [rank]; lia.
  - intros p. destruct p; cbn [rank ended]; intros; try lia; reflexivity.
  - exact (ranked default obj).
Qed.
Print Assumptions C103_steps.
(** Once somebody has set up and nobody else is setting up, no get_logger changes the settings. *)
Theorem C103_settled_partial : forall default obj sched s, init_ s = true ->
  (forall i, match threads s i with Class_ _ | Enable _ | Config _ | Azure _ | Mark _ => False | _ => True end) ->
  let s' := run default obj sched s in enabled s' = enabled s /\ handlers s' = handlers s /\ configs s' = configs s.
Proof.
  intros default obj sched s I H. apply settled; [exact I|]. intros i. specialize (H i). destruct (threads s i); auto; contradiction.
Qed.
Print Assumptions C103_settled_partial.
(** With get_logger alone telemetry is off and the logger never has a handler twice. *)
Theorem C103_getters_partial : forall default obj progs sched, getters progs -> let s := run default obj sched (start progs) in
  enabled s = false /\ (handlers s = [] \/ handlers s = [Console] \/ handlers s = [Console; Telemetry]).
Proof. exact only_getters. Qed.
Print Assumptions C103_getters_partial.
(** One thread that sets up: telemetry is what was asked for if there is a key, else off. *)
Theorem C103_setup_partial : forall obj e key n, let s := run true obj (repeat (0, false, key) (5 + n)) (start (fun i => if i =? 0 then Setup e else Nothing)) in
  enabled s = (e && key) /\ init_ s = true /\ threads s 0 = Stop Returned /\
  handlers s = Console :: (if key then [Telemetry] else []).
Proof.
  intros obj e key n. cbv zeta. rewrite repeat_app, run_app.
  rewrite run_ended; destruct e, key; repeat split.
Qed.
Print Assumptions C103_setup_partial.
(** A record is sent once per telemetry handler, if telemetry is on and the record has dimensions. *)
Theorem C103_sent : forall enable dims hs, sent enable dims hs = 0 <-> (enable = false \/ dims = false \/ ~ In Telemetry hs).
Proof.
  intros enable dims hs. unfold sent. destruct enable; [|cbn; tauto]. destruct dims; cbn [andb]; [|tauto]. split.
  - intros H. right. right. intros I. assert (X : In Telemetry (filter (fun h => match h with Telemetry => true | Console => false end) hs)) by (apply filter_In; auto).
    destruct (filter _ hs); [contradiction|discriminate].
  - intros [H|[H|H]]; try discriminate. induction hs as [|[|] hs IH]; cbn [filter]; [reflexivity| |].
    + apply IH. intros X. apply H. now right.
    + exfalso. apply H. now left.
Qed.
Print Assumptions C103_sent.

(** ** Examples *)
Definition two : nat -> program := fun i => if i <? 2 then Get else Nothing.
(** Both threads miss the fast path; the second waits for the lock and finds the logger. *)
Example C103_example :
  let s := run true 7 ([(0, false, true); (1, false, true); (0, false, true); (1, false, true)] ++ repeat (0, false, true) 9 ++ repeat (1, false, true) 3) (start two) in
  threads s 0 = Stop (Got (Some 7)) /\ threads s 1 = Stop (Got (Some 7)) /\ configs s = [Inner] /\ handlers s = [Console; Telemetry] /\ lock s = None.
Proof. vm_compute. auto. Qed.
(** The first configuration raises, the second thread configures. *)
Example C103_example_raise :
  let s := run true 7 ([(0, false, true); (1, false, true)] ++ repeat (0, true, true) 7 ++ repeat (1, false, true) 10) (start two) in
  threads s 0 = Stop Raised /\ threads s 1 = Stop (Got (Some 7)) /\ configs s = [Inner].
Proof. vm_compute. auto. Qed.

(** ** What is not so *)
(** A setup that is still running is overtaken by get_logger, because _init is written last and the
    setup does not take the lock: telemetry that was asked for is off, though there is a key. *)
Theorem C103_telemetry_refuted : exists sched,
  let s := run true 7 sched (start (fun i => if i =? 0 then Setup true else if i =? 1 then Get else Nothing)) in
  ended (threads s 0) = true /\ ended (threads s 1) = true /\ configs s = [User true; Inner] /\ enabled s = false /\
  Forall (fun a => snd (fst a) = false /\ snd a = true) sched.
Proof.
  exists ([(0, false, true); (0, false, true)] ++ repeat (1, false, true) 11 ++ repeat (0, false, true) 3).
  vm_compute. repeat split. repeat constructor.
Qed.
Print Assumptions C103_telemetry_refuted.
(** Two setups at the same time leave two handlers for telemetry: records are sent twice. *)
Theorem C103_handlers_refuted : exists sched,
  let s := run true 7 sched (start (fun i => if i <? 2 then Setup true else Nothing)) in
  ended (threads s 0) = true /\ ended (threads s 1) = true /\ handlers s = [Console; Telemetry; Telemetry] /\
  sent (enabled s) true (handlers s) = 2.
Proof.
  exists (repeat (0, false, true) 3 ++ repeat (1, false, true) 3 ++ repeat (0, false, true) 2 ++ repeat (1, false, true) 2).
  vm_compute. repeat split.
Qed.
Print Assumptions C103_handlers_refuted.
(** With another class of loggers nothing is configured at all, and telemetry that was asked for is off. *)
Theorem C103_class_refuted : exists sched,
  let s := run false 7 sched (start (fun i => if i =? 0 then Setup true else Nothing)) in
  threads s 0 = Stop Returned /\ init_ s = true /\ configs s = [] /\ handlers s = [] /\ enabled s = false.
Proof. exists (repeat (0, false, true) 2). vm_compute. repeat split. Qed.
Print Assumptions C103_class_refuted.
