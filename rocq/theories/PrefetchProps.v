(** Properties of the prefetch generator (C30). *)
From Verif Require Import Base PrefetchModel PrefetchProofs.
From Coq Require Import Permutation ZifyBool ZifyNat ZifyN.


(** Two batches in two threads, the second one is ready first and the count comes before both. *)
Definition demo_run : list event :=
  [EYield; EContinue; EAcquire; ESubmit; ETake; EYield; EContinue; EAcquire; ESubmit; ETake; EEnd; EPutProd (ICount 2);
   EAsk; EGet (ICount 2); EQuery 1; EPut 1; EGet (IRes 1); EReturn (IRes 1); EQuery 0; EPut 0; EOver 0;
   EAsk; EGet (IRes 0); EReturn (IRes 0); EAsk].

(** *** What is returned *)
(** Every result at most once, and nothing else than results of batches whose query returned
    and possibly exceptions. *)
Theorem C30_once n ends ok cap threads bound tr : execution n ends ok cap threads bound tr ->
  NoDup (batches (returned tr)) /\ (forall i, In i (batches (returned tr)) -> i < n /\ ok i = true) /\ (forall c, ~ In (ICount c) (returned tr)).
Proof. exact (once_lemma n ends ok cap threads bound tr). Qed.
Print Assumptions C30_once.

(** When nothing fails, __next__ never raises, and at StopIteration all results were returned
    exactly once. *)
Theorem C30_all n cap threads bound ok tr : (forall i, i < n -> ok i = true) -> execution n true ok cap threads bound tr ->
  raises tr = 0 /\ returned tr = map IRes (batches (returned tr)) /\
  (execution n true ok cap threads bound (tr ++ [EStop]) -> Permutation (returned tr) (map IRes (seq 0 n))).
Proof. exact (all_lemma n cap threads bound ok tr). Qed.
Print Assumptions C30_all.
Example C30_all_ex : execution 2 true (fun _ => true) 3 2 20 (demo_run ++ [EStop]) /\ returned demo_run = [IRes 1; IRes 0].
Proof. split; [vm_compute; discriminate|reflexivity]. Qed.

(** The full statement: when a query or the sampler raises, iterating raises.  False, see below.
    It is true up to one failing batch: StopIteration without a raise means that the sampler did
    not raise and that at most one query did; the FetchDone object of that one is among the
    returned items, in place of its result. *)
Theorem C30_raises_partial n ends ok cap threads bound tr : execution n ends ok cap threads bound (tr ++ [EStop]) -> raises tr = 0 ->
  ends = true /\ length (filter (fun i => negb (ok i)) (seq 0 n)) <= 1 /\
  Permutation (returned tr) (map (fun i => if ok i then IRes i else IExc) (seq 0 n)).
Proof. exact (raises_lemma n ends ok cap threads bound tr). Qed.
Print Assumptions C30_raises_partial.
(** The query of batch 0 raises after the producer has put the count: the second get of
    __next__ returns the FetchDone object as if it were a result, and iteration stops. *)
Definition missed_run : list event :=
  [EYield; EContinue; EAcquire; ESubmit; ETake; EEnd; EPutProd (ICount 1); EAsk; EGet (ICount 1);
   EQuery 0; EPut 0; EGet IExc; EReturn IExc; EShut 0; EOver 0; EAsk].
Theorem C30_raises_refuted : exists tr,
  execution 1 true (fun _ => false) 30 10 20 (tr ++ [EStop]) /\ raises tr = 0 /\ returned tr = [IExc].
Proof. exists missed_run. split; [vm_compute; discriminate|]. split; reflexivity. Qed.
Print Assumptions C30_raises_refuted.

(** *** The end *)
(** After StopIteration nothing is returned and nothing is raised. *)
Theorem C30_stays n ends ok cap threads bound tr1 tr2 : execution n ends ok cap threads bound (tr1 ++ EStop :: tr2) ->
  returned tr2 = [] /\ raises tr2 = 0.
Proof. exact (stays_lemma n ends ok cap threads bound tr1 tr2). Qed.
Print Assumptions C30_stays.
Example C30_stays_ex : execution 2 true (fun _ => true) 3 2 20 (demo_run ++ EStop :: [EAsk; EStop; EAsk; EOver 1; EStop]).
Proof. vm_compute. discriminate. Qed.

(** With at least one batch a call after StopIteration stops again at once. *)
Theorem C30_again n ends ok cap threads bound tr : n > 0 -> execution n ends ok cap threads bound (tr ++ [EAsk]) -> In EStop tr ->
  execution n ends ok cap threads bound (tr ++ [EAsk; EStop]).
Proof. exact (again_lemma n ends ok cap threads bound tr). Qed.
Print Assumptions C30_again.
(** Without batches it blocks forever: every thread is done and __next__ waits for an item. *)
Definition empty_run : list event := [EEnd; EPutProd (ICount 0); ELeave; EAsk; EGet (ICount 0); EStop; EAsk].
Theorem C30_again_refuted : exists tr,
  execution 0 true (fun _ => true) 30 10 20 tr /\ In EStop tr /\ asks tr > answers tr /\ forall e, ~ execution 0 true (fun _ => true) 30 10 20 (tr ++ [e]).
Proof.
  exists empty_run. split; [vm_compute; discriminate|]. split; [cbn; tauto|]. split; [cbn; lia|].
  intros e X. apply X. unfold empty_run. cbn [app]. destruct e; reflexivity.
Qed.
Print Assumptions C30_again_refuted.
(** So it does after an exception, here of the sampler. *)
Definition raise_run : list event := [EEnd; EPutProd IExc; ELeave; EAsk; EGet IExc; ERaise; EAsk].
Theorem C30_after_raise_refuted : exists tr,
  execution 0 false (fun _ => true) 30 10 20 tr /\ raises tr = 1 /\ asks tr > answers tr /\ forall e, ~ execution 0 false (fun _ => true) 30 10 20 (tr ++ [e]).
Proof.
  exists raise_run. split; [vm_compute; discriminate|]. split; [reflexivity|]. split; [cbn; lia|].
  intros e X. apply X. unfold raise_run. cbn [app]. destruct e; reflexivity.
Qed.
Print Assumptions C30_after_raise_refuted.

(** *** Progress *)
(** Before StopIteration and exceptions a call of __next__ is never stuck: something can happen
    without another call.  Executions are bounded, so however the threads are scheduled it is
    answered. *)
Theorem C30_answers n ends ok cap threads bound tr : threads > 0 -> bound > 0 -> execution n ends ok cap threads bound tr ->
  asks tr > answers tr -> raises tr = 0 -> ~ In EStop tr ->
  exists e, e <> EAsk /\ e <> EJoin /\ execution n ends ok cap threads bound (tr ++ [e]).
Proof. exact (answers_lemma n ends ok cap threads bound tr). Qed.
Print Assumptions C30_answers.
(** max_parallel = 0 (prefetch_worker_size): the first call blocks forever. *)
Theorem C30_answers_refuted :
  execution 3 true (fun _ => true) 30 0 20 [EAsk] /\ forall e, ~ execution 3 true (fun _ => true) 30 0 20 ([EAsk] ++ [e]).
Proof. split; [vm_compute; discriminate|]. intros e X. apply X. cbn [app]. destruct e; reflexivity. Qed.
Print Assumptions C30_answers_refuted.

Theorem C30_length n ends ok cap threads bound tr : execution n ends ok cap threads bound tr -> length tr <= 10 * n + 6 + 4 * asks tr.
Proof. exact (length_lemma n ends ok cap threads bound tr). Qed.
Print Assumptions C30_length.

(** join() is never stuck either, also when queries fail or max_parallel is 0. *)
Theorem C30_join n ends ok cap threads bound tr : bound > 0 -> execution n ends ok cap threads bound tr -> In EJoin tr -> ~ In EJoined tr ->
  exists e, e <> EAsk /\ e <> EJoin /\ execution n ends ok cap threads bound (tr ++ [e]).
Proof. exact (join_lemma n ends ok cap threads bound tr). Qed.
Print Assumptions C30_join.
(** The consumer leaves after one of two batches, with a queue of one item. *)
Definition leave_run : list event :=
  [EYield; EContinue; EAcquire; ESubmit; ETake; EQuery 0; EPut 0; EAsk; EGet (IRes 0); EReturn (IRes 0); EYield; EContinue; EAcquire; ESubmit;
   EOver 0; ETake; EQuery 1; EPut 1; EEnd; EJoin; EDrain (IRes 1); EPutProd (ICount 2); EOver 1; ELeave; EDrain (ICount 2); EJoined].
Example C30_join_ex : execution 2 true (fun _ => true) 1 1 20 leave_run.
Proof. vm_compute. discriminate. Qed.

(** *** Bounds *)
(** The queue holds at most prefetch_size items and at most [bound] batches are submitted and
    not done, at most max_parallel of them running. *)
Theorem C30_bounds n ends ok cap threads bound tr : execution n ends ok cap threads bound tr ->
  (cap > 0 -> happened is_in tr <= happened is_out tr + cap) /\ happened is_submit tr <= happened is_done tr + bound /\ happened is_take tr <= happened is_done tr + threads.
Proof. exact (bounds_lemma n ends ok cap threads bound tr). Qed.
Print Assumptions C30_bounds.

(** The bound of the semaphore is positive and at least the number of threads. *)
Theorem C30_bound max_workers bound : (0 < bound_of max_workers bound)%Z /\ (max_workers <= bound_of max_workers bound)%Z.
Proof. exact (bound_lemma max_workers bound). Qed.
Print Assumptions C30_bound.
Example C30_bound_ex : (bound_of 2 20, bound_of 64 20, bound_of 4 0) = (20, 64, 20)%Z.
Proof. reflexivity. Qed.

(** *** Several producers *)
(** max_workers = 2: each producer announces its own count and the consumer trusts the last one
    it saw.  The batches of one producer are lost ... *)
Theorem C30_workers_refuted : exists items, Permutation items ([IRes 0; ICount 1] ++ [IRes 1; ICount 1]) /\
  observe 10 0 0 items = ([IRes 0], FStop).
Proof. exists ([IRes 0; ICount 1] ++ [IRes 1; ICount 1]). split; reflexivity. Qed.
Print Assumptions C30_workers_refuted.
(** ... or a FetchDone object is returned in place of results. *)
Theorem C30_counts_refuted : exists items, Permutation items ([IRes 0; ICount 1] ++ [IRes 1; ICount 1]) /\
  In (ICount 1) (fst (observe 10 0 0 items)).
Proof.
  exists [ICount 1; ICount 1; IRes 0; IRes 1]. split; [|cbn; tauto]. cbn [app].
  apply perm_trans with [ICount 1; IRes 0; ICount 1; IRes 1]; [apply perm_skip, perm_swap|].
  apply perm_trans with [IRes 0; ICount 1; ICount 1; IRes 1]; [apply perm_swap|]. do 2 apply perm_skip. apply perm_swap.
Qed.
Print Assumptions C30_counts_refuted.
(** One producer: the list of items decides what is returned. *)
Example observe_ex : observe 10 0 0 [ICount 2; IRes 1; IRes 0] = ([IRes 1; IRes 0], FStop) /\ observe 10 0 0 [ICount 1; IExc] = ([IExc], FStop).
Proof. split; reflexivity. Qed.
