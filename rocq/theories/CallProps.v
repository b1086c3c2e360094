From Verif Require Import Base CallModel CallProofs.
From Coq Require Import Permutation.

(** C50: the call reports the error.  It returns only if every request succeeded and every
    callback returned; it throws only for a request that failed, the first one in the order of
    the shards. *)
Theorem C50_returns :
  forall n queue threads tr, execution n queue threads tr -> In EReturn tr ->
  forall k, k < n -> In (ELand k true) tr /\ In (ECallback k true) tr /\ ~ failed tr k.
Proof. exact returned_all. Qed.
Print Assumptions C50_returns.

Theorem C50_throws :
  forall n queue threads tr k, execution n queue threads tr -> In (EThrow k) tr ->
  k < n /\ failed tr k /\ forall j, j < k -> ~ failed tr j.
Proof. exact threw_first. Qed.
Print Assumptions C50_throws.

(** C50: nobody touches the locals of a call that returned; after it threw for shard j only the
    replies of later shards can.  Missing: those can, see C50_late_refuted. *)
Theorem C50_locals_partial :
  forall n queue threads tr l1 e l2 k, execution n queue threads tr -> tr = l1 ++ e :: l2 -> touches_locals k e ->
  ~ In EReturn l1 /\ forall j, In (EThrow j) l1 -> j < k.
Proof. exact late_touch. Qed.
Print Assumptions C50_locals_partial.

(** C50: so locals are safe as long as only the last shard fails. *)
Theorem C50_last_partial :
  forall n queue threads tr l1 e l2 k, execution n queue threads tr -> tr = l1 ++ e :: l2 -> touches_locals k e ->
  (forall j, S j < n -> ~ failed tr j) -> ~ ended l1.
Proof. exact safe_without_failure. Qed.
Print Assumptions C50_last_partial.

(** C50: call objects are used between allocation and deletion, whatever fails. *)
Theorem C50_call_objects :
  forall n queue threads tr, execution n queue threads tr ->
  (forall l1 e l2 k, tr = l1 ++ e :: l2 -> touches_call k e -> In (ENew k) l1) /\
  (forall l1 l2 k, tr = l1 ++ EDelete k :: l2 -> forall e, In e l2 -> ~ touches_call k e).
Proof.
  intros n queue threads tr R. split.
  - intros l1 e l2 k. exact (made_before n queue threads tr l1 e l2 k R).
  - intros l1 l2 k. exact (deleted_last n queue threads tr k l1 l2 R).
Qed.
Print Assumptions C50_call_objects.

(** C50: callbacks run at most once each, and each exactly once in some order if the call
    returns. *)
Theorem C50_callbacks :
  forall n queue threads tr, execution n queue threads tr ->
  NoDup (callbacks tr) /\ (In EReturn tr -> Permutation (callbacks tr) (seq 0 n)).
Proof.
  intros n queue threads tr R. split.
  - exact (callbacks_nodup n queue threads tr R).
  - exact (callbacks_all n queue threads tr R).
Qed.
Print Assumptions C50_callbacks.

(** C50: with a thread for every queue no execution gets stuck before the call has ended and all
    call objects are deleted, and every execution is finite. *)
Theorem C50_ends :
  forall n queue threads tr, (forall k, k < n -> 1 <= threads (queue k)) -> execution n queue threads tr ->
  length tr <= 9 * n + 1 /\
  ((exists e, execution n queue threads (tr ++ [e])) \/ (ended tr /\ forall k, k < n -> In (EDelete k) tr)).
Proof.
  intros n queue threads tr H R. split.
  - exact (bounded_length n queue threads tr R).
  - exact (progress n queue threads tr H R).
Qed.
Print Assumptions C50_ends.

(** C50: the constructor gives every queue a thread.  Missing: numbers whose sum exceeds 32
    bits. *)
Theorem C50_queues_partial :
  forall t p, (N.max 1 t + N.max 1 p - 1 < 2 ^ 32)%N ->
  (1 <= num_queues t p)%N /\
  (forall q, (q < num_queues t p)%N -> exists i, (i < N.max 1 t)%N /\ thread_queue t p i = q) /\
  forall c, (next_queue t p c < num_queues t p)%N.
Proof. exact queues_served. Qed.
Print Assumptions C50_queues_partial.
Theorem C50_queues_refuted : exists t p, (t < 2 ^ 32)%N /\ (p < 2 ^ 32)%N /\ num_queues t p = 0%N.
Proof. exists 2%N, (2 ^ 32 - 1)%N. repeat split. Qed.
Print Assumptions C50_queues_refuted.
Example queues_demo : num_queues 7 3 = 3%N /\ map (thread_queue 7 3) [0; 1; 2; 3; 4; 5; 6]%N = [0; 1; 2; 0; 1; 2; 0]%N.
Proof. vm_compute. auto. Qed.

(** The first of two servers fails, the call throws, then the reply of the second arrives: gRPC
    stores it in, and the callback reads and writes, locals that are gone. *)
Definition send (k : nat) : list event := [ENew k; EFuture k; ESend k].
Theorem C50_late_refuted :
  exists tr l1 l2, execution 2 (fun _ => 0) (fun _ => 1) tr /\
  tr = l1 ++ ELand 1 true :: ETake 1 :: ECallback 1 true :: l2 /\ In (EThrow 0) l1.
Proof.
  exists (send 0 ++ send 1 ++ [ELand 0 false; ETake 0; EPromise 0; EThrow 0; EDelete 0; ELand 1 true; ETake 1; ECallback 1 true; EPromise 1; EDelete 1]).
  exists (send 0 ++ send 1 ++ [ELand 0 false; ETake 0; EPromise 0; EThrow 0; EDelete 0]), [EPromise 1; EDelete 1].
  split; [unfold execution; vm_compute; discriminate|]. split; [reflexivity|]. cbn. tauto.
Qed.
Print Assumptions C50_late_refuted.

(** Three servers, two threads, one callback overtakes the sending of the last request. *)
Definition busy_call : list event :=
  send 0 ++ [ELand 0 true; ETake 0] ++ send 1 ++ [ENew 2; ELand 1 true; ETake 1; ECallback 1 true; EPromise 1; EFuture 2; ESend 2;
    EDelete 1; ELand 2 true; ETake 2; ECallback 2 true; ECallback 0 true; EPromise 0; EWait 0; EWait 1; EDelete 0; EPromise 2; EWait 2; EReturn; EDelete 2].
Example busy_call_execution : execution 3 (fun _ => 0) (fun _ => 2) busy_call.
Proof. unfold execution; vm_compute; discriminate. Qed.
Example busy_call_order : callbacks busy_call = [1; 2; 0] /\ length busy_call = 28.
Proof. vm_compute. auto. Qed.
Example busy_call_one_thread : ~ execution 3 (fun _ => 0) (fun _ => 1) busy_call.
Proof. unfold execution. vm_compute. intros H. now apply H. Qed.
