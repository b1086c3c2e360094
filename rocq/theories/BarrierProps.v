(** C73: synchronisation of workers with files. *)
From Verif Require Import Base BarrierModel BarrierSpec BarrierProofs.

(** A call of sync returns only when every task has called sync with that tag, whatever files were
    left in the folder and however the tasks interleave, if task 0 is created first. *)
Theorem C73_barrier_partial : forall tasks prog stale m st t j tag,
  0 < tasks -> reached tasks prog stale m st -> j < tasks ->
  passed prog st t tag -> called prog st j tag.
Proof. intros tasks prog stale m st t j tag H0 H1 H2 H3. exact (barrier tasks prog stale H0 m st t j tag H1 H2 H3). Qed.
Print Assumptions C73_barrier_partial.

(** The tasks never wait for each other: somebody can go on until all are finished ... *)
Theorem C73_no_deadlock_partial : forall tasks prog stale m st,
  0 < tasks -> same_tags tasks prog -> reached tasks prog stale m st ->
  (forall t, t < tasks -> finished prog st t) \/ exists st', reached tasks prog stale (S m) st'.
Proof. intros tasks prog stale m st H1 H2 H3. exact (not_blocked tasks prog stale H1 H2 m st H3). Qed.
Print Assumptions C73_no_deadlock_partial.

(** ... which is after a bounded number of accesses. *)
Theorem C73_bounded : forall tasks prog stale m st,
  0 < tasks -> reached tasks prog stale m st ->
  m <= S (length stale) + list_sum (map (fun t => length (prog t) * (tasks + 2) + 1) (seq 0 tasks)).
Proof. intros tasks prog stale m st H1 H2. exact (accesses tasks prog stale H1 m st H2). Qed.
Print Assumptions C73_bounded.

(** ** Examples *)
(** Training with three workers: the chief has two hooks that call sync("session"). *)
Definition train (t : nat) : list nat := if t =? 0 then [1; 1; 2] else [1; 2].
Example C73_training :
  let st := run 3 train (init [(1, 2); (2, 0)]) (concat (repeat [0; 1; 2] 30)) in
  forallb (fun t => match pcs st t with Sync k => k =? length (train t) | _ => false end) (seq 0 3) = true.
Proof. vm_compute. reflexivity. Qed.
Example C73_training_tags : same_tags 3 train.
Proof.
  exists (fun g => g). refine (conj _ (conj _ _)).
  - intros t t' g _ _. unfold train. destruct (t =? 0); destruct (t' =? 0); cbn; tauto.
  - auto.
  - intros t i j g g' _. unfold train. destruct (t =? 0).
    + destruct i as [|[|[|[|i]]]]; destruct j as [|[|[|[|j]]]]; cbn; intros L A B; try discriminate; injection A as <-; injection B as <-; lia.
    + destruct i as [|[|[|i]]]; destruct j as [|[|[|j]]]; cbn; intros L A B; try discriminate; injection A as <-; injection B as <-; lia.
Qed.
(** A worker that is late: nobody passes. *)
Example C73_waiting :
  let st := run 3 train (init []) (concat (repeat [0; 1] 30)) in
  pcs st 0 = Check 0 2 /\ pcs st 1 = Check 0 2.
Proof. vm_compute. auto. Qed.

(** ** What is false of the code *)
(** Task 0 is created after another one has called sync: it removes its file and all wait for ever. *)
Theorem C73_late_leader_refuted :
  let st := run 2 (fun _ => [7]) (init []) [1; 1; 0; 0; 0; 0; 0; 1] in
  (forall t, t < 2 -> step 2 (fun _ => [7]) st t = None) /\ ~ finished (fun _ => [7]) st 0 /\ ~ finished (fun _ => [7]) st 1.
Proof.
  vm_compute. refine (conj _ (conj _ _)); [|discriminate|discriminate].
  intros [|[|t]] H; [reflexivity|reflexivity|]. exfalso. lia.
Qed.
Print Assumptions C73_late_leader_refuted.

(** Files of an earlier job: another task passes while task 0 is not even created. *)
Theorem C73_stale_refuted :
  let st := run 2 (fun _ => [7]) (init [(7, 0)]) [1; 1; 1; 1; 1] in
  passed (fun _ => [7]) st 1 7 /\ pcs st 0 = New.
Proof. vm_compute. auto. Qed.
Print Assumptions C73_stale_refuted.

(** A tag that is used again does not wait: task 0 is through the second call when task 1 has not
    begun it.  Train and then evaluate use "session" and "final" twice. *)
Theorem C73_same_tag_refuted :
  let prog := fun _ : nat => [7; 7] in
  let st := run 2 prog (init []) [0; 0; 0; 1; 1; 0; 0; 0; 0; 0; 0; 0; 0] in
  returned (pcs st 0) = 2 /\ begun (pcs st 1) = 1.
Proof. vm_compute. auto. Qed.
Print Assumptions C73_same_tag_refuted.
