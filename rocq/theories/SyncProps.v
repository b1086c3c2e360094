From Verif Require Import Base SyncModel SyncProofs.

(** C49: a client is only created once all servers are up, whatever crashes, timeouts, forks and
    threads do, when the folder holds no server files in the beginning. *)
Theorem C49_start :
  forall n cf tr l1 l2 c t, execution n [] cf tr -> tr = l1 ++ CConnect c t :: l2 ->
  forall i, i < n -> In (SList i) l1.
Proof. intros n cf tr l1 l2 c t R E i Hi. destruct (up_before n [] cf tr l1 l2 c t R E i Hi) as [[]|A]. exact A. Qed.
Print Assumptions C49_start.

(** C49: no server stops while a client is connected, in orderly executions.  Missing: the other
    executions, see the theorems below. *)
Theorem C49_stop_partial :
  forall n sf cf tr, execution n sf cf tr -> orderly tr ->
  forall c, live tr c = true -> forall i, ~ In (SExit i) tr.
Proof. exact none_stopped. Qed.
Print Assumptions C49_stop_partial.

(** C49: servers stop once every client has deleted its file, and clients connect once every
    server has its file. *)
Theorem C49_released :
  forall n sf tr i, execution n sf [] (tr ++ [SReset i]) ->
  (forall c r, In (CNew c r) tr -> exists t, In (CUnlink c t) tr) ->
  execution n sf [] (tr ++ [SReset i; SPoll i; SSet i; SUnlink i]).
Proof. intros n sf tr i. exact (released n sf [] tr i eq_refl). Qed.
Print Assumptions C49_released.

Theorem C49_connects :
  forall n sf cf tr c t, execution n sf cf (tr ++ [CEnter c t]) ->
  (forall i, i < n -> exists l1 l2, tr = l1 ++ SList i :: l2 /\ ~ In (SUnlink i) l2) ->
  execution n sf cf (tr ++ CEnter c t :: map (CSee c t) (seq 0 n) ++ [CConnect c t]).
Proof. exact connects. Qed.
Print Assumptions C49_connects.

(** C49: a run in which every server deletes its file after creating it and every client is reset
    leaves the folder as it found it. *)
Theorem C49_clean :
  forall n tr st, run n (init [] []) tr = Some st ->
  (forall i, In (SList i) tr -> exists l1 l2, tr = l1 ++ SUnlink i :: l2 /\ ~ In (SList i) l2) ->
  (forall c r, In (CNew c r) tr -> exists t, In (CUnlink c t) tr) ->
  sfiles st = [] /\ cfiles st = [].
Proof. intros n tr st. exact (all_clean n [] [] tr st eq_refl eq_refl). Qed.
Print Assumptions C49_clean.

(** C49: threads: one at a time waits for the servers, an object is connected at most once, and
    a thread whose wait timed out uses the connection another one made in the meantime. *)
Theorem C49_one_waits :
  forall n sf cf l1 l2 c t t', execution n sf cf (l1 ++ CEnter c t :: l2 ++ [CEnter c t']) ->
  In (CConnect c t) l2 \/ In (CExpire c t) l2 \/ In (CCrash c) l2.
Proof. exact one_waits. Qed.
Print Assumptions C49_one_waits.
Theorem C49_connected_once :
  forall n sf cf l1 l2 c t, execution n sf cf (l1 ++ CConnect c t :: l2) -> forall t', ~ In (CConnect c t') l2.
Proof. exact connected_once. Qed.
Print Assumptions C49_connected_once.
Theorem C49_rescued :
  forall n sf cf l1 l2 c t t', ~ execution n sf cf (l1 ++ CConnect c t :: l2 ++ [CLate c t'; CClose c t']).
Proof. exact rescued. Qed.
Print Assumptions C49_rescued.

Ltac executes := unfold execution; vm_compute; discriminate.

(** Two servers, a client with a fork that closes first. *)
Definition quiet : list event :=
  [SStart 0; SStart 1; CNew 0 0; SBuild 0; CEnter 0 0; SList 0; CSee 0 0 0; SBuild 1; SList 1; CFork 0 1; CSee 0 0 1;
   CConnect 0 0; SReset 1; CFork 0 2].
Definition quiet_end : list event :=
  [CReset 2 0; CClose 2 0; CUnlink 2 0; CReset 0 0; CClose 0 0; CUnlink 0 0; SReset 0; SPoll 1; SSet 1; SPoll 0;
   SSet 0; SExit 0; SUnlink 0; SUnlink 1; SExit 1].
Lemma split_in {A} (x : A) l1 l2 l : l = l1 ++ x :: l2 -> In x l.
Proof. intros ->. apply in_or_app. right. now left. Qed.
Lemma split_at {A} (x : A) l1 l2 l : l = l1 ++ x :: l2 ->
  exists i, nth_error l i = Some x /\ l1 = firstn i l /\ l2 = skipn (S i) l.
Proof.
  intros ->. exists (length l1). split; [|split].
  - rewrite nth_error_app2, Nat.sub_diag; [reflexivity|lia].
  - rewrite firstn_app, Nat.sub_diag, firstn_all, app_nil_r. reflexivity.
  - replace (S (length l1)) with (length l1 + 1) by lia. rewrite skipn_app.
    replace (length l1 + 1 - length l1) with 1 by lia. cbn.
    rewrite skipn_all2 by lia. reflexivity.
Qed.
Ltac every_split E := apply split_at in E; let p := fresh "p" in destruct E as (p & E & -> & ->);
  repeat (destruct p as [|p]; cbn [nth_error quiet quiet_end app] in E; try discriminate E);
  first [injection E as <- <- | injection E as <-].
Example quiet_execution : execution 2 [] [] (quiet ++ quiet_end).
Proof. executes. Qed.
Example quiet_orderly : orderly (quiet ++ quiet_end).
Proof.
  split.
  - cbn [quiet quiet_end app In]. intuition discriminate.
  - intros l1 l2 c r E i I. every_split E. cbn in I. intuition discriminate.
  - intros l1 l2 a t E b B. every_split E.
    + vm_compute in B. vm_compute. do 3 (destruct b as [|b]; [first [reflexivity|discriminate]|]). reflexivity.
    + vm_compute. do 3 (destruct b as [|b]; [first [reflexivity|discriminate]|]). reflexivity.
  - intros l1 l2 a t E t' I. every_split E; cbn in I; intuition discriminate.
  - intros l1 l2 a t b E R t' I. every_split E. cbn in I. intuition discriminate.
Qed.
Example quiet_live : live quiet 0 = true /\ live quiet 2 = true /\ live quiet 1 = false.
Proof. vm_compute. auto. Qed.
Example quiet_clean : option_map (fun st => (sfiles st, cfiles st, raised st)) (run 2 (init [] []) (quiet ++ quiet_end)) = Some ([], [], []).
Proof. vm_compute. reflexivity. Qed.

Example two_threads :
  execution 1 [] [] [SStart 0; CNew 0 0; CEnter 0 0; CExpire 0 0; CEnter 0 1; SBuild 0; SList 0; CSee 0 1 0; CConnect 0 1; CLate 0 0] /\
  ~ execution 1 [] [] [SStart 0; CNew 0 0; CEnter 0 0; SBuild 0; CEnter 0 1] /\
  execution 1 [] [] [SStart 0; CNew 0 0; CEnter 0 0; CExpire 0 0; CLate 0 0; CClose 0 0].
Proof. split; [executes|]. split; [|executes]. unfold execution. vm_compute. intro H. now apply H. Qed.

(** Without the hypothesis on the order: a server polls before a client appears, and stops after
    it has connected. *)
Theorem C49_race_refuted :
  exists tr, execution 1 [] [] tr /\ (forall i, ~ In (SGiveUp i) tr) /\ (forall i, ~ In (SCrash i) tr) /\
  live tr 0 = true /\ In (SExit 0) tr.
Proof.
  exists [SStart 0; SBuild 0; SList 0; SReset 0; SPoll 0; CNew 0 0; CEnter 0 0; CSee 0 0 0; CConnect 0 0; SSet 0; SExit 0].
  split; [executes|]. split; [cbn; intuition discriminate|]. split; [cbn; intuition discriminate|]. split; [reflexivity|]. cbn. tauto.
Qed.
Print Assumptions C49_race_refuted.

(** The same race between workers that start a server, then a client, connect, reset the client
    and then the server, as SnarkDistributedBackend does to exchange addresses
    (backends/snark/client.py 151-170): worker 0 has finished before worker 1 creates its
    client, which then waits for the server of worker 0 until the timeout. *)
Theorem C49_stranded_refuted :
  exists tr, execution 2 [] [] tr /\ (forall i, ~ In (SGiveUp i) tr) /\ (forall i, ~ In (SCrash i) tr) /\
  In (CEnter 1 0) tr /\
  forall tr', execution 2 [] [] (tr ++ tr') -> forall t, ~ In (CConnect 1 t) tr'.
Proof.
  exists [SStart 0; CNew 0 0; CEnter 0 0; SBuild 0; SList 0; SStart 1; SBuild 1; SList 1; CSee 0 0 0; CSee 0 0 1; CConnect 0 0;
    CReset 0 0; CClose 0 0; CUnlink 0 0; SReset 0; SPoll 0; SSet 0; SUnlink 0; CNew 1 1; CEnter 1 0].
  split; [executes|]. split; [cbn; intuition discriminate|]. split; [cbn; intuition discriminate|]. split; [cbn; tauto|].
  intros tr'. unfold execution. rewrite run_app. intros R t.
  match type of R with context [run 2 (init [] []) ?l] => destruct (run 2 (init [] []) l) as [st|] eqn:E end; [|congruence].
  apply (stranded 2 0 1 tr' ltac:(lia) st); [| | |exact R]; vm_compute in E; injection E as <-.
  - vm_compute. intuition discriminate.
  - exact I.
  - eexists. split; [vm_compute; reflexivity|]. intros u seen. cbn. destruct u as [|u]; [|discriminate].
    intros J. injection J as <-. auto.
Qed.
Print Assumptions C49_stranded_refuted.

(** A server that times out stops under a connected client. *)
Theorem C49_timeout_refuted :
  exists tr, execution 1 [] [] tr /\ (forall i, ~ In (SPoll i) tr) /\ live tr 0 = true /\ In (SExit 0) tr.
Proof.
  exists [SStart 0; SBuild 0; SList 0; CNew 0 0; CEnter 0 0; CSee 0 0 0; CConnect 0 0; SReset 0; SGiveUp 0; SSet 0; SExit 0].
  split; [executes|]. split; [cbn; intuition discriminate|]. split; [reflexivity|]. cbn. tauto.
Qed.
Print Assumptions C49_timeout_refuted.

(** A client that timed out has deleted its file; when it is asked again it connects without
    one. *)
Theorem C49_retry_refuted :
  exists tr, execution 1 [] [] tr /\ (forall i, ~ In (SGiveUp i) tr) /\ (forall c d, ~ In (CFork c d) tr) /\ (forall c t, ~ In (CReset c t) tr) /\
  (exists l1 l2, tr = l1 ++ SPoll 0 :: l2 /\ live l1 0 = true) /\ live tr 0 = true /\ In (SExit 0) tr.
Proof.
  exists [CNew 0 0; CEnter 0 0; CExpire 0 0; CLate 0 0; CClose 0 0; CUnlink 0 0; SStart 0; SBuild 0; SList 0;
    CEnter 0 0; CSee 0 0 0; CConnect 0 0; SReset 0; SPoll 0; SSet 0; SExit 0].
  split; [executes|]. split; [cbn; intuition discriminate|]. split; [cbn; intuition discriminate|]. split; [cbn; intuition discriminate|].
  split; [|split; [reflexivity|cbn; tauto]].
  exists [CNew 0 0; CEnter 0 0; CExpire 0 0; CLate 0 0; CClose 0 0; CUnlink 0 0; SStart 0; SBuild 0; SList 0;
    CEnter 0 0; CSee 0 0 0; CConnect 0 0; SReset 0], [SSet 0; SExit 0]. split; reflexivity.
Qed.
Print Assumptions C49_retry_refuted.

(** The connection of a forked process is not tracked. *)
Theorem C49_fork_refuted :
  exists tr, execution 1 [] [] tr /\ (forall i, ~ In (SGiveUp i) tr) /\ live tr 1 = true /\ In (SExit 0) tr.
Proof.
  exists [SStart 0; SBuild 0; SList 0; CNew 0 0; CFork 0 1; CEnter 1 0; CSee 1 0 0; CConnect 1 0;
    CReset 0 0; CClose 0 0; CUnlink 0 0; SReset 0; SPoll 0; SSet 0; SExit 0].
  split; [executes|]. split; [cbn; intuition discriminate|]. split; [reflexivity|]. cbn. tauto.
Qed.
Print Assumptions C49_fork_refuted.

(** A fork while a thread waits for the servers copies the taken lock: the client of the new
    process neither connects nor times out nor can be reset. *)
Theorem C49_fork_lock_refuted :
  exists tr, execution 1 [] [] tr /\ In (CFork 0 1) tr /\
  forall tr', execution 1 [] [] (tr ++ tr') -> forall t, ~ In (CConnect 1 t) tr' /\ ~ In (CExpire 1 t) tr' /\ ~ In (CUnlink 1 t) tr'.
Proof.
  exists [SStart 0; CNew 0 0; CEnter 0 0; CFork 0 1; SBuild 0; SList 0; CSee 0 0 0; CConnect 0 0].
  split; [executes|]. split; [cbn; tauto|]. intros tr'. unfold execution. rewrite run_app. intros R.
  match type of R with context [run 1 (init [] []) ?l] => destruct (run 1 (init [] []) l) as [st|] eqn:E end; [|congruence].
  apply (frozen_run 1 1 tr' st); [|exact R]. vm_compute in E. injection E as <-.
  eexists. split; [vm_compute; reflexivity|]. split; [reflexivity|]. intro t. exact I.
Qed.
Print Assumptions C49_fork_lock_refuted.

(** Two threads: the first times out, the second connects, the first then resets the connection
    the second has just been given although nobody asked for a reset. *)
Theorem C49_threads_refuted :
  exists tr, execution 1 [] [] tr /\ In (CConnect 0 1) tr /\ (forall c t, ~ In (CReset c t) tr) /\ (forall c, ~ In (CCrash c) tr) /\
  live tr 0 = false.
Proof.
  exists [SStart 0; SBuild 0; CNew 0 0; CEnter 0 0; CExpire 0 0; CEnter 0 1; CLate 0 0; SList 0; CSee 0 1 0; CConnect 0 1; CClose 0 0; CUnlink 0 0].
  split; [executes|]. split; [cbn; tauto|]. split; [cbn; intuition discriminate|]. split; [cbn; intuition discriminate|]. reflexivity.
Qed.
Print Assumptions C49_threads_refuted.

(** A file of an earlier run: the client is created before any server starts. *)
Theorem C49_stale_refuted :
  exists tr, execution 1 [0] [] tr /\ In (CConnect 0 0) tr /\ forall i, ~ In (SStart i) tr.
Proof.
  exists [CNew 0 0; CEnter 0 0; CSee 0 0 0; CConnect 0 0].
  split; [executes|]. split; [cbn; tauto|]. cbn. intuition discriminate.
Qed.
Print Assumptions C49_stale_refuted.

(** reset before the server process has created its file: FileNotFoundError, and the file is
    left behind for the next run. *)
Theorem C49_early_reset_refuted :
  exists tr st, run 1 (init [] []) tr = Some st /\ In (SUnlink 0) tr /\ In (SExit 0) tr /\ raised st = [ExMissing] /\ sfiles st = [0].
Proof.
  exists [SStart 0; SReset 0; SPoll 0; SSet 0; SUnlink 0; SBuild 0; SList 0; SExit 0]. eexists.
  split; [vm_compute; reflexivity|]. cbn. tauto.
Qed.
Print Assumptions C49_early_reset_refuted.

(** A client that crashes blocks the servers until they time out. *)
Theorem C49_crash_refuted :
  exists tr, execution 1 [] [] tr /\ In (SReset 0) tr /\ live tr 0 = false /\
  forall tr', execution 1 [] [] (tr ++ tr') -> forall i, ~ In (SPoll i) tr'.
Proof.
  exists [SStart 0; SBuild 0; SList 0; CNew 0 0; CEnter 0 0; CSee 0 0 0; CConnect 0 0; CCrash 0; SReset 0].
  split; [executes|]. split; [cbn; tauto|]. split; [reflexivity|].
  intros tr'. unfold execution. rewrite run_app. intros R i.
  match type of R with context [run 1 (init [] []) ?l] => destruct (run 1 (init [] []) l) as [st|] eqn:E end; [|congruence].
  apply (blocked 1 0 tr' st); [| |exact R]; vm_compute in E; injection E as <-.
  - now left.
  - intros c k. vm_compute. destruct c; [|discriminate]. intros H. injection H as <-. intros _ _. split; [reflexivity|]. intros t. exact I.
Qed.
Print Assumptions C49_crash_refuted.
