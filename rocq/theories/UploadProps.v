From Coq Require Import Permutation Ascii String.
From Verif Require Import Base FilesModel MetaSpec UploadModel UploadSpec UploadProofs.
Import ListNotations.
Open Scope list_scope.

(** C70: writelines cuts the lines into chunks of at most max_lines_per_chunk lines, every line
    is followed by a newline. *)
Theorem C70_writelines : forall size ls, 0 < size ->
  exists cs, writelines size ls = Ok cs /\ concat cs = flat_map (fun l : nm => l ++ newline) ls /\
    Forall (fun c : nm => exists l : list nm, l <> [] /\ List.length l <= size /\ c = flat_map (fun x : nm => x ++ newline) l) cs.
Proof. exact writelines_ok. Qed.
Print Assumptions C70_writelines.
Example C70_writelines_example :
  writelines 2 [str "ab"; str ""; str "c"] = Ok [str "ab" ++ newline ++ newline; str "c" ++ newline].
Proof. reflexivity. Qed.
(** C70: with max_lines_per_chunk = 0 the loop does not end. *)
Theorem C70_zero_lines_refuted : exists ls, forall fuel, chunked fuel 0 0 ls = Fail EFuel.
Proof. exact (ex_intro _ [str "a"] (fun fuel => nat_ind (fun f => chunked f 0 0 [str "a"] = Fail EFuel) eq_refl (fun f IH => f_equal (fun r => do r <- r ;; Ok (text [] :: r)) IH) fuel)). Qed.
Print Assumptions C70_zero_lines_refuted.

(** C70: whatever the order in which caller, processes and threads act, when the block has been
    left every chunk whose write returned is in exactly one closed file ([complete]); without
    queue.Full these are all chunks, and every writelines has returned True.
    Missing: empty chunks, see C70_empty_write_refuted, and a process without threads, see
    C70_no_threads_refuted. *)
Theorem C70_result_partial : forall P T queue_size limit calls, 0 < P -> Forall (fun c => c <> []) (sent calls) ->
  forall es st, 0 < T -> run P T queue_size limit (init calls) es = Some st -> main st = Returned ->
  total_chunk st <= List.length (sent calls) /\
  complete P T limit (firstn (total_chunk st) (sent calls)) st /\
  (raised st = false ->
     total_chunk st = List.length (sent calls) /\
     answers st = map (fun _ => true) (filter (fun c => match c with Lines _ => true | _ => false end) calls)).
Proof. exact upload_result. Qed.
Print Assumptions C70_result_partial.

(** C70: every execution has a bounded number of actions. *)
Theorem C70_terminates : forall P T queue_size limit calls, 0 < P ->
  forall es st, run P T queue_size limit (init calls) es = Some st ->
  List.length es <= 3 * List.length (sent calls) + List.length calls + P * (2 * T + 6) + 4.
Proof. exact terminates. Qed.
Print Assumptions C70_terminates.

(** C70: with one thread for each process, or as long as no thread ends while the stop of its
    process still looks at the threads, somebody can act until the block has been left: no
    deadlock.  Missing: see C70_stop_race_refuted. *)
Theorem C70_one_thread_progress_partial : forall P T queue_size limit calls, 0 < P -> Forall (fun c => c <> []) (sent calls) ->
  forall es st, T = 1 -> run P T queue_size limit (init calls) es = Some st ->
  main st = Returned \/ exists e st', step P T queue_size limit st e = Some st'.
Proof. exact one_thread_progress. Qed.
Print Assumptions C70_one_thread_progress_partial.
Theorem C70_patient_progress_partial : forall P T queue_size limit calls, 0 < P -> Forall (fun c => c <> []) (sent calls) ->
  forall es st, 0 < T -> run P T queue_size limit (init calls) es = Some st -> all_patient P T queue_size limit (init calls) es ->
  main st = Returned \/ exists e st', step P T queue_size limit st e = Some st' /\ patient T st e.
Proof. exact progress. Qed.
Print Assumptions C70_patient_progress_partial.

(** Two processes with two threads each, three chunks, two chunks for each file. *)
Definition three := [Write (str "a"); Lines [str "b"; str "c"]].
Definition sample_run : list event :=
  [Put; Put; Put; Put; Put; Pump 0; Pump 1; Take 1 1; Pump 0; Take 0 0; Take 0 0;
   Close; Close; Close; Pump 0; Pump 1; Stop 0; Stop 1; Stop 0; Stop 1; Stop 0; Stop 1;
   Take 0 1; Take 0 0; Take 1 0; Take 1 1; Stop 1; Stop 0; Close].
Example C70_result_example :
  option_map (fun st => (main st, raised st, answers st, files 2 2 st)) (run 2 2 4 2 (init three) sample_run) =
  Some (Returned, false, [true], [(str "_0_0_0.tsv", [str "a"; str "c"]); (str "_1_1_0.tsv", [str "b"])]).
Proof. vm_compute. reflexivity. Qed.

(** C70: a thread that ends while stop looks at the next one takes the None of another: stop
    puts one None less than there are threads and the close of the block never returns; the file
    of the thread that is left is not closed. *)
Definition race : list event := [Put; Put; Pump 0; Take 0 0; Close; Pump 0; Stop 0; Take 0 1; Stop 0; Stop 0; Close].
Theorem C70_stop_race_refuted :
  exists P T queue_size limit calls es st, Forall (fun c => c <> []) (sent calls) /\ 0 < P /\ 0 < T /\
    run P T queue_size limit (init calls) es = Some st /\ main st = InClose /\
    (forall e, step P T queue_size limit st e = None) /\ ~ all_closed P T st.
Proof.
  destruct (run 1 2 4 2 (init [Write (str "a")]) race) as [st|] eqn:E; [|exfalso; revert E; vm_compute; discriminate].
  exists 1, 2, 4, 2, [Write (str "a")], race, st. split; [repeat constructor; discriminate|]. split; [repeat constructor|]. split; [repeat constructor|]. split; [exact E|].
  vm_compute in E. injection E as <-. split; [reflexivity|]. split.
  - intros [| | | |i|i|i j]; try reflexivity.
    + destruct i as [|i]; [reflexivity|]. cbn. reflexivity.
    + destruct i as [|i]; [reflexivity|]. cbn. reflexivity.
    + destruct i as [|i]; [|reflexivity]. destruct j as [|[|j]]; reflexivity.
  - intros H. specialize (H 0 0 (le_n _) (le_S _ _ (le_n _))). discriminate H.
Qed.
Print Assumptions C70_stop_race_refuted.
(** C70: write("") looks like the end to a process: what comes later is lost without a word. *)
Theorem C70_empty_write_refuted :
  exists P T queue_size limit calls es st, 0 < P /\ 0 < T /\
    run P T queue_size limit (init calls) es = Some st /\ main st = Returned /\ raised st = false /\
    total_chunk st = List.length (sent calls) /\ In (str "b") (sent calls) /\ files P T st = [(str "_0_0_0.tsv", [str "a"])].
Proof.
  destruct (run 1 1 4 2 (init [Write (str "a"); Write []; Write (str "b")])
    [Put; Put; Put; Pump 0; Take 0 0; Pump 0; Stop 0; Stop 0; Take 0 0; Stop 0; Put; Close; Close; Close]) as [st|] eqn:E; [|exfalso; revert E; vm_compute; discriminate].
  eexists 1, 1, 4, 2, _, _, st. split; [repeat constructor|]. split; [repeat constructor|]. split; [exact E|]. vm_compute in E. injection E as <-.
  split; [reflexivity|]. split; [reflexivity|]. split; [reflexivity|]. split; [right; right; left; reflexivity|]. vm_compute. reflexivity.
Qed.
Print Assumptions C70_empty_write_refuted.
(** C70: writelines gives up after one second without room, with part of its lines written. *)
Theorem C70_full_refuted :
  exists P T queue_size limit calls es st, Forall (fun c => c <> []) (sent calls) /\ 0 < P /\ 0 < T /\
    run P T queue_size limit (init calls) es = Some st /\ main st = Returned /\ raised st = true /\
    sent calls = [str "a"; str "b"] /\ files P T st = [(str "_0_0_0.tsv", [str "a"])].
Proof.
  destruct (run 1 1 1 2 (init [Lines [str "a"; str "b"]])
    [Put; Full; Put; Pump 0; Take 0 0; Close; Close; Pump 0; Stop 0; Stop 0; Take 0 0; Stop 0; Close]) as [st|] eqn:E; [|exfalso; revert E; vm_compute; discriminate].
  eexists 1, 1, 1, 2, _, _, st. split; [|split; [repeat constructor|split; [repeat constructor|split; [exact E|]]]].
  - repeat constructor; discriminate.
  - vm_compute in E. injection E as <-. split; [reflexivity|]. split; [reflexivity|]. split; [reflexivity|]. vm_compute. reflexivity.
Qed.
Print Assumptions C70_full_refuted.
(** C70: with threads_per_process = 0 everything is accepted and nothing is written. *)
Theorem C70_no_threads_refuted :
  exists P queue_size limit calls es st, Forall (fun c => c <> []) (sent calls) /\ 0 < P /\
    run P 0 queue_size limit (init calls) es = Some st /\ main st = Returned /\ raised st = false /\
    sent calls = [str "a"] /\ files P 0 st = [].
Proof.
  destruct (run 1 0 1 2 (init [Write (str "a")]) [Put; Pump 0; Put; Close; Close; Pump 0; Stop 0; Stop 0; Close]) as [st|] eqn:E; [|exfalso; revert E; vm_compute; discriminate].
  eexists 1, 1, 2, _, _, st. split; [|split; [repeat constructor|split; [exact E|]]].
  - repeat constructor; discriminate.
  - vm_compute in E. injection E as <-. split; [reflexivity|]. split; [reflexivity|]. split; [reflexivity|]. vm_compute. reflexivity.
Qed.
Print Assumptions C70_no_threads_refuted.
