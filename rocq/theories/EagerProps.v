(** Eager trainers: properties. *)
From Coq Require Import Ascii String.
From Verif Require Import Base FilesModel CkptModel EagerModel EagerSpec EagerProofs.
Import ListNotations.
Open Scope list_scope.

(** The log of training: a line for every [n]-th step counted over all epochs, with its epoch, its
    logs and the time since the last line. *)
Theorem C107_lines : forall V n start (run : list (list (batch V))) o k e g d q, n <> 0 -> train_log n start run = Some o ->
  (In (Line k e g d q) o <->
   exists t u, ran run k e (t, g) /\ Nat.divide n k /\ q = n /\ last_line start run n k u /\ d = (t - u)%Z).
Proof. intros V. exact train_lines. Qed.
Print Assumptions C107_lines.
(** Lines are in the order of steps; no step has two. *)
Theorem C107_order : forall V n start (run : list (list (batch V))) o, n <> 0 -> train_log n start run = Some o ->
  forall i j k e g d q k' e' g' d' q', i < j -> nth_error o i = Some (Line k e g d q) -> nth_error o j = Some (Line k' e' g' d' q') -> k < k'.
Proof. intros V. exact train_order. Qed.
Print Assumptions C107_order.
(** The variables of the model are logged once, first. *)
Theorem C107_vars : forall V n start (run : list (list (batch V))) o, n <> 0 -> train_log n start run = Some o ->
  (List.concat run = [] /\ o = []) \/ (List.concat run <> [] /\ exists o', o = Vars :: o' /\ ~ In Vars o').
Proof. intros V. exact train_vars. Qed.
Print Assumptions C107_vars.
Theorem C107_total : forall V n start (run : list (list (batch V))), n <> 0 -> exists o, train_log n start run = Some o.
Proof. intros V. exact train_total. Qed.
Print Assumptions C107_total.
(** --log_save_steps 0 fails with the first batch. *)
Theorem C107_zero : forall V start (run : list (list (batch V))), train_log 0 start run = None <-> List.concat run <> [].
Proof. intros V. exact train_zero. Qed.
Print Assumptions C107_zero.

(** Summaries of training with Horovod: every [m]-th batch of every epoch. *)
Theorem C107_summary : forall V m (run : list (list (batch V))) s w v k, m <> 0 -> horovod_summary m run = Some s ->
  (In (w, v, k) s <-> exists e l x, nth_error run e = Some l /\ nth_error l k = Some x /\ In (w, v) (snd x) /\ Nat.divide m k).
Proof. intros V. exact horovod_summary_spec. Qed.
Print Assumptions C107_summary.
(** They are written epoch after epoch. *)
Theorem C107_summary_epochs : forall V m (run : list (list (batch V))) l s s', m <> 0 -> horovod_summary m run = Some s -> horovod_summary m [l] = Some s' ->
  horovod_summary m (run ++ [l]) = Some (s ++ s').
Proof. intros V. exact horovod_summary_epochs. Qed.
Print Assumptions C107_summary_epochs.
Theorem C107_summary_total : forall V m (run : list (list (batch V))), m <> 0 -> exists s, horovod_summary m run = Some s.
Proof. intros V. exact horovod_summary_total. Qed.
Print Assumptions C107_summary_total.
Theorem C107_summary_zero : forall V (run : list (list (batch V))), horovod_summary 0 run = None <-> List.concat run <> [].
Proof. intros V. exact horovod_summary_zero. Qed.
Print Assumptions C107_summary_zero.
(** With one epoch no scalar is written twice for a step.  Missing: more epochs (refuted below). *)
Theorem C107_summary_once_partial : forall V m (l : list (batch V)) s, m <> 0 -> Forall (fun x => NoDup (map fst (snd x))) l ->
  horovod_summary m [l] = Some s -> NoDup (keys s).
Proof. intros V. exact pass_once. Qed.
Print Assumptions C107_summary_once_partial.

(** Evaluation writes the lines and the summaries of one epoch of training. *)
Theorem C107_evaluate : forall V n m start (l : list (batch V)) o s, n <> 0 -> m <> 0 -> evaluate n m start l = Some (o, s) ->
  horovod_summary m [l] = Some s /\
  ((l = [] /\ o = []) \/ (l <> [] /\ exists o', o = Vars :: o' /\ train_log n start [l] = Some o')).
Proof. intros V. exact evaluate_spec. Qed.
Print Assumptions C107_evaluate.
Theorem C107_evaluate_total : forall V n m start (l : list (batch V)), n <> 0 -> m <> 0 -> exists o s, evaluate n m start l = Some (o, s).
Proof. intros V. exact evaluate_total. Qed.
Print Assumptions C107_evaluate_total.
Theorem C107_evaluate_zero : forall V n m start (l : list (batch V)), n = 0 \/ m = 0 -> (evaluate n m start l = None <-> l <> []).
Proof. intros V. exact evaluate_zero. Qed.
Print Assumptions C107_evaluate_zero.

(** _save_checkpoint: the next call saves if and only if it is of the first worker and is forced or
    comes more than [secs] after the last saving. *)
Theorem C107_saves : forall task secs ckpt l k,
  (task = 0 /\ (force k = true \/ (secs < ask k - last (map done (saves task secs ckpt l)) ckpt)%Z) /\ saves task secs ckpt (l ++ [k]) = saves task secs ckpt l ++ [k]) \/
  (~ (task = 0 /\ (force k = true \/ (secs < ask k - last (map done (saves task secs ckpt l)) ckpt)%Z)) /\ saves task secs ckpt (l ++ [k]) = saves task secs ckpt l).
Proof. exact saves_next. Qed.
Print Assumptions C107_saves.

(** Files of embeddings of workers with different indices are different, also for other prefixes
    below the directory; directories of summaries as well. *)
Theorem C107_embedding : forall dir p w w', embedding_file dir p w = embedding_file dir p w' -> task_index w = task_index w'.
Proof. exact embedding_rank. Qed.
Print Assumptions C107_embedding.
Theorem C107_embedding_prefix : forall dir p p' w w', relative p -> relative p' ->
  embedding_file dir p w = embedding_file dir p' w' -> p = p' /\ task_index w = task_index w'.
Proof. exact embedding_prefix. Qed.
Print Assumptions C107_embedding_prefix.
Theorem C107_summary_dir : forall dir name w w', summary_dir dir name w = summary_dir dir name w' -> task_index w = task_index w'.
Proof. exact summary_rank. Qed.
Print Assumptions C107_summary_dir.
Theorem C107_checkpoint_name : forall dir p w, checkpoint_file dir <> embedding_file dir p w.
Proof. exact checkpoint_not_embedding. Qed.
Print Assumptions C107_checkpoint_name.

(** Workers. *)
Theorem C107_alone : eager None = Some {| task_index := 0; worker_size := 1; lr_scaler := 1 |}.
Proof. exact eager_alone. Qed.
Print Assumptions C107_alone.
Theorem C107_worker : forall c w, eager (Some c) = Some w -> task_index w = index c /\ lr_scaler w = 1 /\
  exists ws, In (str "worker", ws) (cluster c) /\ worker_size w = List.length ws.
Proof. exact eager_worker. Qed.
Print Assumptions C107_worker.
Theorem C107_files_partial : forall c c' w w' dir p, eager (Some c) = Some w -> eager (Some c') = Some w' -> index c <> index c' ->
  embedding_file dir p w <> embedding_file dir p w' /\ summary_dir dir (str "evaluate") w <> summary_dir dir (str "evaluate") w'.
Proof. exact eager_files. Qed.
Print Assumptions C107_files_partial.
Theorem C107_horovod : forall config rank size w, horovod config rank size = Some w -> task_index w = rank /\ worker_size w = size /\ lr_scaler w = size.
Proof. exact horovod_worker. Qed.
Print Assumptions C107_horovod.
(** With Horovod the checkpoint is saved once for every epoch, by one rank. *)
Theorem C107_checkpoints : forall config size dir n ws, 0 < size ->
  Forall2 (fun r w => horovod config r size = Some w) (seq 0 size) ws ->
  List.concat (map (horovod_saves dir n) ws) = repeat (checkpoint_file dir) n.
Proof. exact horovod_checkpoints. Qed.
Print Assumptions C107_checkpoints.
Theorem C107_seed_partial : forall s, s <> 0%Z -> set_random_seed (Some s) = Some s.
Proof. exact seed_set. Qed.
Print Assumptions C107_seed_partial.
(** A rank of Horovod sees one device, ranks of a host see different ones. *)
Theorem C107_devices : forall G (gpus : list G) r d, horovod_devices true gpus r = Some d <-> exists g, nth_error gpus r = Some g /\ d = [g].
Proof. intros G. exact devices. Qed.
Print Assumptions C107_devices.
Theorem C107_devices_apart : forall G (gpus : list G) r r' d d', NoDup gpus -> r <> r' ->
  horovod_devices true gpus r = Some d -> horovod_devices true gpus r' = Some d' -> forall g, In g d -> ~ In g d'.
Proof. intros G. exact devices_apart. Qed.
Print Assumptions C107_devices_apart.
Theorem C107_cpu : forall G (gpus : list G) r, horovod_devices false gpus r = Some [] /\ eager_devices false gpus = [] /\ eager_devices true gpus = gpus.
Proof. intros. repeat split; reflexivity. Qed.
Print Assumptions C107_cpu.

(** Examples: two epochs of three steps, a line for every second step. *)
Definition ex_logs (z : Z) : logs Z := [(str "loss", z)].
Definition ex_run : list (list (batch Z)) := [[(5, ex_logs 9); (7, ex_logs 8); (8, ex_logs 7)]; [(20, ex_logs 6); (22, ex_logs 5); (23, ex_logs 4)]]%Z.
Example C107_lines_example : train_log 2 0 ex_run =
  Some [Vars; Line 0 0 (ex_logs 9) 5 2; Line 2 0 (ex_logs 7) 3 2; Line 4 1 (ex_logs 5) 14 2]%Z.
Proof. reflexivity. Qed.
Example C107_summary_example : horovod_summary 2 ex_run =
  Some [(str "loss", 9%Z, 0); (str "loss", 7%Z, 2); (str "loss", 6%Z, 0); (str "loss", 4%Z, 2)].
Proof. reflexivity. Qed.
Example C107_evaluate_example : evaluate 2 3 0 (hd [] ex_run) =
  Some ([Vars; Vars; Line 0 0 (ex_logs 9) 5 2; Line 2 0 (ex_logs 7) 3 2]%Z, [(str "loss", 9%Z, 0)]).
Proof. reflexivity. Qed.
Definition ex_call (f : bool) (t : Z) : call := {| force := f; ask := t; done := t + 1 |}.
Example C107_saves_example : saves 0 10 0 [ex_call false 10; ex_call false 11; ex_call false 22; ex_call true 23; ex_call false 34; ex_call false 35]%Z
  = [ex_call false 11; ex_call true 23; ex_call false 35]%Z.
Proof. reflexivity. Qed.
Definition ex_worker (i : nat) : worker := {| task_index := i; worker_size := 12; lr_scaler := 12 |}.
Example C107_names_example :
  embedding_file (str "/out") (str "embedding") (ex_worker 11) = str "/out/./embedding_11.tsv" /\
  embedding_file (str "") (str "/tmp/e") (ex_worker 1) = str "/tmp/e_1.tsv" /\
  summary_dir (str "m") (str "evaluate") (ex_worker 3) = str "m/./evaluate/worker_3" /\
  checkpoint_file (str "m") = str "m/./ckpt".
Proof. repeat split; reflexivity. Qed.
Definition ex_config (j : nm) (i : nat) : tf_config :=
  {| cluster := [(str "chief", [str "a:1"]); (str "worker", [str "b:1"; str "c:1"])]; job := j; index := i |}.
Example C107_worker_example : eager (Some (ex_config (str "worker") 1)) = Some {| task_index := 1; worker_size := 2; lr_scaler := 1 |}.
Proof. reflexivity. Qed.
Example C107_devices_example : horovod_devices true [7; 8; 9] 2 = Some [9] /\ horovod_devices true [7; 8; 9] 3 = None.
Proof. split; reflexivity. Qed.

(** Refuted: the seconds per step of a line are those of the steps since the last line. *)
Theorem C107_seconds_refuted : exists n start (run : list (list (batch Z))) o k e g d q, n <> 0 /\ train_log n start run = Some o /\
  In (Line k e g d q) o /\ q <> covered n k.
Proof.
  exists 2, 0%Z, ex_run, [Vars; Line 0 0 (ex_logs 9) 5 2; Line 2 0 (ex_logs 7) 3 2; Line 4 1 (ex_logs 5) 14 2]%Z, 0, 0, (ex_logs 9), 5%Z, 2.
  split; [discriminate|]. split; [vm_compute; reflexivity|]. split; [cbn; tauto|]. vm_compute. discriminate.
Qed.
Print Assumptions C107_seconds_refuted.
(** Refuted: no scalar is written twice for one step. *)
Theorem C107_summary_refuted : exists m (run : list (list (batch Z))) s, m <> 0 /\
  Forall (Forall (fun x => NoDup (map fst (snd x)))) run /\ horovod_summary m run = Some s /\ ~ NoDup (keys s).
Proof.
  exists 2, ex_run, [(str "loss", 9%Z, 0); (str "loss", 7%Z, 2); (str "loss", 6%Z, 0); (str "loss", 4%Z, 2)].
  split; [discriminate|]. split; [repeat constructor; cbn; tauto|]. split; [vm_compute; reflexivity|].
  intros H. inversion H as [|? ? N _]. apply N. cbn. tauto.
Qed.
Print Assumptions C107_summary_refuted.
(** Refuted: evaluation logs the variables of the model once. *)
Theorem C107_vars_refuted : exists n m start (l : list (batch Z)) o s, n <> 0 /\ m <> 0 /\ evaluate n m start l = Some (o, s) /\
  exists o', o = Vars :: o' /\ In Vars o'.
Proof.
  exists 2, 3, 0%Z, (hd [] ex_run). eexists. eexists. split; [discriminate|]. split; [discriminate|]. split; [vm_compute; reflexivity|].
  eexists. split; [reflexivity|]. cbn. tauto.
Qed.
Print Assumptions C107_vars_refuted.
(** Refuted: tasks of a cluster write different files; the size is the number of tasks. *)
Theorem C107_chief_refuted : exists c c' w w', cluster c = cluster c' /\ job c <> job c' /\ eager (Some c) = Some w /\ eager (Some c') = Some w' /\
  (forall dir p, embedding_file dir p w = embedding_file dir p w') /\ (forall dir p, summary_dir dir p w = summary_dir dir p w') /\
  worker_size w <> List.length (List.concat (map snd (cluster c))).
Proof.
  exists (ex_config (str "chief") 0), (ex_config (str "worker") 0), {| task_index := 0; worker_size := 2; lr_scaler := 1 |}, {| task_index := 0; worker_size := 2; lr_scaler := 1 |}.
  repeat split; vm_compute; discriminate.
Qed.
Print Assumptions C107_chief_refuted.
(** Refuted: a checkpoint is saved by one worker of the eager trainer. *)
Theorem C107_checkpoint_refuted : exists c c' w w', cluster c = cluster c' /\ job c = job c' /\ index c <> index c' /\
  eager (Some c) = Some w /\ eager (Some c') = Some w' /\
  forall dir n, eager_saves dir (S n) w <> [] /\ eager_saves dir (S n) w = eager_saves dir (S n) w'.
Proof.
  exists (ex_config (str "worker") 0), (ex_config (str "worker") 1), {| task_index := 0; worker_size := 2; lr_scaler := 1 |}, {| task_index := 1; worker_size := 2; lr_scaler := 1 |}.
  repeat split; try discriminate; vm_compute; discriminate.
Qed.
Print Assumptions C107_checkpoint_refuted.
(** Refuted: Horovod does not depend on TF_CONFIG. *)
Theorem C107_config_refuted : exists c, forall rank size, horovod (Some c) rank size = None /\ horovod None rank size <> None.
Proof. exists {| cluster := [(str "chief", [str "a:1"])]; job := str "chief"; index := 0 |}. intros. split; [reflexivity|discriminate]. Qed.
Print Assumptions C107_config_refuted.
(** Refuted: every seed is set. *)
Theorem C107_seed_refuted : exists s, set_random_seed (Some s) = None.
Proof. exists 0%Z. reflexivity. Qed.
Print Assumptions C107_seed_refuted.
(** Refuted: files for different prefixes are different. *)
Theorem C107_prefix_refuted : exists dir p p' w, p <> p' /\ embedding_file dir p w = embedding_file dir p' w.
Proof. exists (str "/a"), (str "x"), (str "/a/./x"), (ex_worker 0). split; [discriminate|vm_compute; reflexivity]. Qed.
Print Assumptions C107_prefix_refuted.
