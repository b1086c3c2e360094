(** Eager trainers of TensorFlow: deepgnn/tf/common/tf2_trainer.py, tf2_horovod_trainer.py and the
    fields of base_trainer.py they use.

    Keras calls the callbacks; an execution is the list of the epochs it ran, an epoch is the list
    of its batches, a batch has the time at which the callback ran and the logs Keras gave it.
    Both are any.  Numbers of batches start with 0 in every epoch; ModelCheckpoint saves at the end
    of every epoch.  None is ZeroDivisionError.  Not modelled: TensorBoard, telemetry, formatting
    of numbers, the work of the model; what is written into files of embeddings is in EmbedFileModel. *)
From Verif Require Import Base FilesModel CkptModel.
From Coq Require Import Ascii String.
Import ListNotations.
Open Scope list_scope.

Section Callbacks.
Context {V : Type}.
Definition logs : Type := list (nm * V).

Definition batch : Type := Z * logs.

Inductive event := EpochBegin (e : nat) | BatchEnd (b : nat) (x : batch).
(** What Keras calls: on_epoch_begin(e), then on_batch_end(b, logs). *)
Fixpoint batches (b : nat) (l : list batch) : list event :=
  match l with [] => [] | x :: t => BatchEnd b x :: batches (S b) t end.
Fixpoint epochs (e : nat) (run : list (list batch)) : list event :=
  match run with [] => [] | l :: t => (EpochBegin e :: batches 0 l) ++ epochs (S e) t end.

(** What the logger writes: the variables of the model (log_model_info), or a line with the number
    of the step, the epoch, the logs and [delta] / [per] seconds for each step. *)
Inductive out := Vars | Line (step epoch : nat) (l : logs) (delta : Z) (per : nat).

(** _LoggerCallback, 34-48; _timer is a _Stopwatch, 23-31. *)
Record cb := { first : bool; steps : nat; epoch : nat; prev : Z }.
Definition new_cb (now : Z) : cb := {| first := true; steps := 0; epoch := 0; prev := now |}.

(** _log_step, 64-76; [n] is log_save_steps. *)
Definition log_step (n : nat) (x : batch) (c : cb) : option (cb * list out) :=
  let vars := if first c then [Vars] else [] in
  if n =? 0 then None
  else if negb (steps c mod n =? 0)
  then Some ({| first := false; steps := steps c; epoch := epoch c; prev := prev c |}, vars)
  else Some ({| first := false; steps := steps c; epoch := epoch c; prev := fst x |},
             vars ++ [Line (steps c) (epoch c) (snd x) (fst x - prev c)%Z n]).
(** on_batch_end, on_test_batch_end, 50-56 *)
Definition batch_end (n : nat) (x : batch) (c : cb) : option (cb * list out) :=
  match log_step n x c with
  | None => None
  | Some (c', o) => Some ({| first := first c'; steps := S (steps c'); epoch := epoch c'; prev := prev c' |}, o)
  end.
Definition on_event (n : nat) (ev : event) (c : cb) : option (cb * list out) :=
  match ev with
  | EpochBegin e => Some ({| first := first c; steps := steps c; epoch := e; prev := prev c |}, [])   (* 61-62 *)
  | BatchEnd _ x => batch_end n x c
  end.
Fixpoint logged (n : nat) (evs : list event) (c : cb) : option (list out) :=
  match evs with
  | [] => Some []
  | ev :: t =>
      match on_event n ev c with
      | None => None
      | Some (c', o) => option_map (app o) (logged n t c')
      end
  end.
(** EagerTrainer._train_impl, 230-266: what the log callback writes. *)
Definition train_log (n : nat) (start : Z) (run : list (list batch)) : option (list out) :=
  logged n (epochs 0 run) (new_cb start).

(** _save_summary, 215-219: the name, the value and the step of every scalar; [m] is
    summary_save_steps. *)
Definition save_summary (m step : nat) (l : logs) : option (list (nm * V * nat)) :=
  if m =? 0 then None
  else Some (if step mod m =? 0 then map (fun nv => (fst nv, snd nv, step)) l else []).
Fixpoint summaries (m : nat) (evs : list event) : option (list (nm * V * nat)) :=
  match evs with
  | [] => Some []
  | EpochBegin _ :: t => summaries m t
  | BatchEnd b x :: t =>
      match save_summary m b (snd x) with
      | None => None
      | Some s => option_map (app s) (summaries m t)
      end
  end.
(** HorovodEagerTrainer._train_impl, 72-105 *)
Definition horovod_summary (m : nat) (run : list (list batch)) : option (list (nm * V * nat)) := summaries m (epochs 0 run).

(** _eval_impl, 324-348: one pass; batch_callback comes before log_callback, so that the variables
    of the model are logged by _log_fn, 328-331, and again by the log callback. *)
Fixpoint eval_events (n m : nat) (evs : list event) (c : cb) : option (list out * list (nm * V * nat)) :=
  match evs with
  | [] => Some ([], [])
  | EpochBegin _ :: t => eval_events n m t c
  | BatchEnd b x :: t =>
      match save_summary m b (snd x), batch_end n x c with
      | Some s, Some (c', o) =>
          match eval_events n m t c' with
          | Some (o', s') => Some ((if b =? 0 then [Vars] else []) ++ o ++ o', s ++ s')
          | None => None
          end
      | _, _ => None
      end
  end.
Definition evaluate (n m : nat) (start : Z) (pass : list batch) : option (list out * list (nm * V * nat)) :=
  eval_events n m (batches 0 pass) (new_cb start).
End Callbacks.
Arguments event : clear implicits.
Arguments out : clear implicits.
Arguments batch : clear implicits.
Arguments logs : clear implicits.

(** _save_checkpoint, 221-228; the clock is read for the test and after the saving.  [ckpt] is
    _ckpt_time; every call has the two times, [ask] is the first, [done] the second. *)
Record call := { force : bool; ask : Z; done : Z }.
Fixpoint saves (task : nat) (secs : Z) (ckpt : Z) (l : list call) : list call :=
  match l with
  | [] => []
  | k :: t =>
      if (task =? 0) && (force k || (secs <? ask k - ckpt)%Z)
      then k :: saves task secs (done k) t
      else saves task secs ckpt t
  end.

(** os.path.join for two parts. *)
Definition path (a b : nm) : nm :=
  match b with
  | "/"%char :: _ => b
  | _ =>
      match rev a with
      | [] => b
      | "/"%char :: _ => a ++ b
      | _ => a ++ "/"%char :: b
      end
  end.

(** TF_CONFIG: the addresses of the jobs, and the job and the index of this process. *)
Record tf_config := { cluster : list (nm * list nm); job : nm; index : nat }.
Definition find_job (j : nm) (c : tf_config) : option (list nm) :=
  option_map snd (List.find (fun kv => nm_eqb (fst kv) j) (cluster c)).
Record worker := { task_index : nat; worker_size : nat; lr_scaler : nat }.
(** EagerTrainer.__init__, 96-102, 118: None for the KeyError without workers. *)
Definition eager (config : option tf_config) : option worker :=
  match config with
  | None => Some {| task_index := 0; worker_size := 1; lr_scaler := 1 |}
  | Some c =>
      option_map (fun ws => {| task_index := index c; worker_size := List.length ws; lr_scaler := 1 |})
                 (find_job (str "worker") c)
  end.
(** HorovodEagerTrainer.__init__, 35-53 *)
Definition horovod (config : option tf_config) (rank size : nat) : option worker :=
  option_map (fun _ => {| task_index := rank; worker_size := size; lr_scaler := size |}) (eager config).

(** base_trainer.py 34, tf2_trainer.py 119 *)
Definition model_dir (dir : nm) : nm := path dir (str "./").
Definition checkpoint_file (dir : nm) : nm := path (model_dir dir) (str "ckpt").
(** _get_summary_writer, 210-213 *)
Definition summary_dir (dir name : nm) (w : worker) : nm :=
  path (path (model_dir dir) name) (str "worker_" ++ dec (task_index w)).
(** _inference_impl, 415-418 *)
Definition embedding_file (dir prefix : nm) (w : worker) : nm :=
  path (model_dir dir) (prefix ++ str "_" ++ dec (task_index w) ++ str ".tsv").

(** The files ModelCheckpoint writes in [n] epochs: tf2_trainer.py 245, tf2_horovod_trainer.py 90-94. *)
Definition eager_saves (dir : nm) (n : nat) (w : worker) : list nm := repeat (checkpoint_file dir) n.
Definition horovod_saves (dir : nm) (n : nat) (w : worker) : list nm :=
  if task_index w =? 0 then repeat (checkpoint_file dir) n else [].

(** set_random_seed, 128-133: the seed of TensorFlow, numpy and random. *)
Definition set_random_seed (seed : option Z) : option Z :=
  match seed with Some s => if (s =? 0)%Z then None else Some s | None => None end.

(** _set_gpu_device: tf2_trainer.py 135-144, tf2_horovod_trainer.py 55-70; None for the assert. *)
Definition eager_devices {G} (gpu : bool) (gpus : list G) : list G := if gpu then gpus else [].
Definition horovod_devices {G} (gpu : bool) (gpus : list G) (local_rank : nat) : option (list G) :=
  if gpu
  then if local_rank <? List.length gpus then option_map (fun g => [g]) (nth_error gpus local_rank) else None
  else Some [].
