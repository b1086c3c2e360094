(** What entry points should do, without the model's helpers. *)
From Verif Require Import Base EntryModel.
Import ListNotations.

(** The choices of --trainer: deepgnn/pytorch/training/args.py 16 and deepgnn/tf/common/args.py 28. *)
Definition torch_choices : list ttype := [BASE; HVD; DDP].
Definition tf_choices : list ttype := [PS; HVD; MULTINODE].

Definition uses_horovod (t : trainer) : Prop := t = HVDTrainer \/ t = HorovodTFTrainer \/ t = HorovodEagerTrainer.
Definition is_eager (t : trainer) : Prop := t = EagerTrainer \/ t = HorovodEagerTrainer.
Definition uses_ps (t : trainer) : Prop := t = PSTrainer.

Definition opened (l : list event) : Prop := In (Did SBackend) l.
(** Closed once, after everything else. *)
Definition closed_last (l : list event) : Prop := exists l', l = l' ++ [Close] /\ ~ In Close l'.
Definition raised (l : list event) : Prop := exists s, In (Raised s) l.

(** [k] is the padding of a list of [n] to whole batches of [b]. *)
Definition padding (n b k : nat) : Prop := k < b /\ exists q, n + k = q * b.

(** Stages of run_dist that have to return before the loader and the run. *)
Definition needed (has_eval eval_some has_opt : bool) (s : stage) : Prop :=
  match s with
  | SEval => has_eval = true
  | SEvalLoader => has_eval = true /\ eval_some = true
  | SOpt => has_opt = true
  | SLoader | SRun => False
  | _ => True
  end.
