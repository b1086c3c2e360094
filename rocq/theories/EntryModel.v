(** Entry points: deepgnn/pytorch/training/factory.py (get_trainer, run_dist),
    deepgnn/tf/common/trainer_factory.py with the assertion of ps_trainer.py, and the run modes of
    examples/tensorflow/sage/main.py, sage/main_unsup.py and gat/main.py in eager mode.

    Stages of a program are opaque: [ok s] says whether the stage returns or raises.  None is an
    exception.  Keras and DataLoader follow the versions pinned in requirements.txt (tensorflow
    2.13.0, torch 1.13.1).  Not modelled: graph mode (tf.Graph, sessions), devices, what models and
    queries compute; the iteration of datasets is in DatasetModel and the samplers are in IterModel. *)
From Verif Require Import Base.
Import ListNotations.
Open Scope list_scope.

(** ** Trainers *)

(** TrainerType, deepgnn/train_types.py 7-21. *)
Inductive ttype := BASE | PS | MULTINODE | HVD | DDP.
Inductive trainer := Plain | DDPTrainer | HVDTrainer | PSTrainer | HorovodTFTrainer | EagerTrainer | HorovodEagerTrainer.

(** get_trainer of factory.py, 44-58. *)
Definition torch_trainer (t : ttype) : option trainer :=
  match t with
  | BASE => Some Plain
  | DDP => Some DDPTrainer
  | HVD => Some HVDTrainer
  | _ => None
  end.

(** _get_tf1_trainer, trainer_factory.py 24-66; PSTrainer asserts trainer == PS. *)
Definition tf1_trainer (t : ttype) : option trainer :=
  match t with
  | HVD => Some HorovodTFTrainer
  | PS => Some PSTrainer
  | _ => None
  end.
(** _get_tf2_trainer, 69-102. *)
Definition tf2_trainer (t : ttype) : option trainer :=
  match t with HVD => Some HorovodEagerTrainer | _ => Some EagerTrainer end.
(** get_trainer, 9-21. *)
Definition tf_trainer (eager : bool) (t : ttype) : option trainer :=
  if eager then tf2_trainer t else tf1_trainer t.

(** ** Stages and the backend *)

Inductive stage := SArgs | STrainer | SBackend | SModel | SData | SEval | SEvalLoader | SOpt | SLoader | SRun.
Inductive event := Did (s : stage) | Raised (s : stage) | Close.

(** Statements one after another, up to the first that raises. *)
Fixpoint stages (ok : stage -> bool) (l : list stage) : list event * bool :=
  match l with
  | [] => ([], true)
  | s :: t =>
      if ok s then let '(e, b) := stages ok t in (Did s :: e, b)
      else ([Raised s], false)
  end.

(** [before], then [with closing(backend): within]: the backend is closed however [within] ends. *)
Definition closing (ok : stage -> bool) (before within : list stage) : list event :=
  let '(e, b) := stages ok before in
  if b then e ++ fst (stages ok within) ++ [Close] else e.

(** run_dist, factory.py 85-137.  [has_eval]: init_eval_dataset_for_training_fn is given;
    [eval_some]: it returned a dataset; [has_opt]: init_optimizer_fn is given. *)
Definition run_dist (ok : stage -> bool) (has_eval eval_some has_opt : bool) : list event :=
  closing ok
    ([SArgs; STrainer; SBackend; SModel; SData]
     ++ (if has_eval then SEval :: (if eval_some then [SEvalLoader] else []) else [])
     ++ (if has_opt then [SOpt] else []))
    [SLoader; SRun].

(** _main of the examples: sage/main.py 221-246, main_unsup.py 229-255. *)
Definition tf_main (ok : stage -> bool) : list event :=
  closing ok [SArgs; STrainer; SBackend] [SModel; SData; SRun].

(** ** Loaders *)

(** num_workers, factory.py 119-124; [ge]: the sampler is a GENodeSampler or GEEdgeSampler. *)
Definition workers (ge windows : bool) (parallel : Z) : Z :=
  if ge || windows then 0%Z else parallel.
(** num_workers of the loader for evaluation, 108-112. *)
Definition eval_workers (ge windows : bool) (parallel : Z) : Z := parallel.

(** DataLoader.__init__ of torch 1.13.1: negative num_workers, a prefetch_factor other than 2
    without workers, and a prefetch_factor that is not positive are rejected. *)
Definition loader_ok (num_workers prefetch : Z) : bool :=
  negb (num_workers <? 0)%Z
  && negb ((num_workers =? 0)%Z && negb (prefetch =? 2)%Z)
  && (0 <? prefetch)%Z.

Definition train_loader_ok (ge windows : bool) (parallel prefetch : Z) : bool :=
  loader_ok (workers ge windows parallel) prefetch.
Definition eval_loader_ok (ge windows : bool) (parallel prefetch : Z) : bool :=
  loader_ok (eval_workers ge windows parallel) prefetch.

(** ** Steps *)

(** [a or b] of Python on None or an int. *)
Definition py_or (a b : option nat) : option nat :=
  match a with Some (S k) => Some (S k) | _ => b end.

Section Runs.
Context {B : Type}.

(** Model.fit over a distributed dataset: one iterator for all epochs; an epoch takes up to [steps]
    batches, the epoch that runs out of data is the last. *)
Fixpoint fit (epochs steps : nat) (data : list B) : list (list B) :=
  match epochs with
  | O => []
  | S e =>
      let l := firstn steps data in
      if length l <? steps then [l] else l :: fit e steps (skipn steps data)
  end.

(** tf_dataset.repeat(epochs): every pass runs the generator again, so passes may be shuffled
    differently; [data e] is pass e. *)
Definition repeated (data : nat -> list B) (epochs : nat) : list B :=
  concat (map data (seq 0 epochs)).

(** run_train of sage/main.py 107-153 and main_unsup.py 120-165 in eager mode: create_tf_dataset
    raises StopIteration for a sampler without batches, both lengths unknown fail the assertion,
    and Keras raises for an epoch of no steps. *)
Definition sage_train (epochs : nat) (param len : option nat) (data : nat -> list B) : option (list (list B)) :=
  match data 0, py_or len param with
  | [], _ | _, None => None
  | _, Some s =>
      if (s =? 0) && negb (epochs =? 0) then None
      else Some (fit epochs s (repeated data epochs))
  end.

(** run_train of gat/main.py 90-126: all epochs flattened into one. *)
Definition gat_train (epochs : nat) (param len : option nat) (data : nat -> list B) : option (list (list B)) :=
  match data 0, py_or len param with
  | [], _ | _, None => None
  | _, Some s =>
      if epochs * s =? 0 then None
      else Some (fit 1 (epochs * s) (repeated data epochs))
  end.

(** FileNodeSampler without shuffle, samplers.py 487-513: the last incomplete batch is dropped or
    padded with [pad]; [fuel] is the number of nodes. *)
Fixpoint batches (fuel : nat) (drop : bool) (b : nat) (pad : B) (nodes : list B) : list (list B) :=
  match fuel, nodes with
  | O, _ | _, [] => []
  | S f, _ =>
      if length nodes <? b
      then if drop then [] else [nodes ++ repeat pad (b - length nodes)]
      else firstn b nodes :: batches f drop b pad (skipn b nodes)
  end.
Definition file_batches (drop : bool) (b : nat) (pad : B) (nodes : list B) : list (list B) :=
  batches (length nodes) drop b pad nodes.
(** __len__, 500-513. *)
Definition file_len (drop : bool) (b : nat) (nodes : list B) : nat :=
  if drop then length nodes / b else (length nodes + (b - 1)) / b.

(** run_inference: create_tf_dataset, then [steps] batches of one pass. *)
Definition inference (drop : bool) (param : option nat) (b : nat) (pad : B) (nodes : list B) : option (list B) :=
  match file_batches drop b pad nodes, py_or (Some (file_len drop b nodes)) param with
  | [], _ | _, None => None
  | bs, Some s => Some (concat (firstn s bs))
  end.
(** sage/main.py 185-208: drop_last=False. *)
Definition sage_inference := inference false.
(** main_unsup.py 193-216: drop_last=True. *)
Definition unsup_inference := inference true.
End Runs.
