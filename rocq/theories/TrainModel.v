(** The training loop of the PyTorch trainer, its checkpoints and their rotation.
    Code: src/python/deepgnn/pytorch/training/trainer.py 47-62, 167-213, 279-321, 335-341, 371-387, 401-486,
    src/python/deepgnn/pytorch/common/utils.py 130-173.

    The model, the optimizer and a batch are opaque: [update] is zero_grad, forward, backward and
    optimizer.step, given the position of the learning rate schedule.  [data k] are the batches
    the dataset yields the k-th time it is iterated in a process.

    Simplifications: one process (the ranks of DDP and Horovod run the same loop, only rank 0
    saves, and the state of rank 0 is broadcast after loading); torch.save writes a whole file or
    none; model_dir and save_path are one directory, and it has no other files that match
    "gnnmodel-*"; logging, summaries and evaluation metrics are left out. *)
From Verif Require Import Base.
From Coq Require Import ZifyBool ZifyNat.
Local Open Scope Z_scope.

(** ** Names of checkpoints: f"gnnmodel-{epoch:03}-{self.step:06}.pt" (trainer.py 442-445) *)
Fixpoint digits (fuel : nat) (n : Z) : list Z :=
  match fuel with
  | O => []
  | S k => if n <? 10 then [n] else digits k (n / 10) ++ [n mod 10]
  end.
(** "{n:0w}" for n >= 0. *)
Definition fmt (w : nat) (n : Z) : list Z :=
  let d := digits (S (Z.to_nat (Z.log2 n))) n in repeat 0 (w - length d) ++ d.
(** The group of the regular expression, as character codes. *)
Definition key (epoch step : Z) : list Z := map (Z.add 48) (fmt 3 epoch) ++ 45 :: map (Z.add 48) (fmt 6 step).

(** Python's order of strings. *)
Fixpoint leb (a b : list Z) : bool :=
  match a, b with
  | [], _ => true
  | _ :: _, [] => false
  | x :: a', y :: b' => if x <? y then true else if y <? x then false else leb a' b'
  end.

Section Trainer.
Variables (batch weights optimizer : Type).
Variable update : weights -> optimizer -> option nat -> batch -> weights * optimizer.
Variable data : nat -> list batch.

Record ckpt := Ck { c_epoch : Z; c_step : Z; c_weights : weights }.
Definition ckey (c : ckpt) : list Z := key (c_epoch c) (c_step c).

(** get_sorted_checkpoints (utils.py 130-148), sorted by name: trainer.py 455 and 460 do not
    hand on --sort_ckpt_by_mtime. *)
Fixpoint insert (c : ckpt) (l : list ckpt) : list ckpt :=
  match l with
  | [] => [c]
  | x :: t => if leb (ckey c) (ckey x) then c :: l else x :: insert c t
  end.
Definition sorted (dir : list ckpt) : list ckpt := fold_right insert [] dir.

(** torch.save to a file name. *)
Definition put (c : ckpt) (dir : list ckpt) : list ckpt :=
  filter (fun x => negb ((c_epoch x =? c_epoch c) && (c_step x =? c_step c))) dir ++ [c].
(** rotate_checkpoints (utils.py 151-173). *)
Definition rotate (max_saved : Z) (dir : list ckpt) : list ckpt :=
  if (0 <? max_saved) && (max_saved <? Z.of_nat (length dir))
  then skipn (length dir - Z.to_nat max_saved) (sorted dir)
  else dir.

Record config := Config {
  num_epochs : Z;
  save_by_steps : Z;
  save_by_epochs : Z;
  max_saved : Z;
  max_steps : Z;
  rank0 : bool }.
Variable cfg : config.

(** [past]: the contents the directory has had since the process started. *)
Record state := State {
  step : Z;
  model : weights;
  opt : optimizer;
  position : nat;
  dir : list ckpt;
  past : list (list ckpt) }.

Definition should_stop (st : state) : bool := (0 <? max_steps cfg) && (max_steps cfg <=? step st). (* 405-406 *)

(** _save_checkpoint 437-455. *)
Definition save (epoch : Z) (st : state) : state :=
  if (0 <? max_steps cfg) && (step st =? max_steps cfg) then st
  else
    let d1 := put (Ck epoch (step st) (model st)) (dir st) in
    let d2 := rotate (max_saved cfg) d1 in
    State (step st) (model st) (opt st) (position st) d2 (past st ++ [d1; d2]).

(** _train_one_step 193-208 with the scheduler of 425-435. *)
Definition one_step (epoch : Z) (b : batch) (st : state) : state :=
  let pos := if 0 <? max_steps cfg then Some (position st) else None in
  let x := update (model st) (opt st) pos b in
  let st := State (step st + 1) (fst x) (snd x) (S (position st)) (dir st) (past st) in
  if rank0 cfg && (0 <? save_by_steps cfg) && (step st mod save_by_steps cfg =? 0) then save epoch st else st.

(** The loop of _train_one_epoch 176-187 from batch [i] on. *)
Fixpoint batches (epoch i : Z) (l : list batch) (st : state) : state :=
  match l with
  | [] => st
  | b :: t =>
      if i <? step st then batches epoch (i + 1) t st
      else
        let st := one_step epoch b st in
        if should_stop st then st else batches epoch (i + 1) t st
  end.
(** _train_one_epoch 176-191; a zero --save_ckpt_by_epochs raises ZeroDivisionError. *)
Definition one_epoch (epoch : Z) (l : list batch) (st : state) : res state :=
  let st := batches epoch 0 l st in
  let st := State 0 (model st) (opt st) (position st) (dir st) (past st) in
  if rank0 cfg then
    if save_by_epochs cfg =? 0 then Fail EAssert
    else Ok (if epoch mod save_by_epochs cfg =? 0 then save (epoch + 1) st else st)
  else Ok st.

(** range(epochs_trained, num_epochs): [n] epochs from [epoch] on, the [k]-th time the dataset
    is iterated. *)
Fixpoint epochs (n : nat) (k : nat) (epoch : Z) (st : state) : res state :=
  match n with
  | O => Ok st
  | S m => do st <- one_epoch epoch (data k) st ;; epochs m (S k) (epoch + 1) st
  end.

(** _load_checkpoint 457-479, _train 167-174: a new process with freshly initialised [w0], [o0]. *)
Definition start (w0 : weights) (o0 : optimizer) (d : list ckpt) : Z * state :=
  match rev (sorted d) with
  | c :: _ => (c_epoch c, State (c_step c) (c_weights c) o0 0 d [])
  | [] => (0, State 0 w0 o0 0 d [])
  end.
Definition run (w0 : weights) (o0 : optimizer) (d : list ckpt) : res state :=
  let x := start w0 o0 d in
  epochs (Z.to_nat (num_epochs cfg - fst x)) 0 (fst x) (snd x).

(** _evaluate 305-320: the batches that are evaluated.  During training (mode TRAIN) the step is
    the one of the training. *)
Fixpoint evaluated (training : bool) (s : Z) (l : list batch) : list batch :=
  match l with
  | [] => []
  | b :: t =>
      let s := if training then s else s + 1 in
      b :: (if (0 <? max_steps cfg) && (max_steps cfg <=? s) then [] else evaluated training s t)
  end.
(** _inference 375-380. *)
Definition inferred (l : list batch) : list batch := evaluated false 0 l.
End Trainer.

(** _init_max_steps 481-486. *)
Definition steps_limit (max_samples world batch_size : Z) : Z :=
  if 0 <? max_samples then max_samples / (world * batch_size) else -1.
