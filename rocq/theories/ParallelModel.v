(** Data parallel training with PyTorch.
    /repo/src/python/deepgnn/pytorch/training/trainer_ddp.py, trainer_hvd.py, trainer_fp16.py and
    the loops of trainer.py 160-340 that they run in every process (rank).

    A rank is a list of collective operations: what it does between two of them concerns no other
    rank.  A collective operation takes place when all ranks have reached it; if they are at
    different ones, or some have ended, the others wait for ever (NCCL and Gloo match operations
    by their order).  The weights and the optimizer are opaque; the gradient of a batch is the
    mean of the gradients [eg] of its examples ([d] components, exact rationals in lowest terms);
    [upd] is optimizer.step with the schedule, the same deterministic function in all ranks.
    Clipping is an argument.  Not modelled: hvd.join after an epoch, the scaling of losses in half
    precision, buckets, GPU streams. *)
From Verif Require Import Base Dist.
From Coq Require Import QArith.
Local Open Scope Z_scope.

Section Parallel.
Context {W Opt X : Type}.
Variable d : nat.
Variable eg : W -> X -> nat -> Q.
Variable upd : Opt -> W -> list Q -> Opt * W.
Variable clip : list Q -> list Q.

(** loss.backward() of a batch in one process. *)
Definition grad (w : W) (b : list X) : list Q :=
  map (fun k => Qred (qsum (fun x => eg w x k) b / qnat (length b))%Q) (seq 0 d).
(** Averaging all reduce of the gradients of the ranks. *)
Definition average (gs : list (list Q)) : list Q :=
  map (fun k => Qred (qsum (fun g => nth k g 0%Q) gs / qnat (length gs))%Q) (seq 0 d).

Record rank := Rank { r_w : W; r_o : Opt }.

(** _broadcast_model_state (trainer_ddp.py 82-87): rank 0 has loaded a checkpoint, the others take
    its weights. *)
Definition broadcast (rs : list rank) : list rank :=
  match rs with
  | [] => []
  | r0 :: _ => map (fun r => Rank (r_w r0) (r_o r)) rs
  end.

(** One step of all ranks: DDP averages during backward, then every rank clips and steps
    (trainer.py 277-286; trainer_fp16.py 87-118 in the same order). *)
Definition ddp_step (bs : list (list X)) (rs : list rank) : list rank :=
  let g := clip (average (map (fun '(r, b) => grad (r_w r) b) (combine rs bs))) in
  map (fun r => let x := upd (r_o r) (r_w r) g in Rank (snd x) (fst x)) rs.
(** Horovod, without half precision: backward starts the reduction of every gradient, then the
    trainer clips the gradients of the rank, and optimizer.step waits for the reduction and takes
    its result.  [seen]: the reduction of the rank has read the clipped gradient. *)
Definition hvd_step (seen : list bool) (bs : list (list X)) (rs : list rank) : list rank :=
  let g := average (map (fun '((r, b), s) => let g := grad (r_w r) b in if (s : bool) then clip g else g) (combine (combine rs bs) seen)) in
  map (fun r => let x := upd (r_o r) (r_w r) g in Rank (snd x) (fst x)) rs.
(** Horovod with half precision (trainer_hvd.py 71-89): synchronize, then clip, then step. *)
Definition hvd_half_step (bs : list (list X)) (rs : list rank) : list rank := ddp_step bs rs.

(** ** Programs of the ranks *)
Inductive op := OTrain (b : list X) | OForward | OReduce.
Record config := Config {
  c_epochs : Z;             (* --num_epochs *)
  c_max_steps : Z;
  c_eval_by : Z;            (* --eval_during_train_by_steps *)
  c_buffers : bool }.       (* the model has buffers: DDP broadcasts them in every forward pass *)
Variable cfg : config.

Definition stop (step : Z) : bool := (0 <? c_max_steps cfg) && (c_max_steps cfg <=? step).
(** _evaluate during training (trainer.py 288-339, trainer_ddp.py 31-40) of a rank with [n] batches
    of evaluation data, then the reductions of metric and loss. *)
Fixpoint eval_batches (n : nat) (step : Z) : nat :=
  match n with O => O | S m => S (if stop step then O else eval_batches m step) end.
Definition eval_ops (n : nat) (step : Z) : list op :=
  (if c_buffers cfg then repeat OForward (eval_batches n step) else []) ++ [OReduce; OReduce].
(** _train_one_epoch 176-187 and _train_one_step 193-275. *)
Fixpoint epoch_ops (evals : nat) (i step : Z) (l : list (list X)) : list op :=
  match l with
  | [] => []
  | b :: t =>
      if i <? step then epoch_ops evals (i + 1) step t
      else
        let step := step + 1 in
        OTrain b ::
        (if (0 <? c_eval_by cfg) && (step mod c_eval_by cfg =? 0) then eval_ops evals step else []) ++
        (if stop step then [] else epoch_ops evals (i + 1) step t)
  end.
Fixpoint train_ops (evals : nat) (n : nat) (step : Z) (data : nat -> list (list X)) (k : nat) : list op :=
  match n with
  | O => []
  | S m => epoch_ops evals 0 step (data k) ++ train_ops evals m 0 data (S k)
  end.
(** _train 167-174: epoch and step come from the newest checkpoint the rank finds. *)
Definition rank_ops (evals : nat) (epoch step : Z) (data : nat -> list (list X)) : list op :=
  train_ops evals (Z.to_nat (c_epochs cfg - epoch)) step data 0.

(** All ranks together. *)
Inductive outcome := Done (rs : list rank) | Stuck (rs : list rank).
Definition trains (ps : list (list op)) : option (list (list X) * list (list op)) :=
  fold_right (fun p acc => match p, acc with OTrain b :: p', Some (bs, ps') => Some (b :: bs, p' :: ps') | _, _ => None end) (Some ([], [])) ps.
Definition forwards (ps : list (list op)) : option (list (list op)) :=
  fold_right (fun p acc => match p, acc with OForward :: p', Some ps' => Some (p' :: ps') | _, _ => None end) (Some []) ps.
Definition reduces (ps : list (list op)) : option (list (list op)) :=
  fold_right (fun p acc => match p, acc with OReduce :: p', Some ps' => Some (p' :: ps') | _, _ => None end) (Some []) ps.
Definition ended (ps : list (list op)) : bool := forallb (fun p => match p with [] => true | _ => false end) ps.
Fixpoint lockstep (fuel : nat) (ps : list (list op)) (rs : list rank) : outcome :=
  if ended ps then Done rs
  else
    match fuel with
    | O => Stuck rs
    | S f =>
        match trains ps with
        | Some (bs, ps') => lockstep f ps' (ddp_step bs rs)
        | None =>
            match forwards ps with
            | Some ps' => lockstep f ps' rs
            | None => match reduces ps with Some ps' => lockstep f ps' rs | None => Stuck rs end
            end
        end
    end.
(** Enough fuel: every operation takes one from the first program. *)
Definition ddp_train (ps : list (list op)) (rs : list rank) : outcome :=
  lockstep (length (hd [] ps)) ps (broadcast rs).
End Parallel.

(** ** Evaluation *)
(** _evaluate 322-339 of a rank: np.mean of the values of the batches, 0 without batches. *)
Definition rank_mean (l : list Q) : Q := match l with [] => 0%Q | _ => (qsum (fun x => x) l / qnat (length l))%Q end.
(** _allreduce (trainer_ddp.py 97-101): SUM, then divided by world_size; hvd.allreduce averages. *)
Definition reduced (ls : list (list Q)) : Q := (qsum rank_mean ls / qnat (length ls))%Q.

(** The training loss written every [every] steps (trainer.py 181-184, 201, 222-231): train_losses is
    emptied before every step. *)
Fixpoint reported (every step : Z) (losses : list Q) : list (Z * Q) :=
  match losses with
  | [] => []
  | x :: t =>
      let step := step + 1 in
      let train_losses := [x] in
      (if (0 <? every) && (step mod every =? 0) then [(step, rank_mean train_losses)] else []) ++ reported every step t
  end.
