(** Learning rates: src/python/deepgnn/pytorch/common/optimization.py and
    Trainer._create_lr_scheduler (pytorch/training/trainer.py 425-435).

    Steps and rates are rationals: warm-up steps of the trainer are a product with a float.  The
    cosine is an argument, [c x] stands for cos (pi * x), and [pw x] for x ** power. *)
From Coq Require Import QArith Qminmax Qround.
From Verif Require Import Base.

Definition qlt (a b : Q) : bool := negb (Qle_bool b a).
Definition warm (step w : Q) : Q := step / Qmax 1 w.
(** get_constant_schedule 37, get_constant_schedule_with_warmup 58-61. *)
Definition constant (step : Q) : Q := 1.
Definition constant_warmup (w step : Q) : Q := if qlt step w then warm step w else 1.
(** get_linear_schedule_with_warmup 88-95. *)
Definition linear (w n step : Q) : Q :=
  if qlt step w then warm step w else Qmax 0 ((n - step) / Qmax 1 (n - w)).
Section Cos.
Variable c : Q -> Q.
(** get_cosine_schedule_with_warmup 129-137. *)
Definition cosine (cycles w n step : Q) : Q :=
  if qlt step w then warm step w else
  let progress := (step - w) / Qmax 1 (n - w) in
  Qmax 0 ((1 # 2) * (1 + c (cycles * 2 * progress))).
(** get_cosine_with_hard_restarts_schedule_with_warmup 170-181. *)
Definition mod1 (x : Q) : Q := x - inject_Z (Qfloor x).
Definition restarts (cycles w n step : Q) : Q :=
  if qlt step w then warm step w else
  let progress := (step - w) / Qmax 1 (n - w) in
  if Qle_bool 1 progress then 0
  else Qmax 0 ((1 # 2) * (1 + c (mod1 (cycles * progress)))).
End Cos.
(** get_polynomial_decay_schedule_with_warmup 222-238. *)
Definition polynomial (pw : Q -> Q) (lr_init lr_end w n step : Q) : res Q :=
  if qlt lr_end lr_init then
    if qlt step w then Ok (warm step w)
    else if qlt n step then
      if Qeq_bool lr_init 0 then Fail EUB else Ok (lr_end / lr_init)
    else
      let decay_steps := n - w in
      if Qeq_bool decay_steps 0 then Fail EUB else           (* ZeroDivisionError *)
      let pct_remaining := 1 - (step - w) / decay_steps in
      let decay := (lr_init - lr_end) * pw pct_remaining + lr_end in
      if Qeq_bool lr_init 0 then Fail EUB else Ok (decay / lr_init)
  else Fail EAssert.

(** LambdaLR multiplies the rate of the optimizer; the trainer steps it after every batch. *)
Record targs := TArgs { t_warmup : Q; t_max_steps : nat; t_epochs : nat }.
Definition schedule_of (a : targs) : option (Q -> Q) :=
  let n := inject_Z (Z.of_nat (t_max_steps a * t_epochs a)) in
  if (0 <? t_max_steps a)%nat then Some (linear (t_warmup a * n) n) else None.
(** The rates of [count] batches from the start of the process; a process that resumes from a
    checkpoint makes a new scheduler (_init_optimizer 149-151, last_epoch = -1). *)
Definition rates (a : targs) (base : Q) (count : nat) : list Q :=
  map (fun t => match schedule_of a with None => base | Some f => base * f (inject_Z (Z.of_nat t)) end) (seq 0 count).
