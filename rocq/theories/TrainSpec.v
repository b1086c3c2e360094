(** What training should do: every batch of every epoch once, in order, whatever is interrupted. *)
From Verif Require Import Base TrainModel.
Local Open Scope Z_scope.

(** Of two points of the training, the first is not later. *)
Definition earlier (p q : Z * Z) : Prop := fst p < fst q \/ fst p = fst q /\ snd p <= snd q.

Section Spec.
Context {batch weights optimizer : Type}.

(** The batches of an epoch. *)
Definition taken (limit : Z) (l : list batch) : list batch :=
  if 0 <? limit then firstn (Z.to_nat limit) l else l.

(** Training with an optimizer and a schedule, without interruption. *)
Definition train_all (update : weights -> optimizer -> option nat -> batch -> weights * optimizer) (scheduled : bool)
    (x : weights * optimizer * nat) (l : list batch) : weights * optimizer * nat :=
  fold_left (fun x b => (update (fst (fst x)) (snd (fst x)) (if scheduled then Some (snd x) else None) b, S (snd x))) l x.

(** The weights after [e] epochs over [l] and [s] batches more. *)
Definition weights_at (f : weights -> batch -> weights) (w0 : weights) (l : list batch) (e s : Z) : weights :=
  fold_left f (concat (repeat l (Z.to_nat e)) ++ firstn (Z.to_nat s) l) w0.

Definition point (c : ckpt weights) : Z * Z := (c_epoch _ c, c_step _ c).

(** The checkpoint a new process would load. *)
Definition loads (d : list (ckpt weights)) (c : ckpt weights) : Prop :=
  exists l, sorted _ d = l ++ [c].

(** The directories that processes, each of them interrupted at any moment, can leave behind. *)
Inductive left_behind (update : weights -> optimizer -> option nat -> batch -> weights * optimizer)
    (data : nat -> list batch) (cfg : config) (w0 : weights) : list (ckpt weights) -> Prop :=
| left_nothing : left_behind update data cfg w0 []
| left_by (d d' : list (ckpt weights)) (w : weights) (o : optimizer) (st : state weights optimizer) :
    left_behind update data cfg w0 d ->
    (d = [] -> w = w0) ->
    run _ _ _ update data cfg w o d = Ok st ->
    In d' (past _ _ st) ->
    left_behind update data cfg w0 d'.
End Spec.
