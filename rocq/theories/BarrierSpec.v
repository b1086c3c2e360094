(** What a barrier is, apart from the files. *)
From Verif Require Import Base BarrierModel.

(** The calls a task has begun, and those that returned. *)
Definition begun (p : pc) : nat := match p with Sync k => k | Check k _ => S k | _ => 0 end.
Definition returned (p : pc) : nat := match p with Sync k | Check k _ => k | _ => 0 end.

Definition called (prog : nat -> list nat) (st : state) (t tag : nat) : Prop := In tag (firstn (begun (pcs st t)) (prog t)).
Definition passed (prog : nat -> list nat) (st : state) (t tag : nat) : Prop := In tag (firstn (returned (pcs st t)) (prog t)).
Definition finished (prog : nat -> list nat) (st : state) (t : nat) : Prop := pcs st t = Sync (length (prog t)).

(** The constructor of task 0 has returned. *)
Definition leader_ready (st : state) : Prop := match pcs st 0 with New | Clean _ => False | _ => True end.

(** The states after [m] accesses: the other tasks call sync only when the constructor of task 0
    has returned ("Task with index 0 must be called first"). *)
Inductive reached (tasks : nat) (prog : nat -> list nat) (stale : list file) : nat -> state -> Prop :=
| reached_init : reached tasks prog stale 0 (init stale)
| reached_step m st t st' :
    reached tasks prog stale m st -> t < tasks -> step tasks prog st t = Some st' ->
    (t <> 0 -> pcs st t <> New -> leader_ready st) ->
    reached tasks prog stale (S m) st'.

(** All tasks call the same tags in one order, each of them once or several times. *)
Definition same_tags (tasks : nat) (prog : nat -> list nat) : Prop :=
  exists rank : nat -> nat,
    (forall t t' g, t < tasks -> t' < tasks -> In g (prog t) -> In g (prog t'))
    /\ (forall t g g', t < tasks -> In g (prog t) -> In g' (prog t) -> rank g = rank g' -> g = g')
    /\ (forall t i j g g', t < tasks -> i <= j -> nth_error (prog t) i = Some g -> nth_error (prog t) j = Some g' ->
        rank g <= rank g').
