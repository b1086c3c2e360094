(** Servers of the distributed client: deepgnn/graph_engine/snark/distributed.py, and the barrier
    of the Azure ML example examples/pytorch/aml.py.

    Workers of the example are state machines; an event is one call of the actor ServerLock, or one
    action of a worker; an execution is a list of events.  Ray runs the calls of one worker in
    their order, calls of different workers in any.  A poll without success changes nothing and is
    not an event.  Not modelled: Ray itself, the work between the two barriers. *)
From Verif Require Import Base FilesModel.
From Coq Require Import Ascii String NArith DecimalNat.
Import ListNotations.
Open Scope list_scope.

(** range(a, b, s) for s > 0. *)
Definition py_range (a b s : nat) : list nat := map (fun k => a + k * s) (seq 0 ((b - a + s - 1) / s)).
(** Server.__init__, 95-100: None for the ValueError of range with step 0. *)
Definition shard {P} (path : P) (count index total : nat) : option (list (P * nat)) :=
  if total =? 0 then None else Some (combine (repeat path count) (py_range index count total)).

(** Client.__init__ 21-39 and __reduce__ 49-56 *)
Inductive target := OneServer (s : nm) | Servers (l : list nm).
Record client := { servers : list nm; ssl_cert : option nm; grpc : option (list (nm * nm)); threads : option nat; queues : option nat }.
Definition new_client (t : target) (ssl : option nm) (g : option (list (nm * nm))) (th q : option nat) : client :=
  {| servers := match t with OneServer s => [s] | Servers l => l end; ssl_cert := ssl; grpc := g; threads := th; queues := q |}.
Definition reload (c : client) : client := new_client (Servers (servers c)) (ssl_cert c) None None None.

(** The address of a worker, aml.py 93, and its port. *)
Definition address (rank : nat) : nm := str "127.0.0.1:999" ++ dec rank.
Definition port (rank : nat) : N := N.of_uint (Decimal.D9 (Decimal.D9 (Decimal.D9 (Nat.to_uint rank)))).

Section Barrier.
Variable n : nat.    (* world_size *)

(** Where a worker is: before __enter__, after put 71, after set_lock 72 and polling wait_set,
    in the context, with the addresses it got 83-85, after release_lock 79 and polling wait_released,
    after __exit__. *)
Inductive place := Before | Told | Polling | Inside | Working (l : list (option nm)) | Leaving | Gone.
(** ServerLock, 26-56 *)
Record state := { at_ : nat -> place; locks : nat -> nat; cache : nat -> option nm }.
Definition init : state := {| at_ := fun _ => Before; locks := fun _ => 0; cache := fun _ => None |}.
Definition upd {A} (f : nat -> A) (i : nat) (a : A) : nat -> A := fun j => if j =? i then a else f j.

Inductive event := Put (i : nat) | SetLock (i : nat) | WaitSet (i : nat) | GetAddress (i : nat) | Release (i : nat) | WaitReleased (i : nat).
(** wait_set 42-44, wait_released 46-48 *)
Definition all_locks (st : state) (v : nat) : bool := forallb (fun i => locks st i =? v) (seq 0 n).
Definition go (st : state) (i : nat) (p : place) : state := {| at_ := upd (at_ st) i p; locks := locks st; cache := cache st |}.

Definition step (st : state) (e : event) : option state :=
  match e with
  | Put i =>
      match at_ st i with
      | Before => Some {| at_ := upd (at_ st) i Told; locks := locks st; cache := upd (cache st) i (Some (address i)) |}
      | _ => None
      end
  | SetLock i =>
      match at_ st i with
      | Told => Some {| at_ := upd (at_ st) i Polling; locks := upd (locks st) i 1; cache := cache st |}
      | _ => None
      end
  | WaitSet i =>
      match at_ st i with
      | Polling => if all_locks st 1 then Some (go st i Inside) else None
      | _ => None
      end
  | GetAddress i =>
      match at_ st i with
      | Inside => Some (go st i (Working (map (cache st) (seq 0 n))))
      | _ => None
      end
  | Release i =>
      match at_ st i with
      | Inside | Working _ => Some {| at_ := upd (at_ st) i Leaving; locks := upd (locks st) i 2; cache := cache st |}
      | _ => None
      end
  | WaitReleased i =>
      match at_ st i with
      | Leaving => if all_locks st 2 then Some (go st i Gone) else None
      | _ => None
      end
  end.
Definition who (e : event) : nat := match e with Put i | SetLock i | WaitSet i | GetAddress i | Release i | WaitReleased i => i end.
(** Only the workers of the world act. *)
Definition next (st : state) (e : event) : option state := if who e <? n then step st e else None.
Fixpoint run (st : state) (es : list event) : option state :=
  match es with
  | [] => Some st
  | e :: t => match next st e with Some st' => run st' t | None => None end
  end.
End Barrier.
