(** One request of the distributed client to all servers and the threads that process replies:
    /repo/src/cc/lib/distributed/client.cc (AsyncClientCall 34-47, WaitForFutures 49-55, the
    constructor 164-186, AsyncCompleteRpc 188-230; the loop over the shards has the same shape
    in every request, e.g. GetNodeType 232-282).  The caller and the threads are state machines,
    one event is one action on shared memory and an execution is a list of events.

    Shared memory of a request: the call object of every shard (status, callback, promise) and
    the locals of the caller (replies, output, found, ...), which go away when the caller
    returns or throws.  gRPC writes the reply into the locals and the status into the call
    object before the event shows up in the completion queue.  The mutex inside callbacks, the
    cancellation of requests (there is none) and exceptions while requests are sent are left
    out. *)
From Verif Require Import Base.

(** *** The threads: constructor 172-186 *)
(** uint32 arithmetic. *)
Definition num_queues (num_threads per_queue : N) : N :=
  let t := N.max 1 num_threads in
  let p := N.max 1 per_queue in
  ((t + p - 1) mod 2 ^ 32 / p)%N.
(** The queue of thread i, 184. *)
Definition thread_queue (num_threads per_queue i : N) : N := (i mod num_queues num_threads per_queue)%N.
(** NextCompletionQueue 1086: m_counter++ % size. *)
Definition next_queue (num_threads per_queue counter : N) : N := (counter mod num_queues num_threads per_queue)%N.

(** *** One request *)
(** A shard: nothing yet, call object allocated, future taken, request sent, reply in the queue
    with its status, taken by a thread, callback done (did it return?), promise set, call object
    deleted.  The last two remember what the callback did, None if it was not run. *)
Inductive shard :=
| HNone | HAlloc | HFuture | HSent | HLanded (ok : bool) | HTaken (ok : bool) | HRan (ok : bool)
| HSet (ran : option bool) | HDeleted (ran : option bool).
(** The caller: sending to shard k, waiting for future k, returned, threw at future k. *)
Inductive caller := KSend (k : nat) | KWait (k : nat) | KReturned | KThrew (k : nat).
(** [fut k] is the state promise and future k share, [busy q] the number of threads of queue q
    that process a reply. *)
Record state := State { who : caller; sh : nat -> shard; fut : nat -> option bool; busy : nat -> nat }.

Definition upd {A} (f : nat -> A) (i : nat) (a : A) : nat -> A := fun j => if j =? i then a else f j.

Inductive event :=
| ENew (k : nat)                  (* new AsyncClientCall, Prepare..., callback = ... 247-265 *)
| EFuture (k : nat)               (* futures.emplace_back(call->promise.get_future()) 269 *)
| ESend (k : nat)                 (* StartCall, Finish 270-271 *)
| ELand (k : nat) (ok : bool)     (* gRPC stores reply and status *)
| ETake (k : nat)                 (* queue.Next 194 *)
| ECallback (k : nat) (ok : bool) (* call->callback() 203, and whether it returns *)
| EPromise (k : nat)              (* set_value 204 or set_exception 209, 222 *)
| EDelete (k : nat)               (* delete call 227 *)
| EWait (k : nat)                 (* WaitForFutures: f.get() returns 53 *)
| EThrow (k : nat)                (* WaitForFutures: f.get() throws 53, the caller unwinds *)
| EReturn.                        (* the caller is done *)

Section Call.
Variable n : nat.                 (* m_engine_stubs.size() *)
Variable queue : nat -> nat.      (* completion queue of each shard *)
Variable threads : nat -> nat.    (* threads of each queue *)

Definition send_next (k : nat) : caller := if k <? n then KSend k else KWait 0.
Definition init : state := State (send_next 0) (fun _ => HNone) (fun _ => None) (fun _ => 0).
Definition set_sh (st : state) (k : nat) (h : shard) : state := State (who st) (upd (sh st) k h) (fut st) (busy st).
Definition set_who (st : state) (w : caller) : state := State w (sh st) (fut st) (busy st).
Definition set_fut (st : state) (k : nat) (b : bool) : state := State (who st) (sh st) (upd (fut st) k (Some b)) (busy st).
Definition set_busy (st : state) (q m : nat) : state := State (who st) (sh st) (fut st) (upd (busy st) q m).
Definition sending (st : state) (k : nat) : bool := match who st with KSend j => j =? k | _ => false end.
Definition waiting (st : state) (k : nat) : bool := match who st with KWait j => j =? k | _ => false end.
(** AsyncCompleteRpc 199-225: the promise gets a value if the callback returned. *)
Definition value_of (ran : option bool) : bool := match ran with Some true => true | _ => false end.

Definition step (st : state) (e : event) : option state :=
  match e with
  | ENew k => match sh st k with HNone => if sending st k then Some (set_sh st k HAlloc) else None | _ => None end
  | EFuture k => match sh st k with HAlloc => if sending st k then Some (set_sh st k HFuture) else None | _ => None end
  | ESend k => match sh st k with
      | HFuture => if sending st k then Some (set_who (set_sh st k HSent) (send_next (S k))) else None
      | _ => None end
  | ELand k ok => match sh st k with HSent => Some (set_sh st k (HLanded ok)) | _ => None end
  | ETake k => match sh st k with
      | HLanded ok =>
          if busy st (queue k) <? threads (queue k)
          then Some (set_busy (set_sh st k (HTaken ok)) (queue k) (S (busy st (queue k)))) else None
      | _ => None end
  | ECallback k ok => match sh st k with HTaken true => Some (set_sh st k (HRan ok)) | _ => None end
  | EPromise k => match sh st k with
      | HTaken false => Some (set_fut (set_sh st k (HSet None)) k (value_of None))
      | HRan ok => Some (set_fut (set_sh st k (HSet (Some ok))) k (value_of (Some ok)))
      | _ => None end
  | EDelete k => match sh st k with
      | HSet ran => Some (set_busy (set_sh st k (HDeleted ran)) (queue k) (pred (busy st (queue k))))
      | _ => None end
  | EWait k => match fut st k with
      | Some true => if waiting st k && (k <? n) then Some (set_who st (KWait (S k))) else None
      | _ => None end
  | EThrow k => match fut st k with
      | Some false => if waiting st k && (k <? n) then Some (set_who st (KThrew k)) else None
      | _ => None end
  | EReturn => if waiting st n then Some (set_who st KReturned) else None
  end.

Fixpoint run (st : state) (tr : list event) : option state :=
  match tr with
  | [] => Some st
  | e :: tr' => match step st e with Some st' => run st' tr' | None => None end
  end.
Definition execution (tr : list event) : Prop := run init tr <> None.
End Call.
