(** The server that receives requests: /repo/src/cc/lib/distributed/server.cc (the constructor
    120-193, the destructor 195-207, HandleRpcs 214-236) and the call objects of call_data.cc
    (constructors and Proceed, all of the same shape).  One event is one action of a thread, of
    the destructor, of a client or of gRPC, an execution is a list of events.

    What is assumed of gRPC: a registered call object (Request...) is put into its completion
    queue once, with a request (ok) or, once the server is stopping, without (not ok); an answer
    (Finish) puts the call object into the queue once when it is sent or lost; Server::Shutdown
    ends new requests and returns when every accepted request is answered or cancelled by its
    client; after CompletionQueue::Shutdown nothing may be registered with or answered through
    the queue (a failed assertion in gRPC) and Next returns false once everything registered was
    taken.  A service call is one action (the engine is read only, the sampler service has a
    mutex); its result may depend on the calls before. *)
From Verif Require Import Base.

(** The services, in the order of the constructor 168-185. *)
Inductive method :=
| MNeighbors | MCounts | MLastN | MWeighted | MUniform | MNodeFeatures | MEdgeFeatures | MNodeSparse | MEdgeSparse
| MNodeStrings | MEdgeStrings | MMetadata | MNodeTypes | MCreate | MSample.
Definition methods : list method :=
  [MNeighbors; MCounts; MLastN; MWeighted; MUniform; MNodeFeatures; MEdgeFeatures; MNodeSparse; MEdgeSparse;
   MNodeStrings; MEdgeStrings; MMetadata; MNodeTypes; MCreate; MSample].
Definition method_eqb (a b : method) : bool :=
  match a, b with
  | MNeighbors, MNeighbors | MCounts, MCounts | MLastN, MLastN | MWeighted, MWeighted | MUniform, MUniform
  | MNodeFeatures, MNodeFeatures | MEdgeFeatures, MEdgeFeatures | MNodeSparse, MNodeSparse | MEdgeSparse, MEdgeSparse
  | MNodeStrings, MNodeStrings | MEdgeStrings, MEdgeStrings | MMetadata, MMetadata | MNodeTypes, MNodeTypes
  | MCreate, MCreate | MSample, MSample => true
  | _, _ => false
  end.
(** Finish(m_reply, status, this) or Finish(m_reply, grpc::Status::OK, this): call_data.cc 65-67,
    236-238, 264-266, 292-294, 378-380, 436-438. *)
Definition keeps_status (m : method) : bool :=
  match m with MEdgeFeatures | MCreate | MSample | MMetadata | MEdgeSparse | MEdgeStrings => false | _ => true end.

(** CallData::m_status. *)
Inductive status := CREATE | PROCESS | FINISH.
(** Where a call object is: registered with the server, in the queue (ok?), held by a thread
    (about to run Proceed of a request, after `new` in it, about to delete), being answered,
    deleted. *)
Inductive stage := Proceeding | Serving | Freeing.
Inductive place := Listening | Queued (ok : bool) | Held (s : stage) | Sending | Freed.
(** [o_req] is the request gRPC has read into m_request. *)
Record obj := Obj { o_queue : nat; o_method : method; o_status : status; o_place : place; o_req : option nat }.
(** A request: not accepted yet, read by call object o, the same and cancelled, answered,
    answered too late, refused. *)
Inductive progress := Pending | Open (o : nat) | Cancelled (o : nat) | Answered | Dropped | Refused.
Inductive thread := Idle | Busy (o : nat) | Done.
Inductive server := Running | Stopping | Stopped.

Section Server.
Variable Payload Reply : Type.
(** What a service returns after the calls before: status (ok?) and reply. *)
Variable impl : list (method * Payload) -> method -> Payload -> bool * Reply.
Variable n : nat.                  (* std::thread::hardware_concurrency(), 158, 189 *)

Record req := Req { r_method : method; r_payload : Payload; r_progress : progress }.
(** [log]: the answers, in the order of the service calls.  [shut], [joined]: how many queues
    the destructor has shut down, how many threads it has joined. *)
Record state := State {
  objs : list obj; reqs : list req; log : list (nat * (bool * Reply)); thr : nat -> thread;
  flag : bool; srv : server; shut : nat; joined : nat }.

Definition set_nth {A} (l : list A) (i : nat) (a : A) : list A := firstn i l ++ a :: skipn (S i) l.
Definition upd {A} (f : nat -> A) (i : nat) (a : A) : nat -> A := fun j => if j =? i then a else f j.

(** Constructor and Proceed in CREATE (21-33). *)
Definition fresh (q : nat) (m : method) : obj := Obj q m PROCESS Listening None.
(** 164-187. *)
Definition init : state :=
  State (flat_map (fun q => map (fresh q) methods) (seq 0 n)) [] [] (fun _ => Idle) false Running 0 0.

Definition at_place (b : obj) (p : place) : obj := Obj (o_queue b) (o_method b) (o_status b) p (o_req b).
Definition put (st : state) (o : nat) (b : obj) : state :=
  State (set_nth (objs st) o b) (reqs st) (log st) (thr st) (flag st) (srv st) (shut st) (joined st).
Definition add (st : state) (b : obj) : state :=
  State (objs st ++ [b]) (reqs st) (log st) (thr st) (flag st) (srv st) (shut st) (joined st).
Definition mark (st : state) (r : nat) (x : req) (p : progress) : state :=
  State (objs st) (set_nth (reqs st) r (Req (r_method x) (r_payload x) p)) (log st) (thr st) (flag st) (srv st) (shut st) (joined st).
Definition set_thr (st : state) (q : nat) (t : thread) : state :=
  State (objs st) (reqs st) (log st) (upd (thr st) q t) (flag st) (srv st) (shut st) (joined st).
Definition reply_with (st : state) (r : nat) (a : bool * Reply) : state :=
  State (objs st) (reqs st) (log st ++ [(r, a)]) (thr st) (flag st) (srv st) (shut st) (joined st).

(** The calls so far, and what is sent for the result of a call. *)
Definition request_of (rs : list req) (r : nat) : list (method * Payload) :=
  match nth_error rs r with Some x => [(r_method x, r_payload x)] | None => [] end.
Definition history (st : state) : list (method * Payload) := flat_map (request_of (reqs st)) (map fst (log st)).
Definition sent (m : method) (res : bool * Reply) : bool * Reply := (if keeps_status m then fst res else true, snd res).

(** Is something registered with queue q (or in it)? *)
Definition in_queue (q : nat) (b : obj) : bool :=
  (o_queue b =? q) && match o_place b with Listening | Queued _ | Sending => true | _ => false end.
Definition is_open (x : req) : bool := match r_progress x with Open _ => true | _ => false end.

Inductive event :=
| Send (m : method) (p : Payload)   (* a client sends a request *)
| Cancel (r : nat)                  (* a client gives up (or dies) after its request was accepted *)
| Match (r o : nat)                 (* gRPC reads a request into a call object *)
| Refuse (r : nat)                  (* gRPC refuses a request *)
| Close (o : nat)                   (* gRPC returns a call object without request *)
| Sent (o : nat) (ok : bool)        (* gRPC is done with an answer *)
| Take (q o : nat)                  (* queue.Next returns true 221 *)
| Renew (q : nat)                   (* new ...CallData in Proceed 36 *)
| Serve (q : nat)                   (* the service and Finish 37-39 *)
| Free (q : nat)                    (* delete: Proceed 44, HandleRpcs 230 *)
| Leave (q : nat)                   (* queue.Next returns false 221 *)
| Flag | Stop | StopDone            (* m_shutdown.store, m_server->Shutdown() and its return 197-198 *)
| Shut (q : nat) | Join (q : nat).  (* queue->Shutdown() 201, thread.join() 205 *)

Inductive result := Stuck | Crash | Next (st : state).
Definition closed (st : state) (q : nat) : bool := q <? shut st.

Definition step (st : state) (e : event) : result :=
  match e with
  | Send m p => Next (State (objs st) (reqs st ++ [Req m p Pending]) (log st) (thr st) (flag st) (srv st) (shut st) (joined st))
  | Cancel r =>
      match nth_error (reqs st) r with
      | Some x => match r_progress x with Open o => Next (mark st r x (Cancelled o)) | _ => Stuck end
      | None => Stuck
      end
  | Match r o =>
      match nth_error (reqs st) r, nth_error (objs st) o, srv st with
      | Some x, Some b, Running =>
          match r_progress x, o_place b with
          | Pending, Listening =>
              if method_eqb (r_method x) (o_method b)
              then Next (put (mark st r x (Open o)) o (Obj (o_queue b) (o_method b) (o_status b) (Queued true) (Some r)))
              else Stuck
          | _, _ => Stuck
          end
      | _, _, _ => Stuck
      end
  | Refuse r =>
      match nth_error (reqs st) r, srv st with
      | _, Running => Stuck
      | Some x, _ => match r_progress x with Pending => Next (mark st r x Refused) | _ => Stuck end
      | None, _ => Stuck
      end
  | Close o =>
      match nth_error (objs st) o, srv st with
      | _, Running => Stuck
      | Some b, _ => match o_place b with Listening => Next (put st o (at_place b (Queued false))) | _ => Stuck end
      | None, _ => Stuck
      end
  | Sent o ok =>
      match nth_error (objs st) o with
      | Some b => match o_place b with Sending => Next (put st o (at_place b (Queued ok))) | _ => Stuck end
      | None => Stuck
      end
  | Take q o =>
      match thr st q, nth_error (objs st) o with
      | Idle, Some b =>
          if o_queue b =? q then
            match o_place b with
            | Queued false => Next (set_thr (put st o (at_place b (Held Freeing))) q (Busy o))
            | Queued true =>
                match o_status b with
                | CREATE => if closed st q then Crash else Next (put st o (Obj (o_queue b) (o_method b) PROCESS Listening (o_req b)))
                | PROCESS => Next (set_thr (put st o (at_place b (Held Proceeding))) q (Busy o))
                | FINISH => Next (set_thr (put st o (at_place b (Held Freeing))) q (Busy o))
                end
            | _ => Stuck
            end
          else Stuck
      | _, _ => Stuck
      end
  | Renew q =>
      match thr st q with
      | Busy o =>
          match nth_error (objs st) o with
          | Some b =>
              match o_place b with
              | Held Proceeding => if closed st q then Crash else Next (add (put st o (at_place b (Held Serving))) (fresh (o_queue b) (o_method b)))
              | _ => Stuck
              end
          | None => Stuck
          end
      | _ => Stuck
      end
  | Serve q =>
      match thr st q with
      | Busy o =>
          match nth_error (objs st) o with
          | Some b =>
              match o_place b with
              | Held Serving =>
                  if closed st q then Crash else
                  match o_req b with
                  | None => Crash
                  | Some r =>
                      match nth_error (reqs st) r with
                      | None => Crash
                      | Some x =>
                          let answer := sent (o_method b) (impl (history st) (o_method b) (r_payload x)) in
                          let p := match r_progress x with Open _ => Answered | _ => Dropped end in
                          Next (set_thr (reply_with (mark (put st o (Obj (o_queue b) (o_method b) FINISH Sending (o_req b))) r x p) r answer) q Idle)
                      end
                  end
              | _ => Stuck
              end
          | None => Stuck
          end
      | _ => Stuck
      end
  | Free q =>
      match thr st q with
      | Busy o =>
          match nth_error (objs st) o with
          | Some b => match o_place b with Held Freeing => Next (set_thr (put st o (at_place b Freed)) q Idle) | _ => Stuck end
          | None => Stuck
          end
      | _ => Stuck
      end
  | Leave q =>
      match thr st q with
      | Idle =>
          if (q <? n) && closed st q && negb (existsb (in_queue q) (objs st))
          then if flag st then Next (set_thr st q Done) else Crash    (* tag and ok have no value 217 *)
          else Stuck
      | _ => Stuck
      end
  | Flag => if flag st then Stuck else Next (State (objs st) (reqs st) (log st) (thr st) true (srv st) (shut st) (joined st))
  | Stop =>
      match flag st, srv st with
      | true, Running => Next (State (objs st) (reqs st) (log st) (thr st) (flag st) Stopping (shut st) (joined st))
      | _, _ => Stuck
      end
  | StopDone =>
      match srv st with
      | Stopping => if existsb is_open (reqs st) then Stuck
                    else Next (State (objs st) (reqs st) (log st) (thr st) (flag st) Stopped (shut st) (joined st))
      | _ => Stuck
      end
  | Shut q =>
      match srv st with
      | Stopped => if (q =? shut st) && (q <? n)
                   then Next (State (objs st) (reqs st) (log st) (thr st) (flag st) (srv st) (S q) (joined st)) else Stuck
      | _ => Stuck
      end
  | Join q =>
      match thr st q with
      | Done => if (shut st =? n) && (q =? joined st) && (q <? n)
                then Next (State (objs st) (reqs st) (log st) (thr st) (flag st) (srv st) (shut st) (S q)) else Stuck
      | _ => Stuck
      end
  end.

Fixpoint run (st : state) (es : list event) : result :=
  match es with
  | [] => Next st
  | e :: es' => match step st e with Next st' => run st' es' | x => x end
  end.
End Server.
Arguments Req {Payload}.
Arguments r_method {Payload}.
Arguments r_payload {Payload}.
Arguments r_progress {Payload}.
Arguments is_open {Payload}.
Arguments State {Payload Reply}.
Arguments objs {Payload Reply}.
Arguments reqs {Payload Reply}.
Arguments log {Payload Reply}.
Arguments thr {Payload Reply}.
Arguments flag {Payload Reply}.
Arguments srv {Payload Reply}.
Arguments shut {Payload Reply}.
Arguments joined {Payload Reply}.
Arguments init {Payload Reply}.
Arguments put {Payload Reply}.
Arguments add {Payload Reply}.
Arguments mark {Payload Reply}.
Arguments set_thr {Payload Reply}.
Arguments reply_with {Payload Reply}.
Arguments request_of {Payload}.
Arguments history {Payload Reply}.
Arguments sent {Reply}.
Arguments closed {Payload Reply}.
Arguments Send {Payload}.
Arguments Cancel {Payload}.
Arguments Match {Payload}.
Arguments Refuse {Payload}.
Arguments Close {Payload}.
Arguments Sent {Payload}.
Arguments Take {Payload}.
Arguments Renew {Payload}.
Arguments Serve {Payload}.
Arguments Free {Payload}.
Arguments Leave {Payload}.
Arguments Flag {Payload}.
Arguments Stop {Payload}.
Arguments StopDone {Payload}.
Arguments Shut {Payload}.
Arguments Join {Payload}.
Arguments Stuck {Payload Reply}.
Arguments Crash {Payload Reply}.
Arguments Next {Payload Reply}.
Arguments step {Payload Reply}.
Arguments run {Payload Reply}.
