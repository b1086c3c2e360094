(** The prefetch generator: /repo/src/python/deepgnn/graph_engine/prefetch.py (BoundedExecutor
    25-60, _produce_func 79-116, Generator 141-233).  The producer thread, the threads of its
    pool and the consumer are state machines that share the bounded queue of outputs, the
    semaphore and the stop event; one event is one action on shared memory and an execution is a
    list of events.

    One producer (Generator.max_workers = 1, which every caller in /repo uses); several producers
    are looked at through the list of items they put, see [observe].  The sampler gives the
    batches 0 .. n-1 and then either stops or raises; a finite run of an infinite sampler is a
    run with n large enough.  Whether the query of a batch raises is a function of the batch.  A
    result is identified with its batch.  Left out: interpreter shutdown (atexit handlers,
    main_thread().is_alive()), logging, the unused collate_fn. *)
From Verif Require Import Base.

(** What is put into Generator.outputs: the result of a batch, FetchDone with an exception
    (exception_info is looked at first, __next__ 194, so its count plays no role), or
    FetchDone(count). *)
Inductive item := IRes (i : nat) | IExc | ICount (c : nat).

(** BoundedExecutor.__init__ 28-40; _produce_func passes no bound, so it starts as 20. *)
Definition bound_of (max_workers bound : Z) : Z :=
  let bound := if (bound <=? 0)%Z then 20%Z else bound in
  if ((0 <? max_workers) && (bound <? max_workers))%Z then max_workers else bound.

(** The producer: asks the sampler for batch k, has batch k, will acquire the semaphore, has
    acquired it, puts an item, leaves the with statement, is done. *)
Inductive producer := PNext (k : nat) | PGot (k : nat) | PAcquire (k : nat) | PSubmit (k : nat) | PPut (x : item) | PLeave | POver.
(** The task of a batch: not submitted, in the work queue of the pool, query running, result to
    be put, exception to be put, pool to be shut down, process returned or raised, future done
    and semaphore released. *)
Inductive task := TNone | TQueued | TRun | TPut | TFail | TShut | TEnd | TOver.
(** The consumer: outside of __next__, in the first or second outputs.get() of __next__, about
    to return, to raise StopIteration, to raise an exception, in join(), after join(). *)
Inductive consumer := CIdle | CGet | CGet2 | CReturn (x : item) | CStop | CRaise | CJoin | CGone.

Record state := State {
  prod : producer; submitted : nat; started : nat; over : nat; tasks : nat -> task;
  permits : nat; shut : bool; queue : list item;
  cons : consumer; count : nat; index : nat; stop : bool }.

Definition upd {A} (f : nat -> A) (i : nat) (a : A) : nat -> A := fun j => if j =? i then a else f j.

Inductive event :=
| EYield                 (* for sample in sampler: a batch, 105 *)
| EEnd                   (* the sampler stops or raises 105, 112 *)
| EStopped               (* stop_event.is_set(): return 106-107 *)
| EContinue              (* it is not set, count += 1 108 *)
| EAcquire               (* semaphore.acquire() 50 *)
| ESubmit                (* executor.submit 52 *)
| EReject                (* executor.submit raises RuntimeError, semaphore.release() 53-55 *)
| EPutProd (x : item)    (* outputs.put 110, 114 *)
| ELeave                 (* __exit__: shutdown(wait=True) returns 46 *)
| ETake                  (* a thread of the pool takes the next task *)
| EQuery (i : nat)       (* model_query_fn returns or raises 94 *)
| EPut (i : nat)         (* outputs.put 95, 98 *)
| EShut (i : nat)        (* pool.shutdown(wait=False) 99 *)
| EOver (i : nat)        (* the future is done, semaphore.release() 57 *)
| EAsk                   (* __next__ is called 186 *)
| EGet (x : item)        (* outputs.get() 191, 202 *)
| EReturn (x : item)     (* return item 206 *)
| EStop                  (* raise StopIteration 189, 200 *)
| ERaise                 (* raise Exception 197 *)
| EJoin                  (* join(): stop_evt.set() 218 *)
| EDrain (x : item)      (* _drain_outputs 208-211 *)
| EJoined.               (* join() returns *)

(** __next__ after an item was taken in the first get: 193-206; [index] is the new one. *)
Definition handle (count index : nat) (x : item) : consumer * nat :=
  match x with
  | IExc => (CRaise, count)
  | ICount c => (if index =? c + 1 then CStop else CGet2, c)
  | IRes i => (CReturn (IRes i), count)
  end.
(** __next__ before the first get: 188. *)
Definition ask (count index : nat) : consumer := if (0 <? count) && (index =? count + 1) then CStop else CGet.

Section Prefetch.
Variable n : nat.            (* batches of the sampler *)
Variable ends : bool.        (* does the sampler stop, or raise? *)
Variable ok : nat -> bool.   (* does the query of a batch return? *)
Variable cap : nat.          (* prefetch_size *)
Variable threads : nat.      (* max_parallel *)
Variable bound : nat.        (* of the semaphore *)

(** The item process(inputs) puts. *)
Definition out (i : nat) : item := if ok i then IRes i else IExc.
(** queue.Queue(maxsize): no limit if maxsize is 0. *)
Definition room (q : list item) : bool := (cap =? 0) || (length q <? cap).

(** ThreadPoolExecutor(max_workers=0) raises ValueError, outside of the try statement: the
    producer is over at once. *)
Definition init : state :=
  State (if threads =? 0 then POver else PNext 0) 0 0 0 (fun _ => TNone) bound false [] CIdle 0 0 false.

Definition set_prod (st : state) p :=
  State p (submitted st) (started st) (over st) (tasks st) (permits st) (shut st) (queue st) (cons st) (count st) (index st) (stop st).
Definition set_task (st : state) i t :=
  State (prod st) (submitted st) (started st) (over st) (upd (tasks st) i t) (permits st) (shut st) (queue st) (cons st) (count st) (index st) (stop st).
Definition set_permits (st : state) m :=
  State (prod st) (submitted st) (started st) (over st) (tasks st) m (shut st) (queue st) (cons st) (count st) (index st) (stop st).
Definition set_queue (st : state) q :=
  State (prod st) (submitted st) (started st) (over st) (tasks st) (permits st) (shut st) q (cons st) (count st) (index st) (stop st).
Definition set_cons (st : state) c :=
  State (prod st) (submitted st) (started st) (over st) (tasks st) (permits st) (shut st) (queue st) c (count st) (index st) (stop st).
Definition got (st : state) c m :=
  State (prod st) (submitted st) (started st) (over st) (tasks st) (permits st) (shut st) (queue st) c m (S (index st)) (stop st).

Definition item_eqb (x y : item) : bool :=
  match x, y with IRes i, IRes j => i =? j | IExc, IExc => true | ICount c, ICount d => c =? d | _, _ => false end.

Definition step (st : state) (e : event) : option state :=
  match e with
  | EYield => match prod st with PNext k => if k <? n then Some (set_prod st (PGot k)) else None | _ => None end
  | EEnd => match prod st with
      | PNext k => if k =? n then Some (set_prod st (PPut (if ends then ICount k else IExc))) else None
      | _ => None end
  | EStopped => match prod st with PGot k => if stop st then Some (set_prod st PLeave) else None | _ => None end
  | EContinue => match prod st with PGot k => if stop st then None else Some (set_prod st (PAcquire k)) | _ => None end
  | EAcquire => match prod st, permits st with
      | PAcquire k, S m => Some (set_prod (set_permits st m) (PSubmit k))
      | _, _ => None end
  | ESubmit => match prod st with
      | PSubmit k => if shut st then None
          else Some (State (PNext (S k)) (S (submitted st)) (started st) (over st) (upd (tasks st) (submitted st) TQueued)
                      (permits st) (shut st) (queue st) (cons st) (count st) (index st) (stop st))
      | _ => None end
  | EReject => match prod st with
      | PSubmit k => if shut st then Some (set_prod (set_permits st (S (permits st))) (PPut IExc)) else None
      | _ => None end
  | EPutProd x => match prod st with
      | PPut y => if item_eqb x y && room (queue st) then Some (set_prod (set_queue st (queue st ++ [x])) PLeave) else None
      | _ => None end
  | ELeave => match prod st with PLeave => if over st =? submitted st then Some (set_prod st POver) else None | _ => None end
  | ETake =>
      if (started st <? submitted st) && (started st - over st <? threads)
      then Some (State (prod st) (submitted st) (S (started st)) (over st) (upd (tasks st) (started st) TRun)
                   (permits st) (shut st) (queue st) (cons st) (count st) (index st) (stop st))
      else None
  | EQuery i => match tasks st i with TRun => Some (set_task st i (if ok i then TPut else TFail)) | _ => None end
  | EPut i => match tasks st i with
      | TPut => if room (queue st) then Some (set_task (set_queue st (queue st ++ [IRes i])) i TEnd) else None
      | TFail => if room (queue st) then Some (set_task (set_queue st (queue st ++ [IExc])) i TShut) else None
      | _ => None end
  | EShut i => match tasks st i with
      | TShut => Some (State (prod st) (submitted st) (started st) (over st) (upd (tasks st) i TEnd)
                   (permits st) true (queue st) (cons st) (count st) (index st) (stop st))
      | _ => None end
  | EOver i => match tasks st i with
      | TEnd => Some (State (prod st) (submitted st) (started st) (S (over st)) (upd (tasks st) i TOver)
                   (S (permits st)) (shut st) (queue st) (cons st) (count st) (index st) (stop st))
      | _ => None end
  | EAsk => match cons st with CIdle => Some (set_cons st (ask (count st) (index st))) | _ => None end
  | EGet x => match queue st with
      | y :: q =>
          if item_eqb x y then
            match cons st with
            | CGet => let (c, m) := handle (count st) (S (index st)) y in Some (set_queue (got st c m) q)
            | CGet2 => Some (set_queue (got st (CReturn y) (count st)) q)
            | _ => None end
          else None
      | [] => None end
  | EReturn x => match cons st with CReturn y => if item_eqb x y then Some (set_cons st CIdle) else None | _ => None end
  | EStop => match cons st with CStop => Some (set_cons st CIdle) | _ => None end
  | ERaise => match cons st with CRaise => Some (set_cons st CIdle) | _ => None end
  | EJoin => match cons st with
      | CIdle => Some (State (prod st) (submitted st) (started st) (over st) (tasks st) (permits st) (shut st) (queue st) CJoin (count st) (index st) true)
      | _ => None end
  | EDrain x => match queue st, cons st with
      | y :: q, CJoin => if item_eqb x y then Some (set_queue st q) else None
      | _, _ => None end
  | EJoined => match prod st, queue st, cons st with
      | POver, [], CJoin => Some (set_cons st CGone)
      | _, _, _ => None end
  end.

Fixpoint run (st : state) (tr : list event) : option state :=
  match tr with
  | [] => Some st
  | e :: tr => match step st e with Some st' => run st' tr | None => None end
  end.
Definition execution (tr : list event) : Prop := run init tr <> None.
End Prefetch.

(** Calls of __next__ until StopIteration or the queue is empty, when the queue holds [items]
    (for several producers any interleaving of what they put): what is returned, and whether
    StopIteration was reached.  An exception ends it too. *)
Inductive finish := FStop | FRaise | FBlock.
Fixpoint observe (fuel : nat) (count index : nat) (items : list item) : list item * finish :=
  match fuel with
  | O => ([], FBlock)
  | S fuel =>
      match ask count index with
      | CStop => ([], FStop)
      | _ =>
          match items with
          | [] => ([], FBlock)
          | x :: items =>
              match handle count (S index) x with
              | (CReturn y, m) => let (r, f) := observe fuel m (S index) items in (y :: r, f)
              | (CGet2, m) =>
                  match items with
                  | [] => ([], FBlock)
                  | y :: items => let (r, f) := observe fuel m (S (S index)) items in (y :: r, f)
                  end
              | (CRaise, _) => ([], FRaise)
              | (_, _) => ([], FStop)
              end
          end
      end
  end.
