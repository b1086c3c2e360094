(** Uploading text to Azure: /repo/src/python/deepgnn/graph_engine/adl_uploader.py,
    AdlDataWriter 144-285 and MultiThreadsAdlDataWriter 14-141, inside `with AdlDataWriter(...)
    as writer` (269-276).  One event is one action of the caller, of close, of the monitor
    thread, of a process or of a thread; an execution is a list of events.

    A queue is first in, first out.  Not modelled: exceptions of the store or of a thread (so a
    thread ends only at 72-80, a process at 215, and the monitor of a process, 50-65, finds
    [started] false whenever it finds a thread gone), task_done (nobody waits for it),
    ValueError of put (223: a queue is never closed here).  Names without file_path_prefix. *)
From Verif Require Import Base FilesModel DispatchModel.
From Coq Require Import Ascii String.
Import ListNotations.
Open Scope list_scope.

(** Bytes; `not chunk` (72, 208) is None or no bytes. *)
Definition chunk := nm.
Definition item := option chunk.
Definition falsy (x : item) : bool := match x with None | Some [] => true | _ => false end.

(** ** writelines 218-244: the chunks of one call. *)
(** "\n".join(lines) + "\n" for a list that is not empty (237). *)
Definition newline : nm := ["010"%char].
Fixpoint join (ls : list nm) : nm :=
  match ls with [] => [] | [l] => l | l :: t => l ++ newline ++ join t end.
Definition text (ls : list nm) : nm := join ls ++ newline.
(** The loop of 224-243; [fuel] is more than the number of lines, it runs out only if
    max_lines_per_chunk is 0. *)
Fixpoint chunked (fuel size offset : nat) (ls : list nm) : res (list chunk) :=
  if offset <? List.length ls then
    match fuel with
    | O => Fail EFuel
    | S f =>
        let stop := if offset + size <? List.length ls then offset + size else List.length ls in
        do r <- chunked f size stop ls ;;
        Ok (text (firstn (stop - offset) (skipn offset ls)) :: r)
    end
  else Ok [].
Definition writelines (size : nat) (ls : list nm) : res (list chunk) := chunked (S (List.length ls)) size 0 ls.

(** ** What the caller does: write (212-216) or the rest of writelines. *)
Inductive call := Write (c : chunk) | Lines (cs : list chunk).

(** A thread of _create_worker 67-99: whether it runs, chunk_count, file_index, the files it has
    closed and out_file, with their index and chunks. *)
Record thread := Thread { alive : bool; count : nat; opened : nat; closed : list (nat * list chunk); current : option (nat * list chunk) }.
(** The main thread of a process: in the loop of 205-210, in the loop of stop (126-128) before
    thread k, in the joins (130-131), at its end. *)
Inductive process := Pumping | Stopping (k : nat) | Joining | Gone.
(** The caller: calls that are left, inside close, after the with. *)
Inductive caller := Calling (cs : list call) | InClose | Returned.
(** Who runs close, before process k of 258-260 or in the joins of 262-263. *)
Inductive closer := NoClose | Marking (monitor : bool) (k : nat) | Waiting (monitor : bool) | Finished.

Record state := State {
  main : caller; raised : bool; answers : list bool;     (* queue.Full left the block; results of writelines *)
  total_chunk : nat; running : bool; closing : closer;
  queues : nat -> list item;                             (* self.data_queues *)
  processes : nat -> process;
  inner : nat -> list item;                              (* data_queue of a process *)
  threads : nat -> nat -> thread
}.

Section Upload.
Variable process_num threads_per_process queue_size max_chunks_per_file : nat.

(** multiprocessing.Queue(int(queue_size / process_num)): without bound if that is 0 (165). *)
Definition room (q : list item) : bool :=
  let bound := queue_size / process_num in (bound =? 0) || (List.length q <? bound).

Definition init (calls : list call) : state :=
  State (Calling calls) false [] 0 true NoClose (fun _ => []) (fun _ => Pumping) (fun _ => []) (fun _ _ => Thread true 0 0 [] None).

Definition opt {A} (x : option A) : list A := match x with Some a => [a] | None => [] end.
(** 71-99 with one item of the queue. *)
Definition take (x : item) (t : thread) : thread :=
  match x with
  | Some (b :: r) =>
      let c := b :: r in
      if (count t =? 0) || ((0 <? max_chunks_per_file) && (count t mod max_chunks_per_file =? 0)) then
        Thread true (S (count t)) (S (opened t)) (closed t ++ opt (current t)) (Some (opened t, [c]))
      else
        Thread true (S (count t)) (opened t) (closed t) (match current t with Some (k, cs) => Some (k, cs ++ [c]) | None => None end)
  | _ => Thread false (count t) (opened t) (closed t ++ opt (current t)) None
  end.

Definition gone (p : process) : bool := match p with Gone => true | _ => false end.
(** [Put]: the next action of the caller; [Full]: a put of writelines that found no room for a
    second (queue.Full is not a ValueError) leaves the block, close follows; [Close]: the next
    action of close; [Watch]: _monitor_thread 184-198 finds a process gone. *)
Inductive event := Put | Full | Close | Watch | Pump (i : nat) | Stop (i : nat) | Take (i j : nat).

Definition accept (st : state) (c : chunk) (rest : list call) : option state :=
  let i := total_chunk st mod process_num in
  if room (queues st i) then
    Some (State (Calling rest) (raised st) (answers st) (S (total_chunk st)) (running st) (closing st)
            (upd (queues st) i (queues st i ++ [Some c])) (processes st) (inner st) (threads st))
  else None.
Definition answer (st : state) (b : bool) (rest : list call) : state :=
  State (Calling rest) (raised st) (answers st ++ [b]) (total_chunk st) (running st) (closing st) (queues st) (processes st) (inner st) (threads st).
Definition closes (st : state) (c : closer) : state :=
  State (main st) (raised st) (answers st) (total_chunk st) (running st) c (queues st) (processes st) (inner st) (threads st).
Definition leave (st : state) : state :=
  State Returned (raised st) (answers st) (total_chunk st) (running st) (closing st) (queues st) (processes st) (inner st) (threads st).
Definition becomes (st : state) (i : nat) (p : process) (q : list item) : state :=
  State (main st) (raised st) (answers st) (total_chunk st) (running st) (closing st) (queues st) (upd (processes st) i p) (upd (inner st) i q) (threads st).

Definition step (st : state) (e : event) : option state :=
  match e with
  | Put =>
      match main st with
      | Calling (Write c :: t) => accept st c t
      | Calling (Lines [] :: t) => Some (answer st true t)
      | Calling (Lines (c :: cs) :: t) =>
          if running st then accept st c (Lines cs :: t) else Some (answer st false t)                 (* 230-231 *)
      | Calling [] =>                                                                                (* 274-276, 255-256 *)
          if running st then
            Some (State InClose (raised st) (answers st) (total_chunk st) false (Marking false 0) (queues st) (processes st) (inner st) (threads st))
          else Some (leave st)
      | _ => None
      end
  | Full =>
      match main st with
      | Calling (Lines (c :: cs) :: t) =>
          if running st && negb (room (queues st (total_chunk st mod process_num))) then
            Some (State (Calling []) true (answers st) (total_chunk st) (running st) (closing st) (queues st) (processes st) (inner st) (threads st))
          else None
      | _ => None
      end
  | Watch =>
      if running st && existsb (fun i => gone (processes st i)) (seq 0 process_num) then
        Some (State (main st) (raised st) (answers st) (total_chunk st) false (Marking true 0) (queues st) (processes st) (inner st) (threads st))
      else None
  | Close =>
      match closing st with
      | Marking m k =>
          if k <? process_num then
            if gone (processes st k) then Some (closes st (Marking m (S k)))
            else if room (queues st k) then
              Some (State (main st) (raised st) (answers st) (total_chunk st) (running st) (Marking m (S k))
                      (upd (queues st) k (queues st k ++ [None])) (processes st) (inner st) (threads st))
            else None
          else Some (closes st (Waiting m))
      | Waiting m =>
          (* the joins, one after the other, return when all processes are gone *)
          if forallb (fun i => gone (processes st i)) (seq 0 process_num) then
            Some (if m then closes st Finished else leave (closes st Finished))
          else None
      | _ => None
      end
  | Pump i =>
      if i <? process_num then
        match processes st i, queues st i with
        | Pumping, x :: q =>
            let st' := State (main st) (raised st) (answers st) (total_chunk st) (running st) (closing st) (upd (queues st) i q) (processes st) (inner st) (threads st) in
            Some (if falsy x then becomes st' i (Stopping 0) (inner st i) else becomes st' i Pumping (inner st i ++ [x]))
        | _, _ => None
        end
      else None
  | Stop i =>
      if i <? process_num then
        match processes st i with
        | Stopping k =>
            if k <? threads_per_process then
              Some (becomes st i (Stopping (S k)) (if alive (threads st i k) then inner st i ++ [None] else inner st i))
            else Some (becomes st i Joining (inner st i))
        | Joining =>
            if forallb (fun j => negb (alive (threads st i j))) (seq 0 threads_per_process) then Some (becomes st i Gone (inner st i)) else None
        | _ => None
        end
      else None
  | Take i j =>
      if (i <? process_num) && (j <? threads_per_process) then
        match alive (threads st i j), inner st i with
        | true, x :: q =>
            Some (State (main st) (raised st) (answers st) (total_chunk st) (running st) (closing st) (queues st) (processes st)
                    (upd (inner st) i q) (upd (threads st) i (upd (threads st i) j (take x (threads st i j)))))
        | _, _ => None
        end
      else None
  end.
Fixpoint run (st : state) (es : list event) : option state :=
  match es with
  | [] => Some st
  | e :: t => match step st e with Some st' => run st' t | None => None end
  end.

(** The files of the store (87-90); those of [current] are not closed. *)
Definition file_name (p t k : nat) : nm := str "_" ++ dec p ++ str "_" ++ dec t ++ str "_" ++ dec k ++ str ".tsv".
Definition thread_files (st : state) (i j : nat) : list (nm * list chunk) :=
  map (fun f => (file_name i j (fst f), snd f)) (closed (threads st i j) ++ opt (current (threads st i j))).
Definition files (st : state) : list (nm * list chunk) :=
  flat_map (fun i => flat_map (thread_files st i) (seq 0 threads_per_process)) (seq 0 process_num).
Definition all_closed (st : state) : Prop :=
  forall i j, i < process_num -> j < threads_per_process -> current (threads st i j) = None.
End Upload.
