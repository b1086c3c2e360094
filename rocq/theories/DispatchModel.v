(** The processes of a conversion: /repo/src/python/deepgnn/graph_engine/snark/dispatcher.py
    (PipeDispatcher 57-206, QueueDispatcher 220-388), converter/process.py 46-86 and the loop of
    convert.py 143-150.  One event is one action of the dispatcher or of a worker, an execution
    is a list of events.

    A pipe or queue is first in, first out.  [room] tells whether a message can be put behind
    those in a pipe or queue (mp.Queue(2), or the bytes a pipe of the system holds; a message
    larger than that is taken as one action together with its reader, so an empty pipe takes
    any message).  A worker that raises is gone (its process or thread prints the exception);
    nobody looks at it.  A line never equals FLAG_ALL_DONE (str and bytes). *)
From Verif Require Import Base.

Definition upd {A} (f : nat -> A) (i : nat) (a : A) (j : nat) : A := if j =? i then a else f j.

Section Dispatcher.
Variable L W Rep : Type.
Variable fresh : nat -> W.               (* writers.BinaryWriter(folder, suffix, ...) *)
Variable add : L -> W -> res W.          (* binary_writer.add(decoder.decode(line)) *)
Variable close : nat -> W -> res Rep.      (* binary_writer.close() and the dictionary of 71-84 *)

Inductive msg := Line (x : L) | AllDone.
(** A worker: in its loop, before q_out.put, at its end, after an exception. *)
Inductive worker := Working (w : W) | Reporting (o : Rep) | Ended | Raised.
(** The dispatcher: sends that are left (dispatch of every line, then 154-155 or 332-334),
    messages of q_out that are left (157-171 or 336-350), after join. *)
Inductive main := Sending (todo : list (nat * msg)) | Getting (left : nat) | Returned | Failed.
Record state := State {
  dispatcher : main; pipes : nat -> list msg; workers : nat -> worker;
  out : list Rep;            (* q_out *)
  arrived : list Rep         (* what join has taken from it *)
}.

Variable n : nat.                              (* parallel or num_partitions: q_in, q_out and workers *)
Variable room : list msg -> msg -> bool.
Variable expected : nat.                       (* range(parallel) or active_partitions *)
(** join of QueueDispatcher ends with p.terminate() for all workers (387-388), which threads do
    not have (AttributeError). *)
Variable terminate : bool.
Variable use_threads : bool.

(** [Send] with nothing left goes on to 157 or 336. *)
Inductive event := Send | Get | End | Recv (i : nat) | Put (i : nat).

Definition step (st : state) (e : event) : option state :=
  match e with
  | Send =>
      match dispatcher st with
      | Sending ((i, m) :: t) =>
          if i <? n then
            if room (pipes st i) m then
              Some (State (Sending t) (upd (pipes st) i (pipes st i ++ [m])) (workers st) (out st) (arrived st))
            else None
          else Some (State Failed (pipes st) (workers st) (out st) (arrived st))   (* IndexError *)
      | Sending [] => Some (State (Getting expected) (pipes st) (workers st) (out st) (arrived st))
      | _ => None
      end
  | Get =>
      match dispatcher st, out st with
      | Getting (S k), o :: t => Some (State (Getting k) (pipes st) (workers st) t (arrived st ++ [o]))
      | _, _ => None
      end
  | End =>
      match dispatcher st with
      | Getting O =>
          Some (State (if terminate && use_threads && negb (n =? 0) then Failed else Returned) (pipes st) (workers st) (out st) (arrived st))
      | _ => None
      end
  | Recv i =>
      if i <? n then
        match workers st i, pipes st i with
        | Working w, m :: t =>
            let s := match m with
                     | Line x => match add x w with Ok w' => Working w' | Fail _ => Raised end
                     | AllDone => match close i w with Ok o => Reporting o | Fail _ => Raised end
                     end in
            Some (State (dispatcher st) (upd (pipes st) i t) (upd (workers st) i s) (out st) (arrived st))
        | _, _ => None
        end
      else None
  | Put i =>
      if i <? n then
        match workers st i with
        | Reporting o => if List.length (out st) <? n then Some (State (dispatcher st) (pipes st) (upd (workers st) i Ended) (out st ++ [o]) (arrived st)) else None
        | _ => None
        end
      else None
  end.
Fixpoint run (st : state) (es : list event) : option state :=
  match es with
  | [] => Some st
  | e :: t => match step st e with Some st' => run st' t | None => None end
  end.
Definition init (program : list (nat * msg)) : state :=
  State (Sending program) (fun _ => []) (fun i => Working (fresh i)) [] [].

(** PipeDispatcher: line k goes to k mod parallel (146-147), then everybody is told to end. *)
Definition pipe_program (lines : list L) : list (nat * msg) :=
  map (fun x => (fst x mod n, Line (snd x))) (combine (seq 0 (List.length lines)) lines) ++ map (fun i => (i, AllDone)) (seq 0 n).
(** QueueDispatcher: the partition of a line is partition_func(line) (322-324; a natural number
    here), [order] is the set active_partitions in the order of its iteration (332). *)
Definition queue_program (partition_func : L -> nat) (order : list nat) (lines : list L) : list (nat * msg) :=
  map (fun x => (partition_func x, Line x)) lines ++ map (fun i => (i, AllDone)) order.
End Dispatcher.
Arguments Line {L}.
Arguments AllDone {L}.
Arguments Working {W Rep}.
Arguments Reporting {W Rep}.
Arguments Ended {W Rep}.
Arguments Raised {W Rep}.
Arguments Sending {L}.
Arguments Getting {L}.
Arguments Returned {L}.
Arguments Failed {L}.
Arguments State {L W Rep}.
Arguments dispatcher {L W Rep}.
Arguments pipes {L W Rep}.
Arguments workers {L W Rep}.
Arguments out {L W Rep}.
Arguments arrived {L W Rep}.
Arguments step {L W Rep}.
Arguments run {L W Rep}.
Arguments init {L W Rep}.
Arguments pipe_program {L}.
Arguments queue_program {L}.

(** The workers of a conversion with the writer of WriterModel: converter_process 46-86. *)
From Verif Require Import WriterModel MetaModel.
Definition convert_add {L} (decode : L -> res (list record)) (wval : N -> Z) (wm : option Z) (x : L) (s : wstate) : res wstate :=
  do b <- decode x ;; add_batch wval (is_temporal wm) b s.
Definition convert_close (offset i : nat) (s : wstate) : res wout := Ok (wout_of (offset + i) (wclose s)).
