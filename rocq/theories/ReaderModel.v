(** The text reader: /repo/src/python/deepgnn/graph_engine/_adl_reader.py (TextFileIterator
    64-412) and TextFileSampler (samplers.py 838-931).

    Files are lists of bytes.  A Python str is identified with its UTF-8 encoding, so decode()
    is the identity on valid byte strings and raises on others, and splitlines() works on bytes.
    The threads of _read_block_by_threads write to separate slots and are joined before the
    slots are read, the reader thread and the consumer are connected by one FIFO queue: both are
    written as functions, the queue as the list of all items put into it.  Shuffling of files is
    the order of files of each epoch, shuffling of lines an oracle.  Left out: the choice of
    files by glob and fs.ls, Azure storage, reset() while iterating, join(). *)
From Verif Require Import Base.
Local Open Scope nat_scope.

Definition bytes := list N.
Definition LF : N := 10%N.
Definition CR : N := 13%N.

(** *** Python strings *)
(** UTF-8 as Python decodes it: no overlong forms, no surrogates, up to U+10FFFF. *)
Inductive ustate := UStart | U1 | U2 | U3 | UE0 | UED | UF0 | UF4.
Definition between (a b x : N) : bool := ((a <=? x) && (x <=? b))%N.
Definition ustep (s : ustate) (x : N) : option ustate :=
  match s with
  | UStart =>
      if (x <=? 127)%N then Some UStart
      else if between 194 223 x then Some U1
      else if (x =? 224)%N then Some UE0
      else if (x =? 237)%N then Some UED
      else if between 225 239 x then Some U2
      else if (x =? 240)%N then Some UF0
      else if (x =? 244)%N then Some UF4
      else if between 241 243 x then Some U3
      else None
  | U1 => if between 128 191 x then Some UStart else None
  | U2 => if between 128 191 x then Some U1 else None
  | U3 => if between 128 191 x then Some U2 else None
  | UE0 => if between 160 191 x then Some U1 else None
  | UED => if between 128 159 x then Some U1 else None
  | UF0 => if between 144 191 x then Some U2 else None
  | UF4 => if between 128 143 x then Some U2 else None
  end.
Fixpoint urun (s : ustate) (l : bytes) : option ustate :=
  match l with [] => Some s | x :: l => match ustep s x with Some s => urun s l | None => None end end.
(** bytes.decode("utf-8") *)
Definition decode (l : bytes) : option bytes := match urun UStart l with Some UStart => Some l | _ => None end.

(** str.splitlines(): LF, VT, FF, CR, CR LF, FS, GS, RS, U+0085, U+2028, U+2029. *)
Definition cons_line (c : N) (ls : list bytes) : list bytes := match ls with [] => [[c]] | l :: ls => (c :: l) :: ls end.
Fixpoint splitlines (l : bytes) : list bytes :=
  match l with
  | [] => []
  | c :: t =>
      if (c =? CR)%N then match t with d :: t' => if (d =? LF)%N then [] :: splitlines t' else [] :: splitlines t | [] => [[]] end
      else if between 10 12 c || between 28 30 c then [] :: splitlines t
      else if (c =? 194)%N then match t with d :: t' => if (d =? 133)%N then [] :: splitlines t' else cons_line c (splitlines t) | [] => [[c]] end
      else if (c =? 226)%N then
        match t with
        | d :: t' => match t' with
            | e :: t'' => if (d =? 128)%N && between 168 169 e then [] :: splitlines t'' else cons_line c (splitlines t)
            | [] => cons_line c (splitlines t) end
        | [] => [[c]] end
      else cons_line c (splitlines t)
  end.

(** str.strip("\r\n") *)
Definition is_end (c : N) : bool := ((c =? CR) || (c =? LF))%N.
Fixpoint lstrip (l : bytes) : bytes := match l with c :: t => if is_end c then lstrip t else l | [] => [] end.
Definition strip (l : bytes) : bytes := rev (lstrip (rev (lstrip l))).

(** *** Reading a block: _read_block_by_threads 143-248 *)
Record block := Block { prefix : option bytes; lines : list bytes; suffix : option bytes; len : nat }.
Definition empty_block : block := Block None [] None 0.

(** bytes.index of LF: what is before and after it. *)
Fixpoint cut (l : bytes) : option (bytes * bytes) :=
  match l with
  | [] => None
  | c :: t => if (c =? LF)%N then Some ([], t) else match cut t with Some (a, b) => Some (c :: a, b) | None => None end
  end.
(** The last LF. *)
Definition rcut (l : bytes) : option (bytes * bytes) :=
  match cut (rev l) with Some (a, b) => Some (rev b, rev a) | None => None end.

(** _read_block_worker 152-188 on what was read.  [after] is everything behind the first LF; a
    second LF separates lines and suffix.  An exception of decode() stays in the future of the
    worker, which nobody asks: the lines are gone. *)
Definition worker (sub : bytes) : block :=
  match sub with
  | [] => empty_block
  | _ =>
      match cut sub with
      | None => Block (Some sub) [] None (length sub)
      | Some (first, after) =>
          match rcut after with
          | None => Block (Some first) [] (Some after) (length sub)
          | Some (mid, last) =>
              Block (Some first) (match decode mid with Some s => splitlines s | None => [] end) (Some last) (length sub)
          end
      end
  end.

(** f.seek(offset); f.read(length) *)
Definition read (content : bytes) (offset length : nat) : bytes := firstn length (skipn offset content).

(** 190-207: the offsets and lengths of the workers. *)
Definition ranges (threads offset length : nat) : list (nat * nat) :=
  let sub := length / threads in
  let last := threads - 1 in
  map (fun i => (offset + i * sub, sub)) (seq 0 last) ++ [(offset + last * sub, length - last * sub)].

(** One round of the loop 216-246.  None: decode() raises in the reader thread. *)
Definition merge (head cur : block) : option block :=
  let n := len head + len cur in
  match prefix cur with
  | None => Some (Block (prefix head) (lines head) (suffix head) n)
  | Some p =>
      match suffix head, prefix head with
      | Some s, _ =>
          match suffix cur with
          | Some q =>
              match decode (s ++ p) with
              | Some t => Some (Block (prefix head) (lines head ++ splitlines t ++ lines cur) (Some q) n)
              | None => None end
          | None => Some (Block (prefix head) (lines head) (Some (s ++ p)) n)
          end
      | None, h =>
          let h := match h with Some h => h ++ p | None => p end in
          match suffix cur with
          | Some q => Some (Block (Some h) (lines head ++ lines cur) (Some q) n)
          | None => Some (Block (Some h) (lines head) None n)
          end
      end
  end.
Fixpoint merge_all (head : block) (bs : list block) : option block :=
  match bs with [] => Some head | b :: bs => match merge head b with Some h => merge_all h bs | None => None end end.

(** None also if threads = 0: ThreadPoolExecutor(max_workers=0) raises ValueError. *)
Definition read_block (content : bytes) (threads offset length : nat) : option block :=
  match threads with
  | 0 => None
  | _ =>
      match map (fun r => worker (read content (fst r) (snd r))) (ranges threads offset length) with
      | [] => None
      | h :: bs => merge_all h bs
      end
  end.

(** *** The reader thread: _read_block 256-299 *)
(** Items of the queue; the separator is the block 266-273, 285-292. *)
Inductive item := IBlock (b : block) | IDone.
Definition separator : block := Block (Some []) [] (Some []) 0.

(** get_length_to_read: 253-254 gives the block length ([None]), TextFileSplitIterator's 455-461
    at most what is left of total_read_length. *)
Definition to_read (total : option nat) (length : nat) : nat := match total with None => length | Some t => Nat.min t length end.
Definition after_read (total : option nat) (length : nat) : option nat := option_map (fun t => t - to_read total length) total.
(** The blocks of one file; the reader stops the file at an empty block.  False: the reader
    thread raised.  At last what is left of total_read_length. *)
Fixpoint file_items (fuel : nat) (content : bytes) (threads offset : nat) (total : option nat) (length : nat) : list item * bool * option nat :=
  match fuel with
  | 0 => ([], false, total)
  | S fuel =>
      match read_block content threads offset (to_read total length) with
      | None => ([], false, after_read total length)
      | Some b =>
          if len b =? 0 then ([], true, after_read total length)
          else
            let '(r, ok, t) := file_items fuel content threads (offset + len b) (after_read total length) length in
            (IBlock b :: r, ok, t)
      end
  end.
(** All files of all epochs, one after the other, with separators in between and FetchDone at
    the end; when the reader thread raised the queue just ends.  epochs > 0 (otherwise
    left_epochs never gets 0). *)
Fixpoint all_items (threads length : nat) (files : list bytes) : list item :=
  match files with
  | [] => [IDone]
  | c :: rest =>
      let '(r, ok, _) := file_items (S (List.length c)) c threads 0 None length in
      r ++ if ok then match rest with [] => [IDone] | _ => IBlock separator :: all_items threads length rest end else []
  end.
(** TextFileSplitIterator 414-465: one file, from worker_offset; total_read_length is not set
    back by reset(), so its value after the pass is what the next pass gets. *)
Definition split_items (threads length : nat) (content : bytes) (offset : nat) (total : option nat) : list item * option nat :=
  let '(r, ok, t) := file_items (S (List.length content)) content threads offset total length in
  (r ++ (if ok then [IDone] else []), t).

(** *** The consumer: __next__ 359-408 *)
Record reader := Reader { remain_lines : list bytes; remain_bytes : bytes; outputs : list item; ended : bool }.
Inductive answer := Batch (b : list bytes) | StopIteration | Raised | Blocked.

(** The while loop 367-398; in the result: the batch, and whether FetchDone was seen.  A block
    without prefix raises TypeError in len(None). *)
Inductive filled := Filled (buf : list bytes) (done : bool) (st : reader) | FRaised | FBlocked.
Fixpoint fill (batch : nat) (buf rl : list bytes) (rb : bytes) (q : list item) : filled :=
  if batch <=? length buf then Filled buf false (Reader rl rb q false)
  else
    let add := batch - length buf in
    if (0 <? length rl) && negb (length rl <? add)
    then Filled (buf ++ firstn add rl) false (Reader (skipn add rl) rb q false)
    else
      let buf := buf ++ rl in
      match q with
      | [] => FBlocked
      | IDone :: q =>
          match rb with
          | [] => Filled buf true (Reader [] rb q false)
          | _ =>
              match decode rb with
              | None => FRaised
              | Some s => Filled (match strip s with [] => buf | l => buf ++ [l] end) true (Reader [] rb q false)
              end
          end
      | IBlock b :: q =>
          match prefix b with
          | None => FRaised
          | Some p =>
              match suffix b with
              | None => fill batch buf [] (rb ++ p) q
              | Some s =>
                  match decode (rb ++ p) with
                  | None => FRaised
                  | Some t => fill batch buf (splitlines t ++ lines b) s q
                  end
              end
          end
      end.

Definition next (batch : nat) (drop_last : bool) (st : reader) : answer * reader :=
  if ended st then (StopIteration, st)
  else
    match fill batch [] (remain_lines st) (remain_bytes st) (outputs st) with
    | FRaised => (Raised, st)
    | FBlocked => (Blocked, st)
    | Filled buf done s =>
        let e := done || negb (length buf =? batch) in
        let s := Reader (remain_lines s) (remain_bytes s) (outputs s) e in
        if (length buf =? 0) || (drop_last && (length buf <? batch)) then (StopIteration, s) else (Batch buf, s)
    end.

(** Calls of __next__ until it gives no batch. *)
Fixpoint iterate (fuel batch : nat) (drop_last : bool) (st : reader) : list (list bytes) * answer :=
  match fuel with
  | 0 => ([], Blocked)
  | S fuel =>
      match next batch drop_last st with
      | (Batch b, st) => let (r, a) := iterate fuel batch drop_last st in (b :: r, a)
      | (a, _) => ([], a)
      end
  end.
Definition start (threads length : nat) (files : list bytes) : reader := Reader [] [] (all_items threads length files) false.

Definition split_start (threads length : nat) (content : bytes) (offset : nat) (total : option nat) : reader * option nat :=
  let (q, t) := split_items threads length content offset total in (Reader [] [] q false, t).

(** *** The files of a worker: get_worker_files 301-324 *)
(** [files] are sorted; range(worker_index, len(files), num_workers). *)
Definition worker_files {A} (files : list A) (worker_index num_workers : nat) : option (list A) :=
  if length files <? num_workers then None
  else Some (flat_map (fun i => match nth_error files (worker_index + i * num_workers) with Some f => [f] | None => [] end) (seq 0 (length files))).

(** *** TextFileSampler.__next__ 895-925 *)
Record sampler := Sampler { buf : list bytes; iter : reader; end_ : bool; calls : nat }.
(** The loop 901-908; fuel bounds the number of batches. *)
Inductive loaded := Loaded (buf : list bytes) (iter : reader) (end_ added : bool) | LRaised | LBlocked.
Fixpoint load (fuel batch buffer : nat) (drop_last : bool) (buf : list bytes) (it : reader) (added : bool) : loaded :=
  if buffer <=? length buf then Loaded buf it false added
  else
    match fuel with
    | 0 => LBlocked
    | S fuel =>
        match next batch drop_last it with
        | (Batch b, it) => load fuel batch buffer drop_last (buf ++ b) it true
        | (StopIteration, it) => Loaded buf it true added
        | (Raised, _) => LRaised
        | (Blocked, _) => LBlocked
        end
    end.
Section Sampler.
Variable shuffle : nat -> list bytes -> list bytes.   (* random.shuffle, by call *)
Variable fuel : nat.
(** buffer_size: 884-885. *)
Definition buffer_of (batch buffer_size : nat) : nat := if 3 * batch <=? buffer_size then buffer_size else 3 * batch.
Definition sampler_next (batch buffer_size : nat) (drop_last : bool) (st : sampler) : answer * sampler :=
  if end_ st && (length (buf st) =? 0) then (StopIteration, st)
  else
    match (if end_ st then Loaded (buf st) (iter st) true false
           else load fuel batch (buffer_of batch buffer_size) drop_last (buf st) (iter st) false) with
    | LRaised => (Raised, st)
    | LBlocked => (Blocked, st)
    | Loaded b it e added =>
        let b := if added then shuffle (calls st) b else b in
        let count := if batch <=? length b then batch else length b in
        (Batch (firstn count b ++ repeat [] (batch - count)), Sampler (skipn count b) it e (S (calls st)))
    end.
Fixpoint sampler_iterate (k batch buffer_size : nat) (drop_last : bool) (st : sampler) : list (list bytes) * answer :=
  match k with
  | 0 => ([], Blocked)
  | S k =>
      match sampler_next batch buffer_size drop_last st with
      | (Batch b, st) => let (r, a) := sampler_iterate k batch buffer_size drop_last st in (b :: r, a)
      | (a, _) => ([], a)
      end
  end.
End Sampler.
