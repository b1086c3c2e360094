(** Storage back ends: /repo/src/cc/lib/graph/storage.h (MemoryStorage 60-120,
    HDFSStreamStorage 136-234, DiskStorage 236-338), HDFSConnection::read of hdfs_wrap.cc
    221-247.  A file is the list of its bytes; T is uint8_t as in every use.  hdfsRead is
    taken to return as many bytes as are left; fread too, and it sets the end of file
    indicator exactly when it returns fewer bytes than asked for. *)
From Verif Require Import Base.

Definition bytes_at (file : list N) (offset n : nat) : list N := firstn n (skipn offset file).

(** ** Reads at an offset *)

(** MemoryStorage constructor 81-90: the read is inside an assert. *)
Definition memory_data (ndebug : bool) (file : list N) : list N :=
  if ndebug then repeat 0%N (length file) else file.
(** 109-115; std::copy_n past the end is undefined. *)
Definition memory_read (data : list N) (offset n : nat) : res (list N) :=
  if offset + n <=? length data then Ok (bytes_at data offset n) else Fail EUB.

(** DiskStorage::read 310-327; the state is the end of file indicator of the handle. *)
Definition disk_read (file : list N) (eof : bool) (offset n : nat) : res (list N * bool) :=
  if eof then Fail EFatal
  else if length file <=? offset then Fail EFatal
  else let out := bytes_at file offset n in Ok (out, length out <? n).
Fixpoint disk_reads (file : list N) (eof : bool) (rs : list (nat * nat)) : res (list (list N)) :=
  match rs with
  | [] => Ok []
  | (o, n) :: rs' => do x <- disk_read file eof o n ;; do xs <- disk_reads file (snd x) rs' ;; Ok (fst x :: xs)
  end.

(** ** Reads one after the other: [size * count] bytes, the result is what was stored and the
    number of items *)

(** DiskStorage::read 299-308; the state is the position and the indicator. *)
Definition fread_seq (file : list N) (st : nat * bool) (size count : nat) : res (list N * nat * (nat * bool)) :=
  let '(pos, eof) := st in
  if eof then Fail EFatal
  else
    let out := bytes_at file pos (size * count) in
    Ok (out, (if size =? 0 then 0 else length out / size), (pos + length out, length out <? size * count)).
Fixpoint fread_all (file : list N) (st : nat * bool) (rs : list (nat * nat)) : res (list (list N * nat)) :=
  match rs with
  | [] => Ok []
  | (s, c) :: rs' => do x <- fread_seq file st s c ;; do xs <- fread_all file (snd x) rs' ;; Ok (fst x :: xs)
  end.

(** HDFSStreamStorage; [B] is BUFFER_SIZE. *)
Section Stream.
Variable B : nat.
(** Position of the remote file, m_buffer, m_buffer_offset, m_offset. *)
Record stream := Stream { s_pos : nat; s_buf : list N; s_boff : nat; s_off : nat }.
(** Constructor and start(): malloc leaves arbitrary bytes. *)
Definition stream_start (junk : list N) : stream := Stream 0 junk B 0.
(** HDFSConnection::read: RAW_LOG_FATAL when bytes are missing. *)
Definition remote_read (file : list N) (pos n : nat) : res (list N) :=
  if pos + n <=? length file then Ok (bytes_at file pos n) else Fail EFatal.
(** memcpy inside the buffer: [l] with [w] stored at [i]. *)
Definition poke (l : list N) (i : nat) (w : list N) : list N := firstn i l ++ w ++ skipn (i + length w) l.
(** read 182-215; memcpy between overlapping parts of the buffer (201) is undefined. *)
Definition stream_read (file : list N) (s : stream) (size count : nat) : res (list N * nat * stream) :=
  let bytes := size * count in
  let left := B - s_boff s in
  if B <? bytes then
    do more <- remote_read file (s_pos s) (bytes - left) ;;
    Ok (bytes_at (s_buf s) (s_boff s) left ++ more, count, Stream (s_pos s + (bytes - left)) (s_buf s) B (s_off s + (bytes - left)))
  else if (s_off s =? length file) && (left <? bytes) then Fail EFatal
  else
    do s1 <- (if left <? bytes then
                if (s_boff s <? left) then Fail EUB
                else
                  let buf := poke (s_buf s) 0 (bytes_at (s_buf s) (s_boff s) left) in
                  let read_size := Nat.min (s_boff s) (length file - s_off s) in
                  if read_size =? 0 then Fail EFatal
                  else
                    do more <- remote_read file (s_pos s) read_size ;;
                    Ok (Stream (s_pos s + read_size) (poke buf left more) 0 (s_off s + read_size))
              else Ok s) ;;
    Ok (bytes_at (s_buf s1) (s_boff s1) bytes, count, Stream (s_pos s1) (s_buf s1) (s_boff s1 + bytes) (s_off s1)).
Fixpoint stream_reads (file : list N) (s : stream) (rs : list (nat * nat)) : res (list (list N * nat)) :=
  match rs with
  | [] => Ok []
  | (n, c) :: rs' => do x <- stream_read file s n c ;; do xs <- stream_reads file (snd x) rs' ;; Ok (fst x :: xs)
  end.
End Stream.
