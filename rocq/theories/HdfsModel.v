(** Remote files: /repo/src/cc/lib/graph/hdfs_wrap.cc (parse_hdfs_path 41-77, HDFSConnection
    172-187, read 221-247, read_hdfs 262-277, is_hdfs_path 334-338), py_graph.cc HDFSMoveMeta
    1302-1322, metadata.cc 28-47 (the copy of meta.json in the temporary directory).
    A file is the list of its bytes.  libhdfs is an argument: what its calls of hdfsRead
    return.  Not modelled: dlopen, the JVM, listing of directories (C68). *)
From Coq Require Import Ascii String.
From Verif Require Import Base FilesModel.
Import ListNotations.
Local Open Scope list_scope.

(** ** HDFSConnection::read 221-247 *)
Section Read.
Variable B : nat. (* BUFFER_SIZE 14: 4096 *)

(** Answers of hdfsRead: [None] is -1, [Some k] at most [k] bytes.  When the list is exhausted
    a call returns all it was asked for. *)
Definition answer := option nat.
Definition next (answers : list answer) (asked : nat) : answer * list answer :=
  match answers with a :: t => (a, t) | [] => (Some asked, []) end.
Definition taken (k asked : nat) (rest : list N) : list N * list N :=
  (firstn (Nat.min k asked) rest, skipn (Nat.min k asked) rest).

(** 233-242: at most two calls for a part of the buffer.  After -1 the second call is given the
    address one before the buffer and one byte more to read. *)
Definition part (answers : list answer) (rest : list N) (want : nat) : res (list N * list N * list answer) :=
  let (a1, answers) := next answers want in
  match a1 with
  | Some k =>
      let (b1, rest) := taken k want rest in
      if List.length b1 <? want then
        let asked := want - List.length b1 in
        let (a2, answers) := next answers asked in
        match a2 with
        | Some k2 =>
            let (b2, rest) := taken k2 asked rest in
            if List.length b1 + List.length b2 =? want then Ok (b1 ++ b2, rest, answers) else Fail EFatal
        | None => Fail EFatal
        end
      else Ok (b1, rest, answers)
  | None =>
      let (a2, answers) := next answers (want + 1) in
      match a2 with
      | Some k2 => match fst (taken k2 (want + 1) rest) with [] => Fail EFatal | _ => Fail EUB end
      | None => Fail EFatal
      end
  end.
Fixpoint read_loop (fuel : nat) (answers : list answer) (rest : list N) (left : nat) : res (list N * list N * list answer) :=
  match fuel with
  | O => Fail EFuel
  | S fuel =>
      if left =? 0 then Ok ([], rest, answers)
      else
        do x <- part answers rest (Nat.min left B) ;;
        let '(b, rest, answers) := x in
        do y <- read_loop fuel answers rest (left - List.length b) ;;
        let '(out, rest, answers) := y in
        Ok (b ++ out, rest, answers)
  end.
Definition hdfs_read (answers : list answer) (rest : list N) (n : nat) : res (list N * list N * list answer) :=
  read_loop (S n) answers rest n.

(** read_hdfs<T> 262-277, [width] is sizeof(T): the vector has size / width elements and
    receives size bytes. *)
Definition read_hdfs (width : nat) (answers : list answer) (file : list N) : res (list N) :=
  let size := List.length file in
  do x <- hdfs_read answers file size ;;
  if size / width * width <? size then Fail EUB else Ok (fst (fst x)).
End Read.

(** HDFSMoveMeta 1302-1322: [None] is the return code 1. *)
Definition move_meta (data : list N) : option (list N) :=
  if (100000 <? N.of_nat (List.length data))%N then None else Some data.

(** ** parse_hdfs_path 41-77 *)
Fixpoint find_char (c : ascii) (n : nm) : option nat :=
  match n with [] => None | d :: t => if Ascii.eqb c d then Some 0 else match find_char c t with Some k => Some (S k) | None => None end end.
(** full_path.find(c, i) *)
Definition find_from (c : ascii) (i : nat) (n : nm) : option nat :=
  match find_char c (skipn i n) with Some k => Some (i + k) | None => None end.
Definition is_hdfs_path (p : nm) : bool := prefix (str "adl://") p || prefix (str "hdfs://") p || prefix (str "file:///") p.
(** data_path, host, port.  npos stored in an int is -1: [substr] then takes the rest. *)
Definition parse_hdfs_path (p : nm) : res (nm * nm * Z) :=
  if negb (is_hdfs_path p) then Ok (p, str "default", 0%Z)
  else match find_sub (str "file:///") p with
  | Some _ => Ok (p, p, 0%Z)
  | None =>
      match find_from "/" 1 p with
      | None => Fail EUB (* find(':', -1) *)
      | Some i =>
          match find_from ":" i p with
          | None => Ok (p, p, 0%Z)
          | Some j =>
              let text := match find_from "/" j p with Some e => slice p (j + 1) (e - j - 1) | None => skipn (j + 1) p end in
              do port <- stoi text ;;
              Ok (p, firstn j p, port)
          end
      end
  end%char.
(** HDFSConnection 172-187: hdfsConnect takes a uint16_t. *)
Definition connect (p : nm) : res (nm * Z) :=
  do x <- parse_hdfs_path p ;; Ok (snd (fst x), (snd x mod 65536)%Z).

(** ** metadata.cc 28-47: every process on a host copies its meta.json to the same file and
    reads it back.  [mine] are the files of the processes, a schedule lists the process of
    each step; a process first writes, then reads. *)
Section Meta.
Context {M : Type}.
Record host := Host { tmp : option M; wrote : list nat; got : list (nat * M) }.
Definition host_step (mine : nat -> M) (h : host) (p : nat) : host :=
  if existsb (Nat.eqb p) (wrote h)
  then match tmp h with Some m => Host (tmp h) (wrote h) (got h ++ [(p, m)]) | None => h end
  else Host (Some (mine p)) (p :: wrote h) (got h).
Definition host_run (mine : nat -> M) (sched : list nat) : host := fold_left (host_step mine) sched (Host None [] []).
End Meta.
