(** Samplers over files and ranges, and the split of work over workers and servers:
    /repo/src/python/deepgnn/graph_engine/samplers.py (get_files 19-29, GENodeSampler 157-160,
    _GEIterator 57-63, _NumpyIterator 235-303, FileEdgeSampler 385-434,
    FileNodeSampler 486-513, _RangeNodeIterator 516-549, RangeNodeSampler 552-600,
    CSVNodeSampler 682-740, FileTupleSampler 801-836),
    _adl_reader.py (get_worker_files 301-324) and snark/distributed.py (Server 86-100).
    numpy arrays are lists of rows (several arrays of one length: rows are tuples); file
    contents are the lists of parsed lines, in order.  math.ceil and math.floor of a true
    division are exact integer divisions (the floating point quotient is exact enough below
    2^53). *)
From Coq Require Import Permutation.
From Verif Require Import Base.

(** a[ps] of a numpy array or list; every index used below is in range. *)
Definition rows_at {A} (l : list A) (ps : list nat) : list A :=
  flat_map (fun p => match nth_error l p with Some x => [x] | None => [] end) ps.
(** range(a, b, s), the indices of l[a:b:s]; s > 0. *)
Definition cdiv (a b : nat) : nat := (a + b - 1) / b.
Definition arange (a b s : nat) : list nat := map (fun k => a + k * s) (seq 0 (cdiv (b - a) s)).
Definition pyslice {A} (l : list A) (a b s : nat) : list A := rows_at l (arange a (Nat.min b (length l)) s).

(** get_files 19-29 and get_worker_files 316-324 on the sorted list of files. *)
Definition worker_files {A} (files : list A) (worker workers : nat) : res (list A) :=
  if length files <? workers then Fail EFatal else Ok (pyslice files worker (length files) workers).
(** _load_tuple_file 801-812. *)
Fixpoint tuple_lines {A} (cnt : nat) (lines : list A) (worker workers : nat) : list A :=
  match lines with
  | [] => []
  | l :: lines' => (if cnt mod workers =? worker then [l] else []) ++ tuple_lines (S cnt) lines' worker workers
  end.
(** Server 95-100: partitions of server [index] out of [total]. *)
Definition server_partitions (index count total : nat) : list nat := arange index count total.

(** An iterator: [next] returns a batch and the new state, or stops. *)
Fixpoint drain {S B} (next : S -> option (B * S)) (fuel : nat) (s : S) : option (list B) :=
  match fuel with
  | O => None
  | Datatypes.S f =>
      match next s with
      | None => Some []
      | Some (b, s') => option_map (cons b) (drain next f s')
      end
  end.

(** Iterating several times over an object whose __iter__ returns itself: state is kept. *)
Fixpoint drain_to {S B} (next : S -> option (B * S)) (fuel : nat) (s : S) : option (list B * S) :=
  match fuel with
  | O => None
  | Datatypes.S f =>
      match next s with
      | None => Some ([], s)
      | Some (b, s') => option_map (fun r => (b :: fst r, snd r)) (drain_to next f s')
      end
  end.
Fixpoint passes {S B} (next : S -> option (B * S)) (fuel k : nat) (s : S) : option (list (list B)) :=
  match k with
  | O => Some []
  | Datatypes.S k' =>
      match drain_to next fuel s with
      | None => None
      | Some (bs, s') => option_map (cons bs) (passes next fuel k' s')
      end
  end.

(** ** _NumpyIterator *)

(** __build_index 270-275: one permutation per epoch. *)
Definition index_of (shuffle : bool) (epochs length : nat) (idx : list nat) : Prop :=
  exists ts, idx = concat ts /\ List.length ts = epochs /\
             Forall (fun t => if shuffle then Permutation t (seq 0 length) else t = seq 0 length) ts.

(** __next__ 281-303; the state is self.offset, which starts at [np_start]. *)
Definition np_next {A} (data : list A) (idx : list nat) (total batch dpn : nat) (drop : bool) (fill : A) (offset : nat)
  : option (list A * nat) :=
  if total <=? offset then None
  else if offset + batch <=? total then Some (rows_at data (slice idx offset batch), offset + dpn * batch)
  else if drop then None
  else
    let res := rows_at data (skipn offset idx) in
    Some (res ++ repeat fill (batch - length res), offset + dpn * batch).
Definition np_start (index batch : nat) : nat := index * batch.

(** __len__ 385-399, 500-513, 814-827. *)
Definition np_len (total batch dpn : nat) (drop : bool) : nat :=
  if drop then total / (batch * dpn) else cdiv total (batch * dpn).
(** FileEdgeSampler.__iter__ 401-434 passes drop_last only without features. *)
Definition edge_drop (feature_dim : nat) (drop : bool) : bool := if feature_dim =? 0 then drop else false.

(** ** _GEIterator 57-63: count is decremented first. *)
Definition ge_count (epochs num batch workers dpn : nat) : nat := cdiv (epochs * num) (batch * workers * dpn).
Definition ge_next {A} (sample : A) (count : nat) : option (A * nat) :=
  match count with O => None | Datatypes.S c => Some (sample, c) end.

(** ** Ranges *)
Local Open Scope Z_scope.

(** RangeNodeSampler.__init__ 575-580. *)
Definition range_start (first last : Z) (batch worker : nat) : res Z :=
  let s := first + Z.of_nat (worker * batch) in
  if s <? last then Ok s else Fail EAssert.
(** _RangeNodeIterator.__init__ 530; __next__ 538-549. *)
Definition range_next (last : Z) (batch workers dpn : nat) (fill : Z) (first : Z) : option (list Z * Z) :=
  if last <=? first then None
  else
    let stop := first + Z.of_nat (batch * dpn) in
    let res := map (fun k => first + Z.of_nat (k * dpn)) (seq 0 batch) in
    let keep := Z.to_nat ((last - first) / Z.of_nat dpn) in
    Some (if last <? stop then firstn keep res ++ repeat fill (batch - keep) else res,
          first + Z.of_nat (workers * batch * dpn)).
(** __len__ 594-600. *)
Definition range_len (start last : Z) (batch workers dpn : nat) : nat :=
  cdiv (Z.to_nat (last - start)) (batch * workers * dpn).

(** ** CSVNodeSampler 711-740; the state is self.cur_batch. *)
Local Close Scope Z_scope.
Definition csv_next {A} (nodes : list A) (batch dpn index : nat) (cur : nat) : option (list A * nat) :=
  let start := cur * batch * dpn + index in
  if length nodes <=? start then None
  else
    let stop := (cur + 1) * batch * dpn + index in
    let stop := if length nodes <=? stop then length nodes else stop in
    Some (pyslice nodes start stop dpn, cur + 1).
Definition csv_count (n batch dpn epochs : nat) : nat := (n + batch - 1) / (batch * dpn) * epochs.
