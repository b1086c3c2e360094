(** Model of the binary converter output:
    /repo/src/python/deepgnn/graph_engine/snark/converter/writers.py
    (BinaryWriter 19-171, NodeWriter 174-228, NodeFeatureWriter 231-298,
    EdgeWriter 301-414, EdgeFeatureWriter 417-473).
    Files are byte lists; [tell()] is the length of the list. *)
From Verif Require Import Base.
Local Open Scope Z_scope.

(** One record yielded by a decoder: decoders.py 34-47 and writers.py 85-88.
    Simplifications: features are the byte strings produced by
    [convert_features] (writers.py 680-736, modelled in Sparse/Temporal files);
    [rweight] is the IEEE binary32 bit pattern [struct.pack("f")] stores. *)
Record record := Rec {
  rsrc : Z; rdst : Z; rtyp : Z; rweight : N;
  rcreated : option Z; rremoved : option Z;
  rfeats : list (option (list N))
}.

(** Python [x or d] for an optional int: [None] and [0] select [d]
    (writers.py 105-106, 149-150). *)
Definition py_or (x : option Z) (d : Z) : Z :=
  match x with Some 0 => d | Some v => v | None => d end.

(** [struct.pack("Q", v)] and ["i"], ["q"]: out of range raises struct.error
    (writers.py 214-221, 374-382, 392). *)
Definition packQ (v : Z) : res (list N) :=
  if (0 <=? v) && (v <? 2 ^ 64) then Ok (le 8 (Z.to_N v)) else Fail EPack.
Definition packi (v : Z) : res (list N) :=
  if (- 2 ^ 31 <=? v) && (v <? 2 ^ 31) then Ok (zle 4 v) else Fail EPack.
Definition packq (v : Z) : res (list N) :=
  if (- 2 ^ 63 <=? v) && (v <? 2 ^ 63) then Ok (zle 8 v) else Fail EPack.
(** [ctypes.c_uint64(n)] written to a file: wraps modulo 2^64. *)
Definition cu64 (n : nat) : list N := le 8 (N.of_nat n).

(** State of a BinaryWriter with its sub-writers: the contents of the files
    node_map, node_index, node_features index/data, neighbors index, edge index,
    edge_features index/data and edge timestamps, the running positions and the
    counters that end up in meta.json.  The alias writers are modelled in
    AliasModel.v.  [wcount] is NodeWriter.count. *)
Record wstate := WS {
  nm : list N; ni : list N; nfi : list N; nfd : list N;
  nbi : list N; ei : list N; efi : list N; efd : list N; eti : list N;
  wcount : nat; nfd_pos : nat; efi_pos : nat; efd_pos : nat;
  node_feature_count : nat; edge_feature_count : nat;
  prev_node : option Z; prev_type : option Z;
  node_count : nat; edge_count : nat;
  node_type_count : list nat; edge_type_count : list nat;
  node_weight : list Z; edge_weight : list Z
}.

(** BinaryWriter.__init__ 28-71 with NodeFeatureWriter.__init__ 234-269,
    EdgeWriter.__init__ 304-347 (watermark written at 344). *)
Definition winit (watermark : option Z) : wstate :=
  WS [] [] [] [] [] [] [] []
     (match watermark with Some w => le 8 (Z.to_N (w mod 2 ^ 64)) | None => [] end)
     0 0 0 0 0 0 None None 0 0 [] [] [] [].

(** The feature loops NodeFeatureWriter.add 283-290 and EdgeFeatureWriter.add
    453-461: for every feature write the current data position to the index file
    and append the bytes to the data file.  Returns (index, data, data position). *)
Fixpoint write_features (feats : list (option (list N))) (idx data : list N) (pos : nat)
  : list N * list N * nat :=
  match feats with
  | [] => (idx, data, pos)
  | f :: t =>
      let idx' := idx ++ cu64 pos in
      match f with
      | None => write_features t idx' data pos
      | Some b => write_features t idx' (data ++ b) (pos + length b)
      end
  end.

(** NodeWriter.add 197-223 with NodeFeatureWriter.add 271-290 and
    EdgeWriter.add_node 349-353 (always called together in BinaryWriter.add).
    Timestamps are passed on to [convert_features], which ignores them. *)
Definition add_node (id typ : Z) (feats : list (option (list N))) (s : wstate) : res wstate :=
  do a <- packQ id ;;
  do t <- packi typ ;;
  let ni' := ni s ++ cu64 (length (nfi s) / 8) in
  let '(nfi', nfd', pos') := write_features feats (nfi s) (nfd s) (nfd_pos s) in
  Ok (WS (nm s ++ a ++ cu64 (wcount s) ++ t) ni' nfi' nfd'
         (nbi s ++ cu64 (length (ei s) / 24)) (ei s) (efi s) (efd s) (eti s)
         (S (wcount s)) pos' (efi_pos s) (efd_pos s)
         (Nat.max (node_feature_count s) (length feats)) (edge_feature_count s)
         (prev_node s) (prev_type s) (node_count s) (edge_count s)
         (node_type_count s) (edge_type_count s) (node_weight s) (edge_weight s)).

(** EdgeWriter.add 355-392 with EdgeFeatureWriter.add 442-461. *)
Definition add_edge (temporal : bool) (dst typ : Z) (w : N) (feats : list (option (list N)))
    (created removed : Z) (s : wstate) : res wstate :=
  do d <- packQ dst ;;
  do t <- packi typ ;;
  do ts <- (if temporal
            then do c <- packq created ;; do r <- packq removed ;; Ok (c ++ r)
            else Ok []) ;;
  let '(efi', efd', pos') := write_features feats (efi s) (efd s) (efd_pos s) in
  Ok (WS (nm s) (ni s) (nfi s) (nfd s) (nbi s)
         (ei s ++ d ++ cu64 (efi_pos s / 8) ++ t ++ le 4 w) efi' efd' (eti s ++ ts)
         (wcount s) (nfd_pos s) (efi_pos s + 8 * length feats) pos'
         (node_feature_count s) (Nat.max (edge_feature_count s) (length feats))
         (prev_node s) (prev_type s) (node_count s) (edge_count s)
         (node_type_count s) (edge_type_count s) (node_weight s) (edge_weight s)).

(** [l[i] += v] with Python indexing: negative indices count from the end,
    out of range raises IndexError (writers.py 116-117, 160-161). *)
Definition py_add {A} (add : A -> A) (l : list A) (i : Z) : res (list A) :=
  let n := Z.of_nat (length l) in
  let j := if i <? 0 then i + n else i in
  if (j <? 0) || (n <=? j) then Fail EIndex
  else match nth_error l (Z.to_nat j) with
       | Some x => Ok (firstn (Z.to_nat j) l ++ add x :: skipn (S (Z.to_nat j)) l)
       | None => Fail EIndex
       end.

(** Growing the per type lists (writers.py 98-103, 135-140); [node_type_num] is
    always the length of the lists. *)
Definition grow {A} (d : A) (l : list A) (typ : Z) : list A :=
  l ++ repeat d (Z.to_nat (typ + 1) - length l).

Section Writer.
(** Numeric value of a weight in units of 2^-149 (every finite binary32 is an
    integer in this unit); meta.json sums are taken in exact arithmetic. *)
Variable wval : N -> Z.
Variable temporal : bool.

(** One iteration of BinaryWriter.add 93-162.  [nc]/[nr] are the locals
    node_created_at/node_removed_at. *)
Definition add_record (r : record) (nc nr : Z) (s : wstate) : res (Z * Z * wstate) :=
  if rdst r =? -1 then
    (* 95-118: a node *)
    let ntc := grow 0%nat (node_type_count s) (rtyp r) in
    let nw := grow 0 (node_weight s) (rtyp r) in
    let nc' := py_or (rcreated r) 0 in
    let nr' := py_or (rremoved r) (-1) in
    do s1 <- add_node (rsrc r) (rtyp r) (rfeats r) s ;;
    do nw' <- py_add (fun x => x + wval (rweight r)) nw (rtyp r) ;;
    do ntc' <- py_add S ntc (rtyp r) ;;
    Ok (nc', nr',
        WS (nm s1) (ni s1) (nfi s1) (nfd s1) (nbi s1) (ei s1) (efi s1) (efd s1) (eti s1)
           (wcount s1) (nfd_pos s1) (efi_pos s1) (efd_pos s1)
           (node_feature_count s1) (edge_feature_count s1)
           (Some (rsrc r)) None (S (node_count s1)) (edge_count s1)
           ntc' (edge_type_count s1) nw' (edge_weight s1))
  else
    (* 119-162: an edge *)
    do s1 <- (if match prev_node s with Some p => rsrc r =? p | None => false end
              then Ok s
              else do s' <- add_node (rsrc r) (-1) [] s ;;
                   Ok (WS (nm s') (ni s') (nfi s') (nfd s') (nbi s') (ei s') (efi s') (efd s') (eti s')
                          (wcount s') (nfd_pos s') (efi_pos s') (efd_pos s')
                          (node_feature_count s') (edge_feature_count s')
                          (Some (rsrc r)) None (node_count s') (edge_count s')
                          (node_type_count s') (edge_type_count s') (node_weight s') (edge_weight s'))) ;;
    if match prev_type s1 with Some p => rtyp r <? p | None => false end then Fail EAssert
    else
    let etc := grow 0%nat (edge_type_count s1) (rtyp r) in
    let ew := grow 0 (edge_weight s1) (rtyp r) in
    if match rcreated r with Some c => c <? nc | None => false end then Fail EAssert
    else if match rremoved r with Some d => negb (nr =? -1) && (nr <? d) | None => false end
    then Fail EAssert
    else
    do s2 <- add_edge temporal (rdst r) (rtyp r) (rweight r) (rfeats r)
                      (py_or (rcreated r) nc) (py_or (rremoved r) nr) s1 ;;
    do ew' <- py_add (fun x => x + wval (rweight r)) ew (rtyp r) ;;
    do etc' <- py_add S etc (rtyp r) ;;
    Ok (nc, nr,
        WS (nm s2) (ni s2) (nfi s2) (nfd s2) (nbi s2) (ei s2) (efi s2) (efd s2) (eti s2)
           (wcount s2) (nfd_pos s2) (efi_pos s2) (efd_pos s2)
           (node_feature_count s2) (edge_feature_count s2)
           (prev_node s2) (Some (rtyp r)) (node_count s2) (S (edge_count s2))
           (node_type_count s2) etc' (node_weight s2) ew').

Fixpoint add_records (rs : list record) (nc nr : Z) (s : wstate) : res wstate :=
  match rs with
  | [] => Ok s
  | r :: t => do x <- add_record r nc nr s ;;
              let '(nc', nr', s') := x in add_records t nc' nr' s'
  end.

(** BinaryWriter.add 73-162: one call per decoded line. *)
Definition add_batch (rs : list record) (s : wstate) : res wstate := add_records rs 0 (-1) s.

Fixpoint add_batches (bs : list (list record)) (s : wstate) : res wstate :=
  match bs with
  | [] => Ok s
  | b :: t => do s' <- add_batch b s ;; add_batches t s'
  end.

(** BinaryWriter.close 164-171: NodeFeatureWriter.close 292-298,
    EdgeWriter.close 394-414 (padding record with weight -1.0 = 0xBF800000). *)
Definition wclose (s : wstate) : wstate :=
  WS (nm s) (ni s ++ cu64 (length (nfi s) / 8)) (nfi s ++ cu64 (nfd_pos s)) (nfd s)
     (nbi s ++ cu64 (length (ei s) / 24))
     (ei s ++ le 8 0 ++ cu64 (efi_pos s / 8) ++ zle 4 0 ++ le 4 3212836864%N)
     (efi s ++ cu64 (efd_pos s)) (efd s) (eti s)
     (wcount s) (nfd_pos s) (efi_pos s) (efd_pos s)
     (node_feature_count s) (edge_feature_count s) (prev_node s) (prev_type s)
     (node_count s) (edge_count s) (node_type_count s) (edge_type_count s)
     (node_weight s) (edge_weight s).

End Writer.

(** [is_temporal] at writers.py 50. *)
Definition is_temporal (watermark : option Z) : bool :=
  match watermark with Some _ => true | None => false end.

(** A whole partition: converter_process (converter/process.py 40-86). *)
Definition write_partition (wval : N -> Z) (watermark : option Z) (bs : list (list record)) : res wstate :=
  do s <- add_batches wval (is_temporal watermark) bs (winit watermark) ;; Ok (wclose s).
