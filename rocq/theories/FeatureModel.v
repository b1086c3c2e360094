(** Feature reads: /repo/src/cc/lib/graph/partition.cc (deserialize_temporal_feature 33-71,
    deserialize_string_features 73-83, deserialize_sparse_features 85-135,
    GetNodeFeature 462-518, GetNodeSparseFeature 520-586, GetNodeStringFeature 588-650,
    EdgeFeatureOffset 885-935, GetEdgeFeature 937-990, GetEdgeSparseFeature 992-1045,
    GetEdgeStringFeature 1047-1100) and /repo/src/cc/lib/graph/graph.cc 133-358.
    The storage is MemoryStorage (storage.h 66-134); other storages are in StorageModel. *)
From Verif Require Import Base WriterModel LoaderModel GraphModel.
Local Open Scope Z_scope.

Fixpoint foldM {A S} (f : A -> S -> res S) (l : list A) (s : S) : res S :=
  match l with [] => Ok s | a :: t => do s' <- f a s ;; foldM f t s' end.

(** MemoryStorage::read = std::copy_n; reading outside the buffer is undefined. *)
Definition sread (data : list N) (off n : Z) : res (list N) :=
  if (0 <=? off) && (0 <=? n) && (off + n <=? Z.of_nat (length data))
  then Ok (slice data (Z.to_nat off) (Z.to_nat n)) else Fail EUB.

Definition u64 (z : Z) : Z := z mod 2 ^ 64.

(** deserialize_temporal_feature 33-71: (offset, stored size, timestamp of the value). *)
Definition temporal_feature (data : list N) (off : Z) (ts : Z) : res (Z * Z * Z) :=
  do h <- sread data off 4 ;;
  let n := N.to_nat (unle h) in
  match n with
  | O => Ok (off, 0, -1)
  | _ =>
      do raw <- sread data (off + 4) (Z.of_nat (8 * (2 * n + 1))) ;;
      let idx := map (unzle 8) (fields 8 raw) in
      let times := firstn n idx in
      let pos0 := bound (fun x => x <? ts) times in
      let pos := if (pos0 =? n)%nat then (pos0 - 1)%nat else pos0 in
      do v <- get idx pos ;;
      if (ts <? v) && (pos =? 0)%nat then Ok (off, 0, -1)
      else
        let pos := if ts <? v then (pos - 1)%nat else pos in
        do v <- get idx pos ;;
        do o <- get idx (n + pos) ;;
        do o' <- get idx (n + pos + 1) ;;
        Ok (off + o, u64 (o' - o), v)
  end.

(** [curr] is a position in the output span. *)
Definition write_at (buf : list N) (curr : nat) (bs : list N) : res (list N) :=
  if (curr + length bs <=? length buf)%nat
  then Ok (firstn curr buf ++ bs ++ skipn (curr + length bs) buf) else Fail EUB.

(** The skip test at 476-477 (and its copies). *)
Definition already (ts : option Z) (flag : Z) : bool :=
  match ts with None => 0 <=? flag | Some t => flag =? t end.

(** Position of feature [f] of the element whose features are [lo, hi) in the index:
    [None] when the element has fewer features (486-490), else offset and stored size. *)
Definition feature_slot (index : list nat) (lo hi : nat) (f : Z) : res (option (Z * Z)) :=
  if Z.of_nat hi - Z.of_nat lo <=? u64 f then Ok None
  else
    do a <- get index (lo + Z.to_nat (u64 f)) ;;
    do b <- get index (lo + Z.to_nat (u64 f) + 1) ;;
    Ok (Some (Z.of_nat a, u64 (Z.of_nat b - Z.of_nat a))).

(** Resolve the timestamp (494-498). *)
Definition resolve (data : list N) (ts : option Z) (slot : Z * Z) : res (Z * Z * Z) :=
  match ts with
  | None => Ok (fst slot, snd slot, 0)
  | Some t => temporal_feature data (fst slot) t
  end.

Definition zeros (n : nat) : list N := repeat 0%N n.

(** Copy of a value into the output with zero fill (507-516). *)
Definition copy_value (data : list N) (buf : list N) (curr : nat) (size : nat) (off stored : Z)
  : res (list N) :=
  do bs <- sread data off (Z.min (Z.of_nat size) stored) ;;
  do buf <- write_at buf curr bs ;;
  if stored <? Z.of_nat size
  then write_at buf (curr + length bs) (zeros (size - Z.to_nat stored))
  else Ok buf.

(** Loop 474-517 of GetNodeFeature.  [fs] = requested (id, size); [flags] one per feature. *)
Fixpoint node_feature_loop (p : partition) (lo hi : nat) (ts : option Z) (fs : list (Z * nat)) (flags : list Z)
    (curr : nat) (buf : list N) : res (list Z * list N) :=
  match fs, flags with
  | [], _ => Ok ([], buf)
  | (f, size) :: fs', flag :: flags' =>
      let skip (fl : Z) (b : list N) :=
        do r <- node_feature_loop p lo hi ts fs' flags' (curr + size) b ;; Ok (fl :: fst r, snd r) in
      if already ts flag then skip flag buf
      else
        do slot <- feature_slot (p_nfidx p) lo hi f ;;
        match slot with
        | None => skip flag buf
        | Some s =>
            do v <- resolve (p_nfd p) ts s ;;
            let '(off, stored, fts) := v in
            if fts <=? flag then skip flag buf
            else do b <- copy_value (p_nfd p) buf curr size off stored ;; skip fts b
        end
  | _ :: _, [] => Fail EUB
  end.

Definition part_node_feature (p : partition) (id : nat) (ts : option Z) (fs : list (Z * nat))
    (st : list Z * list N) : res (list Z * list N) :=
  match p_nfidx p with
  | [] => Ok st
  | _ =>
      do lo <- get (p_nidx p) id ;;
      do hi <- get (p_nidx p) (S id) ;;
      node_feature_loop p lo hi ts fs (fst st) 0 (snd st)
  end.

(** Zero fill 165-177. *)
Fixpoint fill_missing (fs : list (Z * nat)) (flags : list Z) (off : nat) (buf : list N) : res (list N) :=
  match fs, flags with
  | [], _ => Ok buf
  | (_, size) :: fs', flag :: flags' =>
      if 0 <=? flag then fill_missing fs' flags' (off + size) buf
      else do b <- write_at buf off (zeros size) ;; fill_missing fs' flags' (off + size) b
  | _ :: _, [] => Fail EUB
  end.

(** Graph::GetNodeFeature for one node; [buf] is its part of the caller's output array
    (np.empty or np.zeros: any content). *)
Definition g_node_feature (g : graph) (fs : list (Z * nat)) (ts : option Z) (n : Z) (buf : list N) : res (list N) :=
  do o <- occurrences g n ;;
  match o with
  | None => write_at buf 0 (zeros (length buf))
  | Some os =>
      (* partition loop 157-163 *)
      do r <- foldM (fun x st => part_node_feature (fst x) (snd x) ts fs st) os (map (fun _ => -1) fs, buf) ;;
      fill_missing fs (fst r) 0 (snd r)
  end.

(** ** Edge features *)

(** EdgeFeatureOffset 885-935.  Group scan 898-911. *)
Fixpoint find_group (fuel : nat) (etypes : list Z) (i hi : nat) (ty : Z) : res (option nat) :=
  if (i <? hi)%nat then
    match fuel with
    | O => Fail EFuel
    | S f => do t <- get etypes i ;;
             if t =? ty then Ok (Some i) else find_group f etypes (S i) hi ty
    end
  else Ok None.

(** std::find on a span. *)
Fixpoint find_index (l : list Z) (x : Z) : option nat :=
  match l with
  | [] => None
  | y :: t => if y =? x then Some 0%nat else option_map S (find_index t x)
  end.

Definition search_dst (l : list Z) (dst : Z) : option nat :=
  let fast :=
    if (16 <? length l)%nat then
      let it := bound (fun x => x <? dst) l in
      match nth_error l it with
      | Some x => if x =? dst then Some it else None
      | None => None
      end
    else None in
  match fast with Some i => Some i | None => find_index l dst end.

Definition edge_offset (p : partition) (id : nat) (dst ty : Z) : res (option nat) :=
  do lo <- get (p_nbi p) id ;;
  do hi <- get (p_nbi p) (S id) ;;
  if (hi <? lo)%nat then Fail EUB
  else
    do gi <- find_group (hi - lo) (p_etypes p) lo hi ty ;;
    match gi with
    | None => Ok None
    | Some i =>
        do s <- get (p_toff p) i ;;
        do l <- get (p_toff p) (S i) ;;
        if (l <? s)%nat || (length (p_dst p) <? l)%nat then Fail EUB
        else match search_dst (slice (p_dst p) s (l - s)) dst with
             | Some k => Ok (Some (s + k)%nat)
             | None => Ok None
             end
    end.

(** Loop 953-989 of GetEdgeFeature.  Unlike the node version there is no comparison of
    timestamps, and a feature the edge does not have is zero filled at once. *)
Fixpoint edge_feature_loop (p : partition) (lo hi : nat) (ts : option Z) (fs : list (Z * nat)) (flags : list Z)
    (curr : nat) (buf : list N) : res (list Z * list N) :=
  match fs, flags with
  | [], _ => Ok ([], buf)
  | (f, size) :: fs', flag :: flags' =>
      let skip (fl : Z) (b : list N) :=
        do r <- edge_feature_loop p lo hi ts fs' flags' (curr + size) b ;; Ok (fl :: fst r, snd r) in
      if already ts flag then skip flag buf
      else
        do slot <- feature_slot (p_efidx p) lo hi f ;;
        match slot with
        | None => do b <- write_at buf curr (zeros size) ;; skip flag b
        | Some s =>
            do v <- resolve (p_efd p) ts s ;;
            let '(off, stored, fts) := v in
            do b <- copy_value (p_efd p) buf curr size off stored ;; skip fts b
        end
  | _ :: _, [] => Fail EUB
  end.

Definition part_edge_feature (p : partition) (id : nat) (dst ty : Z) (ts : option Z) (fs : list (Z * nat))
    (st : list Z * list N) : res (list Z * list N) :=
  do eo <- edge_offset p id dst ty ;;
  match eo, p_foff p, p_efidx p with
  | Some k, _ :: _, _ :: _ =>
      do lo <- get (p_foff p) k ;;
      do hi <- get (p_foff p) (S k) ;;
      edge_feature_loop p lo hi ts fs (fst st) 0 (snd st)
  | _, _, _ => Ok st
  end.

(** Graph::GetEdgeFeature 268-291 for one edge. *)
Definition g_edge_feature (g : graph) (fs : list (Z * nat)) (ts : option Z) (e : Z * Z * Z) (buf : list N)
  : res (list N) :=
  let '(src, dst, ty) := e in
  do o <- occurrences g src ;;
  match o with
  | None => write_at buf 0 (zeros (length buf))
  | Some os => 
      do r <- foldM (fun x st => part_edge_feature (fst x) (snd x) dst ty ts fs st) os (map (fun _ => -1) fs, buf) ;;
      Ok (snd r)
  end.

(** client.py node_features 540-584 and edge_features 672-728: the output array is
    np.zeros; row i is the answer for element i.  [ts] is empty or one per element. *)
Definition total_size (fs : list (Z * nat)) : nat := fold_right (fun f s => (snd f + s)%nat) 0%nat fs.
Definition per_elem {A B} (q : A -> option Z -> res B) (xs : list A) (ts : option (list Z)) : res (list B) :=
  match ts with
  | None => mapM (fun x => q x None) xs
  | Some l => mapM (fun x => q (fst x) (Some (snd x))) (combine xs l)
  end.
Definition node_features (g : graph) (nodes : list Z) (fs : list (Z * nat)) (ts : option (list Z)) : res (list (list N)) :=
  per_elem (fun n t => g_node_feature g fs t n (zeros (total_size fs))) nodes ts.
Definition edge_features (g : graph) (edges : list (Z * Z * Z)) (fs : list (Z * nat)) (ts : option (list Z))
  : res (list (list N)) :=
  per_elem (fun e t => g_edge_feature g fs t e (zeros (total_size fs))) edges ts.

(** ** String features *)

(** std::vector::resize to a smaller size; a negative size wraps around and throws. *)
Definition shrink (l : list N) (drop : Z) : res (list N) :=
  if (0 <=? drop) && (drop <=? Z.of_nat (length l))
  then Ok (firstn (length l - Z.to_nat drop) l) else Fail EFatal.

(** Loop 603-649.  [dims] is the row of out_dimensions of the node. *)
Fixpoint node_string_loop (p : partition) (lo hi : nat) (ts : option Z) (fs : list Z) (flags dims : list Z)
    (out : list N) : res (list Z * list Z * list N) :=
  match fs, flags, dims with
  | [], _, _ => Ok ([], [], out)
  | f :: fs', flag :: flags', d :: dims' =>
      let next (fl dm : Z) (o : list N) :=
        do r <- node_string_loop p lo hi ts fs' flags' dims' o ;;
        let '(fls, dms, o') := r in Ok (fl :: fls, dm :: dms, o') in
      if already ts flag then next flag d out
      else
        do slot <- feature_slot (p_nfidx p) lo hi f ;;
        match slot with
        | None => next flag d out
        | Some s =>
            if snd s =? 0 then next flag d out
            else
              do v <- resolve (p_nfd p) ts s ;;
              let '(off, stored, fts) := v in
              if fts <=? flag then next flag d out
              else
                do out <- (if 0 <=? flag then shrink out d else Ok out) ;;
                do bs <- sread (p_nfd p) off stored ;;
                next fts stored (out ++ bs)
        end
  | _, _, _ => Fail EUB
  end.

Definition part_node_string (p : partition) (id : nat) (ts : option Z) (fs : list Z)
    (st : list Z * list Z * list N) : res (list Z * list Z * list N) :=
  let '(flags, dims, out) := st in
  match p_nfidx p with
  | [] => Ok st
  | _ =>
      do lo <- get (p_nidx p) id ;;
      do hi <- get (p_nidx p) (S id) ;;
      node_string_loop p lo hi ts fs flags dims out
  end.

(** Graph::GetNodeStringFeature 223-253: the row of dimensions of one node (zeros from the
    caller, client.py 652) and the shared output. *)
Definition g_node_string (g : graph) (fs : list Z) (ts : option Z) (n : Z) (out : list N) : res (list Z * list N) :=
  do o <- occurrences g n ;;
  match o with
  | None => Ok (map (fun _ => 0) fs, out)
  | Some os =>
      do r <- foldM (fun x st => part_node_string (fst x) (snd x) ts fs st) os
                (map (fun _ => -1) fs, map (fun _ => 0) fs, out) ;;
      let '(_, dims, out') := r in Ok (dims, out')
  end.

(** Loop over the elements of a query with a shared output. *)
Fixpoint string_loop {A} (q : A -> option Z -> list N -> res (list Z * list N)) (xs : list (A * option Z))
    (out : list N) : res (list (list Z) * list N) :=
  match xs with
  | [] => Ok ([], out)
  | (x, t) :: xs' =>
      do r <- q x t out ;;
      do r' <- string_loop q xs' (snd r) ;;
      Ok (fst r :: fst r', snd r')
  end.

Definition stamps {A} (xs : list A) (ts : option (list Z)) : list (A * option Z) :=
  match ts with
  | None => map (fun x => (x, None)) xs
  | Some l => map (fun x => (fst x, Some (snd x))) (combine xs l)
  end.

(** client.py node_string_features 631-672: dimensions (in bytes) and values. *)
Definition node_string_features (g : graph) (nodes fs : list Z) (ts : option (list Z))
  : res (list (list Z) * list N) :=
  string_loop (fun n t out => g_node_string g fs t n out) (stamps nodes ts) [].

(** Edge version, loop 1067-1099: no timestamp comparison and nothing is overwritten. *)
Fixpoint edge_string_loop (p : partition) (lo hi : nat) (ts : option Z) (fs : list Z) (flags dims : list Z)
    (out : list N) : res (list Z * list Z * list N) :=
  match fs, flags, dims with
  | [], _, _ => Ok ([], [], out)
  | f :: fs', flag :: flags', d :: dims' =>
      let next (fl dm : Z) (o : list N) :=
        do r <- edge_string_loop p lo hi ts fs' flags' dims' o ;;
        let '(fls, dms, o') := r in Ok (fl :: fls, dm :: dms, o') in
      if already ts flag then next flag d out
      else
        do slot <- feature_slot (p_efidx p) lo hi f ;;
        match slot with
        | None => next flag d out
        | Some s =>
            if snd s =? 0 then next flag d out
            else
              do v <- resolve (p_efd p) ts s ;;
              let '(off, stored, fts) := v in
              do bs <- sread (p_efd p) off stored ;;
              next fts stored (out ++ bs)
        end
  | _, _, _ => Fail EUB
  end.

(** GetEdgeStringFeature 1047-1066 does not test whether the feature vectors are empty. *)
Definition part_edge_string (p : partition) (id : nat) (dst ty : Z) (ts : option Z) (fs : list Z)
    (st : list Z * list Z * list N) : res (list Z * list Z * list N) :=
  let '(flags, dims, out) := st in
  do eo <- edge_offset p id dst ty ;;
  match eo with
  | None => Ok st
  | Some k =>
      do lo <- get (p_foff p) k ;;
      do hi <- get (p_foff p) (S k) ;;
      edge_string_loop p lo hi ts fs flags dims out
  end.

Definition g_edge_string (g : graph) (fs : list Z) (ts : option Z) (e : Z * Z * Z) (out : list N)
  : res (list Z * list N) :=
  let '(src, dst, ty) := e in
  do o <- occurrences g src ;;
  match o with
  | None => Ok (map (fun _ => 0) fs, out)
  | Some os =>
      do r <- foldM (fun x st => part_edge_string (fst x) (snd x) dst ty ts fs st) os
                (map (fun _ => -1) fs, map (fun _ => 0) fs, out) ;;
      let '(_, dims, out') := r in Ok (dims, out')
  end.

Definition edge_string_features (g : graph) (edges : list (Z * Z * Z)) (fs : list Z) (ts : option (list Z))
  : res (list (list Z) * list N) :=
  string_loop (fun e t out => g_edge_string g fs t e out) (stamps edges ts) [].

(** ** Sparse features *)

(** Per requested feature: dimension, indices, value bytes and the size of the last value
    (out_dimensions, out_indices, out_values, values_sizes). *)
Record sparse := SP { sp_dim : Z; sp_idx : list Z; sp_val : list N; sp_last : Z }.

(** [k] coordinate tuples, each after [prefix] (118-124). *)
Fixpoint read_coords (data : list N) (off : Z) (dim : nat) (prefix : Z) (k : nat) : res (list Z) :=
  match k with
  | O => Ok []
  | S k' =>
      do bs <- sread data off (8 * Z.of_nat dim) ;;
      do r <- read_coords data (off + 8 * Z.of_nat dim) dim prefix k' ;;
      Ok (prefix :: map (unzle 8) (fields 8 bs) ++ r)
  end.

(** deserialize_sparse_features 85-135.  A dimension of 0 divides by zero. *)
Definition read_sparse (data : list N) (off stored : Z) (prefix : Z) (s : sparse) : res sparse :=
  if stored <=? 12 then Ok s
  else
    do h <- sread data off 4 ;;
    do d <- sread data (off + 4) 4 ;;
    let size := unle h in
    let dim := unle d in
    if (dim =? 0)%N then Fail EUB
    else
      let k := N.to_nat (size / dim) in
      do idx <- read_coords data (off + 8) (N.to_nat dim) prefix k ;;
      let len := u64 (stored - 8 * Z.of_N size - 8) in
      do vs <- sread data (off + 8 + 8 * Z.of_N dim * Z.of_nat k) len ;;
      Ok (SP (Z.of_N dim)
             (* the vector is resized for size + k entries; the tail keeps [prefix] *)
             (sp_idx s ++ idx ++ repeat prefix (N.to_nat size - N.to_nat dim * k)) (sp_val s ++ vs) len).

(** Removal of a previous value 572-578. *)
Definition drop_sparse (s : sparse) : res sparse :=
  let ni := Z.of_nat (length (sp_idx s)) - sp_dim s - 1 in
  let nv := Z.of_nat (length (sp_val s)) - sp_last s in
  if (0 <=? ni) && (0 <=? nv) && (ni <=? Z.of_nat (length (sp_idx s))) && (nv <=? Z.of_nat (length (sp_val s)))
  then Ok (SP (sp_dim s) (firstn (Z.to_nat ni) (sp_idx s)) (firstn (Z.to_nat nv) (sp_val s)) (sp_last s))
  else Fail EFatal.

(** Loop 535-585. *)
Fixpoint node_sparse_loop (p : partition) (lo hi : nat) (ts : option Z) (prefix : Z) (fs : list Z)
    (flags : list Z) (ss : list sparse) : res (list Z * list sparse) :=
  match fs, flags, ss with
  | [], _, _ => Ok ([], [])
  | f :: fs', flag :: flags', s :: ss' =>
      let next (fl : Z) (s' : sparse) :=
        do r <- node_sparse_loop p lo hi ts prefix fs' flags' ss' ;; Ok (fl :: fst r, s' :: snd r) in
      if already ts flag then next flag s
      else
        do slot <- feature_slot (p_nfidx p) lo hi f ;;
        match slot with
        | None => next flag s
        | Some sl =>
            if snd sl =? 0 then next flag s
            else
              do v <- resolve (p_nfd p) ts sl ;;
              let '(off, stored, fts) := v in
              if fts <=? flag then next flag s
              else
                do s <- (if 0 <=? flag then drop_sparse s else Ok s) ;;
                do s <- read_sparse (p_nfd p) off stored prefix s ;;
                next fts s
        end
  | _, _, _ => Fail EUB
  end.

Definition part_node_sparse (p : partition) (id : nat) (ts : option Z) (prefix : Z) (fs : list Z)
    (st : list Z * list sparse) : res (list Z * list sparse) :=
  match p_nfidx p with
  | [] => Ok st
  | _ =>
      do lo <- get (p_nidx p) id ;;
      do hi <- get (p_nidx p) (S id) ;;
      node_sparse_loop p lo hi ts prefix fs (fst st) (snd st)
  end.

(** Graph::GetNodeSparseFeature 187-221. *)
Definition g_node_sparse (g : graph) (fs : list Z) (ts : option Z) (n : Z) (prefix : Z) (ss : list sparse)
  : res (list sparse) :=
  do o <- occurrences g n ;;
  match o with
  | None => Ok ss
  | Some os =>
      do r <- foldM (fun x st => part_node_sparse (fst x) (snd x) ts prefix fs st) os (map (fun _ => -1) fs, ss) ;;
      Ok (snd r)
  end.

Fixpoint sparse_loop {A} (q : A -> option Z -> Z -> list sparse -> res (list sparse)) (k : Z)
    (xs : list (A * option Z)) (ss : list sparse) : res (list sparse) :=
  match xs with
  | [] => Ok ss
  | (x, t) :: xs' => do ss' <- q x t k ss ;; sparse_loop q (k + 1) xs' ss'
  end.

Definition no_sparse {A} (fs : list A) : list sparse := map (fun _ => SP 0 [] [] 0) fs.

Definition node_sparse_features (g : graph) (nodes fs : list Z) (ts : option (list Z)) : res (list sparse) :=
  sparse_loop (fun n t k ss => g_node_sparse g fs t n k ss) 0 (stamps nodes ts) (no_sparse fs).

(** Edge version, loop 1010-1044. *)
Fixpoint edge_sparse_loop (p : partition) (lo hi : nat) (ts : option Z) (prefix : Z) (fs : list Z)
    (flags : list Z) (ss : list sparse) : res (list Z * list sparse) :=
  match fs, flags, ss with
  | [], _, _ => Ok ([], [])
  | f :: fs', flag :: flags', s :: ss' =>
      let next (fl : Z) (s' : sparse) :=
        do r <- edge_sparse_loop p lo hi ts prefix fs' flags' ss' ;; Ok (fl :: fst r, s' :: snd r) in
      if already ts flag then next flag s
      else
        do slot <- feature_slot (p_efidx p) lo hi f ;;
        match slot with
        | None => next flag s
        | Some sl =>
            if snd sl =? 0 then next flag s
            else
              do v <- resolve (p_efd p) ts sl ;;
              let '(off, stored, fts) := v in
              do s <- read_sparse (p_efd p) off stored prefix s ;;
              next fts s
        end
  | _, _, _ => Fail EUB
  end.

Definition part_edge_sparse (p : partition) (id : nat) (dst ty : Z) (ts : option Z) (prefix : Z) (fs : list Z)
    (st : list Z * list sparse) : res (list Z * list sparse) :=
  do eo <- edge_offset p id dst ty ;;
  match eo, p_foff p, p_efidx p with
  | Some k, _ :: _, _ :: _ =>
      do lo <- get (p_foff p) k ;;
      do hi <- get (p_foff p) (S k) ;;
      edge_sparse_loop p lo hi ts prefix fs (fst st) (snd st)
  | _, _, _ => Ok st
  end.

Definition g_edge_sparse (g : graph) (fs : list Z) (ts : option Z) (e : Z * Z * Z) (prefix : Z) (ss : list sparse)
  : res (list sparse) :=
  let '(src, dst, ty) := e in
  do o <- occurrences g src ;;
  match o with
  | None => Ok ss
  | Some os =>
      do r <- foldM (fun x st => part_edge_sparse (fst x) (snd x) dst ty ts prefix fs st) os (map (fun _ => -1) fs, ss) ;;
      Ok (snd r)
  end.

Definition edge_sparse_features (g : graph) (edges : list (Z * Z * Z)) (fs : list Z) (ts : option (list Z))
  : res (list sparse) :=
  sparse_loop (fun e t k ss => g_edge_sparse g fs t e k ss) 0 (stamps edges ts) (no_sparse fs).

(** ** Encodings of feature values (converter side) *)

Definition cu32 (n : nat) : list N := le 4 (N.of_nat n).

(** A coordinate array of one dimension or of shape (length rows, dim). *)
Inductive coords := Flat (xs : list Z) | Grid (dim : nat) (rows : list (list Z)).
Inductive feature := FNone | FSparse (c : coords) (values : list (list N)) | FBytes (bs : list N).

Definition coords_len (c : coords) : nat := match c with Flat xs => length xs | Grid _ rs => length rs end.
Definition coords_all (c : coords) : list Z := match c with Flat xs => xs | Grid _ rs => concat rs end.
Definition coords_dim (c : coords) : nat := match c with Flat _ => 1 | Grid d _ => d end.

(** convert_features 689-735 for one feature; arrays and strings are given by their bytes,
    sparse values as the list of the bytes of each value. *)
Definition convert_feature (f : feature) : res (option (list N)) :=
  match f with
  | FNone => Ok None
  | FBytes bs => Ok (Some bs)
  | FSparse c vs =>
      if (coords_len c =? 0)%nat || (length vs =? 0)%nat then Ok None
      else
        let fine :=
          if (1 <? length vs)%nat then (coords_len c =? length vs)%nat
          else match c with Flat _ => true | Grid _ rs => (length rs =? 1)%nat end in
        if fine
        then Ok (Some (cu32 (length (coords_all c)) ++ cu32 (coords_dim c) ++
                       flat_map (zle 8) (coords_all c) ++ concat vs))
        else Fail EAssert
  end.

(** decoders.py _serialize_temporal_features 331-354: [h] = (created_at, bytes), sorted by
    created_at (Python's sort is stable); 8 zero bytes follow the values. *)
Fixpoint insert_hist (x : Z * list N) (h : list (Z * list N)) : list (Z * list N) :=
  match h with
  | [] => [x]
  | y :: t => if fst x <? fst y then x :: h else y :: insert_hist x t
  end.
Definition sort_hist (h : list (Z * list N)) : list (Z * list N) := fold_left (fun acc x => insert_hist x acc) h [].

Definition hist_header (h : list (Z * list N)) : nat := 4 * (2 * (2 * length h + 1) + 1).
Fixpoint hist_offsets (pos : nat) (h : list (Z * list N)) : list nat :=
  match h with [] => [pos] | x :: t => pos :: hist_offsets (pos + length (snd x)) t end.
Definition temporal_bytes (h0 : list (Z * list N)) : list N :=
  let h := sort_hist h0 in
  cu32 (length h) ++ flat_map (fun x => zle 8 (fst x)) h ++
  flat_map (fun o => zle 8 (Z.of_nat o)) (hist_offsets (hist_header h) h) ++
  flat_map snd h ++ zeros 8.
