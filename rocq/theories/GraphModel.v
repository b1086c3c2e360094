(** Model of a graph loaded from several partitions:
    /repo/src/cc/lib/graph/graph.cc (constructor 39-102, ReadNodeMap 633-694,
    GetNodeType 104-131, NeighborCount 361-390, FullNeighbor 392-426) and of the Python
    entry points /repo/src/python/deepgnn/graph_engine/snark/client.py
    (_make_sorted_list 197-200, neighbor_counts 844-883, neighbors 885-946,
    node_types 1318-1345). *)
From Verif Require Import Base WriterModel LoaderModel.
Local Open Scope Z_scope.

(** Members of Graph (graph.h 90-99).  [g_map] is the hash map m_node_map as an
    association list, newest binding first. *)
Record graph := G {
  g_parts : list partition;
  g_map : list (Z * nat);
  g_int : list nat;       (* m_internal_indices *)
  g_pidx : list nat;      (* m_partitions_indices *)
  g_cnt : list nat        (* m_counts *)
}.

Fixpoint assoc (m : list (Z * nat)) (k : Z) : option nat :=
  match m with
  | [] => None
  | (k', v) :: t => if k =? k' then Some v else assoc t k
  end.

(** The body of the loop 654-692 for one (node id, internal id) pair. *)
Definition add_map_entry (index : nat) (e : Z * nat) (g : graph) : res graph :=
  let '(id, internal) := e in
  match assoc (g_map g) id with
  | None =>
      Ok (G (g_parts g) ((id, length (g_int g)) :: g_map g)
            (g_int g ++ [internal]) (g_pidx g ++ [index]) (g_cnt g ++ [1%nat]))
  | Some old_offset =>
      do old_count <- get (g_cnt g) old_offset ;;
      if (length (g_int g) <? old_offset + old_count)%nat then Fail EUB
      else if (length (g_pidx g) <? old_offset + old_count)%nat then Fail EUB
      else
      Ok (G (g_parts g) ((id, length (g_int g)) :: g_map g)
            (g_int g ++ slice (g_int g) old_offset old_count ++ [internal])
            (g_pidx g ++ slice (g_pidx g) old_offset old_count ++ [index])
            (g_cnt g ++ repeat (old_count + 1)%nat (old_count + 1)))
  end.

Fixpoint add_map_entries (index : nat) (es : list (Z * nat)) (g : graph) : res graph :=
  match es with
  | [] => Ok g
  | e :: t => do g' <- add_map_entry index e g ;; add_map_entries index t g'
  end.

(** ReadNodeMap 633-694: 20 byte records (id, internal id, type); the id becomes the
    int64 key of the map. *)
Definition map_entries (bytes : list N) : list (Z * nat) :=
  map (fun c => (unzle 8 (slice c 0 8), N.to_nat (unle (slice c 8 8)))) (fields 20 bytes).

(** Conversion of already decoded record batches, one list of batches per partition: every
    worker writes its partition (converter/process.py 46-84) and the dispatcher takes the
    maxima of the feature counts (dispatcher.py 163-168); the watermark of meta.json is -1
    when none was given (convert.py 196).  Reading, decoding and dispatching of the lines
    are modelled separately; the remaining fields of meta.json are in MetaModel. *)
Definition convert (wval : N -> Z) (wm : option Z) (parts : list (list (list record)))
  : res (list pfiles * lmeta) :=
  do ss <- mapM (write_partition wval wm) parts ;;
  Ok (map files_of ss,
      LM (fold_left Nat.max (map node_feature_count ss) 0%nat)
         (fold_left Nat.max (map edge_feature_count ss) 0%nat)
         (match wm with Some w => w | None => -1 end)).

Section Graph.
Variables fadd fsub : N -> N -> N.

(** One suffix of the loop 96-101.  [index] is the position of the path in the
    constructor arguments, not the position of the partition in m_partitions. *)
Definition load_suffix (m : lmeta) (index : nat) (f : pfiles) (g : graph) : res graph :=
  do p <- load_partition fadd m f ;;
  add_map_entries index (map_entries (f_nm f))
    (G (g_parts g ++ [p]) (g_map g) (g_int g) (g_pidx g) (g_cnt g)).

Fixpoint load_suffixes (m : lmeta) (index : nat) (fs : list pfiles) (g : graph) : res graph :=
  match fs with
  | [] => Ok g
  | f :: t => do g' <- load_suffix m index f g ;; load_suffixes m index t g'
  end.

(** Constructor 54-101: for every requested path the files of all its suffixes, in
    sorted order.  The directory listing itself is not modelled. *)
Fixpoint load_paths (m : lmeta) (index : nat) (ps : list (list pfiles)) (g : graph) : res graph :=
  match ps with
  | [] => Ok g
  | fs :: t => do g' <- load_suffixes m index fs g ;; load_paths m (S index) t g'
  end.

Definition load_graph (m : lmeta) (ps : list (list pfiles)) : res graph :=
  load_paths m 0 ps (G [] [] [] [] []).

(** The rows visited for a node by every query: (partition, internal id) at
    index, index+1, ... index+count-1 (e.g. 115-118). *)
Definition occurrences (g : graph) (n : Z) : res (option (list (partition * nat))) :=
  match assoc (g_map g) n with
  | None => Ok None
  | Some index =>
      do count <- get (g_cnt g) index ;;
      do os <- mapM (fun k =>
                 do pi <- get (g_pidx g) k ;;
                 do ii <- get (g_int g) k ;;
                 do p <- get (g_parts g) pi ;;
                 Ok (p, ii)) (seq index count) ;;
      Ok (Some os)
  end.

(** GetNodeType 117-126: stop at the first type that is not the placeholder. *)
Fixpoint first_type (os : list (partition * nat)) (cur : Z) : res Z :=
  match os with
  | [] => Ok cur
  | (p, ii) :: t =>
      do ty <- get (p_types p) ii ;;
      if ty =? -1 then first_type t ty else Ok ty
  end.

Definition get_node_type (g : graph) (default : Z) (n : Z) : res Z :=
  do o <- occurrences g n ;;
  match o with None => Ok default | Some os => first_type os default end.

(** FullNeighbor 401-420 for one node; the concatenation over nodes is [mapM]. *)
Definition g_full_neighbor (g : graph) (types : list Z) (n : Z) (ts : option Z) : res (list nbr) :=
  do o <- occurrences g n ;;
  match o with
  | None => Ok []
  | Some os => do ls <- mapM (fun x => full_neighbor fsub (fst x) (snd x) ts types) os ;; Ok (concat ls)
  end.

Definition g_full_neighbor_count (g : graph) (types : list Z) (n : Z) (ts : option Z) : res nat :=
  do o <- occurrences g n ;;
  match o with
  | None => Ok 0%nat
  | Some os => do ls <- mapM (fun x => full_neighbor_count fsub (fst x) (snd x) ts types) os ;;
               Ok (fold_left Nat.add ls 0%nat)
  end.

(** NeighborCount 366-389 for one node. *)
Definition g_neighbor_count (g : graph) (types : list Z) (n : Z) (ts : option Z) : res nat :=
  do o <- occurrences g n ;;
  match o with
  | None => Ok 0%nat
  | Some os => do ls <- mapM (fun x => neighbor_count (fst x) (snd x) ts types) os ;;
               Ok (fold_left Nat.add ls 0%nat)
  end.

(** _make_sorted_list 197-200: sorted list of the distinct values. *)
Fixpoint insert_type (t : Z) (l : list Z) : list Z :=
  match l with
  | [] => [t]
  | x :: r => if t <? x then t :: l else if t =? x then l else x :: insert_type t r
  end.
Definition make_sorted_list (l : list Z) : list Z := fold_right insert_type [] l.

(** client.py neighbors 885-946: one list of (id, type, weight, created) per node; the
    arrays returned to the caller are the concatenation and the per node counts.
    [ts] is the per node timestamp array, empty when timestamps are not given. *)
Definition per_node {A} (q : Z -> option Z -> res A) (nodes : list Z) (ts : option (list Z)) : res (list A) :=
  match ts with
  | None => mapM (fun n => q n None) nodes
  | Some l => mapM (fun x => q (fst x) (Some (snd x))) (combine nodes l)
  end.

Definition neighbors (g : graph) (nodes : list Z) (types : list Z) (ts : option (list Z))
  : res (list nbr * list nat) :=
  do ls <- per_node (g_full_neighbor g (make_sorted_list types)) nodes ts ;;
  do cs <- per_node (g_full_neighbor_count g (make_sorted_list types)) nodes ts ;;
  Ok (concat ls, cs).

Definition neighbor_counts (g : graph) (nodes : list Z) (types : list Z) (ts : option (list Z))
  : res (list nat) :=
  per_node (g_neighbor_count g (make_sorted_list types)) nodes ts.

(** client.py node_types 1318-1345. *)
Definition node_types (g : graph) (nodes : list Z) (default : Z) : res (list Z) :=
  mapM (get_node_type g default) nodes.

End Graph.
