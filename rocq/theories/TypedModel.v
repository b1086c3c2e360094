(** Typed feature values through the Python client: the arrays the converter serialises and
    the arrays snark/client.py hands out.
    Code: src/python/deepgnn/graph_engine/snark/converter/writers.py 680-736,
    src/python/deepgnn/graph_engine/snark/client.py 128-190, 540-842,
    src/cc/lib/py_graph.cc 315-640.

    Simplifications: little endian machine; a floating point value is its bit pattern (the
    kind [Bits]); the ids of the request are already int32 and the arrays already of the shape
    the callee asserts; the retry wrapper is left out, a query that fails fails. *)
From Verif Require Import Base WriterModel LoaderModel GraphModel FeatureModel.
From Coq Require Import ZifyBool ZifyNat ZifyN.
Local Open Scope Z_scope.

(** ** numpy item types: Decoder.convert_map, decoders.py 17-31 *)
Inductive kind := Bits | Signed.
Record dtype := DT { d_kind : kind; d_width : nat }.

(** One item to and from its bytes. *)
Definition encode (d : dtype) (v : Z) : list N := zle (d_width d) v.
Definition decode (d : dtype) (bs : list N) : Z :=
  match d_kind d with
  | Bits => Z.of_N (unle bs)
  | Signed => unzle (d_width d) bs
  end.

(** ndarray.tobytes (writers.py 731). *)
Definition tobytes (d : dtype) (vs : list Z) : list N := flat_map (encode d) vs.
(** ndarray.view(dtype) of an array of bytes; numpy raises if the size is no multiple of the
    width of an item. *)
Definition view (d : dtype) (bs : list N) : res (list Z) :=
  if (length bs mod d_width d =? 0)%nat then Ok (map (decode d) (fields (d_width d) bs)) else Fail EAssert.

(** writers.py 693-730: a sparse feature with coordinates of [cw] bytes each, which are written
    as they are in memory ("bytes(coordinates.data)"). *)
Definition convert_sparse (cw : nat) (d : dtype) (c : coords) (vs : list Z) : res (option (list N)) :=
  if (coords_len c =? 0)%nat || (length vs =? 0)%nat then Ok None
  else
    let fine :=
      if (1 <? length vs)%nat then (coords_len c =? length vs)%nat
      else match c with Flat _ => true | Grid _ rs => (length rs =? 1)%nat end in
    if fine
    then Ok (Some (cu32 (length (coords_all c)) ++ cu32 (coords_dim c) ++
                   flat_map (zle cw) (coords_all c) ++ tobytes d vs))
    else Fail EAssert.

(** ** Requests *)

(** client.py 566-572: no array or an empty one means no timestamps; otherwise only the address
    is passed on, and py_graph.cc (e.g. 373) takes as many timestamps as there are elements. *)
Definition py_stamps (n : nat) (ts : option (list Z)) : res (option (list Z)) :=
  match ts with
  | None | Some [] => Ok None
  | Some l => if (length l <? n)%nat then Fail EUB else Ok (Some l)
  end.

(** client.py 558-560 "features_in_bytes *= (1, itemsize)" in int32 and ExtractFeatureInfo
    (py_graph.cc 315-329), which stores the int32 in a uint32. *)
Definition wrap32 (z : Z) : Z := (z + 2 ^ 31) mod 2 ^ 32 - 2 ^ 31.
Definition byte_size (d : dtype) (size : Z) : Z := wrap32 (size * Z.of_nat (d_width d)) mod 2 ^ 32.

Definition zsum (l : list Z) : Z := fold_right Z.add 0 l.

(** ** Dense features: client.py 540-584 and 675-730

    [q] is the C++ query for the given feature sizes in bytes; it writes the bytes of the
    elements one after the other, beginning at the start of the zeroed array.  A request for
    more bytes than the array has writes behind its end. *)
Definition py_dense (q : list (Z * nat) -> res (list (list N))) (n : nat) (fs : list (Z * Z)) (d : dtype)
  : res (list (list Z)) :=
  let cols := zsum (map snd fs) in
  if cols <? 0 then Fail EAssert
  else
    let cs := map (fun f => (fst f, byte_size d (snd f))) fs in
    let nbytes := Z.of_nat n * cols * Z.of_nat (d_width d) in
    if nbytes <? Z.of_nat n * zsum (map snd cs) then Fail EUB
    else
      do out <- q (map (fun f => (fst f, Z.to_nat (snd f))) cs) ;;
      let written := concat out in
      do items <- view d (written ++ zeros (Z.to_nat nbytes - length written)) ;;
      Ok (chunks (Z.to_nat cols) n items).

Definition py_node_features (g : graph) (nodes : list Z) (fs : list (Z * Z)) (d : dtype) (ts : option (list Z))
  : res (list (list Z)) :=
  do ts' <- py_stamps (length nodes) ts ;;
  py_dense (fun cs => node_features g nodes cs ts') (length nodes) fs d.

(** The three arrays of an edge query have equal lengths (asserts 700-701). *)
Definition py_edges (src dst tp : list Z) : res (list (Z * Z * Z)) :=
  if (length src =? length dst)%nat && (length src =? length tp)%nat
  then Ok (combine (combine src dst) tp) else Fail EAssert.

Definition py_edge_features (g : graph) (src dst tp : list Z) (fs : list (Z * Z)) (d : dtype) (ts : option (list Z))
  : res (list (list Z)) :=
  do edges <- py_edges src dst tp ;;
  do ts' <- py_stamps (length edges) ts ;;
  py_dense (fun cs => edge_features g edges cs ts') (length edges) fs d.

(** ** String features: _StringFeatureCallback 177-189, node_string_features 631-673,
    edge_string_features 787-842

    An exception raised inside a ctypes callback is printed and dropped, so that the client
    goes on with the empty array of the constructor. *)
Definition string_callback (d : dtype) (data : list N) : list Z :=
  match data with
  | [] => []
  | _ => match view d data with Ok vs => vs | Fail _ => [] end
  end.
Definition py_string (d : dtype) (r : res (list (list Z) * list N)) : res (list Z * list (list Z)) :=
  do x <- r ;;
  Ok (string_callback d (snd x), map (map (fun b => b / Z.of_nat (d_width d))) (fst x)).

Definition py_node_strings (g : graph) (nodes fs : list Z) (d : dtype) (ts : option (list Z)) : res (list Z * list (list Z)) :=
  do ts' <- py_stamps (length nodes) ts ;;
  py_string d (node_string_features g nodes fs ts').
Definition py_edge_strings (g : graph) (src dst tp fs : list Z) (d : dtype) (ts : option (list Z))
  : res (list Z * list (list Z)) :=
  do edges <- py_edges src dst tp ;;
  do ts' <- py_stamps (length edges) ts ;;
  py_string d (edge_string_features g edges fs ts').

(** ** Sparse features: _SparseFeatureCallback 136-168, node_sparse_features 586-629,
    edge_sparse_features 732-785

    The callback appends to the lists of coordinates and of values feature by feature; an
    exception leaves them as they are at that point. *)
Fixpoint sparse_callback (d : dtype) (ss : list sparse) : list (list (list Z)) * list (list Z) :=
  match ss with
  | [] => ([], [])
  | s :: t =>
      match sp_idx s with
      | [] => let r := sparse_callback d t in ([] :: fst r, [] :: snd r)
      | _ =>
          let w := sp_dim s + 1 in
          if (w <=? 0) || negb (Z.of_nat (length (sp_idx s)) mod w =? 0) then ([], [])
          else
            let rows := fields (Z.to_nat w) (sp_idx s) in
            match view d (sp_val s) with
            | Ok vs => let r := sparse_callback d t in (rows :: fst r, vs :: snd r)
            | Fail _ => ([rows], [])
            end
      end
  end.
Definition py_sparse (d : dtype) (r : res (list sparse)) : res (list (list (list Z)) * list (list Z) * list Z) :=
  do ss <- r ;; Ok (sparse_callback d ss, map sp_dim ss).

Definition py_node_sparse (g : graph) (nodes fs : list Z) (d : dtype) (ts : option (list Z)) :=
  do ts' <- py_stamps (length nodes) ts ;;
  py_sparse d (node_sparse_features g nodes fs ts').
Definition py_edge_sparse (g : graph) (src dst tp fs : list Z) (d : dtype) (ts : option (list Z)) :=
  do edges <- py_edges src dst tp ;;
  do ts' <- py_stamps (length edges) ts ;;
  py_sparse d (edge_sparse_features g edges fs ts').
