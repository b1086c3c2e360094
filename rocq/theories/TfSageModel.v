(** GraphSAGE in TensorFlow: src/python/deepgnn/tf/nn/sage_conv.py and the query and the model of
    examples/tensorflow/sage/sage.py.

    A tensor with two dimensions is the list of its rows.  [draw k t nodes c] is the answer of the
    k-th call of graph.sample_neighbors with the types and strategy of layer_infos[t] and count c,
    one list per node; [feat v] is the row of features of node v (or of its embedding); an aggregator
    is a function of the row of a node and the rows of its neighbors (dropout is not modelled).

    Simplifications: l2_normalize, the prediction and the metrics after aggregate work row by row and
    are not modelled; widths are compared when rows are reshaped, not when aggregators are applied. *)
From Verif Require Import Base GraphOpsModel.

Section Sage.
Variable elem : Type.
Local Notation row := (list elem).
Definition aggregator := row -> list row -> row.
Definition item {A} (l : list A) (i : nat) : res A :=
  match nth_error l i with Some x => Ok x | None => Fail EIndex end.

(** ** Query
    _sample_n_hop_neighbors 51-75: hop k uses layer t = L - k - 1. *)
Fixpoint sample_hops (draw : nat -> nat -> list Z -> nat -> list (list Z)) (ns : list nat) (n k : nat) (cur : list Z)
  : list (list Z) :=
  match n with
  | O => []
  | S n' =>
      let t := length ns - k - 1 in
      let nb := concat (draw k t cur (nth t ns 0)) in
      nb :: sample_hops draw ns n' (S k) nb
  end.
Definition neighbor_list draw (ns : list nat) (inputs : list Z) : list (list Z) :=
  inputs :: sample_hops draw ns (length ns) 0 inputs.
(** _query_neighbor 77-92: all different nodes, and for every list the positions of its nodes. *)
Fixpoint slices {A} (sizes : list nat) (l : list A) : list (list A) :=
  match sizes with [] => [] | s :: t => firstn s l :: slices t (skipn s l) end.
Definition query_neighbor draw (ns : list nat) (inputs : list Z) : list Z * list (list nat) :=
  let lists := neighbor_list draw ns inputs in
  let all := concat lists in
  let nodes := np_unique all in
  let idx := map (fun v => position v nodes) all in
  (nodes, slices (map (@length Z) lists) idx).

(** ** Aggregation
    sage_conv.py 242-263.  tf.reshape(x, [-1, k, d]) of rows. *)
Definition reshape (k d : nat) (x : list row) : res (list (list row)) :=
  let flat := concat x in
  if (k * d =? 0) || negb (length flat mod (k * d) =? 0) then Fail EAssert
  else Ok (map (fields d) (fields (k * d) flat)).
(** An aggregator applied to all rows: as many nodes as groups of neighbors. *)
Definition apply_agg (f : aggregator) (x : list row) (y : list (list row)) : res (list row) :=
  if length x =? length y then Ok (map (fun p => f (fst p) (snd p)) (combine x y)) else Fail EAssert.
Definition agg_layer (aggs : list aggregator) (ns dims : list nat) (cat : bool) (layer : nat) (hidden : list (list row))
  : res (list (list row)) :=
  let N := length ns in
  do f <- item aggs layer ;;
  let dim_mult := if cat && negb (layer =? 0) then 2 else 1 in
  mapM (fun hop =>
          do c <- item ns (N - hop - 1) ;;
          do d <- item dims layer ;;
          do x <- item hidden hop ;;
          do y <- item hidden (S hop) ;;
          do g <- reshape c (dim_mult * d) y ;;
          apply_agg f x g) (seq 0 (N - layer)).
Fixpoint agg_layers (aggs : list aggregator) (ns dims : list nat) (cat : bool) (n layer : nat) (hidden : list (list row))
  : res (list (list row)) :=
  match n with
  | O => Ok hidden
  | S n' => do h <- agg_layer aggs ns dims cat layer hidden ;; agg_layers aggs ns dims cat n' (S layer) h
  end.
Definition aggregate (aggs : list aggregator) (ns dims : list nat) (cat : bool) (hidden : list (list row)) : res (list row) :=
  do h <- agg_layers aggs ns dims cat (length ns) 0 hidden ;;
  match h with [output] => Ok output | _ => Fail EAssert end.

(** GraphSAGE.call 184-215 up to the output of aggregate, and src_nodes. *)
Definition embedding_lookup {A} (x : list A) (idx : list nat) : res (list A) := mapM (item x) idx.
Definition sage_call (aggs : list aggregator) (ns layer_dims : list nat) (in_dim : nat) (cat : bool)
    (nodes : list Z) (feats : list row) (lists : list (list nat)) : res (list row * list Z) :=
  do hidden <- mapM (embedding_lookup feats) lists ;;
  do output <- aggregate aggs ns (in_dim :: layer_dims) cat hidden ;;
  do first <- item lists 0 ;;
  do src <- embedding_lookup nodes first ;;
  Ok (output, src).
Definition sage (aggs : list aggregator) (ns layer_dims : list nat) (in_dim : nat) (cat : bool)
    draw (feat : Z -> row) (inputs : list Z) : res (list row * list Z) :=
  let (nodes, lists) := query_neighbor draw ns inputs in
  sage_call aggs ns layer_dims in_dim cat nodes (map feat nodes) lists.
End Sage.

(** ** LSTMAggregator.call 187-200: the output of the recurrent layer that stands for the neighbors.
    [used] says whether a row of neighbors has an element other than zero. *)
Definition lstm_length (used : list bool) : nat := Nat.max (length (filter (fun b => b) used)) 1.
(** index = i * max_len + (length - 1) into the outputs of all nodes one after another. *)
Definition lstm_gather {A} (max_len : nat) (useds : list (list bool)) (outputs : list (list A)) : res (list A) :=
  let flat := concat outputs in
  mapM (fun i => item flat (i * max_len + (lstm_length (nth i useds []) - 1))) (seq 0 (length outputs)).

(** ** __init__ of the aggregators (39-49 and the same for the others): with bias the shape of the
    new weight is read from self.out_dim. *)
From Coq Require Import String.
Definition getattr (attrs : list string) (name : string) : res unit :=
  if existsb (String.eqb name) attrs then Ok tt else Fail EAssert.
Definition agg_init (bias : bool) : res unit :=
  let attrs := ["output_dim"; "dropout"; "enable_bias"; "act"; "concat"; "neigh_weight"; "self_weight"]%string in
  if bias then getattr attrs "out_dim" else Ok tt.
