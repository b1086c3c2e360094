(** GraphSAGE in TensorFlow for link prediction and without labels:
    examples/tensorflow/sage/sage_linkprediction.py and sage_unsupervised.py, over TfSageModel.

    [norm] is tf.nn.l2_normalize of one row, [sce logit label] the sigmoid cross entropy, [sg] the
    sigmoid; numbers are rationals.  [draw] is the sampler of neighbors as in TfSageModel.

    Simplifications: no dropout, no broadcasting (the two factors of a product have the same shape),
    the running AUC is not modelled. *)
From Coq Require Import QArith.
From Verif Require Import Base Dist TfSageModel MetricModel.
Local Open Scope Z_scope.

Notation qrow := (list Q).
(** A tuple of tensors: ids of nodes, positions, rows of numbers. *)
Inductive tensor := Ids (l : list Z) | Idx (l : list nat) | Rows (m : list qrow).
Definition as_idx (t : tensor) : res (list nat) := match t with Idx l => Ok l | _ => Fail EAssert end.

(** Parameters of a model: embeddings of nodes, counts, dimensions. *)
Record conf := Conf { c_ns : list nat; c_in : nat; c_dims : list nat; c_cat : bool }.

(** __init__ 118-128 (and the same in sage.py 168-177): max_id from the shape of the embeddings. *)
Definition init_max_id (shape : option (list nat)) : res (option Z) :=
  match shape with
  | None => Ok None
  | Some [] => Fail EIndex
  | Some (n :: _) => Ok (Some (Z.of_nat n - 1))
  end.

(** call 176-179: negative ids take the last row. *)
Definition identity (node_emb : list qrow) (nodes : list Z) : res (list qrow) :=
  let max_id := Z.of_nat (length node_emb) - 1 in
  let valid := map (fun v => if 0 <=? v then v else max_id) nodes in
  mapM (fun v => item node_emb (Z.to_nat v)) valid.

Section Learn.
Variables (norm : qrow -> qrow) (sce : Q -> Q -> Q) (sg : Q -> Q).
Local Notation aggs_t := (list (aggregator Q)).

(** _sage_embeding 155-163. *)
Definition sage_embedding (c : conf) (aggs : aggs_t) (feats : list qrow) (lists : list (list nat)) : res (list qrow) :=
  do hidden <- mapM (embedding_lookup feats) lists ;;
  do output <- aggregate Q aggs (c_ns c) (c_in c :: c_dims c) (c_cat c) hidden ;;
  Ok (map norm output).

(** reduce_sum(a * b, axis=-1). *)
Definition dot2 (a b : qrow) : Q := qsum (fun p => (fst p * snd p)%Q) (combine a b).
Definition products (a b : list qrow) : res qrow :=
  if (length a =? length b)%nat then Ok (map (fun p => dot2 (fst p) (snd p)) (combine a b)) else Fail EAssert.
Definition qavg (l : qrow) : Q := (qsum (fun x => x) l / inject_Z (Z.of_nat (length l)))%Q.

(** ** Link prediction
    SAGELinkPredictionQuery.query_training 21-52, query_inference 54-79. *)
Definition link_query (draw_src draw_dst : nat -> nat -> list Z -> nat -> list (list Z)) (edge_label : Z * Z * Z -> qrow)
    (ns : list nat) (edges : list (Z * Z * Z)) : list tensor :=
  let '(src_nodes, src_lists) := query_neighbor draw_src ns (map (fun e => fst (fst e)) edges) in
  let '(dst_nodes, dst_lists) := query_neighbor draw_dst ns (map (fun e => snd (fst e)) edges) in
  [Ids src_nodes; Ids dst_nodes; Rows (map edge_label edges)] ++ map Idx src_lists ++ map Idx dst_lists.
Definition inference_query draw (ns : list nat) (nodes : list Z) : list tensor :=
  let '(all, lists) := query_neighbor draw ns nodes in Ids all :: map Idx lists.

(** call 165-206. *)
Definition link_call (c : conf) (src_aggs dst_aggs : aggs_t) (node_emb : list qrow) (inputs : list tensor) : res (qrow * Q) :=
  match inputs with
  | Ids src_nodes :: Ids dst_nodes :: Rows labels :: rest =>
      do lists <- mapM as_idx rest ;;
      let nb_list_size := S (length (c_ns c)) in
      do src_feat <- identity node_emb src_nodes ;;
      do dst_feat <- identity node_emb dst_nodes ;;
      do src_output <- sage_embedding c src_aggs src_feat (firstn nb_list_size lists) ;;
      do dst_output <- sage_embedding c dst_aggs dst_feat (skipn nb_list_size lists) ;;
      do logits <- products src_output dst_output ;;
      let labels := concat labels in
      if (length logits =? length labels)%nat then
        Ok (map sg logits, qavg (map (fun p => sce (fst p) (snd p)) (combine logits labels)))
      else Fail EAssert
  | _ => Fail EAssert
  end.
(** inference 136-153. *)
Inductive role := Src | Dst.
Definition link_inference (c : conf) (src_aggs dst_aggs : aggs_t) (node_emb : list qrow) (r : role) (inputs : list tensor)
  : res (list Z * list qrow) :=
  match inputs with
  | Ids nodes :: rest =>
      do lists <- mapM as_idx rest ;;
      do feat <- identity node_emb nodes ;;
      do emb <- sage_embedding c (match r with Src => src_aggs | Dst => dst_aggs end) feat lists ;;
      do first <- item lists 0 ;;
      do ids <- embedding_lookup nodes first ;;
      Ok (ids, emb)
  | _ => Fail EAssert
  end.
(** test_step 219-224 and predict_step 226-229, with the node of set_inference_node. *)
Inductive answer := Three (predictions : qrow) (loss : Q) | Two (ids : list Z) (emb : list qrow).
Definition link_step c src_aggs dst_aggs node_emb (training : bool) (node : option role) inputs : res answer :=
  match training, node with
  | false, Some r => do p <- link_inference c src_aggs dst_aggs node_emb r inputs ;; Ok (Two (fst p) (snd p))
  | _, _ => do p <- link_call c src_aggs dst_aggs node_emb inputs ;; Ok (Three (fst p) (snd p))
  end.
Definition test_step c src_aggs dst_aggs node_emb node inputs : res Q :=
  do a <- link_step c src_aggs dst_aggs node_emb false node inputs ;;
  match a with Three _ loss => Ok loss | Two _ _ => Fail EAssert end.
Definition predict_step c src_aggs dst_aggs node_emb node inputs : res (list Z * list qrow) :=
  do a <- link_step c src_aggs dst_aggs node_emb false node inputs ;;
  match a with Three _ _ => Fail EAssert | Two ids emb => Ok (ids, emb) end.

(** ** Without labels
    UnsupervisedQuery.query_training 72-117: [pos] is the answer of sample_neighbors with count 1,
    [neg] that of sample_nodes; [feat] are the features, None with identity features. *)
Definition unsup_query draw (pos : list (list Z)) (neg : list Z) (feat : option (Z -> qrow)) (ns : list nat) (seeds : list Z)
  : list tensor :=
  let positive := concat pos in
  let merged := seeds ++ positive ++ neg in
  let src_idx := seq 0 (length seeds) in
  let pos_idx := seq (length seeds) (length positive) in
  let neg_idx := seq (length seeds + length positive) (length neg) in
  let '(all, lists) := query_neighbor draw ns merged in
  Ids all :: match feat with None => [] | Some f => [Rows (map f all)] end
    ++ [Idx src_idx; Idx pos_idx; Idx neg_idx] ++ map Idx lists.

(** call 172-208, _affinity, _neg_cost, _calc_mrr and _xent_loss. *)
Definition unsup_call (ord : list Q -> list nat) (c : conf) (aggs : aggs_t) (weight : Q) (node_emb : option (list qrow)) (inputs : list tensor)
  : res (list Z * list qrow * Q * Q) :=
  do parts <- match node_emb, inputs with
              | None, Ids nodes :: Rows feat :: rest => Ok (nodes, feat, rest)
              | Some emb, Ids nodes :: rest => do feat <- identity emb nodes ;; Ok (nodes, feat, rest)
              | _, _ => Fail EAssert
              end ;;
  let '(nodes, feat, rest) := parts in
  match rest with
  | Idx src_idx :: Idx pos_idx :: Idx neg_idx :: rest =>
      do lists <- mapM as_idx rest ;;
      do output <- sage_embedding c aggs feat lists ;;
      do src_emb <- embedding_lookup output src_idx ;;
      do pos_emb <- embedding_lookup output pos_idx ;;
      do neg_emb <- embedding_lookup output neg_idx ;;
      do first <- item lists 0 ;;
      do src_nodes_idx <- embedding_lookup first src_idx ;;
      do src_nodes <- embedding_lookup nodes src_nodes_idx ;;
      do aff <- products src_emb pos_emb ;;
      let neg_aff := map (fun s => map (dot2 s) neg_emb) src_emb in
      do mrr <- tf_mrr ord neg_aff aff ;;
      let loss := (qsum (fun a => sce a 1) aff + weight * qsum (qsum (fun a => sce a 0)) neg_aff)%Q in
      Ok (src_nodes, src_emb, (loss / inject_Z (Z.of_nat (length src_emb)))%Q, mrr)
  | _ => Fail EAssert
  end.
End Learn.
