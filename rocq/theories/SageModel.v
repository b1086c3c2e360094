(** GraphSAGE encoders: src/python/deepgnn/pytorch/encoding/gnn_encoder_sage.py and
    src/python/deepgnn/pytorch/common/aggregators.py.

    A stack of encoders is the list of its layers, the outermost first: [query_func] and [features]
    of a layer are [query] and [forward] of the next one, and [query_feature] and the feature encoder
    [enc] below the last one.  Arrays with two dimensions are lists of rows.  The graph and the
    arithmetic are arguments: [draw i t nodes k] is the answer of the i-th call of sample_neighbors
    (one list of ids per node), [feat v] the row of features of node v, [mean] the mean of rows
    (aggregators.py 35), [l_comb] cat, matmul and activation for one row (sage 141-142).

    Simplifications: node_count is a number, not a batch of one number (137), and the arrays get no
    additional dimension on the way from query to forward; view and reshape look at rows of one
    width; weights, types and timestamps returned by sample_neighbors are not used by the code. *)
From Verif Require Import Base GraphOpsModel.

Section Sage.
Variable elem : Type.
Definition row := list elem.
Record layer := Layer { l_sample : nat; l_type : Z; l_comb : row -> row -> row }.

Inductive context :=
| Arr (rows : list row)
| Dict (node_feats neighbor_feats : context) (node_count : nat).

Variables (draw : nat -> Z -> list Z -> nat -> list (list Z)) (feat : Z -> row) (enc : row -> row)
  (mean : list row -> row) (dim : nat).

(** x.reshape((-1, k, d)) as the list of its k x d blocks. *)
Definition reshape (k d : nat) (x : list row) : res (list (list elem)) :=
  let size := length (concat x) in
  if k * d =? 0 then Fail EAssert
  else if size mod (k * d) =? 0 then Ok (fields (k * d) (concat x)) else Fail EAssert.
(** x[idx] *)
Definition take {A} (x : list A) (idx : list nat) : res (list A) :=
  mapM (fun i => match nth_error x i with Some r => Ok r | None => Fail EIndex end) idx.

(** query_feature 119-132. *)
Definition query_feature (nodes : list Z) : context := Arr (map feat nodes).

(** query 69-117; the number is that of calls of sample_neighbors so far. *)
Fixpoint query (layers : list layer) (nodes : list Z) (neigh : option (list Z)) (calls : nat) : res (context * nat) :=
  match layers with
  | [] => Ok (query_feature nodes, calls)
  | l :: below =>
      let (neigh_nodes, calls) :=                                                   (* 80-83 *)
        match neigh with
        | Some n => (n, calls)
        | None => (concat (draw calls (l_type l) nodes (l_sample l)), S calls)
        end in
      let unique := np_unique neigh_nodes in                                        (* 84 *)
      let idx := map (fun x => position x unique) neigh_nodes in
      do r <- query below nodes (Some neigh_nodes) calls ;;                         (* 86-93 *)
      let (node_feats, calls) := r in
      do r <- query below unique None calls ;;                                      (* 95-97 *)
      let (u, calls) := r in
      match u with
      | Dict (Arr nf) (Arr bf) _ =>                                                 (* 99-113 *)
          do blocks <- reshape (l_sample l) dim bf ;;
          do nf' <- take nf idx ;;
          do bf' <- take blocks idx ;;
          Ok (Dict node_feats (Dict (Arr nf') (Arr (fields dim (concat bf'))) (length idx)) (length nodes), calls)
      | Dict _ _ _ => Fail EAssert         (* AttributeError: a dict has no reshape *)
      | Arr f =>                                                                    (* 114-115 *)
          do f' <- take f idx ;;
          Ok (Dict node_feats (Arr f') (length nodes), calls)
      end
  end.

(** MeanAggregator.forward (aggregators.py 25-35) after self.features. *)
Definition aggregate (neigh_feats : list row) (node_count : nat) : res (list row) :=
  if node_count =? 0 then Fail EAssert                                              (* ZeroDivisionError *)
  else
    let nb_count := length neigh_feats / node_count in
    if node_count * nb_count =? length neigh_feats
    then Ok (map mean (chunks nb_count node_count neigh_feats))
    else Fail EAssert.

(** forward 134-143. *)
Fixpoint forward (layers : list layer) (c : context) : res (list row) :=
  match layers, c with
  | [], Arr rows => Ok (map enc rows)
  | [], Dict _ _ _ => Fail EAssert
  | _ :: _, Arr _ => Fail EAssert
  | l :: below, Dict nf bf n =>
      do b <- forward below bf ;;
      do neigh_feats <- aggregate b n ;;
      do self_feats <- forward below nf ;;
      if length self_feats =? length neigh_feats
      then Ok (map (fun p => l_comb l (fst p) (snd p)) (combine self_feats neigh_feats))
      else Fail EAssert
  end.

(** What a model does with a batch of nodes. *)
Definition embed (layers : list layer) (nodes : list Z) (calls : nat) : res (list row) :=
  do r <- query layers nodes None calls ;; forward layers (fst r).
End Sage.
Arguments Layer {elem}. Arguments l_sample {elem}. Arguments l_type {elem}. Arguments l_comb {elem}.
Arguments Arr {elem}. Arguments Dict {elem}.
