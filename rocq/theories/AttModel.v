(** Graph attention: src/python/deepgnn/pytorch/nn/gat_conv.py, tf/nn/gat_conv.py,
    pytorch/encoding/gnn_encoder_gat.py, tf/layers/attention_header.py, tf/encoders/att_encoder.py
    and tf/encoders/han_encoder.py.

    Numbers are rationals and arithmetic is exact, only the exponential is an argument [ex]; matrices
    are lists of rows.  The trained parts of a head are arguments: [w], [al] and [ar] act on one row
    (nn.Linear), [bias] is added and [act] applied to every element.

    Simplifications: no dropout (evaluation mode), no broadcasting of dimensions of size one other
    than the intended one, a sparse matrix is the list of its entries in the order of the indices. *)
From Coq Require Import QArith.
From Verif Require Import Base Dist.

Notation mat := (list (list Q)).
Definition qmax (a b : Q) : Q := if Qle_bool a b then b else a.
Fixpoint vmax (l : list Q) : Q :=
  match l with [] => 0 | [x] => x | x :: t => qmax x (vmax t) end.
Definition idq (x : Q) : Q := x.

Section Att.
Variable ex : Q -> Q.

(** softmax of one row, computed as PyTorch and TensorFlow do: the greatest element is subtracted. *)
Definition softmax (l : list Q) : list Q :=
  let e := map (fun x => ex (x - vmax l)) l in
  map (fun x => x / qsum idq e) e.
Definition leaky (slope x : Q) : Q := if Qle_bool x 0 then slope * x else x.

(** A row of coefs times the matrix of the features [d] wide: the rows with their coefficients. *)
Definition weighted (d : nat) (l : list (list Q * Q)) : list Q :=
  map (fun k => qsum (fun p => snd p * nth k (fst p) 0) l) (seq 0 d).
Definition zip_with {A B C} (f : A -> B -> C) (a : list A) (b : list B) : list C :=
  map (fun p => f (fst p) (snd p)) (combine a b).

(** _call_dense_version: pytorch/nn/gat_conv.py 69-88, tf/nn/gat_conv.py 83-93. *)
Definition square (n : nat) (m : mat) : bool := (length m =? n) && forallb (fun r => length r =? n) m.
Definition logits (f1 f2 : list Q) : mat := map (fun a => map (fun b => a + b) f2) f1.
Definition mask (adj : mat) : mat := map (map (fun a => - (1000000000) * (1 - a))) adj.
Definition dense (d : nat) (fts : mat) (f1 f2 : list Q) (adj : mat) : res mat :=
  if square (length f1) adj then
    let coefs := zip_with (fun l b => softmax (zip_with (fun x y => leaky (1 # 5) x + y) l b)) (logits f1 f2) (mask adj) in
    Ok (map (fun c => weighted d (combine fts c)) coefs)
  else Fail EAssert.

(** _call_sparse_version: pytorch/nn/gat_conv.py 90-114, tf/nn/gat_conv.py 95-113.  Only the indices
    of the matrix are used. *)
Definition item {A} (l : list A) (i : nat) : res A :=
  match nth_error l i with Some x => Ok x | None => Fail EIndex end.
Definition sparse (d : nat) (fts : mat) (f1 f2 : list Q) (edges : list (nat * nat)) : res mat :=
  do values <- mapM (fun e => do a <- item f1 (fst e) ;; do b <- item f2 (snd e) ;; Ok (leaky (1 # 5) (a + b))) edges ;;
  mapM (fun i =>
          let mine := filter (fun p => fst (fst p) =? i) (combine edges values) in
          do rows <- mapM (fun p => item fts (snd (fst p))) mine ;;
          Ok (weighted d (combine rows (softmax (map snd mine)))))
       (seq 0 (length fts)).

(** AttnHead.forward 46-67 and call 50-81. *)
Inductive adjacency := Dense (adj : mat) | Sparse (edges : list (nat * nat)).
Record head := Head { h_dim : nat; h_w : list Q -> list Q; h_al : list Q -> Q; h_ar : list Q -> Q;
                      h_bias : list Q; h_act : Q -> Q }.
Definition attn_head (h : head) (feat : mat) (adj : adjacency) : res mat :=
  let fts := map (h_w h) feat in
  let f1 := map (h_al h) fts in
  let f2 := map (h_ar h) fts in
  do vals <- match adj with Dense m => dense (h_dim h) fts f1 f2 m | Sparse e => sparse (h_dim h) fts f1 f2 e end ;;
  Ok (map (fun r => map (h_act h) (zip_with Qplus r (h_bias h))) vals).

(** GATConv.forward 164-179 and call 168-179. *)
Definition concat_rows (n : nat) (ms : list mat) : mat :=
  map (fun i => concat (map (fun m => nth i m []) ms)) (seq 0 n).
Definition gat_concat (heads : list head) (feat : mat) (adj : adjacency) : res mat :=
  do attns <- mapM (fun h => attn_head h feat adj) heads ;;
  if length heads =? 0 then Fail EAssert                    (* torch.cat of no tensors *)
  else Ok (concat_rows (length feat) attns).
Definition add_rows (d n : nat) (ms : list mat) : mat :=
  map (fun i => map (fun k => qsum (fun m => nth k (nth i m []) 0) ms) (seq 0 d)) (seq 0 n).
Definition gat_average (d : nat) (heads : list head) (feat : mat) (adj : adjacency) : res mat :=
  do attns <- mapM (fun h => attn_head h feat adj) heads ;;
  if length heads =? 0 then Fail EAssert                    (* torch.stack of no tensors *)
  else Ok (map (map (fun x => x / qnat (length heads))) (add_rows d (length feat) attns)).

(** ** Attention over a sequence *)
(** AttentionHeader.call (tf/layers/attention_header.py 31-54) for one element of the batch: softmax
    over the last dimension. *)
Definition attention_header (h : head) (seq : mat) : mat :=
  let fts := map (h_w h) seq in
  let l := logits (map (h_al h) fts) (map (h_ar h) fts) in
  let coefs := map (fun r => softmax (map (leaky (1 # 5)) r)) l in
  map (fun c => map (h_act h) (zip_with Qplus (weighted (h_dim h) (combine fts c)) (h_bias h))) coefs.
(** GatEncoder.forward (gnn_encoder_gat.py 36-48) for one element of the batch: F.softmax(..., dim=1)
    of a tensor with the dimensions batch, row, column is a softmax down every column. *)
Definition column (j : nat) (m : mat) : list Q := map (fun r => nth j r 0) m.
Definition gat_encoder (slope : Q) (h : head) (seq_ : mat) : mat :=
  let fts := map (h_w h) seq_ in
  let l := map (map (leaky slope)) (logits (map (h_al h) fts) (map (h_ar h) fts)) in
  let cols := map (fun j => softmax (column j l)) (seq 0 (length fts)) in
  map (fun i => map (h_act h) (weighted (h_dim h) (combine fts (map (fun c => nth i c 0) cols)))) (seq 0 (length fts)).

(** ** AttEncoder (tf/encoders/att_encoder.py)
    query 46-63: [nbrs] are the sampled neighbors of the inputs, one row per node. *)
Definition att_query (feat : Z -> list Q) (nb : nat) (inputs : list Z) (nbrs : list (list Z)) : mat * list mat :=
  (map feat inputs, chunks nb (length inputs) (map feat (concat nbrs))).
(** call 65-86. *)
Definition att_call (hidden out : list head) (out_dim nb : nat) (node_feats : mat) (neighbor_feats : list mat) : res mat :=
  if (length hidden =? 0) || (length out =? 0) then Fail EAssert
  else
    let seqs := zip_with cons node_feats neighbor_feats in
    Ok (map (fun s =>
               let h1 := concat_rows (nb + 1) (map (fun h => attention_header h s) hidden) in
               let outs := map (fun h => attention_header h h1) out in
               hd [] (map (map (fun x => x / qnat (length out))) (add_rows out_dim (nb + 1) outs)))
            seqs).
End Att.

(** ** HANEncoder.__init__ (tf/encoders/han_encoder.py 104-111)
    [[[]]] * metapath_num is a list of references to one list with one empty list: of all att_headers
    there is only the cell att_headers[0][0].  A head is numbered by the order of its creation. *)
Definition han_cell (metapaths i layer : nat) (cell : list nat) : res (list nat) :=
  if (i <? metapaths)%nat && (layer =? 0)%nat then Ok cell else Fail EIndex.
Definition han_append (metapaths : nat) (cell : list nat) (at_ : nat * nat) : res (list nat) :=
  do l <- han_cell metapaths (fst at_) (snd at_) cell ;; Ok (l ++ [length l]).
Fixpoint foldM {A S} (f : S -> A -> res S) (s : S) (l : list A) : res S :=
  match l with [] => Ok s | a :: t => do s' <- f s a ;; foldM f s' t end.
Definition heads_of (head_num : list nat) (layer : nat) : nat := nth layer head_num 0%nat.
Definition han_positions (metapaths : nat) (head_num : list nat) : list (nat * nat) :=
  flat_map (fun i => flat_map (fun l => repeat (i, l) (heads_of head_num l)) (seq 0 (length head_num))) (seq 0 metapaths).
Definition han_init (metapaths : nat) (head_num : list nat) : res (list nat) :=
  foldM (han_append metapaths) [] (han_positions metapaths head_num).
(** _multi_head_layer 113-127: the heads applied for a metapath and a layer. *)
Definition han_heads (metapaths : nat) (head_num : list nat) (cell : list nat) (i layer : nat) : res (list nat) :=
  do l <- han_cell metapaths i layer cell ;;
  mapM (fun k => item l k) (seq 0 (heads_of head_num layer)).
