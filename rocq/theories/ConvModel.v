(** Graph convolutions: src/python/deepgnn/tf/nn/gcn_conv.py, pytorch/encoding/gnn_encoder_lightgcn.py,
    gnn_encoder_lgcl.py and gnn_encoder_hetgnn.py.

    As in AttModel.v numbers are rationals and arithmetic is exact (integers in LgclEncoder, where
    they are only compared and added); trained layers are arguments that act on rows. *)
From Coq Require Import QArith.
From Verif Require Import Base Dist AttModel TfSageModel.

(** ** gcn_conv.py
    [rs] is tf.math.pow(x, -0.5); infinite for zero, which becomes zero (18-19, 29-31). *)
Section Gcn.
Variable rs : Q -> Q.
Definition d_inv (d : Q) : Q := if Qeq_bool d 0 then 0 else rs d.
Definition mm (w : nat) (a b : mat) : mat := map (fun r => weighted w (combine b r)) a.
Definition diag (s : list Q) : mat :=
  map (fun i => map (fun j => if (i =? j)%nat then nth i s 0 else 0) (seq 0 (length s))) (seq 0 (length s)).
(** gcn_norm_adj 27-33. *)
Definition gcn_norm_dense (adj : mat) : mat :=
  let n := length adj in
  let d := diag (map (fun r => d_inv (qsum idq r)) adj) in
  mm n (mm n d adj) d.
(** gcn_norm_adj 10-25: entries are row, column and value. *)
Definition entry := (nat * nat * Q)%type.
Definition degree (entries : list entry) (i : nat) : Q :=
  qsum snd (filter (fun e => fst (fst e) =? i)%nat entries).
Definition gcn_norm_sparse (n : nat) (entries : list entry) : res (list entry) :=
  if forallb (fun e => (fst (fst e) <? n) && (snd (fst e) <? n))%nat entries then
    let s := map (fun i => d_inv (degree entries i)) (seq 0 n) in
    Ok (map (fun e => (fst e, nth (fst (fst e)) s 0 * nth (snd (fst e)) s 0)) entries)
  else Fail EIndex.
(** GCNConv.call 63-77; [c_act] is stored (46) and not used. *)
Record gcn := Gcn { c_dim : nat; c_w : list Q -> list Q; c_bias : option (list Q); c_act : Q -> Q }.
Definition add_bias (c : gcn) (m : mat) : mat :=
  match c_bias c with None => m | Some b => map (fun r => zip_with Qplus r b) m end.
Definition gcn_dense (c : gcn) (x : mat) (adj : mat) : mat :=
  add_bias c (mm (c_dim c) adj (map (c_w c) x)).
Definition gcn_sparse (c : gcn) (x : mat) (entries : list entry) : mat :=
  let xw := map (c_w c) x in
  add_bias c (map (fun i => weighted (c_dim c) (map (fun e => (nth (snd (fst e)) xw [], snd e))
                                                   (filter (fun e => fst (fst e) =? i)%nat entries)))
                  (seq 0 (length x))).
End Gcn.

(** ** LightGCNEncoder.forward (gnn_encoder_lightgcn.py 16-29); [d] is samples[1].shape[-1]. *)
Definition mean_rows (d : nat) (rows : mat) : list Q :=
  map (fun k => qsum (fun r => nth k r 0) rows / qnat (length rows)) (seq 0 d).
Definition light (samples : list mat) (d : nat) (fanouts : list nat) : res mat :=
  match fanouts with
  | [] => AttModel.item samples 0
  | [f] =>
      do x <- AttModel.item samples 0 ;;
      do y <- AttModel.item samples 1 ;;
      do g <- reshape Q f d y ;;
      if (length x =? length g)%nat
      then Ok (map (fun p => zip_with (fun a b => (a + b) / 2) (fst p) (mean_rows d (snd p))) (combine x g))
      else Fail EAssert
  | _ => Fail EAssert
  end.

(** ** LgclEncoder (gnn_encoder_lgcl.py)
    torch.topk(neighbor, k, dim=1): the k greatest values of every feature, in descending order. *)
Local Open Scope Z_scope.
Fixpoint insert_desc (x : Z) (l : list Z) : list Z :=
  match l with [] => [x] | y :: t => if y <=? x then x :: l else y :: insert_desc x t end.
Fixpoint sort_desc (l : list Z) : list Z := match l with [] => [] | x :: t => insert_desc x (sort_desc t) end.
Definition column (k : nat) (rows : list (list Z)) : list Z := map (fun r => nth k r 0) rows.
Definition topk (k d : nat) (rows : list (list Z)) : res (list (list Z)) :=
  if (k <=? length rows)%nat
  then Ok (map (fun r => map (fun j => nth r (sort_desc (column j rows)) 0) (seq 0 d)) (seq 0 k))
  else Fail EAssert.
(** The length of the sequence k+1 after the two convolutions (43-58). *)
Definition conv_len (n kernel : nat) : res nat := if (kernel <=? n)%nat then Ok (n - kernel + 1)%nat else Fail EAssert.
Definition lgcl_len (k : nat) : res nat :=
  do n <- conv_len (k + 1) ((k + 1) / 2 + 1)%nat ;; conv_len n (k / 2 + 1)%nat.

(** A tensor after torch.squeeze (97): the dimension of a batch with one row is lost too. *)
Inductive tensor := Vec (v : list Z) | Rows (m : list (list Z)).
Definition squeeze (m : list (list Z)) : tensor := match m with [v] => Vec v | _ => Rows m end.
Definition vadd (a b : list Z) : list Z := map (fun p => fst p + snd p) (combine a b).
(** + with broadcasting. *)
Definition add_rows (a : tensor) (b : list (list Z)) : res (list (list Z)) :=
  match a with
  | Vec v => Ok (map (vadd v) b)
  | Rows m =>
      if (length m =? length b)%nat then Ok (map (fun p => vadd (fst p) (snd p)) (combine m b))
      else match b with [r] => Ok (map (fun x => vadd x r) m) | _ => Fail EAssert end
  end.
(** torch.cat(dim=-1). *)
Definition cat_rows (a : tensor) (b : list (list Z)) : res (list (list Z)) :=
  match a with
  | Vec _ => Fail EAssert          (* tensors with a different number of dimensions *)
  | Rows m => if (length m =? length b)%nat then Ok (map (fun p => (fst p ++ snd p)%list) (combine m b)) else Fail EAssert
  end.

Record lgcl := Lgcl {
  g_ks : list nat;                                         (* largest_k_list *)
  g_hidden : list nat;                                     (* hidden_dims *)
  g_conv : nat -> nat -> list (list Z) -> list Z;          (* layer, hop: both convolutions with activations *)
  g_lin : nat -> list Z -> list Z }.                       (* lgcl_add_{layer} *)
(** One hop of one layer with residual "add" (85-107); [w] is the width of the samples. *)
Definition lgcl_hop (g : lgcl) (fanouts : list nat) (samples : list (list (list Z))) (w layer hop : nat) : res (list (list Z)) :=
  do f <- AttModel.item fanouts hop ;;
  do k <- AttModel.item (g_ks g) hop ;;
  do x <- AttModel.item samples hop ;;
  do y <- AttModel.item samples (S hop) ;;
  do x0 <- AttModel.item samples 0 ;;
  do groups <- reshape Z f w y ;;
  do tops <- mapM (topk k w) groups ;;
  if (length x =? length tops)%nat then
    let seq := squeeze (map (fun p => g_conv g layer hop (fst p :: snd p)) (combine x tops)) in
    if (w =? nth layer (g_hidden g) 0)%nat then add_rows seq x0           (* 107: samples[0] *)
    else add_rows seq (map (g_lin g layer) x)
  else Fail EAssert.
Fixpoint lgcl_layers (g : lgcl) (fanouts : list nat) (n layer w : nat) (samples : list (list (list Z))) : res (list (list (list Z))) :=
  match n with
  | O => Ok samples
  | S n' =>
      do hidden <- mapM (lgcl_hop g fanouts samples w layer) (seq 0 (length fanouts - layer)) ;;
      lgcl_layers g fanouts n' (S layer) (nth layer (g_hidden g) 0%nat) hidden
  end.
(** forward 76-120, for as many layers as hidden_dims: the widths agree at the end. *)
Definition lgcl_forward (g : lgcl) (fanouts : list nat) (in_features : nat) (samples : list (list (list Z))) : res (list (list Z)) :=
  do s <- lgcl_layers g fanouts (length fanouts) 0 in_features samples ;; AttModel.item s 0.
(** One layer with residual "concat" (108-109). *)
Definition lgcl_concat (g : lgcl) (f w : nat) (x y : list (list Z)) : res (list (list Z)) :=
  do k <- AttModel.item (g_ks g) 0 ;;
  do groups <- reshape Z f w y ;;
  do tops <- mapM (topk k w) groups ;;
  if (length x =? length tops)%nat then
    cat_rows (squeeze (map (fun p => g_conv g 0 0 (fst p :: snd p)) (combine x tops))) x
  else Fail EAssert.

(** ** HetGnnEncoder.forward, the attention over types (gnn_encoder_hetgnn.py 92-107).  [embeds] are
    the embeddings for all types, [node] the features of the nodes; [att] is the attention layer. *)
Local Open Scope Q_scope.
Definition het_fuse (ex : Q -> Q) (att : list Q -> Q) (d : nat) (node : mat) (embeds : list mat) : mat :=
  let list := (embeds ++ [node])%list in
  map (fun b =>
         let mine := map (fun m => nth b m []) list in
         let w := softmax ex (map (fun e => leaky (1 # 100) (att (nth b node [] ++ e)%list)) mine) in
         weighted d (combine mine w)) (seq 0 (length node)).
