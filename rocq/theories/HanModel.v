(** The heterogeneous graph attention network (HAN): examples/tensorflow/han/han.py and
    src/python/deepgnn/tf/encoders/han_encoder.py.

    The graph is [feat] and [lab], the feature and the label of a node, and [smp]: [smp k nodes types
    count dflt] is what the k-th call of sample_neighbors answered, flattened.  Rows are units: the
    last dimension of reshape is the width of the rows and keeps them.  Numbers are rationals.

    Simplifications: the trained parts are arguments ([hds] numbers the heads by their creation,
    [score] is the product with u_omega of tanh of the row times w_omega plus b_omega); the loss is
    left out; [v1] says if tf.disable_v2_behavior was called, as the trainers for TensorFlow 1 do. *)
From Coq Require Import QArith Qround.
From Verif Require Import Base Dist AttModel MetricModel.
Local Open Scope nat_scope.

(** A reshape to [-1, w]; neither numpy nor TensorFlow infers the first dimension if [w] is zero. *)
Definition reshape {A} (w : nat) (l : list A) : res (list (list A)) :=
  if w =? 0 then Fail EAssert
  else if length l mod w =? 0 then Ok (chunks w (length l / w) l) else Fail EAssert.
Definition product (l : list nat) : nat := fold_right Nat.mul 1 l.
Definition total_of (l : list nat) : nat := fold_right Nat.add 0 l.

(** ** HANQuery (han.py 14-92) *)
Record params := Params {
  p_types : list (list Z); p_nb : list nat; p_max : Z; p_dim : nat; p_label : Z; p_label_dim : nat }.
(** __init__ 34-35: the assertion compares a list with zero and holds always; the division fails for
    an empty list. *)
Definition metapath_num (types : list (list Z)) (nb : list nat) : res nat :=
  if length nb =? 0 then Fail EFatal else Ok (length types / length nb).

Section Query.
Variable smp : nat -> list Z -> list Z -> nat -> Z -> list Z.
Variable feat : Z -> list Q.
Variable lab : Z -> list Z.

(** multihop.sample_fanout (graph_engine/multihop.py 37-50), of which only the last list is used; the
    number of the calls is carried along. *)
Fixpoint fan (k : nat) (nodes : list Z) (path : list (list Z * nat)) (dflt : Z) : nat * list Z :=
  match path with
  | [] => (k, nodes)
  | (types, count) :: rest => fan (S k) (smp k nodes types count dflt) rest dflt
  end.
(** 53-74: one turn of the loop. *)
Definition slice_types (p : params) (i : nat) : list (list Z) :=
  let hop := length (p_nb p) in
  firstn ((i + 1) * hop - i * hop) (skipn (i * hop) (p_types p)).
Definition metapath (p : params) (inputs : list Z) (k i : nat) : res (nat * (mat * list mat)) :=
  let total := product (p_nb p) in
  let (k', last) := fan k inputs (combine (slice_types p i) (p_nb p)) (p_max p + 1)%Z in
  do neighbors <- reshape total last ;;
  if p_dim p =? 0 then Fail EAssert
  else
    do neighbor_feats <- reshape total (map feat (concat neighbors)) ;;
    Ok (k', (map feat inputs, neighbor_feats)).
Fixpoint metapaths (p : params) (inputs : list Z) (k : nat) (is : list nat) : res (list (mat * list mat)) :=
  match is with
  | [] => Ok []
  | i :: t => do r <- metapath p inputs k i ;; do rest <- metapaths p inputs (fst r) t ;; Ok (snd r :: rest)
  end.
(** 41-44: np.empty is not initialised, None. *)
Definition labels (p : params) (inputs : list Z) : list (list (option Z)) :=
  if (p_label p =? -1)%Z then repeat (repeat None (p_label_dim p)) (length inputs)
  else map (fun v => map Some (lab v)) inputs.
Record batch := Batch { b_src : list Z; b_label : list (list (option Z)); b_node : list mat; b_nbr : list (list mat) }.
Definition query (p : params) (inputs : list Z) : res batch :=
  do m <- metapath_num (p_types p) (p_nb p) ;;
  do l <- metapaths p inputs 0 (seq 0 m) ;;
  Ok (Batch inputs (labels p inputs) (map fst l) (map snd l)).
(** 79-91: the shapes that are announced to TensorFlow, and those of the arrays: np.array of a list of
    arrays has one dimension more, and one dimension if the list is empty. *)
Definition announced (p : params) (m n : nat) : list (list nat) :=
  [[n]; [n; p_label_dim p]; [m; n; 1; p_dim p]; [m; n; product (p_nb p); p_dim p]].
Definition stacked (m : nat) (inner : list nat) : list nat := if m =? 0 then [0] else m :: inner.
Definition actual (p : params) (m n : nat) : list (list nat) :=
  [[n]; [n; p_label_dim p]; stacked m [n; 1; p_dim p]; stacked m [n; product (p_nb p); p_dim p]].
End Query.

(** ** HANEncoder (tf/encoders/han_encoder.py 58-151) *)
(** __init__ 74-110; the heads are AttModel.han_init. *)
Definition create (types : list (list Z)) (nb head_num hidden_dim : list nat) : res (list nat) :=
  if length head_num =? 0 then Fail EFatal
  else if length hidden_dim =? 0 then Fail EFatal
  else if negb (length head_num =? length hidden_dim) then Fail EFatal
  else
    do _ <- item types 0 ;;
    do _ <- item nb 0 ;;
    do m <- metapath_num types nb ;;
    han_init m head_num.

Section Encoder.
Variable ex : Q -> Q.
Variable hds : nat -> head.
Variable score : list Q -> Q.

(** _multi_head_layer 112-125: every head on every element of the batch, regrouped to [w] rows each,
    and the results of the heads side by side. *)
Definition multi_head (w : nat) (hs : list head) (seqs : list mat) : res (list mat) :=
  do outs <- mapM (fun h => reshape w (concat (map (attention_header ex h) seqs))) hs ;;
  match outs with
  | [] => Fail EAssert                                           (* tf.concat of nothing *)
  | o :: _ => Ok (map (fun g => concat_rows w (map (fun r => nth g r []) outs)) (seq 0 (length o)))
  end.
(** call 132-145: the layers, and the first row of every element. *)
Fixpoint through (m : nat) (head_num cell : list nat) (w i : nat) (ls : list nat) (seqs : list mat) : res (list mat) :=
  match ls with
  | [] => Ok seqs
  | l :: t =>
      do ids <- han_heads m head_num cell i l ;;
      do s <- multi_head w (map hds ids) seqs ;;
      through m head_num cell w i t s
  end.
Definition one_path (m : nat) (nb head_num cell : list nat) (i : nat) (nodes : mat) (nbrs : list mat) : res mat :=
  do h <- through m head_num cell (total_of nb + 1) i (seq 0 (length head_num)) (zip_with cons nodes nbrs) ;;
  do out <- reshape (product nb + 1) (concat h) ;;
  Ok (map (hd []) out).
(** SimpleAttLayer.call 36-55 for one element of the batch. *)
Definition simple_att (d : nat) (rows : mat) : list Q := weighted d (combine rows (softmax ex (map score rows))).
(** 147-151, and SimpleAttLayer.build 26: [input_shape[2].value], there are no values of dimensions in
    TensorFlow 2. *)
Definition encode (v1 : bool) (types : list (list Z)) (nb head_num cell : list nat) (d : nat)
    (nodes : list mat) (nbrs : list (list mat)) : res mat :=
  do m <- metapath_num types nb ;;
  do embeds <- mapM (fun i => do nf <- item nodes i ;; do bf <- item nbrs i ;;
                              one_path m nb head_num cell i nf bf) (seq 0 m) ;;
  match embeds with
  | [] => Fail EAssert                                           (* tf.concat of nothing *)
  | e :: _ =>
      if v1 then Ok (map (fun n => simple_att d (map (fun x => nth n x []) embeds)) (seq 0 (length e)))
      else Fail EFatal
  end.
End Encoder.

(** ** HAN (han.py 95-211) *)
(** decoder 174-192: the predictions; [sg] is the sigmoid. *)
Definition rounded (sg : Q -> Q) (row : list Q) : list Z := map (fun x => Qfloor (sg x + (1 # 2))) row.
Definition one_hot (n i : nat) : list Z := map (fun k => if k =? i then 1%Z else 0%Z) (seq 0 n).
Definition chosen (ex : Q -> Q) (n : nat) (row : list Q) : res (list Z) :=
  do i <- argmax (softmax ex row) ;; Ok (one_hot n i).
(** f1_score 160-172: the counters are local variables of the session and grow with every batch. *)
Record counters := Counters { c_tp : nat; c_fn : nat; c_fp : nat }.
Definition count (l : list (Z * Z)) (f : bool -> bool -> bool) : nat :=
  length (filter (fun p => f (negb (fst p =? 0)%Z) (negb (snd p =? 0)%Z)) l).
Definition update (c : counters) (l : list (Z * Z)) : counters :=
  Counters (c_tp c + count l (fun a b => a && b)) (c_fn c + count l (fun a b => a && negb b))
           (c_fp c + count l (fun a b => negb a && b)).
Definition eps : Q := 1 # 10000000.
Definition f1_of (c : counters) : Q :=
  let tp := qnat (c_tp c) in
  let precision := (tp / (eps + tp + qnat (c_fp c)))%Q in
  let recall := (tp / (eps + tp + qnat (c_fn c)))%Q in
  ((2 # 1) * precision * recall / (precision + recall + eps))%Q.
Fixpoint f1_run (c : counters) (batches : list (list (Z * Z))) : list Q :=
  match batches with [] => [] | l :: t => let c' := update c l in f1_of c' :: f1_run c' t end.
(** call 139-157, test_step 205-210 and predict_step 212-215: unless training the embedding alone is
    the answer, which is not three values. *)
Inductive answer := Embedding (e : mat) | Full (e : mat) (f1 : Q).
Definition call (training : bool) (enc : res mat) (f1 : mat -> Q) : res answer :=
  do e <- enc ;; Ok (if training then Full e (f1 e) else Embedding e).
Definition unpack (a : answer) : res (mat * Q) := match a with Full e f => Ok (e, f) | Embedding _ => Fail EFatal end.
Definition train_step (enc : res mat) (f1 : mat -> Q) : res (mat * Q) := do a <- call true enc f1 ;; unpack a.
Definition test_step (enc : res mat) (f1 : mat -> Q) : res (mat * Q) := do a <- call false enc f1 ;; unpack a.
Definition predict_step (src : list Z) (enc : res mat) (f1 : mat -> Q) : res (list Z * mat) :=
  do a <- call false enc f1 ;; match a with Embedding e => Ok (src, e) | Full e _ => Ok (src, e) end.
