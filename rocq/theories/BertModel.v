(** The BERT encoder under TwinBERT:
    /repo/src/python/deepgnn/pytorch/encoding/twinbert/deepspeed/nvidia_modeling.py (BertEmbeddings
    337-370, BertSelfAttention 373-433, BertSelfOutput 436-447, BertLayer 488-499, BertEncoder
    547-581, BertPooler 603-615, BertModel 916-960; nvidia_modeling_no_apex.py differs in comments and
    decorators only) and loss.py FocalLoss 25-60.

    A tensor [batch, sequence, ...] is modelled for one element of the batch: every operation is the
    same for all of them.  Numbers are rationals, the exponential is an argument, softmax is the one of
    AttModel.v; dense layers, activations and layer normalisation are arguments that act on one row;
    math.sqrt of the size of a head is the argument [rt].  No dropout (evaluation mode); the DeepSpeed
    kernel (506-536) is not modelled. *)
From Coq Require Import QArith.
From Verif Require Import Base Dist AttModel.

Notation row := (list Q).
Definition add_row (a b : row) : row := zip_with Qplus a b.

(** ** BertEmbeddings.forward 354-370 *)
Definition embed (ln : row -> row) (word pos typ : mat) (ids : list nat) (types : option (list nat)) : res mat :=
  let tt := match types with Some t => t | None => repeat O (length ids) end in
  if negb (length tt =? length ids)%nat then Fail EAssert           (* shapes to add *)
  else mapM (fun p =>
          do w <- item word (fst (fst p)) ;;
          do q <- item pos (snd (fst p)) ;;
          do t <- item typ (snd p) ;;
          Ok (ln (add_row (add_row w q) t)))
       (combine (combine ids (seq 0 (length ids))) tt).

(** ** BertSelfAttention *)
(** __init__ 374-387: the size of a head. *)
Definition head_size (hidden heads : nat) : res nat := if (Nat.modulo hidden heads =? 0)%nat then Ok (Nat.div hidden heads) else Fail EAssert.
Record layer := Layer { l_heads : nat; l_size : nat; l_rt : Q;
                        l_q : row -> row; l_k : row -> row; l_v : row -> row;
                        l_o : row -> row; l_ln1 : row -> row;
                        l_inter : row -> row; l_out : row -> row; l_ln2 : row -> row }.
(** x.view(..., heads, size). *)
Definition view_heads (n d : nat) (r : row) : list row := map (fun h => firstn d (skipn (h * d)%nat r)) (seq 0 n).
(** permute(0, 2, 1, 3) 393-397 and permute(0, 2, 3, 1) 399-403. *)
Definition for_scores (n d : nat) (x : mat) : list mat := map (fun h => map (fun r => nth h (view_heads n d r) []) x) (seq 0 n).
Definition key_for_scores (n d : nat) (x : mat) : list mat :=
  map (fun h => map (fun e => map (fun r => nth e (nth h (view_heads n d r) []) 0%Q) x) (seq 0 d)) (seq 0 n).
Definition matmul (cols : nat) (a b : mat) : mat :=
  map (fun r => map (fun k => qsum (fun p => fst p * nth k (snd p) 0)%Q (combine r b)) (seq 0 cols)) a.

Section Exp.
Variable ex : Q -> Q.
(** forward 405-433. *)
Definition self_attention (l : layer) (x : mat) (mask : row) : mat :=
  let n := l_heads l in
  let d := l_size l in
  let query := for_scores n d (map (l_q l) x) in
  let key := key_for_scores n d (map (l_k l) x) in
  let value := for_scores n d (map (l_v l) x) in
  let scores := map (fun p => matmul (length x) (fst p) (snd p)) (combine query key) in
  let scores := map (map (map (fun z => z / l_rt l)%Q)) scores in
  let scores := map (map (fun r => zip_with Qplus r mask)) scores in
  let probs := map (map (softmax ex)) scores in
  let context := map (fun p => matmul d (fst p) (snd p)) (combine probs value) in
  map (fun s => concat (map (fun c => nth s c []) context)) (seq 0 (length x)).
(** BertSelfOutput 443-447, BertAttention 456-459, BertIntermediate 469-471, BertOutput 481-485,
    BertLayer 495-499. *)
Definition bert_attention (l : layer) (x : mat) (mask : row) : mat :=
  zip_with (fun c r => l_ln1 l (add_row (l_o l c) r)) (self_attention l x mask) x.
Definition bert_layer (l : layer) (x : mat) (mask : row) : mat :=
  let a := bert_attention l x mask in
  zip_with (fun i r => l_ln2 l (add_row (l_out l i) r)) (map (l_inter l) a) a.
End Exp.

(** ** BertEncoder.forward 547-581; a layer is any function here. *)
Section Encoder.
Context {X M : Type}.
Variable mask : M.
Fixpoint run (layers : list (X -> M -> X)) (x : X) : X :=
  match layers with [] => x | f :: t => run t (f x mask) end.
Fixpoint run_all (layers : list (X -> M -> X)) (x : X) : list X :=
  match layers with [] => [] | f :: t => f x mask :: run_all t (f x mask) end.
(** 562-571: while l < num_layers. *)
Fixpoint chunked (fuel l chunk : nat) (layers : list (X -> M -> X)) (x : X) : res X :=
  match fuel with
  | O => Fail EFuel
  | S f => if (l <? length layers)%nat then chunked f (l + chunk)%nat chunk layers (run (skipn l (firstn (l + chunk)%nat layers)) x) else Ok x
  end.
Definition encode (all ckpt : bool) (layers : list (X -> M -> X)) (x : X) : res (list X) :=
  if ckpt then do y <- chunked (S (length layers)) 0 (Nat.sqrt_up (length layers)) layers x ;; Ok [y]
  else Ok ((if all then run_all layers x else []) ++ (if all then [] else [run layers x])).
End Encoder.
(** l[-1]. *)
Definition last_of {A} (l : list A) : res A := match rev l with [] => Fail EIndex | x :: _ => Ok x end.

(** ** BertModel.forward 923-960 *)
Definition extended_mask (mask : list Z) : row := map (fun m => (1 - inject_Z m) * - (10000))%Q mask.
Definition bert_model (ex : Q -> Q) (ln : row -> row) (word pos typ : mat) (layers : list layer) (pool : row -> row)
  (ids : list nat) (types : option (list nat)) (mask : option (list Z)) (all ckpt : bool) : res (list mat * mat * row) :=
  let m := match mask with Some m => m | None => repeat 1%Z (length ids) end in
  do x <- embed ln word pos typ ids types ;;
  if negb (length m =? length ids)%nat then Fail EAssert else        (* shapes to add *)
  do enc <- encode (extended_mask m) all ckpt (map (bert_layer ex) layers) x ;;
  do s <- last_of enc ;;
  do first <- item s 0 ;;
  Ok (enc, s, pool first).

(** ** FocalLoss.forward 39-60; alpha is a column (the default 27) or, as documented, a vector. *)
Inductive weights := Column (a : row) | Vector (a : row).
Definition one_hot (c t : nat) : res row := if (t <? c)%nat then Ok (map (fun j => if (j =? t)%nat then 1 else 0)%Q (seq 0 c)) else Fail EIndex.
Definition focal (ex lg pw : Q -> Q) (alpha : weights) (average : bool) (c : nat) (inputs : mat) (targets : list nat) : res Q :=
  if negb (length targets =? length inputs)%nat then Fail EAssert else
  do masks <- mapM (one_hot c) targets ;;
  let probs := map (fun p => qsum idq (zip_with Qmult (softmax ex (fst p)) (snd p))) (combine inputs masks) in
  do cells <- match alpha with
              | Column a => do w <- mapM (item a) targets ;; Ok (map (fun p => - fst p * pw (1 - snd p) * lg (snd p))%Q (combine w probs))
              | Vector a => do w <- mapM (item a) targets ;; Ok (flat_map (fun p => map (fun v => - v * pw (1 - p) * lg p)%Q w) probs)
              end ;;
  Ok (if average then qsum idq cells / qnat (length cells) else qsum idq cells)%Q.
