(** Nested batches: /repo/src/python/deepgnn/pytorch/common/utils.py to_cuda 44-79 and
    /repo/src/python/deepgnn/pytorch/encoding/feature_encoder.py TwinBERTFeatureEncoder.forward
    192-224, MultiTypeFeatureEncoder 227-318, get_feature_encoder 321-357.

    A tensor is its content and whether it is on the device; keys and types of encoders are numbers
    (strings are compared only).  What an encoder computes from a sequence and a mask is an argument.
    Data changed in place are returned instead; after an exception nothing is used.  Not modelled:
    shapes (view, squeeze). *)
From Verif Require Import Base GraphModel.
Local Open Scope Z_scope.

Inductive tree : Type :=
| Tensor (cuda : bool) (v : Z)
| Other (v : Z)
| Dict (l : list (Z * tree))
| Tuple (l : list tree)
| Lst (l : list tree).

(** to_cuda: a tuple has no item assignment (TypeError). *)
Fixpoint to_cuda (t : tree) : res tree :=
  match t with
  | Dict l =>
      do l' <- (fix go (l : list (Z * tree)) : res (list (Z * tree)) :=
        match l with
        | [] => Ok []
        | (k, x) :: r =>
            do x' <- (match x with
                      | Dict _ | Tuple _ | Lst _ => to_cuda x
                      | Tensor _ v => Ok (Tensor true v)
                      | Other _ => Fail EAssert
                      end) ;;
            do r' <- go r ;; Ok ((k, x') :: r')
        end) l ;; Ok (Dict l')
  | Tuple l =>
      do l' <- (fix go (l : list tree) : res (list tree) :=
        match l with
        | [] => Ok []
        | x :: r =>
            do x' <- (match x with
                      | Dict _ | Tuple _ | Lst _ => to_cuda x
                      | Tensor _ _ => Fail EFatal
                      | Other _ => Ok x
                      end) ;;
            do r' <- go r ;; Ok (x' :: r')
        end) l ;; Ok (Tuple l')
  | Lst l =>
      do l' <- (fix go (l : list tree) : res (list tree) :=
        match l with
        | [] => Ok []
        | x :: r =>
            do x' <- (match x with
                      | Dict _ | Tuple _ | Lst _ => to_cuda x
                      | Tensor _ v => Ok (Tensor true v)
                      | Other _ => Ok x
                      end) ;;
            do r' <- go r ;; Ok (x' :: r')
        end) l ;; Ok (Lst l')
  | _ => Ok t
  end.

(** ** Encoders *)
Section Encoders.
Context {Sq Mk Em Tm : Type}.

(** What a context holds: data, a dictionary with sequence and mask, another dictionary, an
    embedding, an embedding with term tensors. *)
Inductive ctx : Type :=
| Data (v : Z)
| Pair (s : Sq) (m : Mk)
| Sub (l : list (Z * ctx))
| Emb (e : Em)
| EmbTerm (e : Em) (t : Tm).

Section Twin.
Variable encode : Sq -> Mk -> nat -> Em * Tm.
(** TwinBERTFeatureEncoder.forward on what is under one key; a nested call has the default
    output_encoded_layer=False. *)
Fixpoint twin_at (pooler : nat) (out : bool) (c : ctx) : ctx :=
  match c with
  | Pair s m => let r := encode s m pooler in if out then EmbTerm (fst r) (snd r) else Emb (fst r)
  | Sub l => Sub (map (fun x => (fst x, twin_at pooler false (snd x))) l)
  | _ => c
  end.
Definition twin_forward (l : list (Z * ctx)) (pooler : nat) (out : bool) : list (Z * ctx) :=
  map (fun x => (fst x, twin_at pooler out (snd x))) l.
End Twin.

(** The encoder of a type, or the shared one: None. *)
Variable encode : option Z -> Sq -> Mk -> nat -> Em * Tm.
Fixpoint index_of (x : Z) (l : list Z) : res nat :=
  match l with [] => Fail EIndex | y :: t => if x =? y then Ok O else do n <- index_of x t ;; Ok (S n) end.
(** get_feature_encoder and the pooler of a type: getattr and index raise for an unknown one. *)
Definition encoder_of (share : bool) (known : list Z) (t : Z) : res (option Z * nat) :=
  if share then do n <- index_of t known ;; Ok (None, n)
  else if existsb (Z.eqb t) known then Ok (Some t, O) else Fail EAssert.
Definition item {A} (l : list A) (i : nat) : res A := match nth_error l i with Some x => Ok x | None => Fail EIndex end.
(** 289-306 for one list of types: embeddings, and the term tensors of the last type. *)
Fixpoint group (share : bool) (known : list Z) (ss : list Sq) (ms : list Mk) (j : nat) (types : list Z) (last : option Tm) : res (list Em * option Tm) :=
  match types with
  | [] => Ok ([], last)
  | t :: rest =>
      do s <- item ss j ;; do m <- item ms j ;; do e <- encoder_of share known t ;;
      let r := encode (fst e) s m (snd e) in
      do q <- group share known ss ms (S j) rest (Some (snd r)) ;; Ok (fst r :: fst q, snd q)
  end.
(** 283-312; types that are no list are None.  ctx is unbound when the first list is empty. *)
Fixpoint groups (share : bool) (known : list Z) (ss : list (list Sq)) (ms : list (list Mk)) (i : nat) (types : list (option (list Z))) : res (list (list Em) * option Tm) :=
  match types with
  | [] => Ok ([], None)
  | None :: rest => groups share known ss ms (S i) rest
  | Some ts :: rest =>
      do q <- (match ts with
               | [] => Ok ([], None)
               | _ => do s <- item ss i ;; do m <- item ms i ;; group share known s m 0 ts None
               end) ;;
      do term <- (if (i =? 0)%nat then match snd q with Some t => Ok (Some t) | None => Fail EFatal end else Ok None) ;;
      do r <- groups share known ss ms (S i) rest ;; Ok (fst q :: fst r, match term with Some t => Some t | None => snd r end)
  end.
(** MultiTypeFeatureEncoder.forward: embs_list, term tensors and mask of the context. *)
Definition multi_forward (share : bool) (known : list Z) (ss : list (list Sq)) (ms : list (list Mk)) (types : list (option (list Z))) : res (list (list Em) * option Tm * Mk) :=
  do r <- groups share known ss ms 0 types ;;
  do m <- item ms 0 ;; do m0 <- item m 0 ;; Ok (r, m0).
End Encoders.
Arguments ctx : clear implicits.

(** get_feature_encoder 338-343: the types of encoders, sorted. *)
Definition known_types (src dst : list (list Z)) : list Z := make_sorted_list (concat src ++ concat dst).
(** embed_dim of both encoders. *)
Definition twin_dim (downscale hidden : Z) : Z := if 0 <? downscale then downscale else hidden.
Definition multi_dim (downscale hidden : Z) : Z := downscale.
