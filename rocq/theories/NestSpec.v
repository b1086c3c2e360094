(** Nested data by their paths. *)
From Verif Require Import Base NestModel.
Local Open Scope Z_scope.

Inductive node : Type := NTensor (cuda : bool) (v : Z) | NOther (v : Z) | NDict (keys : list Z) | NTuple (n : nat) | NList (n : nat).
Definition children (t : tree) : list tree :=
  match t with Dict l => map snd l | Tuple l => l | Lst l => l | _ => [] end.
Definition root (t : tree) : node :=
  match t with
  | Tensor c v => NTensor c v | Other v => NOther v | Dict l => NDict (map fst l)
  | Tuple l => NTuple (length l) | Lst l => NList (length l)
  end.
(** What is at a path of positions. *)
Fixpoint node_at (t : tree) (p : list nat) : option node :=
  match p with
  | [] => Some (root t)
  | i :: q => match nth_error (children t) i with Some x => node_at x q | None => None end
  end.
Definition on_device (x : node) : node := match x with NTensor _ v => NTensor true v | _ => x end.
Definition container (t : tree) : Prop := match t with Dict _ | Tuple _ | Lst _ => True | _ => False end.
(** Dictionaries hold no plain data, tuples no tensors. *)
Definition movable (t : tree) : Prop := forall p i,
  (forall keys v, node_at t p = Some (NDict keys) -> node_at t (p ++ [i]) <> Some (NOther v)) /\
  (forall n c v, node_at t p = Some (NTuple n) -> node_at t (p ++ [i]) <> Some (NTensor c v)).

(** What is at a path of a context. *)
Section Ctx.
Context {Sq Mk Em Tm : Type}.
Inductive cnode : Type := KData (v : Z) | KPair (s : Sq) (m : Mk) | KSub (keys : list Z) | KEmb (e : Em) | KTerm (e : Em) (t : Tm).
Definition croot (c : ctx Sq Mk Em Tm) : cnode :=
  match c with Data v => KData v | Pair s m => KPair s m | Sub l => KSub (map fst l) | Emb e => KEmb e | EmbTerm e t => KTerm e t end.
Fixpoint ctx_at (c : ctx Sq Mk Em Tm) (p : list nat) : option cnode :=
  match p with
  | [] => Some (croot c)
  | i :: q => match c with Sub l => match nth_error l i with Some x => ctx_at (snd x) q | None => None end | _ => None end
  end.
End Ctx.
Arguments cnode : clear implicits.

Section Encoded.
Context {Sq Mk Em Tm : Type}.
Variable encode : Sq -> Mk -> nat -> Em * Tm.
(** A sequence with its mask becomes its embedding, anything else stays. *)
Definition enc_node (pooler : nat) (out : bool) (x : cnode Sq Mk Em Tm) : cnode Sq Mk Em Tm :=
  match x with KPair s m => let r := encode s m pooler in if out then KTerm (fst r) (snd r) else KEmb (fst r) | _ => x end.
End Encoded.

Section Own.
Context {Sq Mk Em Tm : Type}.
Variable encode : option Z -> Sq -> Mk -> nat -> Em * Tm.
(** Embedding and term tensors from the encoder of type [t], or from the shared one with the pooler
    at the position of [t]. *)
Definition own (share : bool) (known : list Z) (t : Z) (s : Sq) (m : Mk) (r : Em * Tm) : Prop :=
  if share then exists n, nth_error known n = Some t /\ (forall k, (k < n)%nat -> nth_error known k <> Some t) /\ r = encode None s m n else r = encode (Some t) s m 0.
(** Enough sequences and masks, known types, types are lists. *)
Definition fits (known : list Z) (ss : list (list Sq)) (ms : list (list Mk)) (i : nat) (types : list (list Z)) : Prop :=
  forall k ts, nth_error types k = Some ts -> Forall (fun t => In t known) ts /\
  exists s m, nth_error ss (i + k) = Some s /\ nth_error ms (i + k) = Some m /\ (length ts <= length s)%nat /\ (length ts <= length m)%nat.
Definition emb_right share known (ss : list (list Sq)) (ms : list (list Mk)) i (types : list (list Z)) (embs : list (list Em)) : Prop :=
  length embs = length types /\ forall k ts es, nth_error types k = Some ts -> nth_error embs k = Some es -> length es = length ts /\
  forall j t e s m sj mj, nth_error ts j = Some t -> nth_error es j = Some e -> nth_error ss (i + k) = Some s -> nth_error s j = Some sj -> nth_error ms (i + k) = Some m -> nth_error m j = Some mj ->
    exists w, own share known t sj mj (e, w).
End Own.
