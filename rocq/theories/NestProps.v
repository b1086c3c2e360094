(** C95: nested batches. *)
From Verif Require Import Base GraphModel NestModel NestSpec NestProofs.
Local Open Scope Z_scope.

(** Afterwards all tensors are on the device, with the same content in the same place, and
    everything else is as before. *)
Theorem C95_moved : forall t t' : tree, container t -> to_cuda t = Ok t' -> forall p, node_at t' p = option_map on_device (node_at t p).
Proof. exact moved_right. Qed.
Print Assumptions C95_moved.
(** It succeeds exactly if dictionaries hold no plain data and tuples no tensors. *)
Theorem C95_moves_iff : forall t : tree, (exists t', to_cuda t = Ok t') <-> movable t.
Proof. exact succeeds. Qed.
Print Assumptions C95_moves_iff.
Theorem C95_moves_partial : forall t : tree, container t -> movable t -> exists t', to_cuda t = Ok t' /\ forall p, node_at t' p = option_map on_device (node_at t p).
Proof. intros t C M. destruct (proj2 (succeeds t) M) as [t' E]. exists t'. split; [exact E|]. now apply moved_right. Qed.
Print Assumptions C95_moves_partial.

(** Every sequence with its mask is replaced by its embedding, everything else stays. *)
Theorem C95_encoded : forall (Sq Mk Em Tm : Type) (encode : Sq -> Mk -> nat -> Em * Tm) (l : list (Z * ctx Sq Mk Em Tm)) (pooler : nat) (p : list nat),
  ctx_at (Sub (twin_forward encode l pooler false)) p = option_map (enc_node encode pooler false) (ctx_at (Sub l) p).
Proof. intros. apply twin_right. now right. Qed.
Print Assumptions C95_encoded.
(** With term tensors asked for: those directly in the context. *)
Theorem C95_terms_partial : forall (Sq Mk Em Tm : Type) (encode : Sq -> Mk -> nat -> Em * Tm) (l : list (Z * ctx Sq Mk Em Tm)) (pooler i : nat),
  ctx_at (Sub (twin_forward encode l pooler true)) [i] = option_map (enc_node encode pooler true) (ctx_at (Sub l) [i]).
Proof. exact @twin_top. Qed.
Print Assumptions C95_terms_partial.
(** In nested dictionaries never. *)
Theorem C95_terms_nested : forall (Sq Mk Em Tm : Type) (encode : Sq -> Mk -> nat -> Em * Tm) (l : list (Z * ctx Sq Mk Em Tm)) (pooler : nat) (p : list nat), (2 <= length p)%nat ->
  ctx_at (Sub (twin_forward encode l pooler true)) p = option_map (enc_node encode pooler false) (ctx_at (Sub l) p).
Proof. intros. apply twin_right. now left. Qed.
Print Assumptions C95_terms_nested.

(** Embeddings of several types: each from the encoder of its type, in its place; the mask is that
    of the first type, the term tensors are those of the last type of the first list. *)
Theorem C95_types_partial : forall (Sq Mk Em Tm : Type) (encode : option Z -> Sq -> Mk -> nat -> Em * Tm) (share : bool) (known : list Z) (ss : list (list Sq)) (ms : list (list Mk)) (types : list (list Z)),
  types <> [] -> (forall ts, nth_error types 0 = Some ts -> ts <> []) -> fits known ss ms 0 types ->
  exists embs term mask m0, multi_forward encode share known ss ms (map Some types) = Ok (embs, Some term, mask) /\ emb_right encode share known ss ms 0 types embs /\
  nth_error ms 0 = Some m0 /\ nth_error m0 0 = Some mask /\
  forall ts s0 t s m, nth_error types 0 = Some ts -> nth_error ts (length ts - 1) = Some t -> nth_error ss 0 = Some s0 -> nth_error s0 (length ts - 1) = Some s -> nth_error m0 (length ts - 1) = Some m ->
    exists e, own encode share known t s m (e, term).
Proof. exact @multi_right. Qed.
Print Assumptions C95_types_partial.
(** There is an encoder for each type that sources and destinations have, and no other; types have
    different positions. *)
Theorem C95_known : forall (src dst : list (list Z)) (t : Z), In t (known_types src dst) <-> exists l, (In l src \/ In l dst) /\ In t l.
Proof. exact known_right. Qed.
Print Assumptions C95_known.
Theorem C95_known_once : forall src dst : list (list Z), NoDup (known_types src dst).
Proof. exact known_nodup. Qed.
Print Assumptions C95_known_once.

(** A tuple of tensors raises (utils.py 68-78), a dictionary with plain data raises (59-66) though a
    list with the same data does not, and data that are one tensor are not moved. *)
Theorem C95_tuple_refuted : exists t, container t /\ (forall p v, node_at t p <> Some (NOther v)) /\ exists e, to_cuda t = Fail e.
Proof.
  exists (Tuple [Tensor false 1]). split; [exact I|]. split; [|eexists; reflexivity]. intros [|[|i] [|j q]] v; cbn; try discriminate; try (destruct i; discriminate); destruct j; discriminate.
Qed.
Print Assumptions C95_tuple_refuted.
Theorem C95_plain_refuted : exists x t, to_cuda (Lst [x]) = Ok t /\ exists e, to_cuda (Dict [(1, x)]) = Fail e.
Proof. exists (Other 5), (Lst [Other 5]). split; [reflexivity|eexists; reflexivity]. Qed.
Print Assumptions C95_plain_refuted.
Theorem C95_tensor_refuted : exists t, to_cuda t = Ok t /\ node_at t [] = Some (NTensor false 1).
Proof. exists (Tensor false 1). split; reflexivity. Qed.
Print Assumptions C95_tensor_refuted.
(** Term tensors asked for are not given for nested data (feature_encoder.py 224). *)
Theorem C95_terms_refuted : exists (l : list (Z * ctx Z Z Z Z)) (p : list nat) (s m : Z), let encode := fun s m (_ : nat) => (s, m) in
  ctx_at (Sub l) p = Some (KPair s m) /\ ctx_at (Sub (twin_forward encode l 0 true)) p = Some (KEmb s).
Proof. exists [(1, Sub [(2, Pair 3 4)])], [0; 0]%nat, 3, 4. split; reflexivity. Qed.
Print Assumptions C95_terms_refuted.
(** Term tensors and mask of the context belong to different types if the first list has two (298-312). *)
Theorem C95_mask_refuted : exists (types : list (option (list Z))) (ms : list (list Z)) embs term mask, let encode := fun (_ : option Z) (s m : Z) (_ : nat) => (s, m) in
  multi_forward encode false [1; 2] [[10; 20]] ms types = Ok (embs, Some term, mask) /\ mask <> term.
Proof. exists [Some [1; 2]], [[100; 200]], [[10; 20]], 200, 100. split; [reflexivity|discriminate]. Qed.
Print Assumptions C95_mask_refuted.
(** Types that are no list are left out, so embeddings are at other positions than their types, and
    there are no term tensors if that is the first (284-306). *)
Theorem C95_positions_refuted : exists (types : list (option (list Z))) embs mask, let encode := fun (t : option Z) (s m : Z) (_ : nat) => (s, m) in
  multi_forward encode false [1; 2] [[10]; [20]] [[100]; [200]] types = Ok (embs, None, mask) /\ nth_error types 1 = Some (Some [2]) /\ nth_error embs 1 = None.
Proof. exists [None; Some [2]], [[20]], 100. repeat split; reflexivity. Qed.
Print Assumptions C95_positions_refuted.
(** A first list without types raises. *)
Theorem C95_empty_refuted : exists e, let encode := fun (_ : option Z) (s m : Z) (_ : nat) => (s, m) in
  multi_forward encode false [1; 2] [[]; [20]] [[100]; [200]] [Some []; Some [2]] = Fail e.
Proof. eexists. reflexivity. Qed.
Print Assumptions C95_empty_refuted.
(** The dimension of embeddings (encoder.py 76-103): that of the downscaling layer if there is one,
    else the hidden size; the encoder of several types states it if there is one. *)
Theorem C95_dim_partial : forall downscale hidden : Z, (0 < downscale -> twin_dim downscale hidden = downscale /\ multi_dim downscale hidden = downscale) /\ (downscale <= 0 -> twin_dim downscale hidden = hidden).
Proof. exact dim_right. Qed.
Print Assumptions C95_dim_partial.
(** Without a downscaling layer the two kinds of encoders state different dimensions (72, 251). *)
Theorem C95_dim_refuted : exists downscale hidden, twin_dim downscale hidden <> multi_dim downscale hidden.
Proof. exists (-1), 128. discriminate. Qed.
Print Assumptions C95_dim_refuted.

Example C95_case : to_cuda (Dict [(1, Tensor false 10); (2, Lst [Tensor false 11; Other 5; Dict [(3, Tensor true 12)]]); (4, Tuple [Other 6; Lst [Tensor false 13]])]) =
  Ok (Dict [(1, Tensor true 10); (2, Lst [Tensor true 11; Other 5; Dict [(3, Tensor true 12)]]); (4, Tuple [Other 6; Lst [Tensor true 13]])]).
Proof. reflexivity. Qed.
(** Types 7 and 3 of sources, 3 and 5 of destinations; poolers 2, 0 and 1. *)
Example C95_types_case : known_types [[7; 3]] [[3; 5]] = [3; 5; 7] /\
  multi_forward (fun (_ : option Z) s (m : Z) (n : nat) => (s + Z.of_nat n, m)) true [3; 5; 7] [[10; 20]; [30; 40]] [[1; 2]; [3; 4]] [Some [7; 3]; Some [3; 5]] = Ok ([[12; 20]; [30; 41]], Some 2, 1).
Proof. split; reflexivity. Qed.
