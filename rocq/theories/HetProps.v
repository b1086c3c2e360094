(** C94: triples of nodes of several types. *)
From Verif Require Import Base HetModel HetSpec HetProofs.
From Coq Require Import QArith.
Local Open Scope Z_scope.

(** List [ct * types + pt] has a triple for every hop along an edge of type [pt] of the walks from
    nodes of type [ct], in order, with the start of the walk, the node of the hop and one of the
    nodes sampled for that list. *)
Theorem C94_triples : forall (types walk_length : nat) (start : nat -> list Z) (hop : nat -> nat -> list Z -> list (Z * Z)) (negs : nat -> nat -> list Z),
  good_hops types hop -> good_negs negs ->
  exists out, generate types walk_length start hop negs = Ok out /\ length out = (types * types)%nat /\
  forall ct pt, (ct < types)%nat -> (pt < types)%nat ->
    let l := nth (ct * types + pt) out [] in
    map fst l = pairs_of walk_length start hop ct (Z.of_nat pt) /\ (map snd l = negs (ct * types + pt)%nat (length l) \/ l = []).
Proof. exact generate_right. Qed.
Print Assumptions C94_triples.
(** Every hop that found a node is in exactly one list. *)
Theorem C94_count : forall (types walk_length : nat) (start : nat -> list Z) (hop : nat -> nat -> list Z -> list (Z * Z)) (k : nat),
  good_hops types hop -> (k < types)%nat ->
  fold_right plus 0%nat (map (fun pt => length (pairs_of walk_length start hop k (Z.of_nat pt))) (seq 0 types)) = found walk_length start hop k.
Proof. exact (fun ty w s h => found_right ty w s h (fun _ _ => [])). Qed.
Print Assumptions C94_count.
(** A walk that found no node finds none later. *)
Theorem C94_dead_ends : forall (types : nat) (start : nat -> list Z) (hop : nat -> nat -> list Z -> list (Z * Z)) (k j : nat),
  good_hops types hop -> dead_ends hop -> (k < types)%nat -> (j < length (start k))%nat ->
  forall h m, fst (visit start hop k h j) = -1 -> (h < m)%nat -> visit start hop k m j = (-1, -1).
Proof. exact (fun ty s h => dead_right ty s h (fun _ _ => [])). Qed.
Print Assumptions C94_dead_ends.
(** An epoch has as many batches as the sampler says: enough for all nodes and no more. *)
Theorem C94_batches : forall (num_nodes batch_size : Z) (fuel : nat), 0 <= num_nodes -> 0 < batch_size -> (Z.to_nat num_nodes <= fuel)%nat ->
  exists n, batches fuel num_nodes batch_size = Ok n /\ sampler_len num_nodes batch_size = Z.of_nat n /\
  num_nodes <= Z.of_nat n * batch_size < num_nodes + batch_size.
Proof. exact batches_len. Qed.
Print Assumptions C94_batches.
(** The loss: that of all triples, and that of a triple of zeros for every triple a list is short of
    the longest. *)
Theorem C94_loss : forall (ls : Q -> Q), (forall x y, (x == y)%Q -> (ls x == ls y)%Q) -> forall (d : nat) (embs : list (list (vec * vec * vec))),
  embs <> [] -> (0 < max_len embs)%nat ->
  (fst (het_forward ls d embs) * inject_Z (Z.of_nat (length embs * max_len embs)) ==
   qsum (map (triple_loss ls) (concat embs)) + inject_Z (Z.of_nat (length embs * max_len embs - length (concat embs))) * - (ls 0 + ls 0))%Q.
Proof. exact loss_total. Qed.
Print Assumptions C94_loss.
(** It is the mean over the triples if all lists are equally long. *)
Theorem C94_loss_mean_partial : forall (ls : Q -> Q), (forall x y, (x == y)%Q -> (ls x == ls y)%Q) -> forall (d size : nat) (embs : list (list (vec * vec * vec))),
  embs <> [] -> (0 < size)%nat -> Forall (fun l => length l = size) embs ->
  (fst (het_forward ls d embs) == qsum (map (triple_loss ls) (concat embs)) / inject_Z (Z.of_nat (length (concat embs))))%Q.
Proof. exact loss_mean_qsum. Qed.
Print Assumptions C94_loss_mean_partial.
(** A pair of scores for each triple, in order, before those of the padding. *)
Theorem C94_scores : forall (ls : Q -> Q) (d : nat) (embs : list (list (vec * vec * vec))) (i j : nat) (x : vec * vec * vec),
  nth_error (nth i embs []) j = Some x ->
  nth_error (snd (het_forward ls d embs)) (i * max_len embs + j) = Some (- dot (fst (fst x)) (snd x), dot (fst (fst x)) (snd (fst x)))%Q.
Proof. exact scores_right. Qed.
Print Assumptions C94_scores.
(** Without padding, the loss of a triple with a positive score above and a negative score below is
    smaller than with any lower and higher ones. *)
Theorem C94_loss_order : forall (ls : Q -> Q), (forall x y, (x < y)%Q -> (ls x < ls y)%Q) -> (forall x y, (x == y)%Q -> (ls x == ls y)%Q) -> forall a b c d e f : vec,
  (dot d e < dot a b)%Q -> (dot a c <= dot d f)%Q -> (triple_loss ls (a, b, c) < triple_loss ls (d, e, f))%Q.
Proof. exact loss_order. Qed.
Print Assumptions C94_loss_order.

(** Shorter lists make it another mean (model.py 214-217): with one list of one triple and an empty
    one, for every increasing function. *)
Theorem C94_padding_refuted : forall ls : Q -> Q, ~ (ls 1 == ls 0)%Q -> exists d embs, Forall (fun l => (length l <= 1)%nat) embs /\ length (concat embs) = 1%nat /\
  ~ (fst (het_forward ls d embs) == qsum (map (triple_loss ls) (concat embs)) / inject_Z (Z.of_nat (length (concat embs))))%Q.
Proof. exact padding_wrong. Qed.
Print Assumptions C94_padding_refuted.
(** The scores that are ranked have the sign of the negative one changed (model.py 196-204): a
    triple whose random node scores higher than its neighbor counts as ranked right, and one whose
    random node scores lower as ranked wrong. *)
Theorem C94_ranking_refuted :
  (exists c p n : vec, (dot c p < dot c n)%Q /\ (fst (out_pair (c, p, n)) < snd (out_pair (c, p, n)))%Q) /\
  (exists c p n : vec, (dot c n < dot c p)%Q /\ (snd (out_pair (c, p, n)) < fst (out_pair (c, p, n)))%Q).
Proof.
  split; [exists [1%Q], [1%Q], [2%Q]|exists [1%Q], [1%Q], [(-2)%Q]]; split; reflexivity.
Qed.
Print Assumptions C94_ranking_refuted.
(** Types of edges are used as types of nodes (sampler.py 64-92): where they differ, the random node
    has another type than the neighbor it stands for. *)
Theorem C94_types_refuted : exists (node_type : Z -> Z) types walk start hop negs out i c p n,
  good_hops types hop /\ good_negs negs /\ (forall i k, Forall (fun x => node_type x = Z.of_nat (i mod types)) (negs i k)) /\
  generate types walk start hop negs = Ok out /\ In (c, p, n) (nth i out []) /\ node_type p <> node_type n.
Proof.
  exists (fun x => x mod 2), 2%nat, 1%nat, (fun k => [Z.of_nat k]), (fun _ _ l => map (fun _ => (3, 0)) l), (fun i n => repeat (Z.of_nat (i mod 2)) n).
  eexists. exists 0%nat, 0, 3, 0. split; [|split; [|split; [|split; [reflexivity|split; [now left|discriminate]]]]].
  - intros k h l _. split; [apply map_length|]. apply Forall_forall. intros x Hx. apply in_map_iff in Hx as (y & <- & _). cbn. lia.
  - intros i n. apply repeat_length.
  - intros i k. apply Forall_forall. intros x Hx. apply repeat_spec in Hx. subst x. pose proof (Nat.mod_upper_bound i 2). rewrite Z.mod_small by lia. reflexivity.
Qed.
Print Assumptions C94_types_refuted.
(** With sample files every batch starts at the same nodes (sampler.py 54). *)
Theorem C94_files_refuted : exists bs node, In node (concat bs) /\ forall step l, file_start bs step = Ok l -> ~ In node l.
Proof. exists [[1; 2]; [3; 4]], 3. split; [cbn; tauto|]. intros step l E. cbn in E. injection E as <-. cbn. lia. Qed.
Print Assumptions C94_files_refuted.
(** All rows of a batch are embedded as nodes of the type of the first (model.py 299). *)
Theorem C94_inference_refuted : exists inputs t x, inference_type inputs = Ok t /\ In x inputs /\ snd x <> t.
Proof. exists [(1, 0); (2, 1)], 0, (2, 1). split; [reflexivity|]. split; [cbn; tauto|discriminate]. Qed.
Print Assumptions C94_inference_refuted.

(** Two types, walks of two hops: node 10 (type 0) goes to 20 and then nowhere, node 11 to 21 and
    back, node 20 (type 1) to 10. *)
Example C94_case :
  let step n := if n =? 10 then (20, 1) else if n =? 11 then (21, 1) else if n =? 21 then (11, 0) else if n =? 22 then (10, 0) else (-1, -1) in
  generate 2 2 (fun k => if (k =? 0)%nat then [10; 11] else [22]) (fun _ _ l => map step l) (fun i n => map (fun m => Z.of_nat (100 * i + m)) (seq 0 n)) =
  Ok [[(11, 11, 0)]; [(10, 20, 100); (11, 21, 101)]; [(22, 10, 200)]; [(22, 20, 300)]].
Proof. vm_compute. reflexivity. Qed.
Example C94_loss_case : let ls x := (if Qle_bool 1 x then -1 else -3)%Q in
  (fst (het_forward ls 1 [[([1%Q], [1%Q], [(-1)%Q])]; [([1%Q], [0%Q], [0%Q])]]) == 4)%Q /\
  (fst (het_forward ls 1 [[([1%Q], [1%Q], [(-1)%Q])]; []]) == 4)%Q.
Proof. split; vm_compute; reflexivity. Qed.
