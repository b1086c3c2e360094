(** C112: the GraphSAGE example without labels scores the sampled edges against other pairs, each
    end from the row of its own node and messages from its neighbours. *)
From Coq Require Import List Arith ZArith Bool Sorted.
From Verif Require Import Base GraphOpsModel SageExModel SageExSpec SageExProofs.
Import ListNotations.
Open Scope list_scope.
Local Open Scope nat_scope.

(** ** Sub-graphs *)
Theorem C112_first_order : forall l, first_occurrences l (first_order l).
Proof. exact first_order_ok. Qed.
(** Rows of seeds come first, in their order. *)
Theorem C112_seeds_first : forall c r seed, 0 < c -> NoDup seed ->
  exists t, first_order (repeat_each c seed ++ r) = seed ++ t.
Proof. exact seeds_first. Qed.
Theorem C112_index : forall nb draw f0 f1 seed, sampled nb draw -> exists n c r second,
  make_edge_index draw f0 f1 seed = (n, c, r) /\ length c = length r /\ NoDup n /\
  combine (map (fun k => nth k n 0%Z) c) (map (fun k => nth k n 0%Z) r) = combine (repeat_each f0 seed) (draw 0 seed f0) ++ second /\
  NoDup second /\
  (forall x, In x second <-> In x (combine (repeat_each f1 (np_unique (draw 0 seed f0))) (draw 1 (np_unique (draw 0 seed f0)) f1))) /\
  (forall k, In k c \/ In k r -> k < length n) /\
  (forall x, In x n -> In x (map (fun k => nth k n 0%Z) (c ++ r))).
Proof. exact index_pairs. Qed.
Theorem C112_neighbours : forall nb draw f0 f1 seed n c r, sampled nb draw -> make_edge_index draw f0 f1 seed = (n, c, r) ->
  forall a b, In (a, b) (combine (map (fun k => nth k n 0%Z) c) (map (fun k => nth k n 0%Z) r)) ->
  nb a b /\ (In a seed \/ exists s, In s seed /\ nb s a).
Proof. exact index_nb. Qed.

(** ** Queries *)
Theorem C112_query_partial : forall nb draw rnd n f0 f1 positive, sampled nb draw -> 1 < n -> 0 < f0 ->
  exists s neg_src neg_dst, query draw rnd n f0 f1 positive = Some s /\
  length neg_src = length positive /\ length neg_dst = length positive /\
  (forall v, In v (neg_src ++ neg_dst) -> (0 <= v < Z.of_nat n - 1)%Z) /\
  map (fun k => nth k (nodes s) 0%Z) (label_src s) = map fst positive ++ neg_src /\
  map (fun k => nth k (nodes s) 0%Z) (label_dst s) = map snd positive ++ neg_dst /\
  (forall k, In k (label_src s) \/ In k (label_dst s) -> k < length (nodes s)) /\
  label s = map (fun _ => true) positive ++ map (fun _ => false) positive /\
  (forall a b, In (a, b) (train_edges s) -> nb (nth b (nodes s) 0%Z) (nth a (nodes s) 0%Z)) /\ NoDup (nodes s).
Proof. exact query_ok. Qed.
(** All sampled neighbours of all ends send messages, edges of the second hop once. *)
Theorem C112_messages : forall nb draw rnd n f0 f1 positive s, sampled nb draw -> 0 < f0 ->
  query draw rnd n f0 f1 positive = Some s ->
  exists seed second, StronglySorted Z.lt seed /\
  (forall x, In x seed <-> In x (map (fun k => nth k (nodes s) 0%Z) (label_src s ++ label_dst s))) /\
  map (fun e => (nth (snd e) (nodes s) 0%Z, nth (fst e) (nodes s) 0%Z)) (train_edges s)
  = combine (repeat_each f0 seed) (draw 0 seed f0) ++ second /\ NoDup second /\
  forall x, In x second <-> In x (combine (repeat_each f1 (np_unique (draw 0 seed f0))) (draw 1 (np_unique (draw 0 seed f0)) f1)).
Proof. exact messages_ok. Qed.
(** Neighbours of 0 are 1, other nodes have none. *)
Definition nbrs (a : Z) : list Z := if (a =? 0)%Z then [1%Z] else [].
Definition allowed (a b : Z) : Prop := In b (nbrs a) \/ nbrs a = [] /\ b = (-1)%Z.
Definition draw (c : nat) (l : list Z) (count : nat) : list Z :=
  flat_map (fun x => repeat (if (x =? 0)%Z then 1%Z else (-1)%Z) count) l.
Lemma draw_sampled : sampled allowed draw.
Proof.
  apply const_sampled. intros x. unfold allowed, nbrs. destruct (x =? 0)%Z; [left; simpl; auto|right; auto].
Qed.
(** Without neighbours of the first hop the rows of labels do not exist. *)
Theorem C112_fanout_refuted : exists s k, sampled allowed draw /\ query draw (fun _ => 0) 3 0 2 [(0, 1)%Z] = Some s /\
  In k (label_dst s) /\ length (nodes s) <= k.
Proof.
  eexists. exists 1. split; [apply draw_sampled|]. split; [vm_compute; reflexivity|]. split; [simpl; auto|]. vm_compute. repeat constructor.
Qed.
(** Nodes without neighbours bring in a node -1. *)
Theorem C112_default_refuted : exists s, sampled allowed draw /\ query draw (fun _ => 0) 3 1 1 [(0, 1)%Z] = Some s /\ In (-1)%Z (nodes s).
Proof. eexists. split; [apply draw_sampled|]. split; [vm_compute; reflexivity|]. simpl; auto. Qed.
(** A pair may be positive and negative at once. *)
Theorem C112_label_refuted : exists s, query draw (fun k => k) 3 1 1 [(0, 1)%Z] = Some s /\
  map (fun k => nth k (nodes s) 0%Z) (label_src s) = [0; 0]%Z /\ map (fun k => nth k (nodes s) 0%Z) (label_dst s) = [1; 1]%Z /\
  label s = [true; false].
Proof. eexists. split; [vm_compute; reflexivity|]. vm_compute. auto. Qed.
Example C112_query_example : query draw (fun k => k + 1) 4 2 1 [(0, 3)%Z] =
  Some {| nodes := [0; 1; 2; 3; -1]%Z; cols := [0; 0; 1; 1; 2; 2; 3; 3; 4; 1]; rows := [1; 1; 4; 4; 4; 4; 4; 4; 4; 4];
          label_src := [0; 1]; label_dst := [3; 2]; label := [true; false] |}.
Proof. vm_compute. reflexivity. Qed.

(** ** Negatives *)
Theorem C112_negatives_partial : forall n v, 1 < n -> (0 <= v < Z.of_nat n - 1)%Z ->
  exists rnd, forall size, randint rnd n size = Some (repeat v size).
Proof. exact randint_all. Qed.
(** The last node is never one. *)
Theorem C112_last_refuted : exists n v, (0 <= v < Z.of_nat n)%Z /\ forall rnd size neg, randint rnd n size = Some neg -> ~ In v neg.
Proof. exists 5, 4%Z. split; [split; [discriminate|reflexivity]|]. exact (last_never 5). Qed.
Theorem C112_last : forall n rnd size neg, randint rnd n size = Some neg -> ~ In (Z.of_nat n - 1)%Z neg.
Proof. exact last_never. Qed.
Theorem C112_one_node : forall rnd n size, n <= 1 -> randint rnd n size = None.
Proof. exact randint_one. Qed.

(** ** Epochs *)
Theorem C112_epoch : forall arg e, 0 < e -> let total := length (batch_ids arg e) * batch_size arg in e <= total < e + 256.
Proof. exact epoch_draws. Qed.
Theorem C112_starts : forall arg e k, k < length (batch_ids arg e) -> nth k (batch_ids arg e) 0 = 256 * k.
Proof. exact batch_starts. Qed.
Theorem C112_batch : forall a b e, batch_ids a e = batch_ids b e.
Proof. exact batch_fixed. Qed.
(** The size of a batch is not the one that was given. *)
Theorem C112_batch_refuted : exists arg e, 0 < arg /\ length (batch_ids arg e) <> (e + (arg - 1)) / arg.
Proof. exists 512, 1000. split; [repeat constructor|]. vm_compute. discriminate. Qed.
Example C112_batch_example : batch_ids 256 600 = [0; 256; 512].
Proof. vm_compute. reflexivity. Qed.

(** ** Evaluation *)
Theorem C112_eval : forall nbrs n a b, In (a, b) (eval_edges nbrs n) <-> (0 <= a < Z.of_nat n)%Z /\ In b (nbrs a).
Proof. exact eval_ok. Qed.
(** Messages come from neighbours, as in training, if links go both ways. *)
Theorem C112_direction_partial : forall nbrs n a b, (forall x y, In y (nbrs x) -> In x (nbrs y)) ->
  In (a, b) (eval_edges nbrs n) -> In a (nbrs b).
Proof. exact eval_symmetric. Qed.
(** With directed links they go the other way than in training. *)
Theorem C112_direction_refuted : exists s a b, sampled allowed draw /\ query draw (fun _ => 0) 2 1 1 [(0, 1)%Z] = Some s /\
  In (a, b) (map (fun e => (nth (fst e) (nodes s) 0%Z, nth (snd e) (nodes s) 0%Z)) (train_edges s)) /\
  In b (map Z.of_nat (seq 0 2)) /\ ~ In (a, b) (eval_edges nbrs 2) /\ In (b, a) (eval_edges nbrs 2).
Proof.
  eexists. exists 1%Z, 0%Z. split; [apply draw_sampled|]. split; [vm_compute; reflexivity|].
  vm_compute. intuition discriminate.
Qed.
Example C112_eval_example : eval_edges (fun a => [a + 1; 0]%Z) 2 = [(0, 1); (0, 0); (1, 2); (1, 0)]%Z.
Proof. vm_compute. reflexivity. Qed.

Print Assumptions C112_first_order.
Print Assumptions C112_seeds_first.
Print Assumptions C112_index.
Print Assumptions C112_neighbours.
Print Assumptions C112_query_partial.
Print Assumptions C112_fanout_refuted.
Print Assumptions C112_default_refuted.
Print Assumptions C112_label_refuted.
Print Assumptions C112_negatives_partial.
Print Assumptions C112_last_refuted.
Print Assumptions C112_last.
Print Assumptions C112_one_node.
Print Assumptions C112_epoch.
Print Assumptions C112_messages.
Print Assumptions C112_starts.
Print Assumptions C112_batch.
Print Assumptions C112_batch_refuted.
Print Assumptions C112_eval.
Print Assumptions C112_direction_partial.
Print Assumptions C112_direction_refuted.
