(** C77: graph attention. *)
From Coq Require Import QArith Lqa Permutation.
From Verif Require Import Base Dist AttModel AttSpec AttProofs.

(** With a dense matrix of zeros and ones the output of every node that has a neighbor is the
    attention over its neighbors and nothing else. *)
Theorem C77_dense_partial : forall ex, good_exp ex -> forall h feat adj,
  fits h feat -> shape (length feat) (length feat) adj -> binary adj -> moderate (sc_head h feat) (length feat) ->
  exists out, attn_head ex h feat (Dense adj) = Ok out /\ shape (length feat) (h_dim h) out /\
    forall i k, (i < length feat)%nat -> (k < h_dim h)%nat -> nbrs_dense adj i <> [] ->
      exists y, attends ex (nbrs_dense adj i) (sc_head h feat i) (fun j => cell (fts_of h feat) j k) y /\
                cell out i k = h_act h (y + nth k (h_bias h) 0).
Proof. exact dense_head. Qed.
Print Assumptions C77_dense_partial.

(** With a sparse matrix; a node without neighbors gets the bias. *)
Theorem C77_sparse : forall ex, good_exp ex -> forall h feat edges,
  fits h feat -> Forall (fun e => fst e < length feat /\ snd e < length feat)%nat edges ->
  exists out, attn_head ex h feat (Sparse edges) = Ok out /\ shape (length feat) (h_dim h) out /\
    (forall i k, (i < length feat)%nat -> (k < h_dim h)%nat -> nbrs_sparse edges i <> [] ->
      exists y, attends ex (nbrs_sparse edges i) (sc_head h feat i) (fun j => cell (fts_of h feat) j k) y /\
                cell out i k = h_act h (y + nth k (h_bias h) 0)) /\
    (forall i k, (i < length feat)%nat -> (k < h_dim h)%nat -> nbrs_sparse edges i = [] ->
      cell out i k = h_act h (0 + nth k (h_bias h) 0)).
Proof. exact sparse_head. Qed.
Print Assumptions C77_sparse.

(** The two versions agree on nodes with the same neighbors, of which there is one. *)
Theorem C77_agree_partial : forall ex, good_exp ex -> forall h feat adj edges o1 o2 i k,
  fits h feat -> shape (length feat) (length feat) adj -> binary adj -> moderate (sc_head h feat) (length feat) ->
  Forall (fun e => fst e < length feat /\ snd e < length feat)%nat edges ->
  (forall x y, x == y -> h_act h x == h_act h y) ->
  attn_head ex h feat (Dense adj) = Ok o1 -> attn_head ex h feat (Sparse edges) = Ok o2 ->
  (i < length feat)%nat -> (k < h_dim h)%nat -> nbrs_dense adj i <> [] ->
  Permutation (nbrs_dense adj i) (nbrs_sparse edges i) -> cell o1 i k == cell o2 i k.
Proof. exact agree. Qed.
Print Assumptions C77_agree_partial.

(** Attention lies between the smallest and the greatest value and is determined by the neighbors,
    in any order, their scores and their values. *)
Theorem C77_convex : forall ex, good_exp ex -> forall ns sc val y lo hi,
  attends ex ns sc val y -> (forall j, In j ns -> lo <= val j <= hi) -> lo <= y <= hi.
Proof. exact attends_convex. Qed.
Print Assumptions C77_convex.
Theorem C77_unique : forall ex, good_exp ex -> forall ns ns' sc sc' val val' y y',
  Permutation ns ns' -> (forall j, In j ns -> sc j == sc' j) -> (forall j, In j ns -> val j == val' j) ->
  attends ex ns sc val y -> attends ex ns' sc' val' y' -> y == y'.
Proof. exact attends_unique. Qed.
Print Assumptions C77_unique.

(** The features of other nodes do not matter. *)
Theorem C77_local_dense : forall ex, good_exp ex -> forall h feat feat' adj o o' i k,
  fits h feat -> fits h feat' -> length feat = length feat' ->
  shape (length feat) (length feat) adj -> binary adj ->
  moderate (sc_head h feat) (length feat) -> moderate (sc_head h feat') (length feat') ->
  (forall x y, x == y -> h_act h x == h_act h y) ->
  (i < length feat)%nat -> (k < h_dim h)%nat -> nbrs_dense adj i <> [] ->
  (forall j, j = i \/ In j (nbrs_dense adj i) -> nth j feat [] = nth j feat' []) ->
  attn_head ex h feat (Dense adj) = Ok o -> attn_head ex h feat' (Dense adj) = Ok o' -> cell o i k == cell o' i k.
Proof. exact local_dense. Qed.
Print Assumptions C77_local_dense.
Theorem C77_local_sparse : forall ex, good_exp ex -> forall h feat feat' edges o o' i k,
  fits h feat -> fits h feat' -> length feat = length feat' ->
  Forall (fun e => fst e < length feat /\ snd e < length feat)%nat edges ->
  (forall x y, x == y -> h_act h x == h_act h y) ->
  (i < length feat)%nat -> (k < h_dim h)%nat ->
  (forall j, j = i \/ In j (nbrs_sparse edges i) -> nth j feat [] = nth j feat' []) ->
  attn_head ex h feat (Sparse edges) = Ok o -> attn_head ex h feat' (Sparse edges) = Ok o' -> cell o i k == cell o' i k.
Proof. exact local_sparse. Qed.
Print Assumptions C77_local_sparse.

(** Several heads: concatenated, each at its place, or averaged. *)
Theorem C77_concat : forall ex heads feat adj outs d,
  heads <> [] -> Forall2 (fun h o => attn_head ex h feat adj = Ok o /\ shape (length feat) d o) heads outs ->
  exists out, gat_concat ex heads feat adj = Ok out /\ length out = length feat /\
    forall i a k, (i < length feat)%nat -> (a < length heads)%nat -> (k < d)%nat ->
      cell out i (a * d + k) = cell (nth a outs []) i k.
Proof. exact concat_heads. Qed.
Print Assumptions C77_concat.
Theorem C77_average : forall ex heads feat adj outs d lo hi i k,
  heads <> [] -> Forall2 (fun h o => attn_head ex h feat adj = Ok o /\ shape (length feat) d o) heads outs ->
  (i < length feat)%nat -> (k < d)%nat -> Forall (fun o => lo <= cell o i k <= hi) outs ->
  exists out, gat_average ex d heads feat adj = Ok out /\ length out = length feat /\
    cell out i k * qnat (length heads) == qsum (fun o => cell o i k) outs /\ lo <= cell out i k <= hi.
Proof. exact average_heads. Qed.
Print Assumptions C77_average.

(** AttentionHeader attends to the whole sequence; the output of AttEncoder for a node is what it is
    for the node and its neighbors alone. *)
Theorem C77_header : forall ex, good_exp ex -> forall h seq_,
  fits h seq_ ->
  shape (length seq_) (h_dim h) (attention_header ex h seq_) /\
  forall i k, (i < length seq_)%nat -> (k < h_dim h)%nat ->
    exists y, attends ex (seq 0 (length seq_)) (sc_head h seq_ i) (fun j => cell (fts_of h seq_) j k) y /\
              cell (attention_header ex h seq_) i k = h_act h (y + nth k (h_bias h) 0).
Proof. exact header. Qed.
Print Assumptions C77_header.
Theorem C77_att_encoder : forall ex hidden out d nb feat inputs nbrs r,
  Forall2 (fun v ns => length ns = nb) inputs nbrs ->
  (let (nf, bf) := att_query feat nb inputs nbrs in att_call ex hidden out d nb nf bf) = Ok r ->
  Forall2 (fun p y => (let (nf, bf) := att_query feat nb [fst p] [snd p] in att_call ex hidden out d nb nf bf) = Ok [y])
          (combine inputs nbrs) r.
Proof. exact att_single. Qed.
Print Assumptions C77_att_encoder.

(** GatEncoder keeps the sum of the features over the sequence, because the weights a node gives
    away have the sum one; the weights it receives have not (C77_encoder_refuted). *)
Theorem C77_encoder_mass_partial : forall ex, good_exp ex -> forall slope h seq_,
  exists y, length y = length seq_ /\
    (forall i k, (i < length seq_)%nat -> (k < h_dim h)%nat -> cell (gat_encoder ex slope h seq_) i k = h_act h (cell y i k)) /\
    forall k, (k < h_dim h)%nat ->
      qsum (fun i => cell y i k) (seq 0 (length seq_)) == qsum (fun j => cell (fts_of h seq_) j k) (seq 0 (length seq_)).
Proof. exact encoder_mass. Qed.
Print Assumptions C77_encoder_mass_partial.

(** ** Examples *)
Definition exq (x : Q) : Q := if Qle_bool x (- (1000)) then 0 else 1 / (1 + x * x).
Lemma exq_good : good_exp exq.
Proof.
  unfold good_exp, exq. refine (conj _ (conj _ (conj _ _))).
  - intros x. destruct (Qle_bool x (- (1000))); [lra|]. apply Qle_shift_div_l; nra.
  - reflexivity.
  - intros x y E. rewrite (Qleb_comp _ _ E _ _ (Qeq_refl (- (1000)))). destruct (Qle_bool y (- (1000))); [reflexivity|].
    now rewrite E.
  - intros x H. apply Qle_bool_iff in H. rewrite H. reflexivity.
Qed.
Definition hd0 : head := Head 2 (fun r => r) (fun r => nth 0 r 0) (fun r => nth 1 r 0) [10; 20] (fun x => x).
Definition ft : mat := [[1; 2]; [3; 1]; [0; 5]].
Definition adj3 : mat := [[1; 1; 0]; [0; 0; 1]; [1; 1; 1]].
Definition edges3 : list (nat * nat) := [(0, 0); (0, 1); (1, 2); (2, 1); (2, 0); (2, 2)]%nat.
Definition eqm (a b : mat) : Prop := Forall2 (Forall2 Qeq) a b.
Example C77_example :
  exists o1 o2, attn_head exq hd0 ft (Dense adj3) = Ok o1 /\ attn_head exq hd0 ft (Sparse edges3) = Ok o2 /\ eqm o1 o2 /\
    cell o1 0 0 == 35 # 3 /\ cell o1 1 1 == 25.
Proof. eexists. eexists. vm_compute. refine (conj eq_refl (conj eq_refl (conj _ (conj eq_refl eq_refl)))). repeat (constructor; try reflexivity). Qed.
Example C77_example_hypotheses :
  fits hd0 ft /\ shape 3 3 adj3 /\ binary adj3 /\ moderate (sc_head hd0 ft) 3 /\ nbrs_dense adj3 0 = [0; 1]%nat.
Proof.
  unfold fits, shape, binary. refine (conj (conj _ eq_refl) (conj (conj eq_refl _) (conj _ (conj _ eq_refl)))).
  1-2: repeat constructor.
  - repeat (constructor; [repeat (constructor; [(left; reflexivity) || (right; reflexivity)|]); constructor|]). constructor.
  - intros i j Hi Hj. do 3 (destruct i as [|i]; [do 3 (destruct j as [|j]; [vm_compute; split; discriminate|]); lia|]). lia.
Qed.
Definition hd1 : head := Head 1 (fun r => [nth 0 r 0 + nth 1 r 0]) (fun r => nth 0 r 0) (fun r => 0) [0] (fun x => x).
Definition ans {A} (d : A) (r : res A) : A := match r with Ok x => x | Fail _ => d end.
Definition fe (v : Z) : list Q := [inject_Z v; 1].
Definition enc (vs : list Z) (nbs : list (list Z)) : res mat :=
  let (nf, bf) := att_query fe 2 vs nbs in att_call exq [hd0] [hd1] 1 2 nf bf.
Example C77_att_example :
  length (ans [] (enc [1; 2]%Z [[3; 4]; [5; 6]]%Z)) = 2%nat /\
  [nth 1 (ans [] (enc [1; 2]%Z [[3; 4]; [5; 6]]%Z)) []] = ans [] (enc [2]%Z [[5; 6]]%Z) /\
  ~ cell (ans [] (enc [2]%Z [[5; 6]]%Z)) 0 0 == 0.
Proof. vm_compute. refine (conj eq_refl (conj eq_refl _)). discriminate. Qed.

(** ** What is not so *)
(** A node without neighbors: the dense version attends to all nodes, the sparse one to none. *)
Theorem C77_isolated_refuted : exists ex h feat adj edges o1 o2,
  good_exp ex /\ fits h feat /\ shape (length feat) (length feat) adj /\ binary adj /\
  (forall i, nbrs_dense adj i = nbrs_sparse edges i) /\
  attn_head ex h feat (Dense adj) = Ok o1 /\ attn_head ex h feat (Sparse edges) = Ok o2 /\
  nbrs_dense adj 1 = [] /\ cell o1 1 0 == 3 /\ cell o2 1 0 == 0.
Proof.
  exists exq, (Head 1 (fun r => r) (fun _ => 0) (fun _ => 0) [0] (fun x => x)), [[2]; [4]], [[1; 0]; [0; 0]], [(0, 0)]%nat.
  eexists. eexists. refine (conj exq_good (conj _ (conj _ (conj _ (conj _ _))))).
  - split; [repeat constructor|reflexivity].
  - split; [reflexivity|repeat constructor].
  - repeat (constructor; [repeat (constructor; [(left; reflexivity) || (right; reflexivity)|]); constructor|]). constructor.
  - intros [|[|[|i]]]; reflexivity.
  - vm_compute. refine (conj eq_refl (conj eq_refl (conj eq_refl (conj eq_refl eq_refl)))).
Qed.
Print Assumptions C77_isolated_refuted.
(** Weights in the matrix: the dense version attends to the heaviest edge only, the sparse version
    does not look at weights. *)
Theorem C77_weights_refuted : exists ex h feat adj edges o1 o2,
  good_exp ex /\ (forall i j, In (i, j) edges <-> ~ cell adj i j == 0) /\
  attn_head ex h feat (Dense adj) = Ok o1 /\ attn_head ex h feat (Sparse edges) = Ok o2 /\
  cell o1 0 0 == 4 /\ cell o2 0 0 == 3.
Proof.
  exists exq, (Head 1 (fun r => r) (fun _ => 0) (fun _ => 0) [0] (fun x => x)), [[2]; [4]], [[1; 2]; [1; 1]], [(0, 0); (0, 1); (1, 0); (1, 1)]%nat.
  eexists. eexists. refine (conj exq_good (conj _ _)).
  - intros [|[|i]] [|[|j]]; cbn; split; intros H; try tauto; try discriminate.
    all: try (intuition discriminate).
    all: try (exfalso; apply H; destruct i; reflexivity); try (exfalso; apply H; destruct j; reflexivity).
    all: try (exfalso; apply H; destruct i, j; reflexivity).
  - vm_compute. refine (conj eq_refl (conj eq_refl (conj eq_refl eq_refl))).
Qed.
Print Assumptions C77_weights_refuted.
(** GatEncoder: all features are one, the outputs are two and zero. *)
Theorem C77_encoder_refuted : exists ex h seq_,
  good_exp ex /\ (forall j, (j < 2)%nat -> cell (fts_of h seq_) j 1 == 1) /\
  cell (gat_encoder ex (1 # 100) h seq_) 0 1 == 2 /\ cell (gat_encoder ex (1 # 100) h seq_) 1 1 == 0.
Proof.
  exists exq, (Head 2 (fun r => r) (fun r => nth 0 r 0) (fun _ => 0) [] (fun x => x)), [[2000; 1]; [0; 1]].
  refine (conj exq_good (conj _ (conj eq_refl eq_refl))). intros [|[|j]] H; try reflexivity. lia.
Qed.
Print Assumptions C77_encoder_refuted.
(** HANEncoder: with one layer of n heads per metapath m * n heads are created, and every metapath
    uses the same n; two layers cannot be created. *)
Theorem C77_han_shared_refuted : forall m n i,
  (i < m)%nat -> han_init m [n] = Ok (seq 0 (m * n)) /\ han_heads m [n] (seq 0 (m * n)) i 0 = Ok (seq 0 n).
Proof. intros m n i H. exact (conj (han_one m n) (han_shared m n i H)). Qed.
Print Assumptions C77_han_shared_refuted.
Theorem C77_han_layers_refuted : forall m a b rest,
  (0 < m)%nat -> (0 < b)%nat -> han_init m (a :: b :: rest) = Fail EIndex.
Proof. exact han_deep. Qed.
Print Assumptions C77_han_layers_refuted.
Example C77_han_example : han_init 2 [3]%nat = Ok [0; 1; 2; 3; 4; 5]%nat /\ han_init 2 [3; 1]%nat = Fail EIndex /\
  han_heads 2 [3]%nat [0; 1; 2; 3; 4; 5]%nat 1 0 = Ok [0; 1; 2]%nat.
Proof. vm_compute. auto. Qed.
