(** C102: the heterogeneous graph attention network HAN.

    Full statement: for a list of metapaths the query answers, for every input and every metapath, its
    features and those of nodes sampled along the metapath; the encoder gives every node the attention
    over the metapaths of the attention over its neighbors; evaluation measures what was trained. *)
From Coq Require Import QArith.
From Verif Require Import Base Dist AttModel AttSpec MetricSpec HanModel HanSpec HanProofs.
Local Open Scope nat_scope.

(** Metapath m has the m-th group of edge types, every neighbor is reached along its edge types, and
    neighbors stay with the node they were sampled for. *)
Theorem C102_query : forall smp feat lab R, samples smp R -> forall p inputs,
  Forall (fun c => 0 < c) (p_nb p) -> p_nb p <> [] -> 0 < p_dim p ->
  exists b, query smp feat lab p inputs = Ok b /\ b_src b = inputs /\
    (p_label p <> (-1)%Z -> b_label b = map (fun v => map Some (lab v)) inputs) /\
    length (b_node b) = length (p_types p) / length (p_nb p) /\
    length (b_nbr b) = length (p_types p) / length (p_nb p) /\
    forall m, m < length (p_types p) / length (p_nb p) ->
      nth m (b_node b) [] = map feat inputs /\ length (nth m (b_nbr b) []) = length inputs /\
      Forall (fun g => length g = times (p_nb p)) (nth m (b_nbr b) []) /\
      forall n q, n < length inputs -> q < times (p_nb p) ->
        exists y, walk R (p_max p + 1)%Z (path_types (p_types p) (length (p_nb p)) m) (nth n inputs 0%Z) y /\
                  nth q (nth n (nth m (b_nbr b) []) []) [] = feat y.
Proof. exact query_good. Qed.
Print Assumptions C102_query.
(** With one layer of heads, one encoder for TensorFlow 1 and a number of rows that can be regrouped:
    every row of the output is the attention over the metapaths of the embeddings [E], and the part of
    head [a] in an embedding is its attention over the node and its neighbors. *)
Theorem C102_encoder_partial : forall ex hds score, good_exp ex -> forall types nb n hidden cell0 d nodes nbrs M N,
  create types nb [n] hidden = Ok cell0 -> metapath_num types nb = Ok M -> 0 < M -> 0 < n ->
  shaped M N (times nb) nodes nbrs ->
  (forall a, a < n -> h_dim (hds a) = d) ->
  (forall m v a, m < M -> v < N -> a < n -> fits (hds a) (nth v (nth m nodes []) [] :: nth v (nth m nbrs []) [])) ->
  (N * (times nb + 1)) mod (plus_all nb + 1) = 0 ->
  exists out E, encode ex hds score true types nb [n] cell0 (n * d) nodes nbrs = Ok out /\ length out = N /\
    forall v, v < N ->
      (forall m, m < M -> length (E m v) = n * d /\
        forall a k, a < n -> k < d ->
          let s := nth v (nth m nodes []) [] :: nth v (nth m nbrs []) [] in
          exists y, attends ex (seq 0 (times nb + 1)) (sc_head (hds a) s 0) (fun j => cell (fts_of (hds a) s) j k) y /\
                    nth (a * d + k) (E m v) 0%Q = h_act (hds a) (y + nth k (h_bias (hds a)) 0)%Q) /\
      length (nth v out []) = n * d /\
      forall k, k < n * d -> attends ex (seq 0 M) (fun m => score (E m v)) (fun m => nth k (E m v) 0%Q) (cell out v k).
Proof. exact encoder. Qed.
Print Assumptions C102_encoder_partial.
(** The condition holds for one hop. *)
Theorem C102_one_hop : forall N c, (N * (times [c] + 1)) mod (plus_all [c] + 1) = 0.
Proof. intros N c. unfold times, plus_all. cbn [fold_right]. rewrite Nat.mul_1_r, Nat.add_0_r. apply Nat.mod_mul. lia. Qed.
Print Assumptions C102_one_hop.
(** Predictions: with the sigmoid every class on its own, with softmax the first of the likeliest. *)
Theorem C102_sigmoid : forall sg row, (forall x, 0 <= sg x <= 1)%Q ->
  Forall2 (fun x z => z = if Qle_bool (1 # 2) (sg x) then 1%Z else 0%Z) row (rounded sg row).
Proof. exact sigmoid_rounds. Qed.
Print Assumptions C102_sigmoid.
Theorem C102_softmax : forall ex row, row <> [] ->
  exists i, first_max (softmax ex row) i /\ exists z, chosen ex (length row) row = Ok z /\ length z = length row /\
    forall k, k < length row -> nth k z 0%Z = if k =? i then 1%Z else 0%Z.
Proof. exact softmax_chooses. Qed.
Print Assumptions C102_softmax.
(** The F1 that is reported is that of all batches so far, a little less than exact and never one. *)
Theorem C102_f1_partial : forall batches b, b < length batches ->
  let seen := concat (firstn (S b) batches) in
  let tp := number true_pos seen in let fn := number false_neg seen in let fp := number false_pos seen in
  let eps := (1 # 10000000)%Q in
  exists f, nth_error (f1_run (Counters 0 0 0) batches) b = Some f /\
    (0 <= f /\ f < 1 /\ f <= exact_f1 tp fn fp)%Q /\ ((f == 0)%Q <-> tp = 0) /\
    ((0 < tp)%nat -> f * (qnat (2 * tp + fn + fp) + 2 * eps + eps * (eps + qnat tp + qnat fp) * (eps + qnat tp + qnat fn) / qnat tp) == qnat (2 * tp))%Q.
Proof. exact f1_running. Qed.
Print Assumptions C102_f1_partial.
(** Prediction answers the inputs with their embeddings. *)
Theorem C102_predict : forall src enc f1 r, predict_step src enc f1 = Ok r <-> exists e, enc = Ok e /\ r = (src, e).
Proof.
  intros src enc f1 r. unfold predict_step, call. destruct enc as [e|x]; cbn [bind]; split.
  - intros E. exists e. split; congruence.
  - intros (e' & E & ->). congruence.
  - discriminate.
  - intros (e' & E & _). discriminate.
Qed.
Print Assumptions C102_predict.
Theorem C102_train : forall enc f1 r, train_step enc f1 = Ok r <-> exists e, enc = Ok e /\ r = (e, f1 e).
Proof.
  intros enc f1 r. unfold train_step, call. destruct enc as [e|x]; cbn [bind unpack]; split.
  - intros E. exists e. split; congruence.
  - intros (e' & E & ->). congruence.
  - discriminate.
  - intros (e' & E & _). discriminate.
Qed.
Print Assumptions C102_train.

(** ** Examples *)
(** One hop from a node adds its first edge type times ten, and one more for every sample. *)
Definition smp0 (k : nat) (nodes types : list Z) (count : nat) (dflt : Z) : list Z :=
  flat_map (fun v => map (fun i => (v * 100 + hd 0 types * 10 + Z.of_nat i)%Z) (seq 0 count)) nodes.
Definition p0 : params := Params [[1]; [2]; [3]; [4]; [5]]%Z [2; 1] 9 1 0 2.
Definition feat0 (v : Z) : list Q := [inject_Z v].
Example C102_example_query : query smp0 feat0 (fun v => [v; 0%Z]) p0 [7; 8]%Z =
  Ok (Batch [7; 8]%Z [[Some 7; Some 0]; [Some 8; Some 0]]%Z
     [map feat0 [7; 8]; map feat0 [7; 8]]%Z
     [[map feat0 [71020; 71120]; map feat0 [81020; 81120]]; [map feat0 [73040; 73140]; map feat0 [83040; 83140]]]%Z).
Proof. vm_compute. reflexivity. Qed.
Definition ex0 (x : Q) : Q := if Qle_bool x (- (1000)) then 0%Q else (1 / (1 + x * x))%Q.
Definition hd_of (a : nat) : head :=
  Head 1 (fun r => r) (fun r => nth 0 r 0%Q) (fun r => 0%Q) [qnat a] (fun x => x).
Example C102_example_encode : exists out,
  create [[0]; [1]]%Z [2] [2] [1] = Ok [0; 1; 2; 3] /\
  encode ex0 hd_of (fun r => nth 1 r 0%Q) true [[0]; [1]]%Z [2] [2] [0; 1; 2; 3] 2
    [[[1]; [2]]; [[3]; [4]]]%Q [[[[1]; [1]]; [[2]; [2]]]; [[[3]; [3]]; [[4]; [4]]]]%Q = Ok out /\
  length out = 2 /\ (nth 0 (nth 0 out []) 0 == 8 # 3)%Q /\ (nth 1 (nth 0 out []) 0 == 11 # 3)%Q.
Proof. eexists. vm_compute. repeat split. Qed.
Example C102_example_f1 :
  map Qred (f1_run (Counters 0 0 0) [[(1, 1); (1, 0)]; [(0, 0); (1, 1); (0, 1)]]%Z) =
  map Qred [f1_of (Counters 1 1 0); f1_of (Counters 2 1 1)] /\
  rounded (fun x => x) [1 # 2; 1 # 4; 1]%Q = [1; 0; 1]%Z /\ chosen ex0 3 [0; 2; 2]%Q = Ok [0; 1; 0]%Z.
Proof. vm_compute. repeat split. Qed.

(** ** What is not so *)
(** Edge types that do not fill a metapath are dropped without a word (han.py 35). *)
Theorem C102_leftover_refuted : forall smp feat lab p extra inputs,
  length (p_types p) mod length (p_nb p) = 0 -> length extra < length (p_nb p) ->
  query smp feat lab (Params (p_types p ++ extra) (p_nb p) (p_max p) (p_dim p) (p_label p) (p_label_dim p)) inputs =
  query smp feat lab p inputs.
Proof. exact leftover. Qed.
Print Assumptions C102_leftover_refuted.
(** Fewer edge types than hops: no metapath, arrays of another rank than announced, and no encoder. *)
Theorem C102_none_refuted : exists p, exists b, query smp0 feat0 (fun v => [v]) p [7]%Z = Ok b /\ b_nbr b = [] /\
  announced p 0 1 <> actual p 0 1 /\ nth 2 (actual p 0 1) [] = [0] /\ nth 3 (actual p 0 1) [] = [0] /\
  exists cell0, create (p_types p) (p_nb p) [8] [8] = Ok cell0 /\
    encode ex0 hd_of (fun _ => 0%Q) true (p_types p) (p_nb p) [8] cell0 64 (b_node b) (b_nbr b) = Fail EAssert.
Proof.
  exists (Params [[1]]%Z [2; 1] 9 1 0 1). eexists. split; [vm_compute; reflexivity|]. split; [reflexivity|]. split; [discriminate|]. split; [reflexivity|]. split; [reflexivity|].
  eexists. split; vm_compute; reflexivity.
Qed.
Print Assumptions C102_none_refuted.
(** Otherwise the shapes are those announced. *)
Theorem C102_shapes_partial : forall p m n, 0 < m -> announced p m n = actual p m n.
Proof. intros p m n H. destruct m; [lia|reflexivity]. Qed.
Print Assumptions C102_shapes_partial.
(** The assertion of han.py 34 does not refuse an empty list of fanouts, the division does; a fanout or
    a dimension of zero, the default of --feature_dim, cannot be reshaped. *)
Theorem C102_empty_refuted : forall smp feat lab p inputs,
  (p_nb p = [] -> query smp feat lab p inputs = Fail EFatal) /\
  (p_nb p <> [] -> length (p_nb p) <= length (p_types p) -> p_dim p = 0 -> query smp feat lab p inputs = Fail EAssert).
Proof.
  intros smp feat lab p inputs. split.
  - intros E. unfold query, metapath_num. now rewrite E.
  - intros N L D. assert (H0 : length (p_nb p) <> 0) by (destruct (p_nb p); [congruence|discriminate]).
    unfold query, metapath_num. rewrite (proj2 (Nat.eqb_neq _ _) H0). cbn [bind].
    destruct (length (p_types p) / length (p_nb p)) as [|m] eqn:E.
    + apply Nat.div_small_iff in E; [lia|exact H0].
    + cbn [seq metapaths]. unfold metapath. destruct (fan smp 0 inputs _ _) as [k l]. unfold reshape at 1.
      destruct (product (p_nb p) =? 0); [reflexivity|]. destruct (length l mod product (p_nb p) =? 0); [|reflexivity]. cbn [bind].
      rewrite D. reflexivity.
Qed.
Print Assumptions C102_empty_refuted.
(** Several hops: the heads regroup rows by the sum of the fanouts instead of their product
    (han_encoder.py 122); if the rows do not divide the encoder fails, for any weights. *)
Theorem C102_hops_refuted : forall ex hds score types nb n hidden cell0 d nodes nbrs M N,
  create types nb [n] hidden = Ok cell0 -> metapath_num types nb = Ok M -> 0 < M -> 0 < n ->
  shaped M N (times nb) nodes nbrs ->
  (N * (times nb + 1)) mod (plus_all nb + 1) <> 0 ->
  encode ex hds score true types nb [n] cell0 d nodes nbrs = Fail EAssert.
Proof. exact encoder_hops. Qed.
Print Assumptions C102_hops_refuted.
Example C102_hops_example :
  create [[0]; [1]]%Z [2; 3] [1] [1] = Ok [0] /\ metapath_num [[0]; [1]]%Z [2; 3] = Ok 1 /\
  shaped 1 1 6 [[[1]]]%Q [[[[1]; [2]; [3]; [4]; [5]; [6]]]]%Q /\ (1 * (6 + 1)) mod (plus_all [2; 3] + 1) = 1.
Proof.
  refine (conj eq_refl (conj eq_refl (conj (conj eq_refl (conj eq_refl _)) eq_refl))).
  intros m H. assert (m = 0) as -> by lia. repeat split. repeat constructor.
Qed.
(** The defaults of main.py, two layers of eight heads, cannot be created (C77_han_layers_refuted). *)
Theorem C102_default_refuted : create [[0]; [1]]%Z [10] [8; 8] [8; 8] = Fail EIndex.
Proof. vm_compute. reflexivity. Qed.
Print Assumptions C102_default_refuted.
Theorem C102_create_partial : forall types nb n hidden, types <> [] -> nb <> [] ->
  exists r, create types nb [n] hidden = r /\ (r = Ok (seq 0 (length types / length nb * n)) <-> length hidden = 1) /\
    (length hidden <> 1 -> r = Fail EFatal) /\ create types nb [] hidden = Fail EFatal.
Proof.
  intros types nb n hidden T B. eexists. split; [reflexivity|]. unfold create. cbn [length].
  destruct hidden as [|a [|b hidden]]; cbn [length Nat.eqb negb].
  - repeat split; intros; discriminate || reflexivity.
  - destruct types as [|t types]; [congruence|]. destruct nb as [|x nb]; [congruence|]. cbn [item nth_error bind].
    unfold metapath_num. cbn [length Nat.eqb bind]. rewrite AttProofs.han_one. repeat split; intros; reflexivity || lia.
  - repeat split; intros; discriminate || reflexivity.
Qed.
Print Assumptions C102_create_partial.
(** In TensorFlow 2 the attention over metapaths cannot be built. *)
Theorem C102_eager_refuted : forall ex hds score types nb head_num cell0 d nodes nbrs, exists e,
  encode ex hds score false types nb head_num cell0 d nodes nbrs = Fail e.
Proof. exact eager. Qed.
Print Assumptions C102_eager_refuted.
(** test_step expects three values of a call that answers one. *)
Theorem C102_test_refuted : forall enc f1, exists e, test_step enc f1 = Fail e.
Proof. intros [e|x] f1; eexists; reflexivity. Qed.
Print Assumptions C102_test_refuted.
(** A perfect prediction has not F1 one, and the F1 of a batch depends on the batches before it. *)
Theorem C102_f1_refuted : exists f g, f1_run (Counters 0 0 0) [[(1, 1)]]%Z = [f] /\ ~ (f == 1)%Q /\
  nth_error (f1_run (Counters 0 0 0) [[(1, 0)]; [(1, 1)]]%Z) 1 = Some g /\ (g < 7 # 10)%Q.
Proof. eexists. eexists. split; [vm_compute; reflexivity|]. split; [vm_compute; discriminate|]. split; vm_compute; reflexivity. Qed.
Print Assumptions C102_f1_refuted.
(** Without labels, as in inference, the labels are whatever was in memory (han.py 41-42). *)
Theorem C102_labels_refuted : exists b, query smp0 feat0 (fun v => [v]) (Params [[1]]%Z [2] 9 1 (-1) 2) [7]%Z = Ok b /\
  b_label b = [[None; None]].
Proof. eexists. split; vm_compute; reflexivity. Qed.
Print Assumptions C102_labels_refuted.
