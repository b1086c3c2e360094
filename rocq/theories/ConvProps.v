(** C79: graph convolutions and the encoders for hops. *)
From Coq Require Import QArith Permutation String.
From Verif Require Import Base Dist AttModel AttSpec TfSageModel TfSageSpec ConvModel ConvSpec ConvProofs.
Open Scope nat_scope.
Open Scope Q_scope.
Open Scope list_scope.

(** gcn_norm_adj of a dense matrix scales every element by the degrees of its row and its column. *)
Theorem C79_norm : forall rs adj, proper rs -> shape (length adj) (length adj) adj ->
  shape (length adj) (length adj) (gcn_norm_dense rs adj) /\
  forall i j, (i < length adj)%nat -> (j < length adj)%nat -> cell (gcn_norm_dense rs adj) i j == norm rs adj i j.
Proof. exact norm_cell. Qed.
Print Assumptions C79_norm.

(** A symmetric matrix stays symmetric, and the square roots of the degrees are a fixed point. *)
Theorem C79_symmetric : forall rs adj i j, proper rs -> cell adj i j == cell adj j i -> norm rs adj i j == norm rs adj j i.
Proof. exact norm_symmetric. Qed.
Print Assumptions C79_symmetric.
Theorem C79_fixed : forall rs adj i,
  (forall i j, (i < length adj)%nat -> (j < length adj)%nat -> 0 <= cell adj i j /\ cell adj i j == cell adj j i) ->
  (forall i, (i < length adj)%nat -> ~ deg adj i == 0 -> rs (deg adj i) * rs (deg adj i) * deg adj i == 1) ->
  (i < length adj)%nat ->
  qsum (fun j => norm rs adj i j * (deg adj j * isqrt rs (deg adj j))) (seq 0 (length adj)) == deg adj i * isqrt rs (deg adj i).
Proof. exact norm_fixed. Qed.
Print Assumptions C79_fixed.

(** A layer adds up the transformed rows with these weights, then the bias. *)
Theorem C79_dense : forall rs c x adj, proper rs -> shape (length x) (length x) adj ->
  (forall b, c_bias c = Some b -> length b = c_dim c) ->
  forall i k, (i < length x)%nat -> (k < c_dim c)%nat ->
  cell (gcn_dense c x (gcn_norm_dense rs adj)) i k ==
  convolve (seq 0 (length x)) (norm rs adj i) (map (c_w c) x) k + bias_at (c_bias c) k.
Proof. exact gcn_dense_cell. Qed.
Print Assumptions C79_dense.
Theorem C79_sparse : forall rs c x entries, proper rs ->
  Forall (fun e => fst (fst e) < length x /\ snd (fst e) < length x)%nat entries ->
  (forall b, c_bias c = Some b -> length b = c_dim c) ->
  exists ne, gcn_norm_sparse rs (length x) entries = Ok ne /\ edges_of ne = edges_of entries /\
    forall i k, (i < length x)%nat -> (k < c_dim c)%nat ->
      cell (gcn_sparse c x ne) i k ==
      convolve (nbrs_sparse (edges_of entries) i) (fun j => isqrt rs (sdeg entries i) * isqrt rs (sdeg entries j)) (map (c_w c) x) k
      + bias_at (c_bias c) k.
Proof. exact gcn_sparse_cell. Qed.
Print Assumptions C79_sparse.

(** For matrices of zeros and ones the sparse and the dense layer agree. *)
Theorem C79_agree_partial : forall rs c x adj entries ne, proper rs -> shape (length x) (length x) adj -> binary adj ->
  Forall (fun e => fst (fst e) < length x /\ snd (fst e) < length x)%nat entries ->
  Forall (fun e => snd e == 1) entries ->
  (forall i, (i < length x)%nat -> Permutation (nbrs_dense adj i) (nbrs_sparse (edges_of entries) i)) ->
  (forall b, c_bias c = Some b -> length b = c_dim c) ->
  gcn_norm_sparse rs (length x) entries = Ok ne ->
  forall i k, (i < length x)%nat -> (k < c_dim c)%nat ->
  cell (gcn_dense c x (gcn_norm_dense rs adj)) i k == cell (gcn_sparse c x ne) i k.
Proof. exact gcn_agree. Qed.
Print Assumptions C79_agree_partial.

(** -1/2 power of the squares the examples need. *)
Definition rsq (d : Q) : Q := if Qeq_bool d 4 then 1 # 2 else if Qeq_bool d 9 then 1 # 3 else 1.
Lemma rsq_proper : proper rsq.
Proof.
  assert (P : forall c x y, x == y -> Qeq_bool x c = Qeq_bool y c).
  { intros c x y E. destruct (Qeq_bool x c) eqn:A, (Qeq_bool y c) eqn:B; try reflexivity.
    - apply Qeq_bool_eq in A. apply Qeq_bool_neq in B. exfalso. apply B. now rewrite <- E.
    - apply Qeq_bool_eq in B. apply Qeq_bool_neq in A. exfalso. apply A. now rewrite E. }
  intros x y E. unfold rsq. rewrite (P 4 x y E), (P 9 x y E). reflexivity.
Qed.
(** With weights the dense layer uses them and the sparse one does not. *)
Theorem C79_weights_refuted : exists rs c x adj entries ne,
  proper rs /\ shape 2 2 adj /\ (forall e, In e entries -> cell adj (fst (fst e)) (snd (fst e)) == snd e) /\
  (forall i j, In (i, j) (edges_of entries) <-> (i < 2 /\ j < 2)%nat /\ ~ cell adj i j == 0) /\
  gcn_norm_sparse rs 2 entries = Ok ne /\
  ~ cell (gcn_dense c x (gcn_norm_dense rs adj)) 0 0 == cell (gcn_sparse c x ne) 0 0.
Proof.
  exists rsq, (Gcn 1 (fun r => r) None idq), [[1]; [1]], [[0; 4]; [4; 0]], [(0%nat, 1%nat, 4); (1%nat, 0%nat, 4)],
    [(0%nat, 1%nat, (1 # 2) * (1 # 2)); (1%nat, 0%nat, (1 # 2) * (1 # 2))].
  refine (conj rsq_proper (conj (conj eq_refl _) (conj _ (conj _ (conj _ _))))).
  - repeat constructor.
  - intros e [<-|[<-|[]]]; reflexivity.
  - intros i j. split.
    + intros [E|[E|[]]]; injection E as <- <-; (split; [split; auto|discriminate]).
    + intros [[A B] N].
      destruct i as [|[|i]]; [| |now apply Nat.succ_lt_mono, Nat.succ_lt_mono, Nat.nlt_0_r in A];
      (destruct j as [|[|j]]; [| |now apply Nat.succ_lt_mono, Nat.succ_lt_mono, Nat.nlt_0_r in B]).
      * exfalso. apply N. reflexivity.
      * now left.
      * right. now left.
      * exfalso. apply N. reflexivity.
  - vm_compute. reflexivity.
  - vm_compute. discriminate.
Qed.
Print Assumptions C79_weights_refuted.

(** The activation of a layer is never applied: with the rectifier outputs can be negative. *)
Definition relu (x : Q) : Q := if Qle_bool 0 x then x else 0.
Theorem C79_act : forall c act x adj ne,
  gcn_dense (Gcn (c_dim c) (c_w c) (c_bias c) act) x adj = gcn_dense c x adj /\
  gcn_sparse (Gcn (c_dim c) (c_w c) (c_bias c) act) x ne = gcn_sparse c x ne.
Proof. exact gcn_act. Qed.
Print Assumptions C79_act.
Theorem C79_act_refuted : exists c x adj, c_act c = relu /\ shape 1 1 adj /\ cell (gcn_dense c x (gcn_norm_dense rsq adj)) 0 0 < 0.
Proof.
  exists (Gcn 1 (fun r => r) None relu), [[- (1)]], [[1]]. split; [reflexivity|]. split; [split; [reflexivity|repeat constructor]|].
  vm_compute. reflexivity.
Qed.
Print Assumptions C79_act_refuted.

(** Degrees 4 and 9. *)
Example C79_ex_norm :
  let adj := [[1; 3]; [3; 6]] in
  map (map Qred) (gcn_norm_dense rsq adj) = [[1 # 4; 1 # 2]; [1 # 2; 2 # 3]] /\
  map (map Qred) (gcn_dense (Gcn 1 (fun r => r) (Some [10]) idq) [[4]; [2]] (gcn_norm_dense rsq adj)) = [[12]; [40 # 3]].
Proof. split; vm_compute; reflexivity. Qed.
Example C79_ex_sparse :
  let ones := [(0%nat, 0%nat, 1); (0%nat, 1%nat, 1); (0%nat, 2%nat, 1); (0%nat, 3%nat, 1); (1%nat, 0%nat, 1); (2%nat, 0%nat, 1)] in
  match gcn_norm_sparse rsq 4 ones with
  | Ok ne => map (map Qred) (gcn_sparse (Gcn 1 (fun r => r) None idq) [[4]; [2]; [6]; [7]] ne) = [[5]; [2]; [2]; [0]]
  | Fail _ => False
  end.
Proof. vm_compute. reflexivity. Qed.

(** ** LightGCN: half the node, half the mean of its neighbors. *)
Theorem C79_light : forall d f x groups,
  (0 < f)%nat -> (0 < d)%nat -> length groups = length x -> Forall (fun r => length r = d) x ->
  Forall (fun g => length g = f /\ Forall (fun r => length r = d) g) groups ->
  exists out, light [x; List.concat groups] d [f] = Ok out /\ shape (length x) d out /\
    forall i k, (i < length x)%nat -> (k < d)%nat ->
      cell out i k * 2 * qnat f == cell x i k * qnat f + qsum (fun r => nth k r 0) (nth i groups []).
Proof. exact light_mean. Qed.
Print Assumptions C79_light.
Theorem C79_light_zero : forall x rest d, light (x :: rest) d [] = Ok x.
Proof. exact light_zero. Qed.
Print Assumptions C79_light_zero.
Theorem C79_light_deep : forall samples d a b r, light samples d (a :: b :: r) = Fail EAssert.
Proof. exact light_deep. Qed.
Print Assumptions C79_light_deep.
Example C79_ex_light :
  match light [[[1; 2]; [3; 4]]; [[10; 0]; [20; 2]; [1; 1]; [1; 3]]] 2 [2%nat] with
  | Ok m => map (map Qred) m = [[8; 3 # 2]; [2; 3]]
  | Fail _ => False
  end.
Proof. vm_compute. reflexivity. Qed.

(** ** LGCL *)
Open Scope nat_scope.
(** The rows that topk returns hold the greatest values of every feature in descending order... *)
Theorem C79_topk : forall k w rows, k <= length rows -> exists kept, topk k w rows = Ok kept /\ top_rows k w rows kept.
Proof. exact topk_top. Qed.
Print Assumptions C79_topk.
(** ... and there is one such list, whatever the order of the neighbors. *)
Theorem C79_topk_order : forall k w rows rows' m m',
  (forall j, j < w -> Permutation (col j rows) (col j rows')) -> top_rows k w rows m -> top_rows k w rows' m' -> m = m'.
Proof. exact top_unique. Qed.
Print Assumptions C79_topk_order.
Theorem C79_topk_few : forall k w rows, length rows < k -> topk k w rows = Fail EAssert.
Proof. exact topk_needs. Qed.
Print Assumptions C79_topk_few.
(** The two kernels shrink the node and its k neighbors to exactly one element. *)
Theorem C79_kernels : forall k, lgcl_len k = Ok 1.
Proof. exact lgcl_one. Qed.
Print Assumptions C79_kernels.

(** With residual "add" every node of the batch gets its embedding from the tree of its neighbors, for
    one layer or when every layer changes the width. *)
Theorem C79_lgcl_partial : forall g fanouts in_features feat best,
  (forall k w rows, k <= length rows -> top_rows k w rows (best k w rows)) ->
  0 < in_features -> Forall (fun f => 0 < f) fanouts -> Forall (fun h => 0 < h) (g_hidden g) ->
  length (g_ks g) = length fanouts -> length (g_hidden g) = length fanouts ->
  (forall hop, hop < length fanouts -> nth hop (g_ks g) 0 <= nth hop fanouts 0) ->
  (forall v, length (feat v) = in_features) ->
  let width := width_at in_features (g_hidden g) in
  (forall l hop s, l < length fanouts -> length (g_conv g l hop s) = width (S l)) ->
  (forall l x, l < length fanouts -> length (g_lin g l x) = width (S l)) ->
  length fanouts = 1 \/ (forall l, l < length fanouts -> width l <> width (S l)) ->
  forall ts, Forall (full fanouts) ts ->
  lgcl_forward g fanouts in_features (map (fun h => map (fun t => feat (root t)) (hop_nodes h ts)) (seq 0 (length fanouts + 1))) =
  Ok (map (learn feat (g_conv g) (residual width (g_lin g)) best (fun hop => nth hop (g_ks g) 0) width (length fanouts) 0) ts).
Proof. exact lgcl_learns. Qed.
Print Assumptions C79_lgcl_partial.

(** When two layers keep the width, the rows of the batch are added to the rows of the first hop. *)
Definition g2 : lgcl := Lgcl [1; 1] [2; 2] (fun _ _ s => nth 0 s [] ) (fun _ x => x).
Local Open Scope Z_scope.
Theorem C79_residual_refuted :
  (exists samples, map (@length _) samples = [2%nat; 4%nat; 8%nat] /\ Forall (Forall (fun r => length r = 2%nat)) samples /\
     lgcl_forward g2 [2%nat; 2%nat] 2 samples = Fail EAssert) /\
  (exists feat t, full [2%nat; 1%nat] t /\ (forall v, length (feat v) = 2%nat) /\
     let samples := map (fun h => map (fun u => feat (root u)) (hop_nodes h [t])) (seq 0 3) in
     (exists out, lgcl_forward (Lgcl [1%nat; 1%nat] [2%nat; 2%nat] (fun _ _ s => nth 1 s []) (fun _ x => x)) [2%nat; 1%nat] 2 samples = Ok [out] /\
        out <> learn feat (fun _ _ s => nth 1 s []) (residual (width_at 2 [2%nat; 2%nat]) (fun _ x => x))
                     (fun k w rows => match topk k w rows with Ok m => m | Fail _ => [] end) (fun _ => 1%nat) (width_at 2 [2%nat; 2%nat]) 2 0 t)).
Proof.
  split.
  - exists [[[1; 2]; [3; 4]]; repeat [0; 0] 4; repeat [0; 0] 8]. split; [reflexivity|]. split; [repeat constructor|]. vm_compute. reflexivity.
  - exists (fun v => [v; v]), (Node 1 [Node 2 [Node 5 []]; Node 3 [Node 7 []]]).
    split; [cbn; repeat (split; auto)|]. split; [reflexivity|]. cbv zeta.
    exists [12; 12]. split; vm_compute; [reflexivity|discriminate].
Qed.
Print Assumptions C79_residual_refuted.

(** With residual "concat" one layer is right for every batch but one of a single node. *)
Theorem C79_concat_partial : forall g best f w k x groups,
  (forall k w rows, k <= length rows -> top_rows k w rows (best k w rows))%nat ->
  g_ks g = [k] -> (0 < w)%nat -> (k <= f)%nat -> (0 < f)%nat -> length x <> 1%nat -> length groups = length x ->
  Forall (fun q => length q = f /\ Forall (fun r => length r = w) q) groups ->
  lgcl_concat g f w x (List.concat groups) =
  Ok (map (fun p => (g_conv g 0 0 (fst p :: best k w (snd p)) ++ fst p)%list) (combine x groups)).
Proof. exact lgcl_concat_rows. Qed.
Print Assumptions C79_concat_partial.
Theorem C79_concat_refuted : exists g f w x y,
  length x = 1%nat /\ length y = f /\ Forall (fun r => length r = w) (x ++ y) /\ g_ks g = [1%nat] /\ (1 <= f)%nat /\
  lgcl_concat g f w x y = Fail EAssert.
Proof.
  exists (Lgcl [1%nat] [2%nat] (fun _ _ s => nth 0 s []) (fun _ x => x)), 2%nat, 2%nat, [[1; 2]], [[3; 4]; [5; 6]].
  refine (conj eq_refl (conj eq_refl (conj _ (conj eq_refl (conj _ _))))); [repeat constructor|repeat constructor|vm_compute; reflexivity].
Qed.
Print Assumptions C79_concat_refuted.

Example C79_ex_topk : topk 2 2 [[1; 9]; [5; 2]; [3; 7]] = Ok [[5; 9]; [3; 7]].
Proof. reflexivity. Qed.
(** Two layers with widths 2, 3 and 2, with sums for convolutions. *)
Definition g3 : lgcl :=
  Lgcl [2%nat; 1%nat] [3%nat; 2%nat]
    (fun l hop s => let t := fold_right Z.add 0 (List.concat s) in if (l =? 0)%nat then [t; t; Z.of_nat hop] else [t; 0])
    (fun l x => if (l =? 0)%nat then [nth 0 x 0; 0; 0] else [0; nth 0 x 0]).
Example C79_ex_lgcl :
  lgcl_forward g3 [2%nat; 2%nat] 2
    [[[1; 1]; [2; 0]]; [[1; 0]; [0; 3]; [5; 5]; [1; 1]]; [[1; 1]; [0; 0]; [2; 0]; [0; 2]; [0; 0]; [0; 0]; [4; 4]; [1; 5]]]
  = Ok [[36; 7]; [80; 16]].
Proof. vm_compute. reflexivity. Qed.
Example C79_ex_concat :
  lgcl_concat (Lgcl [1%nat] [1%nat] (fun _ _ s => [fold_right Z.add 0 (List.concat s); 0]) (fun _ x => x)) 2 1 [[1]; [2]] [[3]; [4]; [6]; [5]]
  = Ok [[5; 0; 1]; [8; 0; 2]].
Proof. vm_compute. reflexivity. Qed.

(** ** HetGNN: the embeddings for the types and the node itself are weighted by attention. *)
Local Open Scope Q_scope.
Theorem C79_het : forall ex, good_exp ex -> forall att d node embeds,
  Forall (shape (length node) d) embeds -> shape (length node) d node ->
  let ms := (embeds ++ [node])%list in
  shape (length node) d (het_fuse ex att d node embeds) /\
  forall b k, (b < length node)%nat -> (k < d)%nat ->
    attends ex (seq 0 (length ms)) (fun t => lrelu (1 # 100) (att (nth b node [] ++ nth b (nth t ms []) [])%list))
            (fun t => cell (nth t ms []) b k) (cell (het_fuse ex att d node embeds) b k).
Proof. exact het_attends. Qed.
Print Assumptions C79_het.
(** Scores 0 and -1/100 * 100 = -1; the exponential of -1 is 1/2 here. *)
Example C79_ex_het :
  map (map Qred) (het_fuse (fun x => if Qle_bool 0 x then 1 else 1 # 2) (fun r => nth 2 r 0) 2 [[0; 6]] [[[- (100); 3]]]) = [[-100 # 3; 5]].
Proof. vm_compute. reflexivity. Qed.

(** ** The LSTM aggregator returns the output after the last neighbor when the rows without features
    come last. *)
Theorem C79_lstm_partial : forall {A} max_len counts (outputs : list (list A)) d,
  (0 < max_len)%nat -> length counts = length outputs -> Forall (fun o => length o = max_len) outputs ->
  Forall (fun n => 1 <= n <= max_len)%nat counts ->
  lstm_gather max_len (map (fun n => repeat true n ++ repeat false (max_len - n))%list counts) outputs =
  Ok (map (fun p => nth (fst p - 1) (snd p) d) (combine counts outputs)).
Proof. exact @lstm_prefix. Qed.
Print Assumptions C79_lstm_partial.
(** A neighbor whose features are zero in front of others: the output of an earlier one. *)
Theorem C79_lstm_refuted : exists max_len useds outputs,
  Forall (fun u => nth 2 u false = true) useds /\ Forall (fun o => length o = max_len) outputs /\ max_len = 3%nat /\
  lstm_gather max_len useds outputs <> Ok (map (fun o => nth 2 o 0%Z) outputs).
Proof.
  exists 3%nat, [[true; false; true]], [[1%Z; 2%Z; 3%Z]]. refine (conj _ (conj _ (conj eq_refl _))); [repeat constructor|repeat constructor|vm_compute; discriminate].
Qed.
Print Assumptions C79_lstm_refuted.
Example C79_ex_lstm : lstm_gather 3 [[true; true; false]; [true; true; true]] [[1; 2; 3]; [4; 5; 6]]%Z = Ok [2; 6]%Z.
Proof. reflexivity. Qed.
(** Aggregators cannot be made with bias. *)
Theorem C79_bias_refuted : agg_init false = Ok tt /\ agg_init true = Fail EAssert.
Proof. split; reflexivity. Qed.
Print Assumptions C79_bias_refuted.
