From Coq Require Import QArith Lqa Permutation Sorted.
From Verif Require Import Base Dist AttModel AttSpec AttProofs TfSageModel TfSageSpec ConvModel ConvSpec.
From Verif Require TfSageProofs.

(** ** Normalisation *)
Lemma isqrt_proper rs : proper rs -> proper (isqrt rs).
Proof.
  intros P x y E. unfold isqrt. destruct (Qeq_bool x 0) eqn:A, (Qeq_bool y 0) eqn:B; try reflexivity.
  - apply Qeq_bool_eq in A. apply Qeq_bool_neq in B. exfalso. apply B. now rewrite <- E.
  - apply Qeq_bool_eq in B. apply Qeq_bool_neq in A. exfalso. apply A. now rewrite E.
  - now apply P.
Qed.
Lemma row_length {n m} (adj : mat) i : shape n m adj -> (i < n)%nat -> length (nth i adj []) = m.
Proof. intros [L F] H. rewrite Forall_forall in F. apply F, nth_In. lia. Qed.
Lemma rowsum_deg adj i : shape (length adj) (length adj) adj -> (i < length adj)%nat -> qsum idq (nth i adj []) == deg adj i.
Proof.
  intros S H. unfold deg, cell, idq. rewrite (qsum_seq_nth _ _ 0). rewrite (row_length adj i S H). reflexivity.
Qed.
Lemma mm_shape w n a b : length a = n -> shape n w (mm w a b).
Proof.
  intros L. unfold mm. split; [now rewrite map_length|]. rewrite Forall_forall. intros r Hr. apply in_map_iff in Hr.
  destruct Hr as (x & <- & _). unfold weighted. now rewrite map_length, seq_length.
Qed.
Lemma mm_cell w n m a b i k : shape n m a -> length b = m -> (i < n)%nat -> (k < w)%nat ->
  cell (mm w a b) i k == qsum (fun j => cell a i j * cell b j k) (seq 0 m).
Proof.
  intros S Lb Hi Hk. unfold cell at 1, mm. rewrite (nth_map_in _ _ _ _ []) by (destruct S; lia).
  rewrite weighted_nth by exact Hk.
  pose proof (row_length a i S Hi) as R.
  rewrite (qsum_seq_nth _ _ ([], 0)). rewrite combine_length, Lb, R, Nat.min_id.
  apply qsum_ext. intros j Hj. rewrite combine_nth by lia. reflexivity.
Qed.
Lemma diag_shape s : shape (length s) (length s) (diag s).
Proof.
  unfold diag. split; [now rewrite map_length, seq_length|]. rewrite Forall_forall. intros r Hr. apply in_map_iff in Hr.
  destruct Hr as (x & <- & _). now rewrite map_length, seq_length.
Qed.
Lemma diag_cell s i j : (i < length s)%nat -> (j < length s)%nat -> cell (diag s) i j = if (i =? j)%nat then nth i s 0 else 0.
Proof. intros Hi Hj. unfold cell, diag. now rewrite nth_map_seq, nth_map_seq. Qed.

Theorem norm_cell rs adj : proper rs -> shape (length adj) (length adj) adj ->
  shape (length adj) (length adj) (gcn_norm_dense rs adj) /\
  forall i j, (i < length adj)%nat -> (j < length adj)%nat -> cell (gcn_norm_dense rs adj) i j == norm rs adj i j.
Proof.
  intros P S. unfold gcn_norm_dense. set (n := length adj) in *.
  set (s := map (fun r => d_inv rs (qsum idq r)) adj).
  assert (Ls : length s = n) by (unfold s; now rewrite map_length).
  assert (Sd : shape n n (diag s)) by (rewrite <- Ls; apply diag_shape).
  assert (Hs : forall i, (i < n)%nat -> nth i s 0 == isqrt rs (deg adj i)).
  { intros i Hi. unfold s. rewrite (nth_map_in _ _ _ _ []) by exact Hi.
    change (d_inv rs) with (isqrt rs). apply isqrt_proper; [exact P|]. now apply rowsum_deg. }
  assert (S1 : shape n n (mm n (diag s) adj)) by (apply mm_shape; apply Sd).
  split; [apply mm_shape; apply S1|].
  intros i j Hi Hj. rewrite (mm_cell n n n) by (try assumption; apply Sd).
  rewrite (qsum_ext _ (fun l => ind (l =? j)%nat * (cell (mm n (diag s) adj) i l * nth l s 0))).
  2:{ intros l Hl. apply in_seq in Hl. rewrite diag_cell by lia. unfold ind. destruct (l =? j)%nat; ring. }
  rewrite (qsum_pick (fun l => cell (mm n (diag s) adj) i l * nth l s 0)) by exact Hj.
  rewrite (mm_cell n n n) by (try assumption; reflexivity).
  rewrite (qsum_ext _ (fun l => ind (l =? i)%nat * (nth i s 0 * cell adj l j))).
  2:{ intros l Hl. apply in_seq in Hl. rewrite diag_cell by lia. unfold ind. rewrite (Nat.eqb_sym l i). destruct (i =? l)%nat; ring. }
  rewrite (qsum_pick (fun l => nth i s 0 * cell adj l j)) by exact Hi.
  unfold norm. rewrite !Hs by assumption. ring.
Qed.

Theorem norm_symmetric rs adj i j : proper rs -> cell adj i j == cell adj j i -> norm rs adj i j == norm rs adj j i.
Proof. intros P E. unfold norm. rewrite E. ring. Qed.

(** The square roots of the degrees stay what they are. *)
Theorem norm_fixed rs adj i :
  (forall i j, (i < length adj)%nat -> (j < length adj)%nat -> 0 <= cell adj i j /\ cell adj i j == cell adj j i) ->
  (forall i, (i < length adj)%nat -> ~ deg adj i == 0 -> rs (deg adj i) * rs (deg adj i) * deg adj i == 1) ->
  (i < length adj)%nat ->
  qsum (fun j => norm rs adj i j * (deg adj j * isqrt rs (deg adj j))) (seq 0 (length adj)) == deg adj i * isqrt rs (deg adj i).
Proof.
  intros C R Hi.
  rewrite (qsum_ext _ (fun j => isqrt rs (deg adj i) * cell adj i j)).
  - rewrite (qsum_scale (isqrt rs (deg adj i)) (fun j => cell adj i j)). fold (deg adj i). ring.
  - intros j Hj. apply in_seq in Hj. unfold norm.
    destruct (Qeq_dec (deg adj j) 0) as [Z0|Z0].
    + assert (E : cell adj i j == 0).
      { destruct (C i j) as [A B]; [lia|lia|]. rewrite B. unfold deg in Z0.
        assert (G : cell adj j i <= qsum (fun l => cell adj j l) (seq 0 (length adj))).
        { rewrite <- (qsum_pick (fun l => cell adj j l) i (length adj)) by lia. apply qsum_le. intros l Hl. apply in_seq in Hl.
          destruct (C j l) as [A' _]; [lia|lia|]. unfold ind. destruct (l =? i)%nat; lra. }
        rewrite Z0 in G. rewrite B in A. lra. }
      rewrite E. ring.
    + assert (I : isqrt rs (deg adj j) = rs (deg adj j)).
      { unfold isqrt. destruct (Qeq_bool (deg adj j) 0) eqn:B; [|reflexivity]. apply Qeq_bool_eq in B. contradiction. }
      rewrite I. specialize (R j ltac:(lia) Z0).
      transitivity (isqrt rs (deg adj i) * cell adj i j * (rs (deg adj j) * rs (deg adj j) * deg adj j)); [ring|]. rewrite R. ring.
Qed.

(** ** One layer *)
Lemma add_bias_cell c n m i k : shape n (c_dim c) m -> (forall b, c_bias c = Some b -> length b = c_dim c) ->
  (i < n)%nat -> (k < c_dim c)%nat -> cell (add_bias c m) i k == cell m i k + bias_at (c_bias c) k.
Proof.
  intros S B Hi Hk. unfold add_bias, bias_at. destruct (c_bias c) as [b|] eqn:E; [|ring].
  specialize (B b eq_refl). unfold cell at 1. rewrite (nth_map_in _ _ _ _ []) by (destruct S; lia).
  rewrite (zip_with_seq _ _ _ 0 0) by (rewrite (row_length m i S Hi); lia).
  rewrite (row_length m i S Hi), nth_map_seq by exact Hk. reflexivity.
Qed.
Theorem gcn_dense_cell rs c x adj : proper rs -> shape (length x) (length x) adj ->
  (forall b, c_bias c = Some b -> length b = c_dim c) ->
  forall i k, (i < length x)%nat -> (k < c_dim c)%nat ->
  cell (gcn_dense c x (gcn_norm_dense rs adj)) i k ==
  convolve (seq 0 (length x)) (norm rs adj i) (map (c_w c) x) k + bias_at (c_bias c) k.
Proof.
  intros P S B i k Hi Hk. assert (La : length adj = length x) by apply S.
  assert (S' : shape (length adj) (length adj) adj) by now rewrite La.
  destruct (norm_cell rs adj P S') as [Sn N]. rewrite La in Sn, N.
  unfold gcn_dense. rewrite (add_bias_cell c (length x)); [|apply mm_shape; apply Sn|exact B|exact Hi|exact Hk].
  rewrite (mm_cell _ (length x) (length x)); [|exact Sn|now rewrite map_length|exact Hi|exact Hk].
  unfold convolve. rewrite (qsum_ext _ (fun j => norm rs adj i j * cell (map (c_w c) x) j k)); [reflexivity|].
  intros j Hj. apply in_seq in Hj. rewrite N by lia. reflexivity.
Qed.

Lemma sparse_norm_ok rs n entries :
  Forall (fun e => fst (fst e) < n /\ snd (fst e) < n)%nat entries ->
  gcn_norm_sparse rs n entries =
  Ok (map (fun e => (fst e, d_inv rs (degree entries (fst (fst e))) * d_inv rs (degree entries (snd (fst e))))) entries).
Proof.
  intros F. unfold gcn_norm_sparse.
  assert (E : forallb (fun e : nat * nat * Q => (fst (fst e) <? n) && (snd (fst e) <? n))%nat entries = true).
  { apply forallb_forall. intros e He. rewrite Forall_forall in F. destruct (F e He) as [A B].
    apply andb_true_iff. split; now apply Nat.ltb_lt. }
  rewrite E. f_equal. apply map_ext_in. intros e He. rewrite Forall_forall in F. destruct (F e He) as [A B].
  now rewrite !nth_map_seq.
Qed.
Theorem gcn_sparse_cell rs c x entries : proper rs ->
  Forall (fun e => fst (fst e) < length x /\ snd (fst e) < length x)%nat entries ->
  (forall b, c_bias c = Some b -> length b = c_dim c) ->
  exists ne, gcn_norm_sparse rs (length x) entries = Ok ne /\ edges_of ne = edges_of entries /\
    forall i k, (i < length x)%nat -> (k < c_dim c)%nat ->
      cell (gcn_sparse c x ne) i k ==
      convolve (nbrs_sparse (edges_of entries) i) (fun j => isqrt rs (sdeg entries i) * isqrt rs (sdeg entries j)) (map (c_w c) x) k + bias_at (c_bias c) k.
Proof.
  intros P F B. eexists. split; [now apply sparse_norm_ok|]. split.
  { unfold edges_of. rewrite map_map. apply map_ext. reflexivity. }
  intros i k Hi Hk. unfold gcn_sparse. rewrite (add_bias_cell c (length x)); [|apply weighted_shape|exact B|exact Hi|exact Hk].
  unfold cell at 1. rewrite nth_map_seq by exact Hi. rewrite weighted_nth by exact Hk.
  rewrite filter_map_comm, map_map, qsum_map. cbn [fst snd].
  unfold convolve, nbrs_sparse, edges_of. rewrite filter_map_comm, map_map, qsum_map.
  match goal with |- ?a + _ == ?b + _ => assert (a == b) as ->; [|reflexivity] end.
  apply qsum_ext. intros e He. apply filter_In in He. destruct He as [He E]. apply Nat.eqb_eq in E. rewrite E.
  unfold cell. change (degree entries) with (sdeg entries). change (d_inv rs) with (isqrt rs). reflexivity.
Qed.

(** Both versions for zeros and ones. *)
Theorem gcn_agree rs c x adj entries ne : proper rs -> shape (length x) (length x) adj -> binary adj ->
  Forall (fun e => fst (fst e) < length x /\ snd (fst e) < length x)%nat entries ->
  Forall (fun e => snd e == 1) entries ->
  (forall i, (i < length x)%nat -> Permutation (nbrs_dense adj i) (nbrs_sparse (edges_of entries) i)) ->
  (forall b, c_bias c = Some b -> length b = c_dim c) ->
  gcn_norm_sparse rs (length x) entries = Ok ne ->
  forall i k, (i < length x)%nat -> (k < c_dim c)%nat ->
  cell (gcn_dense c x (gcn_norm_dense rs adj)) i k == cell (gcn_sparse c x ne) i k.
Proof.
  intros P S Bi F U N B E i k Hi Hk.
  destruct (gcn_sparse_cell rs c x entries P F B) as (ne' & E' & _ & C). rewrite E in E'. injection E' as <-.
  rewrite C by assumption. rewrite gcn_dense_cell by assumption.
  match goal with |- ?a + _ == ?b + _ => assert (a == b) as ->; [|reflexivity] end.
  assert (La : length adj = length x) by apply S.
  assert (Bc : forall i j, (i < length x)%nat -> (j < length x)%nat -> cell adj i j == 0 \/ cell adj i j == 1).
  { intros a b Ha Hb. unfold cell. unfold binary in Bi. rewrite Forall_forall in Bi.
    assert (R : In (nth a adj []) adj) by (apply nth_In; lia). specialize (Bi _ R). rewrite Forall_forall in Bi.
    apply Bi, nth_In. rewrite (row_length adj a S Ha). exact Hb. }
  assert (D : forall a, (a < length x)%nat -> deg adj a == sdeg entries a).
  { intros a Ha. unfold deg, sdeg. rewrite La.
    rewrite (AttProofs.qsum_filter _ (fun j => Qeq_bool (cell adj a j) 1)).
    2:{ intros j Hj Eq. apply in_seq in Hj. destruct (Bc a j) as [Z0|O]; [lia|lia|exact Z0|]. apply Qeq_eq_bool in O. congruence. }
    rewrite (qsum_ext _ (fun _ => 1)) by (intros j Hj; apply filter_In in Hj; now apply Qeq_bool_eq).
    rewrite <- La. change (filter (fun j => Qeq_bool (cell adj a j) 1) (seq 0 (length adj))) with (nbrs_dense adj a).
    rewrite (qsum_perm _ _ _ (N a Ha)). unfold nbrs_sparse, edges_of. rewrite filter_map_comm, map_map, qsum_map.
    apply qsum_ext. intros e He. apply filter_In in He. rewrite Forall_forall in U. symmetry. now apply U. }
  unfold convolve. rewrite (AttProofs.qsum_filter _ (fun j => Qeq_bool (cell adj i j) 1)).
  2:{ intros j Hj Eq. apply in_seq in Hj. unfold norm. destruct (Bc i j) as [Z0|O]; [lia|lia|rewrite Z0; ring|]. apply Qeq_eq_bool in O. congruence. }
  rewrite <- La. change (filter (fun j => Qeq_bool (cell adj i j) 1) (seq 0 (length adj))) with (nbrs_dense adj i).
  rewrite <- (qsum_perm _ _ _ (N i Hi)). apply qsum_ext. intros j Hj. unfold nbrs_dense in Hj. apply filter_In in Hj.
  destruct Hj as [Hj O]. apply in_seq in Hj. apply Qeq_bool_eq in O. unfold norm. rewrite O.
  rewrite (isqrt_proper rs P _ _ (D i Hi)), (isqrt_proper rs P _ _ (D j ltac:(lia))). ring.
Qed.

(** The activation plays no part. *)
Theorem gcn_act c act x adj ne :
  gcn_dense (Gcn (c_dim c) (c_w c) (c_bias c) act) x adj = gcn_dense c x adj /\
  gcn_sparse (Gcn (c_dim c) (c_w c) (c_bias c) act) x ne = gcn_sparse c x ne.
Proof. split; reflexivity. Qed.

(** ** LightGCN *)
Theorem light_mean d f x groups :
  (0 < f)%nat -> (0 < d)%nat -> length groups = length x -> Forall (fun r => length r = d) x ->
  Forall (fun g => length g = f /\ Forall (fun r => length r = d) g) groups ->
  exists out, light [x; concat groups] d [f] = Ok out /\ shape (length x) d out /\
    forall i k, (i < length x)%nat -> (k < d)%nat ->
      cell out i k * 2 * qnat f == cell x i k * qnat f + qsum (fun r => nth k r 0) (nth i groups []).
Proof.
  intros Hf Hd L Fx Fg. unfold light. cbn [AttModel.item nth_error bind].
  rewrite TfSageProofs.reshape_groups by assumption. cbn [bind]. rewrite L, Nat.eqb_refl.
  eexists. split; [reflexivity|].
  assert (R : forall i, (i < length x)%nat -> nth i (map (fun p => zip_with (fun a b => (a + b) / 2) (fst p) (mean_rows d (snd p))) (combine x groups)) [] =
     map (fun k => (nth k (nth i x []) 0 + nth k (mean_rows d (nth i groups [])) 0) / 2) (seq 0 d)).
  { intros i Hi. rewrite (nth_map_in _ _ _ _ ([], [])) by (rewrite combine_length; lia). rewrite combine_nth by lia. cbn [fst snd].
    assert (Lr : length (nth i x []) = d) by (rewrite Forall_forall in Fx; apply Fx, nth_In; lia).
    rewrite (zip_with_seq _ _ _ 0 0) by (unfold mean_rows; rewrite map_length, seq_length; lia). now rewrite Lr. }
  split.
  - split; [rewrite map_length, combine_length; lia|]. rewrite Forall_forall. intros r Hr.
    destruct (In_nth _ _ [] Hr) as (i & Hi & <-). rewrite map_length, combine_length, L, Nat.min_id in Hi. rewrite R by exact Hi.
    now rewrite map_length, seq_length.
  - intros i k Hi Hk. unfold cell at 1. rewrite R by exact Hi. rewrite nth_map_seq by exact Hk.
    unfold mean_rows. rewrite nth_map_seq by exact Hk.
    assert (Lg : length (nth i groups []) = f).
    { rewrite Forall_forall in Fg. apply (Fg (nth i groups [])), nth_In. lia. }
    rewrite Lg. unfold cell. field. unfold qnat. intros Z0. unfold Qeq in Z0. cbn in Z0. lia.
Qed.
Theorem light_zero x rest d : light (x :: rest) d [] = Ok x.
Proof. reflexivity. Qed.
Theorem light_deep samples d a b r : light samples d (a :: b :: r) = Fail EAssert.
Proof. reflexivity. Qed.

(** ** Greatest values *)
Local Open Scope nat_scope.
Lemma insert_perm x l : Permutation (insert_desc x l) (x :: l).
Proof.
  induction l as [|y l IH]; [reflexivity|]. cbn [insert_desc]. destruct (y <=? x)%Z; [reflexivity|].
  rewrite IH. apply perm_swap.
Qed.
Lemma sort_perm l : Permutation (sort_desc l) l.
Proof. induction l as [|x l IH]; [reflexivity|]. cbn [sort_desc]. rewrite insert_perm. now constructor. Qed.
Lemma insert_sorted x l : StronglySorted Z.ge l -> StronglySorted Z.ge (insert_desc x l).
Proof.
  induction 1 as [|y l S IH F]; [repeat constructor|]. cbn [insert_desc]. destruct (Z.leb_spec y x) as [H|H].
  - constructor; [now constructor|]. constructor; [lia|]. eapply Forall_impl; [|exact F]. intros; cbn in *; lia.
  - constructor; [exact IH|]. rewrite Forall_forall in *. intros z Hz. apply (Permutation_in _ (insert_perm x l)) in Hz.
    destruct Hz as [<-|Hz]; [lia|now apply F].
Qed.
Lemma sort_sorted l : StronglySorted Z.ge (sort_desc l).
Proof. induction l as [|x l IH]; [constructor|]. cbn [sort_desc]. now apply insert_sorted. Qed.
Lemma sorted_unique a b : StronglySorted Z.ge a -> StronglySorted Z.ge b -> Permutation a b -> a = b.
Proof.
  intros Sa. revert b. induction Sa as [|x a Sa IH Fa]; intros b Sb P; [now apply Permutation_nil in P|].
  destruct Sb as [|y b Sb Fb]; [symmetry in P; now apply Permutation_nil in P|].
  assert (E : x = y).
  { rewrite Forall_forall in *.
    assert (X : In x (y :: b)) by (apply (Permutation_in _ P); now left).
    assert (Y : In y (x :: a)) by (apply (Permutation_in _ (Permutation_sym P)); now left).
    destruct X as [|X]; [congruence|]. destruct Y as [|Y]; [congruence|]. specialize (Fa y Y). specialize (Fb x X). lia. }
  subst y. f_equal. apply IH; [exact Sb|]. now apply Permutation_cons_inv in P.
Qed.
Lemma ssorted_app a b : StronglySorted Z.ge a -> StronglySorted Z.ge b -> (forall x y, In x a -> In y b -> (y <= x)%Z) ->
  StronglySorted Z.ge (a ++ b).
Proof.
  induction 1 as [|x a S IH F]; intros Sb C; [exact Sb|]. cbn [app]. constructor; [apply IH; [exact Sb|]; intros; apply C; [now right|assumption]|].
  apply Forall_app. split; [exact F|]. rewrite Forall_forall. intros y Hy. specialize (C x y (or_introl eq_refl) Hy). lia.
Qed.
Lemma ssorted_app_inv a b : StronglySorted Z.ge (a ++ b) ->
  StronglySorted Z.ge a /\ (forall x y, In x a -> In y b -> (y <= x)%Z).
Proof.
  induction a as [|x a IH]; intros S; [split; [constructor|intros ? ? []]|]. cbn [app] in S. inversion S as [|? ? S' F]; subst.
  destruct (IH S') as [A B]. apply Forall_app in F. destruct F as [F1 F2]. split; [now constructor|].
  intros u v [<-|Hu] Hv; [|now apply B]. rewrite Forall_forall in F2. specialize (F2 v Hv). lia.
Qed.
Lemma greatest_firstn k all : k <= length all -> greatest k all (firstn k (sort_desc all)).
Proof.
  intros H. pose proof (Permutation_length (sort_perm all)) as L. split; [rewrite firstn_length; lia|].
  pose proof (sort_sorted all) as S. rewrite <- (firstn_skipn k (sort_desc all)) in S. apply ssorted_app_inv in S. destruct S as [S C].
  split; [exact S|]. exists (skipn k (sort_desc all)). split; [|exact C]. rewrite firstn_skipn. apply sort_perm.
Qed.
Lemma greatest_unique k all kept : greatest k all kept -> kept = firstn k (sort_desc all).
Proof.
  intros (L & S & rest & P & C).
  assert (E : sort_desc all = kept ++ sort_desc rest).
  { apply sorted_unique; [apply sort_sorted| |].
    - apply ssorted_app; [exact S|apply sort_sorted|]. intros x y Hx Hy. apply C; [exact Hx|]. now apply (Permutation_in _ (sort_perm rest)).
    - rewrite sort_perm, sort_perm. now symmetry. }
  rewrite E, firstn_app, L, Nat.sub_diag, firstn_O, app_nil_r. symmetry. apply firstn_all2. lia.
Qed.
Lemma map_nth_firstn (l : list Z) k : k <= length l -> map (fun r => nth r l 0%Z) (seq 0 k) = firstn k l.
Proof.
  revert l. induction k as [|k IH]; intros [|x l] H; try reflexivity; cbn [length] in H; [lia|].
  cbn [seq map firstn]. f_equal. rewrite <- seq_shift, map_map. apply IH. lia.
Qed.
Theorem topk_top k w rows : k <= length rows -> exists kept, topk k w rows = Ok kept /\ top_rows k w rows kept.
Proof.
  intros H. unfold topk. destruct (Nat.leb_spec k (length rows)); [|lia]. eexists. split; [reflexivity|].
  split; [now rewrite map_length, seq_length|]. split.
  { rewrite Forall_forall. intros r Hr. apply in_map_iff in Hr. destruct Hr as (i & <- & _). now rewrite map_length, seq_length. }
  intros j Hj. unfold col at 2. rewrite map_map.
  assert (E : map (fun r => nth j (map (fun i => nth r (sort_desc (column i rows)) 0%Z) (seq 0 w)) 0%Z) (seq 0 k) =
              firstn k (sort_desc (column j rows))).
  { rewrite <- map_nth_firstn.
    - apply map_ext. intros r. now rewrite nth_map_seq.
    - rewrite (Permutation_length (sort_perm _)). unfold column. now rewrite map_length. }
  rewrite E. change (column j rows) with (col j rows). apply greatest_firstn. unfold col. rewrite map_length. exact H.
Qed.
Theorem top_unique k w rows rows' m m' :
  (forall j, j < w -> Permutation (col j rows) (col j rows')) -> top_rows k w rows m -> top_rows k w rows' m' -> m = m'.
Proof.
  intros P (L & F & C) (L' & F' & C').
  apply (nth_ext _ _ [] []); [congruence|]. intros r Hr. rewrite Forall_forall in F, F'.
  assert (A : length (nth r m []) = w) by (apply F, nth_In, Hr).
  assert (B : length (nth r m' []) = w) by (apply F', nth_In; lia).
  apply (nth_ext _ _ 0%Z 0%Z); [congruence|]. intros j Hj. rewrite A in Hj.
  assert (E : col j m = col j m').
  { pose proof (greatest_unique _ _ _ (C j Hj)) as X. pose proof (greatest_unique _ _ _ (C' j Hj)) as Y.
    rewrite X, Y. f_equal. apply sorted_unique; try apply sort_sorted. rewrite !sort_perm. now apply P. }
  unfold col in E. rewrite <- (map_nth (fun q => nth j q 0%Z) m []), <- (map_nth (fun q => nth j q 0%Z) m' []).
  rewrite (nth_indep _ _ 0%Z) by now rewrite map_length. rewrite E.
  apply nth_indep. rewrite map_length. lia.
Qed.
Theorem topk_needs k w rows : length rows < k -> topk k w rows = Fail EAssert.
Proof. intros H. unfold topk. destruct (Nat.leb_spec k (length rows)); [lia|reflexivity]. Qed.
Theorem lgcl_one k : lgcl_len k = Ok 1.
Proof.
  unfold lgcl_len, conv_len. pose proof (Nat.div_mod k 2). pose proof (Nat.mod_upper_bound k 2).
  pose proof (Nat.div_mod (k + 1) 2). pose proof (Nat.mod_upper_bound (k + 1) 2).
  destruct (Nat.leb_spec ((k + 1) / 2 + 1) (k + 1)) as [A|A]; [|exfalso; lia]. cbn [bind].
  destruct (Nat.leb_spec (k / 2 + 1) (k + 1 - ((k + 1) / 2 + 1) + 1)) as [B|B]; [f_equal; lia|exfalso; lia].
Qed.

(** ** LGCL *)
Lemma hop_level h ts : hop_nodes h ts = TfSageProofs.level h ts.
Proof. induction h as [|h IH]; [reflexivity|]. cbn [hop_nodes]. now rewrite TfSageProofs.level_S, IH. Qed.
Lemma vsum_vadd a b : vadd a b = vsum a b.
Proof. revert b. induction a as [|x a IH]; intros [|y b]; try reflexivity. cbn. unfold vadd in IH. now rewrite IH. Qed.
Lemma add_same xs ys : length xs = length ys -> add_rows (squeeze xs) ys = Ok (map (fun p => vsum (fst p) (snd p)) (combine xs ys)).
Proof.
  intros L. destruct xs as [|x [|x' xs]]; cbn [squeeze].
  - destruct ys; [reflexivity|discriminate].
  - destruct ys as [|y [|? ?]]; try discriminate. cbn. now rewrite vsum_vadd.
  - cbn [add_rows]. rewrite L, Nat.eqb_refl. f_equal. apply map_ext. intros p. apply vsum_vadd.
Qed.

Section Lgcl.
Variables (g : lgcl) (fanouts : list nat) (in_features : nat) (feat : Z -> list Z).
Variable best : nat -> nat -> list (list Z) -> list (list Z).
Local Notation width := (width_at in_features (g_hidden g)).
Local Notation L := (length fanouts).
Local Notation k_at := (fun hop => nth hop (g_ks g) 0).
Local Notation residual := (residual width (g_lin g)).
Local Notation learn := (learn feat (g_conv g) residual best k_at width).
Hypotheses
  (Hbest : forall k w rows, k <= length rows -> top_rows k w rows (best k w rows))
  (Hin : 0 < in_features) (Hf : Forall (fun f => 0 < f) fanouts) (Hh : Forall (fun h => 0 < h) (g_hidden g))
  (Lk : length (g_ks g) = L) (Lh : length (g_hidden g) = L)
  (Hk : forall hop, hop < L -> nth hop (g_ks g) 0 <= nth hop fanouts 0)
  (Hfeat : forall v, length (feat v) = in_features)
  (Hconv : forall l hop s, l < L -> length (g_conv g l hop s) = width (S l))
  (Hlin : forall l x, l < L -> length (g_lin g l x) = width (S l))
  (Hres : L = 1 \/ forall l, l < L -> width l <> width (S l)).

Lemma vsum_length a b n : length a = n -> length b = n -> length (vsum a b) = n.
Proof. revert a b. induction n as [|n IH]; intros [|x a] [|y b] A B; try discriminate; try reflexivity. cbn in *. f_equal. apply IH; lia. Qed.
Lemma learn_width l hop t : l <= L -> length (learn l hop t) = width l.
Proof.
  revert hop t. induction l as [|l IH]; intros hop t H; [apply Hfeat|]. cbn [ConvSpec.learn].
  apply vsum_length; [apply Hconv; lia|]. unfold ConvSpec.residual. destruct (Nat.eqb_spec (width l) (width (S l))) as [E|E]; [|apply Hlin; lia].
  rewrite IH by lia. exact E.
Qed.
Lemma width_pos' l : l <= L -> 0 < width l.
Proof.
  intros H. destruct l as [|l]; [exact Hin|]. cbn [width_at]. rewrite Forall_forall in Hh. apply Hh, nth_In. lia.
Qed.
Lemma topk_best k w rows : k <= length rows -> topk k w rows = Ok (best k w rows).
Proof.
  intros H. destruct (topk_top k w rows H) as (m & E & T). rewrite E. f_equal.
  apply (top_unique k w rows rows); [reflexivity|exact T|now apply Hbest].
Qed.

Lemma fanouts_map : map snd (map (fun f => (0, f)) fanouts) = fanouts.
Proof. rewrite map_map. apply map_id. Qed.
Lemma full_children hop ts t : hop < L -> Forall (full fanouts) ts -> In t (hop_nodes hop ts) -> length (children t) = nth hop fanouts 0.
Proof.
  intros H F I. rewrite hop_level in I.
  pose proof (TfSageProofs.sampled_level (fun _ _ _ => True) (map (fun f => (0, f)) fanouts) ts hop) as S.
  rewrite map_length in S. specialize (S ltac:(lia) F). rewrite Forall_forall in S. specialize (S t I).
  destruct (skipn hop (map (fun f => (0, f)) fanouts)) as [|[l c] rest] eqn:E.
  { apply (f_equal (@length _)) in E. rewrite skipn_length, map_length in E. cbn in E. lia. }
  apply TfSageProofs.sampled_cons in S. destruct S as [S _]. rewrite S.
  assert (N : nth hop (map (fun f => (0, f)) fanouts) (0, 0) = (l, c)).
  { rewrite <- (firstn_skipn hop (map (fun f => (0, f)) fanouts)), E. rewrite app_nth2; rewrite firstn_length, map_length; [|lia].
    now replace (hop - Nat.min hop L) with 0 by lia. }
  rewrite (map_nth (fun f => (0, f)) fanouts 0 hop) in N. congruence.
Qed.
Definition hidden (l : nat) (ts : list tree) : list (list (list Z)) :=
  map (fun h => map (learn l h) (hop_nodes h ts)) (seq 0 (L - l + 1)).
Lemma item_hidden l ts h : h < L - l + 1 -> AttModel.item (hidden l ts) h = Ok (map (learn l h) (hop_nodes h ts)).
Proof.
  intros H. unfold hidden. rewrite (item_ok _ _ []) by (rewrite map_length, seq_length; lia). now rewrite nth_map_seq.
Qed.
Lemma combine_maps' {A B C} (f : A -> B) (h : A -> C) l : combine (map f l) (map h l) = map (fun x => (f x, h x)) l.
Proof. apply combine_maps. Qed.
Lemma lgcl_hop_learn l hop ts : l < L -> hop < L - l -> Forall (full fanouts) ts ->
  lgcl_hop g fanouts (hidden l ts) (width l) l hop = Ok (map (learn (S l) hop) (hop_nodes hop ts)).
Proof.
  intros Hl Hhop F. unfold lgcl_hop.
  rewrite (item_ok fanouts hop 0), (item_ok (g_ks g) hop 0) by lia. cbn [bind].
  rewrite !item_hidden by lia. cbn [bind].
  assert (E : map (learn l (S hop)) (hop_nodes (S hop) ts) = concat (map (fun t => map (learn l (S hop)) (children t)) (hop_nodes hop ts))).
  { cbn [hop_nodes]. rewrite flat_map_concat_map, concat_map, map_map. reflexivity. }
  rewrite E. rewrite TfSageProofs.reshape_groups.
  2:{ rewrite Forall_forall in Hf. apply Hf, nth_In. lia. }
  2:{ apply width_pos'. lia. }
  2:{ rewrite Forall_forall. intros q Hq. apply in_map_iff in Hq. destruct Hq as (t & <- & Ht). rewrite map_length. split.
      - now apply full_children with (ts := ts); [lia| |].
      - rewrite Forall_forall. intros r Hr. apply in_map_iff in Hr. destruct Hr as (u & <- & _). apply learn_width. lia. }
  cbn [bind]. rewrite (mapM_all_ok _ (best (nth hop (g_ks g) 0) (width l))).
  2:{ intros q Hq. apply in_map_iff in Hq. destruct Hq as (t & <- & Ht). apply topk_best. rewrite map_length.
      rewrite (full_children hop ts t) by (auto; lia). apply Hk. lia. }
  cbn [bind]. rewrite !map_length, Nat.eqb_refl. rewrite map_map, combine_maps', map_map. cbn [fst snd].
  change (nth l (g_hidden g) 0) with (width (S l)).
  assert (R : forall m, m = map (residual l) (map (learn l hop) (hop_nodes hop ts)) ->
     add_rows (squeeze (map (fun t => g_conv g l hop (learn l hop t :: best (nth hop (g_ks g) 0) (width l) (map (learn l (S hop)) (children t)))) (hop_nodes hop ts))) m
     = Ok (map (learn (S l) hop) (hop_nodes hop ts))).
  { intros m ->. rewrite add_same by (now rewrite !map_length). rewrite map_map, combine_maps', map_map. reflexivity. }
  destruct (Nat.eqb_spec (width l) (width (S l))) as [W|W].
  - destruct Hres as [One|D]; [|exfalso; now apply (D l Hl)]. assert (hop = 0) by lia. subst hop. apply R.
    rewrite map_map. apply map_ext. intros t. unfold ConvSpec.residual. now rewrite W, Nat.eqb_refl.
  - apply R. apply map_ext_in. intros x _. unfold ConvSpec.residual. destruct (Nat.eqb_spec (width l) (width (S l))); [contradiction|reflexivity].
Qed.
Lemma lgcl_layers_learn n l ts : l + n = L -> Forall (full fanouts) ts ->
  lgcl_layers g fanouts n l (width l) (hidden l ts) = Ok (hidden L ts).
Proof.
  revert l. induction n as [|n IH]; intros l E F; cbn [lgcl_layers]; [now replace l with L by lia|].
  rewrite (mapM_all_ok _ (fun hop => map (learn (S l) hop) (hop_nodes hop ts))).
  2:{ intros hop Hhop. apply in_seq in Hhop. apply lgcl_hop_learn; auto; lia. }
  cbn [bind]. replace (L - l) with (L - S l + 1) by lia. change (nth l (g_hidden g) 0) with (width (S l)).
  apply IH; [lia|exact F].
Qed.
Theorem lgcl_learns ts : Forall (full fanouts) ts ->
  lgcl_forward g fanouts in_features (map (fun h => map (fun t => feat (root t)) (hop_nodes h ts)) (seq 0 (L + 1))) =
  Ok (map (learn L 0) ts).
Proof.
  intros F. unfold lgcl_forward.
  replace (map (fun h => map (fun t => feat (root t)) (hop_nodes h ts)) (seq 0 (L + 1))) with (hidden 0 ts)
    by (unfold hidden; now rewrite Nat.sub_0_r).
  change in_features with (width 0) at 1. rewrite (lgcl_layers_learn L 0 ts) by auto. cbn [bind]. rewrite item_hidden by lia. reflexivity.
Qed.
End Lgcl.

(** Concatenation: more than one row. *)
Theorem lgcl_concat_rows g best f w k x groups :
  (forall k w rows, k <= length rows -> top_rows k w rows (best k w rows)) ->
  g_ks g = [k] -> 0 < w -> k <= f -> 0 < f -> length x <> 1 -> length groups = length x ->
  Forall (fun q => length q = f /\ Forall (fun r => length r = w) q) groups ->
  lgcl_concat g f w x (concat groups) =
  Ok (map (fun p => (g_conv g 0 0 (fst p :: best k w (snd p)) ++ fst p)%list) (combine x groups)).
Proof.
  intros Hb K Hw Hk Hf H1 Lg F. unfold lgcl_concat. rewrite K. cbn [AttModel.item nth_error bind].
  rewrite TfSageProofs.reshape_groups by assumption. cbn [bind].
  rewrite (mapM_all_ok _ (best k w)).
  2:{ intros q Hq. rewrite Forall_forall in F. destruct (F q Hq) as [A _]. apply (topk_best best Hb). lia. }
  cbn [bind]. rewrite map_length, Lg, Nat.eqb_refl.
  set (m := map (fun p => g_conv g 0 0 (fst p :: snd p)) (combine x (map (best k w) groups))).
  assert (Lm : length m = length x) by (unfold m; rewrite map_length, combine_length, map_length; lia).
  assert (S : squeeze m = Rows m) by (destruct m as [|a [|b m']]; try reflexivity; cbn in Lm; lia).
  rewrite S. cbn [cat_rows]. rewrite Lm, Nat.eqb_refl. f_equal. unfold m. clear.
  revert groups. induction x as [|a x IH]; intros [|q groups]; try reflexivity. cbn. now rewrite IH.
Qed.

(** ** Fusion of types *)
Local Open Scope Q_scope.
Theorem het_attends ex (G : good_exp ex) att d node embeds :
  Forall (shape (length node) d) embeds -> shape (length node) d node ->
  let ms := (embeds ++ [node])%list in
  shape (length node) d (het_fuse ex att d node embeds) /\
  forall b k, (b < length node)%nat -> (k < d)%nat ->
    attends ex (seq 0 (length ms)) (fun t => lrelu (1 # 100) (att (nth b node [] ++ nth b (nth t ms []) [])%list))
            (fun t => cell (nth t ms []) b k) (cell (het_fuse ex att d node embeds) b k).
Proof.
  intros Fe Fn ms. unfold het_fuse. fold ms. split; [apply weighted_shape|].
  intros b k Hb Hk. unfold cell at 2. rewrite nth_map_seq by exact Hb.
  set (rowf := fun t => nth b (nth t ms []) []).
  assert (M : map (fun m => nth b m []) ms = map rowf (seq 0 (length ms))).
  { unfold rowf. rewrite <- (map_seq_nth [] ms) at 1. now rewrite map_map. }
  rewrite M, map_map.
  set (sc := fun t => leaky (1 # 100) (att (nth b node [] ++ rowf t)%list)).
  assert (N : ms <> []) by (unfold ms; now destruct embeds).
  rewrite weighted_nth by exact Hk.
  apply attends_ext with (sc := sc) (val := fun j => nth k (rowf j) 0)
    (y := qsum (fun p => snd p * nth k (fst p) 0) (combine (map rowf (seq 0 (length ms))) (softmax ex (map sc (seq 0 (length ms)))))).
  - exact G.
  - intros t _. apply leaky_lrelu.
  - intros t _. reflexivity.
  - reflexivity.
  - apply soft_attends; [exact G|]. destruct ms; [congruence|discriminate].
Qed.

(** ** LSTM *)
Local Open Scope nat_scope.
Lemma filter_repeat n m : length (filter (fun b : bool => b) (repeat true n ++ repeat false m)) = n.
Proof.
  rewrite filter_app, app_length. assert (A : forall n, length (filter (fun b : bool => b) (repeat true n)) = n) by (induction n0; cbn; auto).
  assert (B : forall m, length (filter (fun b : bool => b) (repeat false m)) = 0) by (induction m0; cbn; auto). rewrite A, B. lia.
Qed.
Theorem lstm_prefix {A} max_len counts (outputs : list (list A)) d :
  0 < max_len -> length counts = length outputs -> Forall (fun o => length o = max_len) outputs ->
  Forall (fun n => 1 <= n <= max_len) counts ->
  lstm_gather max_len (map (fun n => repeat true n ++ repeat false (max_len - n))%list counts) outputs =
  Ok (map (fun p => nth (fst p - 1) (snd p) d) (combine counts outputs)).
Proof.
  intros Hm L Fo Fc. rewrite (TfSageProofs.lstm_last max_len _ outputs d).
  - f_equal. revert outputs L Fo. induction Fc as [|n counts Hn Fc IH]; intros [|o outputs] L Fo; try reflexivity.
    cbn [map combine fst snd]. inversion Fo; subst. f_equal; [|apply IH; [cbn in L; lia|assumption]].
    unfold lstm_length. rewrite filter_repeat. f_equal. lia.
  - exact Hm.
  - now rewrite map_length.
  - exact Fo.
  - rewrite Forall_forall in *. intros u Hu. apply in_map_iff in Hu. destruct Hu as (n & <- & Hn). specialize (Fc n Hn).
    rewrite app_length, !repeat_length. lia.
Qed.
