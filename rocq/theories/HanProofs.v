From Coq Require Import QArith Qround Lqa.
From Verif Require Import Base Dist AttModel AttSpec AttProofs MetricModel MetricSpec MetricProofs HanModel HanSpec.
Local Open Scope nat_scope.

Lemma nth_firstn {A} (l : list A) d : forall i j, j < i -> nth j (firstn i l) d = nth j l d.
Proof. induction l as [|x l IH]; intros [|i] [|j] H; cbn; try lia; try reflexivity. apply IH. lia. Qed.
Lemma nth_skipn {A} (l : list A) d : forall i j, nth j (skipn i l) d = nth (i + j) l d.
Proof. induction l as [|x l IH]; intros [|i] j; cbn; try reflexivity; [now destruct j|]. apply IH. Qed.

(** ** Reshaping *)
Lemma reshape_ok {A} w n (l : list A) : 0 < w -> length l = n * w -> reshape w l = Ok (chunks w n l).
Proof.
  intros W L. unfold reshape. rewrite (proj2 (Nat.eqb_neq w 0)) by lia. rewrite L, Nat.mod_mul by lia.
  rewrite Nat.div_mul by lia. reflexivity.
Qed.
Lemma reshape_fail {A} w (l : list A) : length l mod w <> 0 -> reshape w l = Fail EAssert.
Proof. intros H. unfold reshape. destruct (w =? 0) eqn:E; [reflexivity|]. now rewrite (proj2 (Nat.eqb_neq _ _) H). Qed.
Lemma chunk_cell {A} (d : A) w n : forall l i p, i < n -> p < w -> nth p (nth i (chunks w n l) []) d = nth (i * w + p) l d.
Proof.
  induction n as [|n IH]; intros l i p Hi Hp; [lia|]. cbn [chunks]. destruct i as [|i].
  - cbn [nth Nat.mul Nat.add]. now apply nth_firstn.
  - cbn [nth]. rewrite IH by lia. rewrite nth_skipn. f_equal. lia.
Qed.
Lemma chunk_width {A} w n : forall (l : list A), length l = n * w -> Forall (fun r => length r = w) (chunks w n l).
Proof.
  induction n as [|n IH]; intros l L; cbn [chunks]; [constructor|]. constructor.
  - rewrite firstn_length. cbn in L. lia.
  - apply IH. rewrite skipn_length. cbn in L. lia.
Qed.
Lemma concat_chunks {A} w n : forall (l : list A), length l = n * w -> concat (chunks w n l) = l.
Proof.
  induction n as [|n IH]; intros l L; cbn [chunks concat]; [now destruct l|].
  rewrite IH by (rewrite skipn_length; cbn in L; lia). apply firstn_skipn.
Qed.
Lemma product_pos l : Forall (fun c => 0 < c) l -> 0 < product l.
Proof. unfold product. induction 1 as [|c l H F IH]; cbn [fold_right]; lia. Qed.

Lemma slice_path p i : (i + 1) * length (p_nb p) <= length (p_types p) ->
  slice_types p i = path_types (p_types p) (length (p_nb p)) i.
Proof.
  intros H. unfold slice_types, path_types. set (h := length (p_nb p)) in *.
  replace ((i + 1) * h - i * h) with h by lia.
  apply nth_ext with (d := []) (d' := []).
  - rewrite firstn_length, skipn_length, map_length, seq_length. lia.
  - intros j Hj. rewrite firstn_length, skipn_length in Hj. rewrite nth_firstn by lia. rewrite nth_skipn.
    rewrite (nth_map_seq (fun s => nth (i * h + s) (p_types p) [])) by lia. reflexivity.
Qed.
Lemma slice_len p i : (i + 1) * length (p_nb p) <= length (p_types p) -> length (slice_types p i) = length (p_nb p).
Proof. intros H. rewrite slice_path by exact H. unfold path_types. now rewrite map_length, seq_length. Qed.

Lemma map_fst_combine {A B} (a : list A) : forall (b : list B), length a = length b -> map fst (combine a b) = a.
Proof. induction a as [|x a IH]; intros [|y b] H; cbn in *; try reflexivity; try lia. f_equal. apply IH. lia. Qed.
Lemma map_snd_combine {A B} (a : list A) : forall (b : list B), length a = length b -> map snd (combine a b) = b.
Proof. induction a as [|x a IH]; intros [|y b] H; cbn in *; try reflexivity; try lia. f_equal. apply IH. lia. Qed.

(** ** The query *)
Section Query.
Variable smp : nat -> list Z -> list Z -> nat -> Z -> list Z.
Variable feat : Z -> list Q.
Variable lab : Z -> list Z.
Variable R : list Z -> Z -> Z -> Z -> Prop.
Hypothesis S : samples smp R.

Lemma fan_walk dflt : forall path k nodes,
  Forall (fun c => 0 < c) (map snd path) ->
  length (snd (fan smp k nodes path dflt)) = length nodes * product (map snd path) /\
  forall j, j < length nodes * product (map snd path) ->
    walk R dflt (map fst path) (nth (j / product (map snd path)) nodes 0%Z) (nth j (snd (fan smp k nodes path dflt)) 0%Z).
Proof.
  induction path as [|[types c] path IH]; intros k nodes F.
  - cbn [map fst snd fan]. change (product []) with 1. split; [lia|]. intros j Hj. rewrite Nat.div_1_r. constructor.
  - cbn [map fst snd fan]. inversion F as [|? ? Hc F']; subst. cbn [map snd] in Hc, F'.
    destruct (S k nodes types c dflt) as [L W].
    destruct (IH (Datatypes.S k) (smp k nodes types c dflt) F') as [L' W']. pose proof (product_pos _ F') as P.
    change (product (c :: map snd path)) with (c * product (map snd path)).
    set (P' := product (map snd path)) in *. split.
    + rewrite L', L. lia.
    + intros j Hj. rewrite L in W'. assert (Hj' : j < length nodes * c * P') by lia.
      econstructor; [|apply W'; exact Hj'].
      assert (Hd : j / P' < length nodes * c) by (apply Nat.div_lt_upper_bound; lia).
      specialize (W _ Hd). rewrite Nat.div_div in W by lia. rewrite (Nat.mul_comm P' c) in W. exact W.
Qed.

Definition good_path (p : params) (inputs : list Z) (i : nat) (r : mat * list mat) : Prop :=
  fst r = map feat inputs /\ length (snd r) = length inputs /\
  Forall (fun g => length g = product (p_nb p)) (snd r) /\
  forall n q, n < length inputs -> q < product (p_nb p) ->
    exists y, walk R (p_max p + 1)%Z (path_types (p_types p) (length (p_nb p)) i) (nth n inputs 0%Z) y /\
              nth q (nth n (snd r) []) [] = feat y.

Lemma metapath_good p inputs k i :
  Forall (fun c => 0 < c) (p_nb p) -> 0 < p_dim p -> (i + 1) * length (p_nb p) <= length (p_types p) ->
  exists k' r, metapath smp feat p inputs k i = Ok (k', r) /\ good_path p inputs i r.
Proof.
  intros F D H. unfold metapath. pose proof (slice_len p i H) as Ls. pose proof (slice_path p i H) as Es.
  pose proof (fan_walk (p_max p + 1)%Z (combine (slice_types p i) (p_nb p)) k inputs) as W.
  rewrite map_snd_combine, map_fst_combine in W by exact Ls. specialize (W F). rewrite Es in W. rewrite Es.
  destruct (fan smp k inputs _ _) as [k' last]. cbn [snd] in W. destruct W as [L W].
  pose proof (product_pos _ F) as P. set (T := product (p_nb p)) in *.
  rewrite (reshape_ok T (length inputs)) by (auto with arith). cbn [bind].
  rewrite (proj2 (Nat.eqb_neq (p_dim p) 0)) by lia. rewrite concat_chunks by exact L.
  rewrite (reshape_ok T (length inputs)) by (try rewrite map_length; auto with arith). cbn [bind].
  eexists. eexists. split; [reflexivity|]. unfold good_path. cbn [fst snd]. fold T.
  split; [reflexivity|]. split; [apply chunks_length|]. split; [apply chunk_width; now rewrite map_length|].
  intros n q Hn Hq. assert (Hj : n * T + q < length inputs * T) by nia.
  specialize (W _ Hj). rewrite Nat.div_add_l in W by lia. rewrite (Nat.div_small q T) in W by exact Hq. rewrite Nat.add_0_r in W.
  eexists. split; [exact W|]. rewrite chunk_cell by assumption. apply nth_map_in. rewrite L. exact Hj.
Qed.

Lemma metapaths_good p inputs : Forall (fun c => 0 < c) (p_nb p) -> 0 < p_dim p -> forall is k,
  Forall (fun i => (i + 1) * length (p_nb p) <= length (p_types p)) is ->
  exists l, metapaths smp feat p inputs k is = Ok l /\ Forall2 (good_path p inputs) is l.
Proof.
  intros F D. induction is as [|i is IH]; intros k A; cbn [metapaths].
  - exists []. split; [reflexivity|constructor].
  - inversion A as [|? ? Hi A']; subst. destruct (metapath_good p inputs k i F D Hi) as (k' & r & E & G). rewrite E. cbn [bind fst snd].
    destruct (IH k' A') as (l & El & Gl). rewrite El. cbn [bind]. eexists. split; [reflexivity|]. now constructor.
Qed.

Lemma forall2_seq {A} (P : nat -> A -> Prop) d n : forall a l, Forall2 P (seq a n) l ->
  length l = n /\ forall m, m < n -> P (a + m) (nth m l d).
Proof.
  induction n as [|n IH]; intros a l H; inversion H as [|? y ? l' Hy H']; subst; cbn [length].
  - split; [reflexivity|]. intros m Hm. lia.
  - destruct (IH _ _ H') as [L X]. split; [lia|]. intros [|m] Hm; [now rewrite Nat.add_0_r|]. cbn [nth].
    replace (a + Datatypes.S m) with (Datatypes.S a + m) by lia. apply X. lia.
Qed.

Theorem query_good p inputs :
  Forall (fun c => 0 < c) (p_nb p) -> p_nb p <> [] -> 0 < p_dim p ->
  exists b, query smp feat lab p inputs = Ok b /\ b_src b = inputs /\
    (p_label p <> (-1)%Z -> b_label b = map (fun v => map Some (lab v)) inputs) /\
    length (b_node b) = length (p_types p) / length (p_nb p) /\
    length (b_nbr b) = length (p_types p) / length (p_nb p) /\
    forall m, m < length (p_types p) / length (p_nb p) ->
      nth m (b_node b) [] = map feat inputs /\ length (nth m (b_nbr b) []) = length inputs /\
      Forall (fun g => length g = product (p_nb p)) (nth m (b_nbr b) []) /\
      forall n q, n < length inputs -> q < product (p_nb p) ->
        exists y, walk R (p_max p + 1)%Z (path_types (p_types p) (length (p_nb p)) m) (nth n inputs 0%Z) y /\
                  nth q (nth n (nth m (b_nbr b) []) []) [] = feat y.
Proof.
  intros F N D. assert (H0 : 0 < length (p_nb p)) by (destruct (p_nb p); [congruence|cbn; lia]).
  unfold query, metapath_num. rewrite (proj2 (Nat.eqb_neq (length (p_nb p)) 0)) by lia. cbn [bind].
  set (M := length (p_types p) / length (p_nb p)).
  destruct (metapaths_good p inputs F D (seq 0 M) 0) as (l & E & G).
  { apply Forall_forall. intros i Hi. apply in_seq in Hi.
    pose proof (Nat.mul_div_le (length (p_types p)) (length (p_nb p))). unfold M in Hi. nia. }
  rewrite E. cbn [bind]. eexists. split; [reflexivity|]. cbn [b_src b_label b_node b_nbr].
  destruct (forall2_seq _ ([], []) _ _ _ G) as [L X]. rewrite !map_length.
  refine (conj eq_refl (conj _ (conj L (conj L _)))).
  - intros H. unfold labels. rewrite (proj2 (Z.eqb_neq _ _) H). reflexivity.
  - intros m Hm. destruct (X m Hm) as (X1 & X2 & X3 & X4). cbn [Nat.add] in *.
    rewrite (nth_map_in fst l m [] ([], [])) by lia. rewrite (nth_map_in snd l m [] ([], [])) by lia. auto.
Qed.
End Query.

(** Edge types that do not fill a metapath. *)
Lemma slice_prefix p q extra i : p_nb q = p_nb p -> p_types q = p_types p ++ extra ->
  (i + 1) * length (p_nb p) <= length (p_types p) -> slice_types q i = slice_types p i.
Proof.
  intros N T H. rewrite !slice_path; [|exact H|rewrite N, T, app_length; lia]. unfold path_types. rewrite N, T.
  apply map_ext_in. intros s Hs. apply in_seq in Hs. apply app_nth1. nia.
Qed.
Lemma metapaths_prefix smp feat p q extra inputs : p_nb q = p_nb p -> p_types q = p_types p ++ extra -> p_max q = p_max p ->
  p_dim q = p_dim p -> forall is k, Forall (fun i => (i + 1) * length (p_nb p) <= length (p_types p)) is ->
  metapaths smp feat q inputs k is = metapaths smp feat p inputs k is.
Proof.
  intros N T X D. induction is as [|i is IH]; intros k F; [reflexivity|]. inversion F as [|? ? Hi F']; subst. cbn [metapaths].
  unfold metapath. rewrite (slice_prefix p q extra i N T Hi), N, X, D.
  destruct (fan smp k inputs _ _) as [k' last]. destruct (reshape _ last); [|reflexivity]. cbn [bind].
  destruct (p_dim p =? 0); [reflexivity|]. destruct (reshape _ _); [|reflexivity]. cbn [bind fst]. now rewrite IH.
Qed.
Theorem leftover smp feat lab p extra inputs :
  length (p_types p) mod length (p_nb p) = 0 -> length extra < length (p_nb p) ->
  query smp feat lab (Params (p_types p ++ extra) (p_nb p) (p_max p) (p_dim p) (p_label p) (p_label_dim p)) inputs =
  query smp feat lab p inputs.
Proof.
  intros M L. unfold query, metapath_num. cbn [p_types p_nb]. rewrite (proj2 (Nat.eqb_neq (length (p_nb p)) 0)) by lia. cbn [bind].
  assert (E : length (p_types p ++ extra) / length (p_nb p) = length (p_types p) / length (p_nb p)).
  { rewrite app_length. pose proof (Nat.div_mod (length (p_types p)) (length (p_nb p))) as X. rewrite M in X.
    rewrite X at 1 by lia. rewrite Nat.add_0_r, Nat.mul_comm, Nat.div_add_l by lia. rewrite (Nat.div_small (length extra)) by exact L. lia. }
  rewrite E. rewrite (metapaths_prefix smp feat p _ extra); try reflexivity.
  apply Forall_forall. intros i Hi. apply in_seq in Hi. pose proof (Nat.mul_div_le (length (p_types p)) (length (p_nb p))). nia.
Qed.

(** ** The encoder *)
Lemma flat_seq {A} (f : nat -> A) w : forall n a,
  concat (map (fun g => map (fun i => f (g * w + i)) (seq 0 w)) (seq a n)) = map f (seq (a * w) (n * w)).
Proof.
  induction n as [|n IH]; intros a; [reflexivity|]. cbn [seq map concat]. rewrite IH.
  change (S n * w) with (w + n * w). rewrite seq_app, map_app. f_equal.
  - rewrite <- (map_map (fun i => a * w + i) f). f_equal. apply nth_ext with (d := 0) (d' := 0).
    + now rewrite map_length, !seq_length.
    + intros j Hj. rewrite map_length, seq_length in Hj. rewrite (nth_map_seq (fun i => a * w + i)) by exact Hj. rewrite seq_nth by exact Hj. lia.
  - f_equal. f_equal. lia.
Qed.
Lemma firsts {A} (l : list (list A)) T n : 0 < T -> length l = n * T ->
  map (hd []) (chunks T n l) = map (fun i => nth (i * T) l []) (seq 0 n).
Proof.
  intros H L. apply nth_ext with (d := []) (d' := []).
  - now rewrite !map_length, chunks_length, seq_length.
  - intros i Hi. rewrite map_length, chunks_length in Hi. rewrite (nth_map_seq (fun i => nth (i * T) l [])) by exact Hi.
    rewrite (nth_map_in (hd []) (chunks T n l) i [] []) by (rewrite chunks_length; exact Hi).
    rewrite <- (Nat.add_0_r (i * T)). rewrite <- (chunk_cell [] T n l i 0 Hi H). now destruct (nth i (chunks T n l) []).
Qed.
Lemma concat_nth {A} (d : A) T : forall (ls : list (list A)) i k, Forall (fun r => length r = T) ls -> i < length ls -> k < T ->
  nth (i * T + k) (concat ls) d = nth k (nth i ls []) d.
Proof.
  induction ls as [|x ls IH]; intros i k F Hi Hk; cbn [length] in Hi; [lia|]. inversion F as [|? ? Lx F']; subst. cbn [concat].
  destruct i as [|i].
  - cbn [nth]. apply app_nth1. lia.
  - rewrite app_nth2 by nia. cbn [nth]. rewrite <- (IH i k F') by lia. f_equal. nia.
Qed.
Lemma concat_len {A} T : forall ls : list (list A), Forall (fun r => length r = T) ls -> length (concat ls) = length ls * T.
Proof. induction 1 as [|x ls L F IH]; [reflexivity|]. cbn [concat length]. rewrite app_length, IH, L. lia. Qed.
Lemma header_len ex h s : length (attention_header ex h s) = length s.
Proof. unfold attention_header, logits. now rewrite !map_length. Qed.

Section Encoder.
Variable ex : Q -> Q.
Variable hds : nat -> head.
Variable score : list Q -> Q.

Lemma multi_head_rows w T hs seqs : 0 < w -> hs <> [] -> Forall (fun s => length s = T) seqs ->
  (length seqs * T) mod w = 0 ->
  exists out, multi_head ex w hs seqs = Ok out /\
    concat out = map (fun q => concat (map (fun h => nth q (concat (map (attention_header ex h) seqs)) []) hs)) (seq 0 (length seqs * T)).
Proof.
  intros W H F M. set (G := length seqs * T / w). assert (E : length seqs * T = G * w).
  { pose proof (Nat.div_mod (length seqs * T) w). unfold G. lia. }
  assert (L : forall h, length (concat (map (attention_header ex h) seqs)) = G * w).
  { intros h. rewrite <- E. rewrite (concat_len T); [now rewrite map_length|]. apply Forall_map. eapply Forall_impl; [|exact F].
    intros s Hs. cbn beta. now rewrite header_len. }
  unfold multi_head. rewrite (mapM_all_ok _ (fun h => chunks w G (concat (map (attention_header ex h) seqs)))).
  2:{ intros h _. apply reshape_ok; [exact W|apply L]. }
  cbn [bind]. destruct hs as [|h0 hs]; [congruence|]. cbn [map]. rewrite chunks_length. eexists. split; [reflexivity|].
  rewrite E. refine (eq_trans _ (flat_seq (fun q => concat (map (fun h => nth q (concat (map (attention_header ex h) seqs)) []) (h0 :: hs))) w G 0)).
  f_equal. apply map_ext_in. intros g Hg. apply in_seq in Hg. unfold concat_rows. apply map_ext_in. intros i Hi. apply in_seq in Hi.
  f_equal. cbn [map]. f_equal.
  - rewrite chunk_cell by lia. reflexivity.
  - rewrite map_map, map_map. apply map_ext. intros h. rewrite chunk_cell by lia. reflexivity.
Qed.

(** The embedding of one node for one metapath. *)
Definition first_rows (hs : list head) (s : mat) : list Q := concat (map (fun h => nth 0 (attention_header ex h s) []) hs).

Lemma one_path_rows m nb n i nodes nbrs N :
  i < m -> 0 < n -> length nodes = N -> length nbrs = N -> Forall (fun g => length g = product nb) nbrs ->
  one_path ex hds m nb [n] (seq 0 (m * n)) i nodes nbrs =
  if (N * (product nb + 1)) mod (total_of nb + 1) =? 0
  then Ok (map (fun v => first_rows (map hds (seq 0 n)) (nth v nodes [] :: nth v nbrs [])) (seq 0 N))
  else Fail EAssert.
Proof.
  intros Hi Hn L1 L2 F. unfold one_path. cbn [length seq through]. rewrite han_shared by exact Hi. cbn [bind].
  set (seqs := zip_with cons nodes nbrs). set (T := product nb + 1). set (w := total_of nb + 1).
  assert (Ls : length seqs = N) by (unfold seqs, zip_with; rewrite map_length, combine_length; lia).
  assert (Fs : Forall (fun s => length s = T) seqs).
  { unfold seqs, zip_with. apply Forall_map. apply Forall_forall. intros [a b] I. cbn [fst snd length].
    apply in_combine_r in I. rewrite Forall_forall in F. rewrite (F _ I). unfold T. lia. }
  assert (Hs : map hds (seq 0 n) <> []) by (destruct n; [lia|discriminate]).
  destruct ((N * T) mod w =? 0) eqn:E.
  - apply Nat.eqb_eq in E. destruct (multi_head_rows w T (map hds (seq 0 n)) seqs) as (out & Eo & Ec); auto; [unfold w; lia|now rewrite Ls|].
    rewrite Eo. cbn [bind]. rewrite Ec, Ls. set (rows := map _ (seq 0 (N * T))).
    assert (Lr : length rows = N * T) by (unfold rows; now rewrite map_length, seq_length).
    rewrite (reshape_ok T N) by (auto; unfold T; lia). cbn [bind]. f_equal. rewrite firsts by (auto; unfold T; lia).
    apply map_ext_in. intros v Hv. apply in_seq in Hv. unfold rows.
    rewrite (nth_map_seq (fun q => concat (map (fun h => nth q (concat (map (attention_header ex h) seqs)) []) (map hds (seq 0 n))))) by (unfold T; nia).
    unfold first_rows. f_equal. apply map_ext. intros h. rewrite <- (Nat.add_0_r (v * T)). rewrite (concat_nth [] T).
    2:{ apply Forall_map. eapply Forall_impl; [|exact Fs]. intros s Hs'. cbn beta. now rewrite header_len. }
    2:{ rewrite map_length. lia. } 2:{ unfold T. lia. }
    f_equal. rewrite (nth_map_in _ seqs v [] []) by lia. f_equal. unfold seqs, zip_with.
    rewrite (nth_map_in _ (combine nodes nbrs) v [] ([], [])) by (rewrite combine_length; lia).
    rewrite combine_nth by lia. reflexivity.
  - apply Nat.eqb_neq in E. unfold multi_head. destruct n as [|n]; [lia|]. cbn [seq map mapM].
    rewrite reshape_fail; [reflexivity|]. rewrite (concat_len T).
    + rewrite map_length, Ls. exact E.
    + apply Forall_map. eapply Forall_impl; [|exact Fs]. intros s Hs'. cbn beta. now rewrite header_len.
Qed.

Lemma mapM_fail_first {A B} (f : A -> res B) a l e : f a = Fail e -> mapM f (a :: l) = Fail e.
Proof. intros H. cbn [mapM]. rewrite H. reflexivity. Qed.

Lemma encode_rows types nb n d nodes nbrs M N :
  metapath_num types nb = Ok M -> 0 < M -> 0 < n -> shaped M N (product nb) nodes nbrs ->
  encode ex hds score true types nb [n] (seq 0 (M * n)) d nodes nbrs =
  if (N * (product nb + 1)) mod (total_of nb + 1) =? 0
  then Ok (map (fun v => simple_att ex score d
            (map (fun m => first_rows (map hds (seq 0 n)) (nth v (nth m nodes []) [] :: nth v (nth m nbrs []) [])) (seq 0 M))) (seq 0 N))
  else Fail EAssert.
Proof.
  intros EM HM Hn (L1 & L2 & X). unfold encode. rewrite EM. cbn [bind].
  destruct ((N * (product nb + 1)) mod (total_of nb + 1) =? 0) eqn:E.
  - rewrite (mapM_all_ok _ (fun m => map (fun v => first_rows (map hds (seq 0 n)) (nth v (nth m nodes []) [] :: nth v (nth m nbrs []) [])) (seq 0 N))).
    2:{ intros m Hm. apply in_seq in Hm. destruct (X m) as (X1 & X2 & X3); [lia|].
        rewrite (item_ok nodes m []) by lia. cbn [bind]. rewrite (item_ok nbrs m []) by lia. cbn [bind].
        rewrite (one_path_rows M nb n m _ _ N) by (auto; lia). now rewrite E. }
    cbn [bind]. set (es := map _ (seq 0 M)).
    assert (Ee : forall v, v < N -> map (fun x => nth v x []) es =
      map (fun m => first_rows (map hds (seq 0 n)) (nth v (nth m nodes []) [] :: nth v (nth m nbrs []) [])) (seq 0 M)).
    { intros v Hv. unfold es. rewrite map_map. apply map_ext. intros m.
      apply (nth_map_seq (fun v => first_rows (map hds (seq 0 n)) (nth v (nth m nodes []) [] :: nth v (nth m nbrs []) []))). exact Hv. }
    assert (Le : Forall (fun e => length e = N) es).
    { unfold es. apply Forall_map. apply Forall_forall. intros m _. now rewrite map_length, seq_length. }
    assert (Ne : es <> []) by (unfold es; destruct M; [lia|discriminate]).
    clearbody es. destruct es as [|e es]; [congruence|]. inversion Le as [|? ? Le0 _]; subst. f_equal.
    apply map_ext_in. intros v Hv. apply in_seq in Hv. now rewrite Ee by lia.
  - destruct M as [|M]; [lia|]. cbn [seq]. rewrite (mapM_fail_first _ _ _ EAssert); [reflexivity|].
    destruct (X 0) as (X1 & X2 & X3); [lia|].
    rewrite (item_ok nodes 0 []) by lia. cbn [bind]. rewrite (item_ok nbrs 0 []) by lia. cbn [bind].
    rewrite (one_path_rows (S M) nb n 0 _ _ N) by (auto; lia). now rewrite E.
Qed.

Hypothesis G : good_exp ex.
Theorem encoder types nb n hidden cell0 d nodes nbrs M N :
  create types nb [n] hidden = Ok cell0 -> metapath_num types nb = Ok M -> 0 < M -> 0 < n ->
  shaped M N (product nb) nodes nbrs ->
  (forall a, a < n -> h_dim (hds a) = d) ->
  (forall m v a, m < M -> v < N -> a < n -> fits (hds a) (nth v (nth m nodes []) [] :: nth v (nth m nbrs []) [])) ->
  (N * (product nb + 1)) mod (total_of nb + 1) = 0 ->
  exists out E, encode ex hds score true types nb [n] cell0 (n * d) nodes nbrs = Ok out /\ length out = N /\
    forall v, v < N ->
      (forall m, m < M -> length (E m v) = n * d /\
        forall a k, a < n -> k < d -> 
          let s := nth v (nth m nodes []) [] :: nth v (nth m nbrs []) [] in
          exists y, attends ex (seq 0 (product nb + 1)) (sc_head (hds a) s 0) (fun j => cell (fts_of (hds a) s) j k) y /\
                    nth (a * d + k) (E m v) 0%Q = h_act (hds a) (y + nth k (h_bias (hds a)) 0)%Q) /\
      length (nth v out []) = n * d /\
      forall k, k < n * d -> attends ex (seq 0 M) (fun m => score (E m v)) (fun m => nth k (E m v) 0%Q) (cell out v k).
Proof.
  intros C EM HM Hn X Hd Hf Hdiv.
  assert (Ec : cell0 = seq 0 (M * n)).
  { unfold create in C. cbn [length] in C. destruct (1 =? 0); [discriminate|]. destruct (length hidden =? 0); [discriminate|].
    destruct (negb _); [discriminate|]. destruct (item types 0); [|discriminate]. cbn [bind] in C. destruct (item nb 0); [|discriminate].
    cbn [bind] in C. rewrite EM in C. cbn [bind] in C. rewrite han_one in C. congruence. }
  subst cell0. eexists. exists (fun m v => first_rows (map hds (seq 0 n)) (nth v (nth m nodes []) [] :: nth v (nth m nbrs []) [])).
  rewrite (encode_rows types nb n _ nodes nbrs M N) by assumption. rewrite Hdiv. cbn [Nat.eqb]. split; [reflexivity|].
  split; [now rewrite map_length, seq_length|]. intros v Hv.
  assert (Hrow : forall m, m < M -> Forall (fun r => length r = d) (map (fun h => nth 0 (attention_header ex h (nth v (nth m nodes []) [] :: nth v (nth m nbrs []) [])) []) (map hds (seq 0 n)))).
  { intros m Hm. rewrite map_map. apply Forall_map. apply Forall_forall. intros a Ha. apply in_seq in Ha.
    destruct (header ex G (hds a) _ (Hf m v a Hm Hv ltac:(lia))) as [[Sl Sw] _]. rewrite Forall_forall in Sw.
    rewrite (Sw (nth 0 (attention_header ex (hds a) _) [])); [apply Hd; lia|]. apply nth_In. rewrite Sl. cbn [length]. lia. }
  split; [|split].
  - intros m Hm. split.
    + unfold first_rows. rewrite (concat_len d) by (apply Hrow; exact Hm). now rewrite !map_length, seq_length.
    + intros a k Ha Hk. cbn zeta. destruct (header ex G (hds a) _ (Hf m v a Hm Hv Ha)) as [_ Y].
      destruct (Y 0 k) as (y & Y1 & Y2); [cbn [length]; lia|rewrite Hd by exact Ha; exact Hk|]. exists y. split.
      * destruct X as (_ & _ & X). destruct (X m Hm) as (_ & X2 & X3). rewrite Forall_forall in X3.
        cbn [length] in Y1. rewrite (X3 (nth v (nth m nbrs []) [])) in Y1 by (apply nth_In; lia). rewrite Nat.add_1_r. exact Y1.
      * rewrite <- Y2. unfold first_rows, cell.
        rewrite (concat_cell d) by (auto; rewrite !map_length, seq_length; exact Ha).
        rewrite map_map. rewrite (nth_map_seq (fun a => nth 0 (attention_header ex (hds a) _) [])) by exact Ha. reflexivity.
  - rewrite (nth_map_seq (fun v => simple_att ex score _ _)) by exact Hv. unfold simple_att, weighted. now rewrite map_length, seq_length.
  - intros k Hk. unfold cell. rewrite (nth_map_seq (fun v => simple_att ex score _ _)) by exact Hv. unfold simple_att.
    rewrite weighted_nth by exact Hk. rewrite map_map.
    apply (soft_attends ex G (seq 0 M) (fun m => score (first_rows (map hds (seq 0 n)) (nth v (nth m nodes []) [] :: nth v (nth m nbrs []) [])))
             (fun m => first_rows (map hds (seq 0 n)) (nth v (nth m nodes []) [] :: nth v (nth m nbrs []) [])) k).
    destruct M; [lia|discriminate].
Qed.
Theorem encoder_hops types nb n hidden cell0 d nodes nbrs M N :
  create types nb [n] hidden = Ok cell0 -> metapath_num types nb = Ok M -> 0 < M -> 0 < n ->
  shaped M N (product nb) nodes nbrs ->
  (N * (product nb + 1)) mod (total_of nb + 1) <> 0 ->
  encode ex hds score true types nb [n] cell0 d nodes nbrs = Fail EAssert.
Proof.
  intros C EM HM Hn X Hdiv.
  assert (Ec : cell0 = seq 0 (M * n)).
  { unfold create in C. cbn [length] in C. destruct (1 =? 0); [discriminate|]. destruct (length hidden =? 0); [discriminate|].
    destruct (negb _); [discriminate|]. destruct (item types 0); [|discriminate]. cbn [bind] in C. destruct (item nb 0); [|discriminate].
    cbn [bind] in C. rewrite EM in C. cbn [bind] in C. rewrite han_one in C. congruence. }
  subst cell0. rewrite (encode_rows types nb n _ nodes nbrs M N) by assumption. now rewrite (proj2 (Nat.eqb_neq _ _) Hdiv).
Qed.
Theorem eager types nb head_num cell0 d nodes nbrs : exists e,
  encode ex hds score false types nb head_num cell0 d nodes nbrs = Fail e.
Proof.
  unfold encode. destruct (metapath_num types nb); [|eexists; reflexivity]. cbn [bind].
  destruct (mapM _ _) as [[|x l]|]; eexists; reflexivity.
Qed.
End Encoder.

(** ** Predictions and F1 *)
Theorem sigmoid_rounds sg row : (forall x, 0 <= sg x <= 1)%Q ->
  Forall2 (fun x z => z = if Qle_bool (1 # 2) (sg x) then 1%Z else 0%Z) row (rounded sg row).
Proof.
  intros H. unfold rounded. induction row as [|x row IH]; cbn [map]; constructor; [|exact IH].
  destruct (H x) as [H0 H1]. pose proof (Qfloor_le (sg x + (1 # 2))) as F1. pose proof (Qlt_floor (sg x + (1 # 2))) as F2.
  set (f := Qfloor (sg x + (1 # 2))) in *.
  destruct (Qle_bool (1 # 2) (sg x)) eqn:E.
  - apply Qle_bool_iff in E. assert (A : (inject_Z f < 2)%Q) by lra. assert (B : (0 < inject_Z f)%Q).
    { rewrite inject_Z_plus in F2. change (inject_Z 1) with 1%Q in F2. lra. }
    change 2%Q with (inject_Z 2) in A. change 0%Q with (inject_Z 0) in B. rewrite <- Zlt_Qlt in A, B. lia.
  - assert (E' : (sg x < 1 # 2)%Q). { destruct (Qlt_le_dec (sg x) (1 # 2)) as [L|L]; [exact L|]. apply Qle_bool_iff in L. congruence. }
    assert (A : (inject_Z f < 1)%Q) by lra. assert (B : (-1 < inject_Z f)%Q).
    { rewrite inject_Z_plus in F2. change (inject_Z 1) with 1%Q in F2. lra. }
    change 1%Q with (inject_Z 1) in A. change (-1)%Q with (inject_Z (-1)) in B. rewrite <- Zlt_Qlt in A, B. lia.
Qed.
Theorem softmax_chooses ex row : row <> [] ->
  exists i, first_max (softmax ex row) i /\ exists z, chosen ex (length row) row = Ok z /\ length z = length row /\
    forall k, k < length row -> nth k z 0%Z = if k =? i then 1%Z else 0%Z.
Proof.
  intros H. destruct (argmax_first (softmax ex row)) as (i & E & F).
  { unfold softmax. destruct row; [congruence|discriminate]. }
  exists i. split; [exact F|]. eexists. unfold chosen. rewrite E. cbn [bind]. split; [reflexivity|]. unfold one_hot. split.
  - now rewrite map_length, seq_length.
  - intros k Hk. apply (nth_map_seq (fun k => if k =? i then 1%Z else 0%Z)). exact Hk.
Qed.

Definition tally (l : list (Z * Z)) : counters := Counters (number true_pos l) (number false_neg l) (number false_pos l).
Lemma number_app {A} (f : A -> bool) a b : number f (a ++ b) = number f a + number f b.
Proof. unfold number. now rewrite filter_app, app_length. Qed.
Lemma update_tally a b : update (tally a) b = tally (a ++ b).
Proof.
  unfold update, tally, count. cbn [c_tp c_fn c_fp]. rewrite !number_app. unfold number, true_pos, false_neg, false_pos. f_equal; f_equal; f_equal.
  - apply filter_ext. intros p. now rewrite negb_involutive.
  - apply filter_ext. intros p. now rewrite negb_involutive.
Qed.
Lemma run_tally : forall batches seen b, b < length batches ->
  nth_error (f1_run (tally seen) batches) b = Some (f1_of (tally (seen ++ concat (firstn (S b) batches)))).
Proof.
  induction batches as [|l t IH]; intros seen b Hb; cbn [length] in Hb; [lia|]. cbn [f1_run]. rewrite update_tally. destruct b as [|b].
  - cbn [nth_error firstn concat]. now rewrite app_nil_r.
  - cbn [nth_error]. rewrite IH by lia. cbn [firstn concat]. now rewrite app_assoc.
Qed.
Lemma f1_closed tp fn fp : 0 < tp ->
  (f1_of (Counters tp fn fp) * (qnat (2 * tp + fn + fp) + 2 * eps + eps * (eps + qnat tp + qnat fp) * (eps + qnat tp + qnat fn) / qnat tp) == qnat (2 * tp))%Q.
Proof.
  intros H. unfold f1_of. cbn [c_tp c_fn c_fp]. rewrite !qnat_add, !qnat_mul. change (qnat 2) with 2%Q.
  pose proof (qnat_pos _ H) as T. pose proof (qnat_nonneg fn) as A. pose proof (qnat_nonneg fp) as B.
  set (t := qnat tp) in *. set (a := qnat fn) in *. set (b := qnat fp) in *.
  assert (E : (0 < eps)%Q) by reflexivity. set (e := eps) in *. clearbody t a b e.
  assert (P1 : (0 < e + t + b)%Q) by lra. assert (P2 : (0 < e + t + a)%Q) by lra.
  assert (P3 : (0 < t * (e + t + a) + t * (e + t + b) + e * (e + t + b) * (e + t + a))%Q).
  { assert (0 < t * (e + t + a))%Q by (apply Qmult_lt_0_compat; assumption). assert (0 < t * (e + t + b))%Q by (apply Qmult_lt_0_compat; assumption).
    assert (0 < e * (e + t + b) * (e + t + a))%Q by (repeat apply Qmult_lt_0_compat; assumption). lra. }
  assert (S : (t / (e + t + b) + t / (e + t + a) + e == (t * (e + t + a) + t * (e + t + b) + e * (e + t + b) * (e + t + a)) / ((e + t + b) * (e + t + a)))%Q).
  { field. split; lra. }
  rewrite S. field. repeat split; lra.
Qed.
Theorem f1_running batches b : b < length batches ->
  let seen := concat (firstn (S b) batches) in
  let tp := number true_pos seen in let fn := number false_neg seen in let fp := number false_pos seen in
  exists f, nth_error (f1_run (Counters 0 0 0) batches) b = Some f /\
    (0 <= f /\ f < 1 /\ f <= exact_f1 tp fn fp)%Q /\ ((f == 0)%Q <-> tp = 0) /\
    ((0 < tp)%nat -> f * (qnat (2 * tp + fn + fp) + 2 * eps + eps * (eps + qnat tp + qnat fp) * (eps + qnat tp + qnat fn) / qnat tp) == qnat (2 * tp))%Q.
Proof.
  intros Hb seen tp fn fp. exists (f1_of (Counters tp fn fp)). split; [exact (run_tally batches [] b Hb)|].
  assert (Z : tp = 0 -> (f1_of (Counters tp fn fp) == 0)%Q).
  { intros ->. unfold f1_of. cbn [c_tp c_fn c_fp]. change (qnat 0) with 0%Q. unfold Qdiv. ring. }
  destruct (Nat.eq_dec tp 0) as [E|E].
  - specialize (Z E). split; [|split; [tauto|lia]]. rewrite Z. split; [lra|]. split; [lra|]. unfold exact_f1. rewrite E. cbn [Nat.mul].
    change (qnat 0) with 0%Q. unfold Qdiv. rewrite Qmult_0_l. lra.
  - assert (H : 0 < tp) by lia. pose proof (f1_closed tp fn fp H) as C. rewrite !qnat_add, !qnat_mul in C. change (qnat 2) with 2%Q in C.
    pose proof (qnat_pos _ H) as T. pose proof (qnat_nonneg fn) as A. pose proof (qnat_nonneg fp) as B.
    assert (X : (0 < eps * (eps + qnat tp + qnat fp) * (eps + qnat tp + qnat fn) / qnat tp)%Q).
    { apply Qlt_shift_div_l; [exact T|]. rewrite Qmult_0_l. assert (0 < eps)%Q by reflexivity. repeat apply Qmult_lt_0_compat; lra. }
    set (x := (eps * (eps + qnat tp + qnat fp) * (eps + qnat tp + qnat fn) / qnat tp)%Q) in *.
    set (f := f1_of (Counters tp fn fp)) in *. assert (P : (0 < eps)%Q) by reflexivity.
    assert (F : (f == 2 * qnat tp / (2 * qnat tp + qnat fn + qnat fp + 2 * eps + x))%Q).
    { set (D := (2 * qnat tp + qnat fn + qnat fp + 2 * eps + x)%Q) in *. assert (HD : (0 < D)%Q) by (unfold D; lra).
      clearbody D. rewrite <- C. field. lra. }
    assert (F0 : (0 < f)%Q). { rewrite F. apply Qlt_shift_div_l; lra. }
    split; [|split; [split; [intros Y; rewrite Y in F0; now apply Qlt_irrefl in F0|lia]|]].
    + split; [lra|]. split; [rewrite F; apply Qlt_shift_div_r; lra|].
      unfold exact_f1. rewrite !qnat_add, !qnat_mul. change (qnat 2) with 2%Q. rewrite F.
      apply Qle_shift_div_l; [lra|].
      assert (Y : (2 * qnat tp / (2 * qnat tp + qnat fn + qnat fp + 2 * eps + x) * (2 * qnat tp + qnat fn + qnat fp + 2 * eps + x) == 2 * qnat tp)%Q) by (field; lra).
      rewrite <- F in Y |- *. nra.
    + intros _. unfold f. apply f1_closed. exact H.
Qed.
