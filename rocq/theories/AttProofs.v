From Coq Require Import QArith Qround Lqa Permutation.
From Verif Require Import Base Dist AttModel AttSpec.

(** ** Lists *)
Lemma combine_maps {A B C} (f : A -> B) (g : A -> C) l : combine (map f l) (map g l) = map (fun x => (f x, g x)) l.
Proof. induction l as [|x l IH]; [reflexivity|]. cbn. now rewrite IH. Qed.
Lemma nth_map_seq {A} (f : nat -> A) n i d : (i < n)%nat -> nth i (map f (seq 0 n)) d = f i.
Proof.
  intros H. rewrite nth_indep with (d' := f 0%nat) by now rewrite map_length, seq_length.
  rewrite map_nth. now rewrite seq_nth.
Qed.
Lemma map_seq_nth {A} (d : A) l : map (fun i => nth i l d) (seq 0 (length l)) = l.
Proof.
  apply nth_ext with (d := d) (d' := d); [now rewrite map_length, seq_length|].
  intros n H. rewrite map_length, seq_length in H. now rewrite nth_map_seq.
Qed.
Lemma nth_map_in {A B} (f : A -> B) l i d d' : (i < length l)%nat -> nth i (map f l) d = f (nth i l d').
Proof. intros H. rewrite nth_indep with (d' := f d') by now rewrite map_length. apply map_nth. Qed.
Lemma qsum_filter {A} (f : A -> Q) p l : (forall a, In a l -> p a = false -> f a == 0) -> qsum f l == qsum f (filter p l).
Proof.
  induction l as [|a l IH]; intros H; [reflexivity|]. cbn [qsum filter].
  rewrite IH by (intros; apply H; auto; now right).
  destruct (p a) eqn:E; [reflexivity|]. rewrite (H a) by (auto; now left). ring.
Qed.
Lemma qsum_seq_nth {A} (f : A -> Q) (l : list A) d : qsum f l = qsum (fun i => f (nth i l d)) (seq 0 (length l)).
Proof. rewrite <- (map_seq_nth d l) at 1. now rewrite qsum_map. Qed.

(** ** The greatest element *)
Lemma qmax_cases a b : (qmax a b = a \/ qmax a b = b) /\ a <= qmax a b /\ b <= qmax a b.
Proof.
  unfold qmax. destruct (Qle_bool a b) eqn:E.
  - apply Qle_bool_iff in E. repeat split; auto; lra.
  - assert (~ a <= b) by (rewrite <- Qle_bool_iff; congruence). repeat split; auto; lra.
Qed.
Lemma vmax_in l : l <> [] -> In (vmax l) l.
Proof.
  induction l as [|x [|y t] IH]; intros H; [congruence|now left|].
  change (vmax (x :: y :: t)) with (qmax x (vmax (y :: t))).
  destruct (qmax_cases x (vmax (y :: t))) as ([->| ->] & _); [now left|right; apply IH; discriminate].
Qed.
Lemma vmax_ge l x : In x l -> x <= vmax l.
Proof.
  induction l as [|y [|z t] IH]; intros H; [destruct H|destruct H as [->|[]]; apply Qle_refl|].
  change (vmax (y :: z :: t)) with (qmax y (vmax (z :: t))).
  destruct (qmax_cases y (vmax (z :: t))) as (_ & A & B). destruct H as [->|H]; [exact A|].
  apply Qle_trans with (1 := IH H) (2 := B).
Qed.

(** ** Weighted means *)
Section Exp.
Variable ex : Q -> Q.
Hypothesis G : good_exp ex.

Lemma ex_nonneg x : 0 <= ex x. Proof. apply G. Qed.
Lemma ex_proper x y : x == y -> ex x == ex y. Proof. apply G. Qed.
Lemma mass_pos ns (sc : nat -> Q) m : (exists j, In j ns /\ sc j == m) -> 0 < qsum (fun j => ex (sc j - m)) ns.
Proof.
  intros (j & Hj & E). induction ns as [|a ns IH]; [destruct Hj|]. cbn [qsum].
  assert (P : 0 <= qsum (fun j => ex (sc j - m)) ns) by (apply qsum_nonneg; intros; apply ex_nonneg).
  destruct Hj as [->|Hj].
  - assert (O : ex (sc j - m) == 1).
    { destruct G as (_ & G0 & _ & _). rewrite <- G0. apply ex_proper. rewrite E. ring. }
    lra.
  - specialize (IH Hj). pose proof (ex_nonneg (sc a - m)). lra.
Qed.

Lemma attends_unique ns ns' sc sc' val val' y y' :
  Permutation ns ns' -> (forall j, In j ns -> sc j == sc' j) -> (forall j, In j ns -> val j == val' j) ->
  attends ex ns sc val y -> attends ex ns' sc' val' y' -> y == y'.
Proof.
  intros P Hs Hv (m & M1 & M2 & E) (m' & M1' & M2' & E').
  assert (Em : m == m').
  { destruct M1 as (j & Hj & Ej). destruct M1' as (j' & Hj' & Ej').
    pose proof (Permutation_in _ P Hj) as A. pose proof (Permutation_in _ (Permutation_sym P) Hj') as B.
    pose proof (M2' _ A) as C. pose proof (M2 _ B) as D. rewrite <- (Hs _ Hj) in C. rewrite (Hs _ B) in D. lra. }
  pose proof (mass_pos ns sc m M1) as Pos.
  assert (W : forall j, In j ns -> ex (sc j - m) == ex (sc' j - m')).
  { intros j Hj. apply ex_proper. rewrite (Hs _ Hj), Em. reflexivity. }
  rewrite (qsum_perm _ _ _ (Permutation_sym P)) in E'. rewrite (qsum_perm (fun j => _ * _) _ _ (Permutation_sym P)) in E'.
  rewrite <- (qsum_ext (fun j => ex (sc j - m)) (fun j => ex (sc' j - m')) ns W) in E'.
  assert (V : qsum (fun j => ex (sc j - m) * val j) ns == qsum (fun j => ex (sc' j - m') * val' j) ns).
  { apply qsum_ext. intros j Hj. rewrite (W _ Hj), (Hv _ Hj). reflexivity. }
  rewrite <- V, <- E in E'. apply Qmult_inj_r in E'; [now symmetry|lra].
Qed.

Lemma attends_convex ns sc val y lo hi :
  attends ex ns sc val y -> (forall j, In j ns -> lo <= val j <= hi) -> lo <= y <= hi.
Proof.
  intros (m & M1 & M2 & E) B. pose proof (mass_pos ns sc m M1) as Pos.
  assert (L : lo * qsum (fun j => ex (sc j - m)) ns <= qsum (fun j => ex (sc j - m) * val j) ns).
  { rewrite <- qsum_scale. apply qsum_le. intros j Hj. rewrite (Qmult_comm (ex _)).
    apply Qmult_le_compat_r; [now apply B|apply ex_nonneg]. }
  assert (U : qsum (fun j => ex (sc j - m) * val j) ns <= hi * qsum (fun j => ex (sc j - m)) ns).
  { rewrite <- qsum_scale. apply qsum_le. intros j Hj. rewrite (Qmult_comm (ex _)).
    apply Qmult_le_compat_r; [now apply B|apply ex_nonneg]. }
  rewrite <- E in L, U. split; apply Qmult_le_r with (z := qsum (fun j => ex (sc j - m)) ns); auto.
Qed.
End Exp.

Lemma zip_with_seq {A B C} (f : A -> B -> C) a b da db :
  length a = length b -> zip_with f a b = map (fun j => f (nth j a da) (nth j b db)) (seq 0 (length a)).
Proof.
  intros H. unfold zip_with. rewrite <- (map_seq_nth da a) at 1. rewrite <- (map_seq_nth db b) at 1. rewrite <- H.
  rewrite combine_maps, map_map. reflexivity.
Qed.
Lemma square_spec n m : square n m = true <-> length m = n /\ Forall (fun r => length r = n) m.
Proof.
  unfold square. rewrite Bool.andb_true_iff, Nat.eqb_eq, forallb_forall, Forall_forall.
  split; intros [A B]; split; auto; intros r Hr; apply Nat.eqb_eq; auto.
Qed.
Lemma leaky_lrelu s x : leaky s x == lrelu s x.
Proof.
  unfold leaky, lrelu. destruct (Qle_bool x 0) eqn:A, (Qle_bool 0 x) eqn:B; try reflexivity.
  - apply Qle_bool_iff in A, B. assert (x == 0) by lra. rewrite H. ring.
  - assert (~ x <= 0) by (rewrite <- Qle_bool_iff; congruence). assert (~ 0 <= x) by (rewrite <- Qle_bool_iff; congruence). lra.
Qed.
Lemma weighted_nth d l k : (k < d)%nat -> nth k (weighted d l) 0 = qsum (fun p => snd p * nth k (fst p) 0) l.
Proof. intros H. unfold weighted. now rewrite nth_map_seq. Qed.

Section Soft.
Variable ex : Q -> Q.
Hypothesis G : good_exp ex.

Lemma softmax_map (ns : list nat) sc :
  softmax ex (map sc ns) =
  map (fun j => ex (sc j - vmax (map sc ns)) / qsum (fun j => ex (sc j - vmax (map sc ns))) ns) ns.
Proof. unfold softmax. rewrite !map_map. rewrite qsum_map. reflexivity. Qed.
Lemma soft_row (ns : list nat) sc (rowf : nat -> list Q) k :
  qsum (fun p => snd p * nth k (fst p) 0) (combine (map rowf ns) (softmax ex (map sc ns))) ==
  qsum (fun j => ex (sc j - vmax (map sc ns)) * nth k (rowf j) 0) ns / qsum (fun j => ex (sc j - vmax (map sc ns))) ns.
Proof.
  rewrite softmax_map, combine_maps, qsum_map. cbn [fst snd]. unfold Qdiv at 2. rewrite <- qsum_scale_r.
  apply qsum_ext. intros j _. unfold Qdiv. ring.
Qed.
Lemma vmax_map_in ns (sc : nat -> Q) : ns <> [] -> exists j, In j ns /\ sc j == vmax (map sc ns).
Proof.
  intros H. assert (I : In (vmax (map sc ns)) (map sc ns)) by (apply vmax_in; destruct ns; [congruence|discriminate]).
  apply in_map_iff in I. destruct I as (j & E & Hj). exists j. split; [exact Hj|]. rewrite E. reflexivity.
Qed.
Lemma soft_attends (ns : list nat) sc (rowf : nat -> list Q) k :
  ns <> [] ->
  attends ex ns sc (fun j => nth k (rowf j) 0)
    (qsum (fun p => snd p * nth k (fst p) 0) (combine (map rowf ns) (softmax ex (map sc ns)))).
Proof.
  intros H. pose proof (vmax_map_in ns sc H) as M. exists (vmax (map sc ns)). split; [exact M|]. split.
  - intros j Hj. apply vmax_ge. now apply in_map.
  - rewrite soft_row. pose proof (mass_pos ex G ns sc _ M). field. lra.
Qed.
Lemma attends_ext ns sc sc' val val' y y' :
  (forall j, In j ns -> sc j == sc' j) -> (forall j, In j ns -> val j == val' j) -> y == y' ->
  attends ex ns sc val y -> attends ex ns sc' val' y'.
Proof.
  intros Hs Hv Hy (m & (j0 & J1 & J2) & M2 & E). exists m. split; [|split].
  - exists j0. split; [exact J1|]. now rewrite <- Hs.
  - intros j Hj. rewrite <- Hs by exact Hj. now apply M2.
  - rewrite <- Hy.
    rewrite <- (qsum_ext (fun j => ex (sc j - m)) (fun j => ex (sc' j - m))).
    2:{ intros j Hj. apply (ex_proper ex G). now rewrite Hs. }
    rewrite E. apply qsum_ext. intros j Hj. rewrite Hv by exact Hj.
    rewrite (ex_proper ex G (sc j - m) (sc' j - m)) by (now rewrite Hs). reflexivity.
Qed.
(** Masked elements have no weight. *)
Lemma attends_filter ns p sc sc' val y :
  filter p ns <> [] ->
  (forall j, In j ns -> p j = true -> sc' j == sc j) ->
  (forall j j', In j ns -> In j' ns -> p j = true -> p j' = false -> sc' j' - sc' j <= - (1000)) ->
  attends ex ns sc' val y -> attends ex (filter p ns) sc val y.
Proof.
  intros Hne Hs Hm (m & (j0 & J1 & J2) & M2 & E).
  assert (P0 : p j0 = true).
  { destruct (p j0) eqn:P; [reflexivity|exfalso].
    destruct (filter p ns) as [|a t] eqn:F; [congruence|].
    assert (I : In a (filter p ns)) by (rewrite F; now left). apply filter_In in I. destruct I as [I1 I2].
    pose proof (Hm a j0 I1 J1 I2 P) as X. pose proof (M2 a I1). lra. }
  assert (Z : forall j, In j ns -> p j = false -> ex (sc' j - m) == 0).
  { intros j Hj Pj. destruct G as (_ & _ & _ & U). apply U. pose proof (Hm j0 j J1 Hj P0 Pj). lra. }
  apply attends_ext with (sc := sc') (val := val) (y := y); [|reflexivity|reflexivity|].
  { intros j Hj. apply filter_In in Hj. now apply Hs. }
  exists m. split; [|split].
  - exists j0. split; [|exact J2]. now apply filter_In.
  - intros j Hj. apply filter_In in Hj. now apply M2.
  - rewrite <- (qsum_filter (fun j => ex (sc' j - m)) p ns Z), E. apply qsum_filter.
    intros j Hj Pj. rewrite (Z j Hj Pj). ring.
Qed.

(** ** Dense *)
Lemma logits_nth f1 f2 i j : (i < length f1)%nat -> (j < length f2)%nat -> nth j (nth i (logits f1 f2) []) 0 = nth i f1 0 + nth j f2 0.
Proof.
  intros Hi Hj. unfold logits. rewrite (nth_map_in _ _ _ _ 0) by exact Hi. now rewrite (nth_map_in _ _ _ _ 0) by exact Hj.
Qed.
Definition sc_dense (f1 f2 : list Q) (adj : mat) (i j : nat) : Q :=
  leaky (1 # 5) (nth i f1 0 + nth j f2 0) + - (1000000000) * (1 - cell adj i j).
Lemma dense_ok d fts f1 f2 adj :
  length fts = length f1 -> length f2 = length f1 -> square (length f1) adj = true ->
  dense ex d fts f1 f2 adj =
  Ok (map (fun i => weighted d (combine (map (fun j => nth j fts []) (seq 0 (length fts)))
                                        (softmax ex (map (sc_dense f1 f2 adj i) (seq 0 (length fts))))))
          (seq 0 (length fts))).
Proof.
  intros Lf L2 Sq. unfold dense. rewrite Sq. f_equal. apply square_spec in Sq. destruct Sq as [La Lr].
  assert (Ll : length (logits f1 f2) = length (mask adj)) by (unfold logits, mask; now rewrite !map_length).
  rewrite (zip_with_seq _ _ _ [] [] Ll), map_map.
  replace (length (logits f1 f2)) with (length fts) by (unfold logits; now rewrite map_length).
  apply map_ext_in. intros i Hi. apply in_seq in Hi. rewrite map_seq_nth. do 3 f_equal.
  assert (Lri : length (nth i adj []) = length f1).
  { rewrite Forall_forall in Lr. apply Lr. apply nth_In. lia. }
  assert (L1 : length (nth i (logits f1 f2) []) = length f1).
  { unfold logits. rewrite (nth_map_in _ _ _ _ 0) by lia. now rewrite map_length. }
  assert (Lm : length (nth i (mask adj) []) = length f1).
  { unfold mask. rewrite (nth_map_in _ _ _ _ []) by lia. now rewrite map_length. }
  rewrite (zip_with_seq _ _ _ 0 0) by congruence. rewrite L1, Lf. apply map_ext_in. intros j Hj. apply in_seq in Hj.
  rewrite logits_nth by lia. unfold sc_dense. f_equal.
  unfold mask. rewrite (nth_map_in _ _ _ _ []) by lia. rewrite (nth_map_in _ _ _ _ 0) by lia. reflexivity.
Qed.
End Soft.

Lemma filter_map_comm {A B} (f : A -> B) p l : filter p (map f l) = map f (filter (fun a => p (f a)) l).
Proof. induction l as [|a l IH]; [reflexivity|]. cbn. destruct (p (f a)); cbn; now rewrite IH. Qed.
Lemma item_ok {A} (l : list A) i d : (i < length l)%nat -> item l i = Ok (nth i l d).
Proof.
  intros H. unfold item. rewrite (nth_error_nth' l d H). reflexivity.
Qed.
Lemma mapM_all_ok {A B} (f : A -> res B) g l : (forall a, In a l -> f a = Ok (g a)) -> mapM f l = Ok (map g l).
Proof.
  induction l as [|a l IH]; intros H; [reflexivity|]. cbn [mapM map]. rewrite (H a) by now left. cbn.
  rewrite IH by (intros; apply H; now right). reflexivity.
Qed.

Section Heads.
Variable ex : Q -> Q.
Hypothesis G : good_exp ex.

Definition sc_sparse (f1 f2 : list Q) (i j : nat) : Q := leaky (1 # 5) (nth i f1 0 + nth j f2 0).
Lemma sparse_ok d fts f1 f2 edges :
  length fts = length f1 -> length f2 = length f1 ->
  Forall (fun e => fst e < length fts /\ snd e < length fts)%nat edges ->
  sparse ex d fts f1 f2 edges =
  Ok (map (fun i => weighted d (combine (map (fun j => nth j fts []) (nbrs_sparse edges i))
                                        (softmax ex (map (sc_sparse f1 f2 i) (nbrs_sparse edges i)))))
          (seq 0 (length fts))).
Proof.
  intros L1 L2 Hr. rewrite Forall_forall in Hr. unfold sparse.
  rewrite (mapM_all_ok _ (fun e => sc_sparse f1 f2 (fst e) (snd e))).
  2:{ intros e He. destruct (Hr e He). rewrite (item_ok _ _ 0) by lia. cbn.
      rewrite (item_ok _ _ 0) by lia. reflexivity. }
  cbn [bind]. apply mapM_all_ok. intros i Hi.
  replace (combine edges (map (fun e => sc_sparse f1 f2 (fst e) (snd e)) edges))
    with (map (fun e => (e, sc_sparse f1 f2 (fst e) (snd e))) edges)
    by (rewrite <- (map_id edges) at 2; now rewrite combine_maps).
  rewrite filter_map_comm. cbn [fst snd].
  rewrite (mapM_all_ok _ (fun p => nth (snd (fst p)) fts [])).
  2:{ intros p Hp. apply in_map_iff in Hp. destruct Hp as (e & <- & He). apply filter_In in He. destruct He as [He _].
      cbn [fst snd]. apply item_ok. now apply Hr. }
  cbn [bind]. f_equal. f_equal. unfold nbrs_sparse. rewrite !map_map. cbn [fst snd]. f_equal. f_equal.
  apply map_ext_in. intros e He. apply filter_In in He. destruct He as [_ He]. apply Nat.eqb_eq in He. now rewrite He.
Qed.

Variable h : head.
Local Notation fts_of := (fts_of h).
Local Notation sc_head := (sc_head h).
Local Notation fits := (fits h).
Lemma sc_sparse_head feat i j : (i < length feat)%nat -> (j < length feat)%nat ->
  sc_sparse (map (h_al h) (fts_of feat)) (map (h_ar h) (fts_of feat)) i j == sc_head feat i j.
Proof.
  intros Hi Hj. unfold sc_sparse, sc_head, score. rewrite leaky_lrelu.
  rewrite !(nth_map_in _ (fts_of feat) _ _ []) by (unfold fts_of; now rewrite map_length). reflexivity.
Qed.

Lemma finish_cell feat vals i k :
  fits feat -> shape (length feat) (h_dim h) vals -> (i < length feat)%nat -> (k < h_dim h)%nat ->
  cell (map (fun r => map (h_act h) (zip_with Qplus r (h_bias h))) vals) i k = h_act h (cell vals i k + nth k (h_bias h) 0).
Proof.
  intros [_ Fb] [Sl Sr] Hi Hk. rewrite Forall_forall in Sr. unfold cell.
  assert (Lr : length (nth i vals []) = h_dim h) by (apply Sr, nth_In; lia).
  rewrite (nth_map_in _ _ _ _ []) by lia. rewrite (zip_with_seq _ _ _ 0 0) by congruence. rewrite map_map, Lr.
  now rewrite nth_map_seq.
Qed.
Lemma finish_shape feat vals :
  fits feat -> shape (length feat) (h_dim h) vals ->
  shape (length feat) (h_dim h) (map (fun r => map (h_act h) (zip_with Qplus r (h_bias h))) vals).
Proof.
  intros [_ Fb] [Sl Sr]. split; [now rewrite map_length|]. rewrite Forall_forall in *. intros r Hr.
  apply in_map_iff in Hr. destruct Hr as (x & <- & Hx). rewrite map_length. unfold zip_with.
  rewrite map_length, combine_length, (Sr x Hx), Fb. apply Nat.min_id.
Qed.
Lemma weighted_shape n d f : shape n d (map (fun i => weighted d (f i)) (seq 0 n)).
Proof.
  split; [now rewrite map_length, seq_length|]. rewrite Forall_forall. intros r Hr. apply in_map_iff in Hr.
  destruct Hr as (x & <- & _). unfold weighted. now rewrite map_length, seq_length.
Qed.

Theorem dense_head feat adj :
  fits feat -> shape (length feat) (length feat) adj -> binary adj -> moderate (sc_head feat) (length feat) ->
  exists out, attn_head ex h feat (Dense adj) = Ok out /\ shape (length feat) (h_dim h) out /\
    forall i k, (i < length feat)%nat -> (k < h_dim h)%nat -> nbrs_dense adj i <> [] ->
      exists y, attends ex (nbrs_dense adj i) (sc_head feat i) (fun j => cell (fts_of feat) j k) y /\
                cell out i k = h_act h (y + nth k (h_bias h) 0).
Proof.
  intros F Sh Bin Mod. unfold attn_head. fold (fts_of feat).
  assert (Lf : length (fts_of feat) = length feat) by (unfold fts_of; apply map_length).
  rewrite dense_ok; rewrite ?map_length; auto.
  2:{ apply square_spec. rewrite Lf. exact Sh. }
  cbn [bind]. eexists. split; [reflexivity|]. split.
  { apply finish_shape; [exact F|]. rewrite <- Lf. apply weighted_shape. }
  intros i k Hi Hk Hn. eexists. split.
  2:{ apply finish_cell with (feat := feat); auto. rewrite <- Lf. apply weighted_shape. }
  unfold cell at 2. rewrite Lf. rewrite nth_map_seq by exact Hi. rewrite weighted_nth by exact Hk.
  unfold nbrs_dense in *. destruct Sh as [Sa Sr]. rewrite Sa in *.
  set (sc' := sc_dense (map (h_al h) (fts_of feat)) (map (h_ar h) (fts_of feat)) adj i).
  assert (E : forall j, (j < length feat)%nat -> sc' j == sc_head feat i j + - (1000000000) * (1 - cell adj i j)).
  { intros j Hj. unfold sc', sc_dense. rewrite <- (sc_sparse_head feat i j Hi Hj). reflexivity. }
  apply attends_filter with (sc' := sc'); auto.
  - intros j Hj P. apply in_seq in Hj. rewrite E by lia. apply Qeq_bool_iff in P. rewrite P. ring.
  - intros j j' Hj Hj' P P'. apply in_seq in Hj, Hj'. rewrite !E by lia. apply Qeq_bool_iff in P. rewrite P.
    assert (Z : cell adj i j' == 0).
    { unfold binary in Bin. rewrite Forall_forall in Bin, Sr. assert (I : In (nth i adj []) adj) by (apply nth_In; lia).
      specialize (Bin _ I). rewrite Forall_forall in Bin. specialize (Sr _ I).
      destruct (Bin (cell adj i j')) as [B|B]; [apply nth_In; lia|exact B|].
      apply Qeq_bool_neq in P'. contradiction. }
    rewrite Z. pose proof (Mod i j Hi ltac:(lia)). pose proof (Mod i j' Hi ltac:(lia)). lra.
  - apply soft_attends; [exact G|]. intros X. rewrite X in Hn. now apply Hn.
Qed.

Theorem sparse_head feat edges :
  fits feat -> Forall (fun e => fst e < length feat /\ snd e < length feat)%nat edges ->
  exists out, attn_head ex h feat (Sparse edges) = Ok out /\ shape (length feat) (h_dim h) out /\
    (forall i k, (i < length feat)%nat -> (k < h_dim h)%nat -> nbrs_sparse edges i <> [] ->
      exists y, attends ex (nbrs_sparse edges i) (sc_head feat i) (fun j => cell (fts_of feat) j k) y /\
                cell out i k = h_act h (y + nth k (h_bias h) 0)) /\
    (forall i k, (i < length feat)%nat -> (k < h_dim h)%nat -> nbrs_sparse edges i = [] ->
      cell out i k = h_act h (0 + nth k (h_bias h) 0)).
Proof.
  intros F Hr. unfold attn_head. fold (fts_of feat).
  assert (Lf : length (fts_of feat) = length feat) by (unfold fts_of; apply map_length).
  rewrite sparse_ok; rewrite ?map_length; auto; rewrite ?Lf; auto.
  cbn [bind]. eexists. split; [reflexivity|]. split; [|split].
  - apply finish_shape; [exact F|]. apply weighted_shape.
  - intros i k Hi Hk Hn. eexists. split.
    2:{ apply finish_cell with (feat := feat); auto. apply weighted_shape. }
    unfold cell at 2. rewrite nth_map_seq by exact Hi. rewrite weighted_nth by exact Hk.
    refine (attends_ext ex G _ _ _ _ _ _ _ _ (fun j _ => Qeq_refl _) (Qeq_refl _) (soft_attends ex G _ _ _ _ Hn)).
    intros j Hj. apply sc_sparse_head; [exact Hi|]. unfold nbrs_sparse in Hj. apply in_map_iff in Hj.
    destruct Hj as (e & <- & He). apply filter_In in He. rewrite Forall_forall in Hr. now apply Hr.
  - intros i k Hi Hk Hn. rewrite finish_cell with (feat := feat); auto; [|apply weighted_shape].
    f_equal. f_equal. unfold cell. rewrite nth_map_seq by exact Hi. rewrite weighted_nth by exact Hk. now rewrite Hn.
Qed.

Theorem agree feat adj edges o1 o2 i k :
  fits feat -> shape (length feat) (length feat) adj -> binary adj -> moderate (sc_head feat) (length feat) ->
  Forall (fun e => fst e < length feat /\ snd e < length feat)%nat edges ->
  (forall x y, x == y -> h_act h x == h_act h y) ->
  attn_head ex h feat (Dense adj) = Ok o1 -> attn_head ex h feat (Sparse edges) = Ok o2 ->
  (i < length feat)%nat -> (k < h_dim h)%nat -> nbrs_dense adj i <> [] ->
  Permutation (nbrs_dense adj i) (nbrs_sparse edges i) -> cell o1 i k == cell o2 i k.
Proof.
  intros F Sh Bin Mod Hr Pr E1 E2 Hi Hk Hn P.
  destruct (dense_head feat adj F Sh Bin Mod) as (o & X & _ & D). rewrite E1 in X. injection X as <-.
  destruct (sparse_head feat edges F Hr) as (o & X & _ & D2 & _). rewrite E2 in X. injection X as <-.
  destruct (D i k Hi Hk Hn) as (y & A & ->).
  assert (Hn2 : nbrs_sparse edges i <> []).
  { intros N. rewrite N in P. apply Permutation_sym, Permutation_nil in P. contradiction. }
  destruct (D2 i k Hi Hk Hn2) as (y' & A' & ->).
  apply Pr. rewrite (attends_unique ex G _ _ _ _ _ _ _ _ P (fun j _ => Qeq_refl _) (fun j _ => Qeq_refl _) A A'). reflexivity.
Qed.
End Heads.

Section More.
Variable ex : Q -> Q.
Hypothesis G : good_exp ex.

(** ** Only the neighbors matter *)
Theorem local_dense h feat feat' adj o o' i k :
  fits h feat -> fits h feat' -> length feat = length feat' ->
  shape (length feat) (length feat) adj -> binary adj ->
  moderate (sc_head h feat) (length feat) -> moderate (sc_head h feat') (length feat') ->
  (forall x y, x == y -> h_act h x == h_act h y) ->
  (i < length feat)%nat -> (k < h_dim h)%nat -> nbrs_dense adj i <> [] ->
  (forall j, j = i \/ In j (nbrs_dense adj i) -> nth j feat [] = nth j feat' []) ->
  attn_head ex h feat (Dense adj) = Ok o -> attn_head ex h feat' (Dense adj) = Ok o' -> cell o i k == cell o' i k.
Proof.
  intros F F' L Sh Bin M M' Pr Hi Hk Hn Same E E'.
  destruct (dense_head ex G h feat adj F Sh Bin M) as (x & X & _ & D). rewrite E in X. injection X as <-.
  assert (Sh' : shape (length feat') (length feat') adj) by now rewrite <- L.
  destruct (dense_head ex G h feat' adj F' Sh' Bin M') as (x & X & _ & D'). rewrite E' in X. injection X as <-.
  destruct (D i k Hi Hk Hn) as (y & A & ->). destruct (D' i k ltac:(lia) Hk Hn) as (y' & A' & ->).
  apply Pr.
  assert (R : forall j, (j < length feat)%nat -> j = i \/ In j (nbrs_dense adj i) -> nth j (fts_of h feat) [] = nth j (fts_of h feat') []).
  { intros j Hj J. unfold fts_of. rewrite !(nth_map_in _ _ _ _ []) by lia. now rewrite Same. }
  assert (B : forall j, In j (nbrs_dense adj i) -> (j < length feat)%nat).
  { intros j J. unfold nbrs_dense in J. apply filter_In in J. destruct J as [J _]. apply in_seq in J. destruct Sh as [S0 _]. lia. }
  rewrite (attends_unique ex G _ _ _ (sc_head h feat' i) _ (fun j => cell (fts_of h feat') j k) _ _ (Permutation_refl _)) with (3 := A) (4 := A').
  - reflexivity.
  - intros j J. unfold sc_head, score. rewrite (R i Hi) by auto. rewrite (R j (B j J)) by auto. reflexivity.
  - intros j J. unfold cell. rewrite (R j (B j J)) by auto. reflexivity.
Qed.
Theorem local_sparse h feat feat' edges o o' i k :
  fits h feat -> fits h feat' -> length feat = length feat' ->
  Forall (fun e => fst e < length feat /\ snd e < length feat)%nat edges ->
  (forall x y, x == y -> h_act h x == h_act h y) ->
  (i < length feat)%nat -> (k < h_dim h)%nat ->
  (forall j, j = i \/ In j (nbrs_sparse edges i) -> nth j feat [] = nth j feat' []) ->
  attn_head ex h feat (Sparse edges) = Ok o -> attn_head ex h feat' (Sparse edges) = Ok o' -> cell o i k == cell o' i k.
Proof.
  intros F F' L Hr Pr Hi Hk Same E E'.
  destruct (sparse_head ex G h feat edges F Hr) as (x & X & _ & D & D0). rewrite E in X. injection X as <-.
  assert (Hr' : Forall (fun e => fst e < length feat' /\ snd e < length feat')%nat edges) by now rewrite <- L.
  destruct (sparse_head ex G h feat' edges F' Hr') as (x & X & _ & D' & D0'). rewrite E' in X. injection X as <-.
  destruct (nbrs_sparse edges i) as [|a t] eqn:N.
  { rewrite (D0 i k Hi Hk N), (D0' i k ltac:(lia) Hk N). reflexivity. }
  assert (Hn : nbrs_sparse edges i <> []) by (rewrite N; discriminate). rewrite <- N in Same.
  destruct (D i k Hi Hk Hn) as (y & A & ->). destruct (D' i k ltac:(lia) Hk Hn) as (y' & A' & ->).
  apply Pr.
  assert (R : forall j, (j < length feat)%nat -> j = i \/ In j (nbrs_sparse edges i) -> nth j (fts_of h feat) [] = nth j (fts_of h feat') []).
  { intros j Hj J. unfold fts_of. rewrite !(nth_map_in _ _ _ _ []) by lia. now rewrite Same. }
  assert (B : forall j, In j (nbrs_sparse edges i) -> (j < length feat)%nat).
  { intros j J. unfold nbrs_sparse in J. apply in_map_iff in J. destruct J as (e & <- & J). apply filter_In in J.
    rewrite Forall_forall in Hr. now apply Hr. }
  rewrite (attends_unique ex G _ _ _ (sc_head h feat' i) _ (fun j => cell (fts_of h feat') j k) _ _ (Permutation_refl _)) with (3 := A) (4 := A').
  - reflexivity.
  - intros j J. unfold sc_head, score. rewrite (R i Hi) by auto. rewrite (R j (B j J)) by auto. reflexivity.
  - intros j J. unfold cell. rewrite (R j (B j J)) by auto. reflexivity.
Qed.

(** ** Several heads *)
Lemma concat_cell d (rows : list (list Q)) a k :
  Forall (fun r => length r = d) rows -> (a < length rows)%nat -> (k < d)%nat ->
  nth (a * d + k) (concat rows) 0 = nth k (nth a rows []) 0.
Proof.
  intros F. revert a. induction F as [|r rows L F IH]; intros a Ha Hk; [cbn in Ha; lia|]. cbn [concat].
  destruct a as [|a].
  - cbn [nth]. rewrite app_nth1 by lia. reflexivity.
  - rewrite app_nth2 by lia. replace (S a * d + k - length r)%nat with (a * d + k)%nat by lia. cbn [nth]. apply IH; cbn in Ha; lia.
Qed.
Theorem concat_heads heads feat adj outs d :
  heads <> [] -> Forall2 (fun h o => attn_head ex h feat adj = Ok o /\ shape (length feat) d o) heads outs ->
  exists out, gat_concat ex heads feat adj = Ok out /\ length out = length feat /\
    forall i a k, (i < length feat)%nat -> (a < length heads)%nat -> (k < d)%nat ->
      cell out i (a * d + k) = cell (nth a outs []) i k.
Proof.
  intros Hne F. unfold gat_concat.
  assert (E : mapM (fun h => attn_head ex h feat adj) heads = Ok outs).
  { clear Hne. induction F as [|h o hs os [H _] F IH]; [reflexivity|]. cbn [mapM]. rewrite H. cbn. now rewrite IH. }
  rewrite E. cbn [bind]. destruct (Nat.eqb_spec (length heads) 0) as [Z|_].
  { apply length_zero_iff_nil in Z. contradiction. }
  assert (Ll : length outs = length heads) by (clear -F; induction F; cbn; lia).
  eexists. split; [reflexivity|]. unfold concat_rows. split; [now rewrite map_length, seq_length|].
  intros i a k Hi Ha Hk. unfold cell. rewrite nth_map_seq by exact Hi.
  rewrite (concat_cell d).
  - rewrite (nth_map_in _ _ _ _ []) by (rewrite Ll; exact Ha). reflexivity.
  - rewrite Forall_forall. intros r Hr. apply in_map_iff in Hr. destruct Hr as (o & <- & Ho).
    assert (So : shape (length feat) d o).
    { clear -F Ho. induction F as [|h o' hs os [_ H] F IH]; [destruct Ho|]. destruct Ho as [<-|Ho]; auto. }
    destruct So as [S1 S2]. rewrite Forall_forall in S2. apply S2, nth_In. lia.
  - rewrite map_length. lia.
  - exact Hk.
Qed.
Theorem average_heads heads feat adj outs d lo hi i k :
  heads <> [] -> Forall2 (fun h o => attn_head ex h feat adj = Ok o /\ shape (length feat) d o) heads outs ->
  (i < length feat)%nat -> (k < d)%nat -> Forall (fun o => lo <= cell o i k <= hi) outs ->
  exists out, gat_average ex d heads feat adj = Ok out /\ length out = length feat /\
    cell out i k * qnat (length heads) == qsum (fun o => cell o i k) outs /\ lo <= cell out i k <= hi.
Proof.
  intros Hne F Hi Hk B. unfold gat_average.
  assert (E : mapM (fun h => attn_head ex h feat adj) heads = Ok outs).
  { clear Hne B. induction F as [|h o hs os [H _] F IH]; [reflexivity|]. cbn [mapM]. rewrite H. cbn. now rewrite IH. }
  rewrite E. cbn [bind]. destruct (Nat.eqb_spec (length heads) 0) as [Z|Z].
  { apply length_zero_iff_nil in Z. contradiction. }
  assert (Ll : length outs = length heads) by (clear -F; induction F; cbn; lia).
  pose proof (qnat_pos (length heads) ltac:(lia)) as P.
  eexists. split; [reflexivity|]. unfold add_rows. split; [now rewrite !map_length, seq_length|].
  unfold cell at 1 3 4. rewrite map_map, nth_map_seq by exact Hi. rewrite map_map, nth_map_seq by exact Hk.
  change (fun m : mat => nth k (nth i m []) 0) with (fun m => cell m i k).
  assert (X : lo * qnat (length heads) <= qsum (fun m => cell m i k) outs <= hi * qnat (length heads)).
  { rewrite <- Ll. rewrite !(Qmult_comm _ (qnat _)), <- !qsum_const. rewrite Forall_forall in B.
    split; apply qsum_le; intros o Ho; now apply B. }
  split; [field; lra|]. split.
  - apply Qmult_le_r with (z := qnat (length heads)); [exact P|]. unfold Qdiv.
    rewrite <- Qmult_assoc, (Qmult_comm (/ _)), Qmult_inv_r, Qmult_1_r by (intros Z0; rewrite Z0 in P; now apply Qlt_irrefl in P). apply X.
  - apply Qmult_le_r with (z := qnat (length heads)); [exact P|]. unfold Qdiv.
    rewrite <- Qmult_assoc, (Qmult_comm (/ _)), Qmult_inv_r, Qmult_1_r by (intros Z0; rewrite Z0 in P; now apply Qlt_irrefl in P). apply X.
Qed.

(** ** Attention over a sequence *)
Theorem header h seq_ :
  fits h seq_ ->
  shape (length seq_) (h_dim h) (attention_header ex h seq_) /\
  forall i k, (i < length seq_)%nat -> (k < h_dim h)%nat ->
    exists y, attends ex (seq 0 (length seq_)) (sc_head h seq_ i) (fun j => cell (fts_of h seq_) j k) y /\
              cell (attention_header ex h seq_) i k = h_act h (y + nth k (h_bias h) 0).
Proof.
  intros F.
  assert (Lf : length (fts_of h seq_) = length seq_) by (unfold fts_of; apply map_length).
  set (f1 := map (h_al h) (fts_of h seq_)). set (f2 := map (h_ar h) (fts_of h seq_)).
  assert (E : attention_header ex h seq_ =
    map (fun r => map (h_act h) (zip_with Qplus r (h_bias h)))
      (map (fun i => weighted (h_dim h) (combine (map (fun j => nth j (fts_of h seq_) []) (seq 0 (length seq_)))
                                        (softmax ex (map (sc_sparse f1 f2 i) (seq 0 (length seq_)))))) (seq 0 (length seq_)))).
  { unfold attention_header. fold (fts_of h seq_). fold f1 f2. rewrite !map_map.
    assert (L1 : length f1 = length seq_) by (unfold f1; now rewrite map_length).
    unfold logits. rewrite map_map. rewrite <- (map_seq_nth 0 f1) at 1. rewrite L1, map_map.
    apply map_ext_in. intros i Hi. do 4 f_equal.
    - rewrite <- Lf. symmetry. apply map_seq_nth.
    - f_equal. rewrite map_map. rewrite <- (map_seq_nth 0 f2) at 1. rewrite map_map.
      replace (length f2) with (length seq_) by (unfold f2; now rewrite map_length). reflexivity. }
  rewrite E. split; [apply finish_shape; [exact F|apply weighted_shape]|].
  intros i k Hi Hk. eexists. split.
  2:{ apply finish_cell with (feat := seq_); auto. apply weighted_shape. }
  unfold cell at 2. rewrite nth_map_seq by exact Hi. rewrite weighted_nth by exact Hk.
  assert (Hn : seq 0 (length seq_) <> []) by (destruct seq_; [cbn in Hi; lia|discriminate]).
  refine (attends_ext ex G _ _ _ _ _ _ _ _ (fun j _ => Qeq_refl _) (Qeq_refl _) (soft_attends ex G _ _ _ _ Hn)).
  intros j Hj. apply in_seq in Hj. apply sc_sparse_head; lia.
Qed.

(** The encoder of PyTorch: the weights of a column have the sum one. *)
Lemma softmax_sum l : l <> [] -> qsum idq (softmax ex l) == 1.
Proof.
  intros H. rewrite <- (map_seq_nth 0 l).
  assert (N : seq 0 (length l) <> []) by (destruct l; [congruence|discriminate]).
  rewrite softmax_map, qsum_map. unfold idq, Qdiv. rewrite qsum_scale_r. apply Qmult_inv_r.
  pose proof (mass_pos ex G _ (fun i => nth i l 0) _ (vmax_map_in _ _ N)) as P. intros Z0. rewrite Z0 in P. now apply Qlt_irrefl in P.
Qed.
Theorem encoder_mass slope h seq_ :
  exists y, length y = length seq_ /\
    (forall i k, (i < length seq_)%nat -> (k < h_dim h)%nat -> cell (gat_encoder ex slope h seq_) i k = h_act h (cell y i k)) /\
    forall k, (k < h_dim h)%nat ->
      qsum (fun i => cell y i k) (seq 0 (length seq_)) == qsum (fun j => cell (fts_of h seq_) j k) (seq 0 (length seq_)).
Proof.
  assert (Lf : length (fts_of h seq_) = length seq_) by (unfold fts_of; apply map_length).
  set (n := length seq_) in *.
  set (l := map (map (leaky slope)) (logits (map (h_al h) (fts_of h seq_)) (map (h_ar h) (fts_of h seq_)))).
  set (cols := map (fun j => softmax ex (column j l)) (seq 0 n)).
  exists (map (fun i => weighted (h_dim h) (combine (fts_of h seq_) (map (fun c => nth i c 0) cols))) (seq 0 n)).
  split; [now rewrite map_length, seq_length|]. split.
  - intros i k Hi Hk. unfold gat_encoder. fold (fts_of h seq_). rewrite Lf. fold l. fold cols. unfold cell.
    rewrite !nth_map_seq by exact Hi. rewrite (nth_map_in _ _ _ _ 0) by (unfold weighted; now rewrite map_length, seq_length). reflexivity.
  - intros k Hk.
    assert (Ll : length l = n) by (unfold l, logits; now rewrite !map_length).
    rewrite (qsum_ext _ (fun i => qsum (fun j => nth i (softmax ex (column j l)) 0 * cell (fts_of h seq_) j k) (seq 0 n))).
    2:{ intros i Hi. apply in_seq in Hi. unfold cell at 1. rewrite nth_map_seq by lia. rewrite weighted_nth by exact Hk.
        unfold cols. rewrite map_map. rewrite <- (map_seq_nth [] (fts_of h seq_)) at 1. rewrite Lf, combine_maps, qsum_map. reflexivity. }
    rewrite qsum_swap. apply qsum_ext. intros j Hj. rewrite qsum_scale_r.
    assert (Lc : length (softmax ex (column j l)) = n) by (unfold softmax, column; now rewrite !map_length).
    pose proof (qsum_seq_nth idq (softmax ex (column j l)) 0) as Q0. rewrite Lc in Q0. unfold idq in Q0 at 2.
    rewrite <- Q0, softmax_sum; [ring|].
    intros X. unfold column in X. apply map_eq_nil in X. rewrite X in Ll. apply in_seq in Hj. cbn in Ll. lia.
Qed.
End More.

(** ** AttEncoder *)
Theorem att_single ex hidden out d nb feat inputs nbrs r :
  Forall2 (fun v ns => length ns = nb) inputs nbrs ->
  (let (nf, bf) := att_query feat nb inputs nbrs in att_call ex hidden out d nb nf bf) = Ok r ->
  Forall2 (fun p y => (let (nf, bf) := att_query feat nb [fst p] [snd p] in att_call ex hidden out d nb nf bf) = Ok [y])
          (combine inputs nbrs) r.
Proof.
  intros F. unfold att_query, att_call. destruct ((length hidden =? 0) || (length out =? 0))%nat; [discriminate|].
  intros H. injection H as <-. unfold zip_with.
  induction F as [|v ns vs nss L F IH]; [constructor|]. cbn [length map concat combine chunks].
  rewrite map_app. cbn [chunks].
  assert (A : firstn nb (map feat ns ++ map feat (concat nss)) = map feat ns).
  { rewrite firstn_app, map_length, L, Nat.sub_diag, firstn_O, app_nil_r. apply firstn_all2. rewrite map_length. lia. }
  assert (B : skipn nb (map feat ns ++ map feat (concat nss)) = map feat (concat nss)).
  { rewrite skipn_app, map_length, L, Nat.sub_diag, skipn_O. rewrite skipn_all2 by (rewrite map_length; lia). reflexivity. }
  rewrite A, B. constructor; [|exact IH]. cbn [fst snd app concat map]. rewrite app_nil_r.
  rewrite firstn_all2 by (rewrite map_length; lia). reflexivity.
Qed.

(** ** HANEncoder *)
Lemma foldM_app {A S} (f : S -> A -> res S) a b s : foldM f s (a ++ b) = do s' <- foldM f s a ;; foldM f s' b.
Proof. revert s. induction a as [|x a IH]; intros s; [reflexivity|]. cbn [app foldM]. destruct (f s x); [apply IH|reflexivity]. Qed.
Lemma han_repeat m i n cell0 : (i < m)%nat -> foldM (han_append m) cell0 (repeat (i, 0%nat) n) = Ok (cell0 ++ seq (length cell0) n).
Proof.
  intros Hi. revert cell0. induction n as [|n IH]; intros c; [now rewrite app_nil_r|]. cbn [repeat foldM seq].
  unfold han_append at 1, han_cell. cbn [fst snd]. rewrite (proj2 (Nat.ltb_lt i m) Hi). cbn.
  rewrite IH, app_length. cbn [length]. rewrite <- app_assoc, Nat.add_1_r. reflexivity.
Qed.
Theorem han_one m n : han_init m [n] = Ok (seq 0 (m * n)).
Proof.
  unfold han_init, han_positions. cbn [length seq flat_map]. unfold heads_of. cbn [nth].
  assert (X : forall k, (k <= m)%nat -> foldM (han_append m) [] (flat_map (fun i => repeat (i, 0%nat) n ++ []) (seq 0 k)) = Ok (seq 0 (k * n))).
  { induction k as [|k IH]; intros Hk; [reflexivity|]. rewrite seq_S, flat_map_app, foldM_app, IH by lia. cbn [bind flat_map plus].
    rewrite !app_nil_r, han_repeat by lia. rewrite seq_length. rewrite <- seq_app. do 2 f_equal. lia. }
  apply X. lia.
Qed.
Theorem han_shared m n i : (i < m)%nat -> han_heads m [n] (seq 0 (m * n)) i 0 = Ok (seq 0 n).
Proof.
  intros H. unfold han_heads, han_cell. rewrite (proj2 (Nat.ltb_lt i m) H). cbn [andb Nat.eqb bind].
  unfold heads_of. cbn [nth]. rewrite (mapM_all_ok _ (fun k => k)); [now rewrite map_id|].
  intros k Hk. apply in_seq in Hk. assert (k < m * n)%nat by nia. rewrite (item_ok _ _ 0%nat) by (rewrite seq_length; lia).
  now rewrite seq_nth by lia.
Qed.
Theorem han_deep m a b rest : (0 < m)%nat -> (0 < b)%nat -> han_init m (a :: b :: rest) = Fail EIndex.
Proof.
  intros Hm Hb. unfold han_init, han_positions. destruct m as [|m]; [lia|]. cbn [seq flat_map length].
  unfold heads_of at 1 2. cbn [nth]. rewrite <- !app_assoc, foldM_app, han_repeat by lia. cbn [bind].
  destruct b as [|b]; [lia|]. reflexivity.
Qed.
