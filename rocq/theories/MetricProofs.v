From Coq Require Import QArith Lqa Permutation.
From Verif Require Import Base Dist MetricModel MetricSpec.

Lemma mean_ok l : l <> [] -> exists v, mean l = Ok v /\ v * qnat (length l) == qsum (fun x => x) l.
Proof.
  intros H. destruct l as [|x l]; [congruence|]. eexists. split; [reflexivity|]. field.
  unfold qnat, Qeq. cbn [length Qnum Qden inject_Z]. lia.
Qed.
Lemma qnat_lt a b : (a < b)%nat -> qnat a < qnat b.
Proof. intros H. unfold qnat. rewrite <- Zlt_Qlt. lia. Qed.
Lemma qnat_le_inv a b : qnat a <= qnat b -> (a <= b)%nat.
Proof. unfold qnat. rewrite <- Zle_Qle. lia. Qed.

(** A strictly rising arrangement of 0..n-1 is the identity. *)
Lemma rising_identity n (f : nat -> nat) :
  (forall a b, (a < b)%nat -> (b < n)%nat -> (f a < f b)%nat) -> (forall a, (a < n)%nat -> (f a < n)%nat) ->
  forall a, (a < n)%nat -> f a = a.
Proof.
  intros R B.
  assert (G : forall a, (a < n)%nat -> (a <= f a)%nat).
  { induction a as [|a IH]; intros H; [lia|]. specialize (IH ltac:(lia)). specialize (R a (S a) ltac:(lia) H). lia. }
  assert (U : forall d a, (a + d = n - 1)%nat -> (a < n)%nat -> (f a <= a)%nat).
  { induction d as [|d IH]; intros a E H; [specialize (B a H); lia|]. specialize (IH (S a) ltac:(lia) ltac:(lia)).
    specialize (R a (S a) ltac:(lia) ltac:(lia)). lia. }
  intros a H. specialize (G a H). specialize (U (n - 1 - a)%nat a ltac:(lia) H). lia.
Qed.

Section Ord.
Variable ord : list Q -> list nat.
Hypothesis D : descending ord.
Lemma ord_length s : length (ord s) = length s.
Proof. destruct (D s) as [P _]. rewrite (Permutation_length P). apply seq_length. Qed.
Lemma ord_lt s i : (i < length s)%nat -> (nth i (ord s) 0 < length s)%nat.
Proof.
  intros H. destruct (D s) as [P _]. assert (I : In (nth i (ord s) 0%nat) (seq 0 (length s))).
  { apply (Permutation_in _ P), nth_In. now rewrite ord_length. } apply in_seq in I. lia.
Qed.
Lemma ranks_length s : length (ranks ord s) = length s.
Proof. unfold ranks. now rewrite ord_length, map_length, ord_length. Qed.
Lemma ranks_lt s i : (i < length s)%nat -> (nth i (ranks ord s) 0 < length s)%nat.
Proof. intros H. unfold ranks. pose proof (ord_lt (map (fun i => - qnat i) (ord s)) i) as L. rewrite map_length, ord_length in L. auto. Qed.
(** The rank of [i] is its position in the order. *)
Lemma ranks_position s i : (i < length s)%nat -> nth (nth i (ranks ord s) 0%nat) (ord s) 0%nat = i.
Proof.
  set (q := ranks ord s). set (f := fun i => nth (nth i q 0%nat) (ord s) 0%nat).
  assert (Lq : length q = length s) by apply ranks_length.
  assert (Pq : Permutation q (seq 0 (length s))).
  { unfold q, ranks. destruct (D (map (fun i => - qnat i) (ord s))) as [P _]. now rewrite map_length, ord_length in P. }
  assert (Nq : NoDup q) by (apply (Permutation_NoDup (Permutation_sym Pq)), seq_NoDup).
  assert (No : NoDup (ord s)) by (destruct (D s) as [P _]; apply (Permutation_NoDup (Permutation_sym P)), seq_NoDup).
  assert (Ql : forall a, (a < length s)%nat -> (nth a q 0 < length s)%nat) by (intros; now apply ranks_lt).
  apply (rising_identity (length s) f).
  - intros a b Hab Hb. unfold f. destruct (D (map (fun i => - qnat i) (ord s))) as [_ O].
    rewrite map_length, ord_length in O. specialize (O a b Hab Hb). change (ord (map (fun i => - qnat i) (ord s))) with q in O.
    assert (X : forall c, (c < length s)%nat -> nth (nth c q 0%nat) (map (fun i => - qnat i) (ord s)) 0 = - qnat (f c)).
    { intros c Hc. rewrite (nth_indep _ 0 (- qnat 0)) by (rewrite map_length, ord_length; now apply Ql).
      apply (map_nth (fun i => - qnat i)). }
    rewrite !X in O by lia. assert (L : (f a <= f b)%nat) by (apply qnat_le_inv; lra).
    assert (N : f a <> f b).
    { intros E. unfold f in E. assert (E2 : nth a q 0%nat = nth b q 0%nat).
      { apply (proj1 (NoDup_nth (ord s) 0%nat) No); [rewrite ord_length; apply Ql; lia|rewrite ord_length; apply Ql; lia|exact E]. }
      apply (proj1 (NoDup_nth q 0%nat) Nq) in E2; lia. }
    unfold f in *. lia.
  - intros a Ha. unfold f. apply ord_lt. now apply Ql.
Qed.

Lemma filter_none {A} (p : A -> bool) l : (forall x, In x l -> p x = false) -> filter p l = [].
Proof. induction l as [|x l IH]; intros H; [reflexivity|]. cbn. rewrite (H x) by now left. apply IH. intros; apply H; now right. Qed.
Lemma filter_every {A} (p : A -> bool) l : (forall x, In x l -> p x = true) -> filter p l = l.
Proof. induction l as [|x l IH]; intros H; [reflexivity|]. cbn. rewrite (H x) by now left. f_equal. apply IH. intros; apply H; now right. Qed.
Lemma filter_len {A} (p : A -> bool) l : (length (filter p l) <= length l)%nat.
Proof. induction l as [|x l IH]; cbn; [lia|]. destruct (p x); cbn; lia. Qed.
Lemma filter_perm {A} (p : A -> bool) l l' : Permutation l l' -> length (filter p l) = length (filter p l').
Proof.
  induction 1 as [|x l l' P IH|x y l|l l' l'' P IH P' IH']; cbn; try reflexivity.
  - destruct (p x); cbn; congruence.
  - destruct (p x), (p y); reflexivity.
  - congruence.
Qed.
Theorem rank_counts s p : (p < length s)%nat -> ranked s p (nth p (ranks ord s) 0%nat).
Proof.
  intros H. set (r := nth p (ranks ord s) 0%nat).
  assert (Hr : (r < length s)%nat) by now apply ranks_lt.
  pose proof (ranks_position s p H) as Pos. fold r in Pos. destruct (D s) as [P O].
  pose proof (ord_length s) as L.
  assert (Sp : ord s = firstn r (ord s) ++ p :: skipn (S r) (ord s)).
  { rewrite <- (firstn_skipn r (ord s)) at 1. f_equal. rewrite <- Pos.
    clear -Hr L. rewrite <- L in Hr. revert Hr. generalize (ord s). generalize r. induction r0 as [|k IH]; intros [|x l] H; cbn in *; try lia; [reflexivity|].
    apply IH. lia. }
  assert (Before : forall j, In j (firstn r (ord s)) -> nth p s 0 <= nth j s 0).
  { intros j Hj. destruct (In_nth _ _ 0%nat Hj) as (a & Ha & E). rewrite firstn_length in Ha.
    assert (E2 : nth a (ord s) 0%nat = j).
    { rewrite <- E. rewrite Sp at 1. rewrite app_nth1; [reflexivity|]. rewrite firstn_length. lia. }
    specialize (O a r ltac:(lia) Hr). now rewrite E2, Pos in O. }
  assert (After : forall j, In j (skipn (S r) (ord s)) -> nth j s 0 <= nth p s 0).
  { intros j Hj. destruct (In_nth _ _ 0%nat Hj) as (a & Ha & E). rewrite skipn_length in Ha.
    assert (E2 : nth (S r + a) (ord s) 0%nat = j).
    { rewrite <- E. rewrite <- (firstn_skipn (S r) (ord s)) at 1. rewrite app_nth2; rewrite firstn_length; [|lia]. f_equal. lia. }
    specialize (O r (S r + a)%nat ltac:(lia) ltac:(lia)). now rewrite E2, Pos in O. }
  assert (Nd : NoDup (ord s)) by (apply (Permutation_NoDup (Permutation_sym P)), seq_NoDup).
  split.
  - unfold above. rewrite <- (filter_perm _ _ _ P), Sp, filter_app, app_length.
    rewrite (filter_none _ (p :: skipn (S r) (ord s))).
    + pose proof (filter_len (fun j => negb (Qle_bool (nth j s 0) (nth p s 0))) (firstn r (ord s))) as X. rewrite firstn_length in X. cbn [length]. lia.
    + intros j [<-|Hj]; apply negb_false_iff, Qle_bool_iff; [lra|now apply After].
  - unfold not_below. rewrite <- (filter_perm _ _ _ P), Sp, filter_app, app_length.
    rewrite (filter_every _ (firstn r (ord s))).
    + rewrite firstn_length. lia.
    + intros j Hj. apply andb_true_iff. split; [|apply Qle_bool_iff; now apply Before].
      apply negb_true_iff, Nat.eqb_neq. intros ->. rewrite Sp in Nd. apply NoDup_remove_2 in Nd. apply Nd. apply in_or_app. now left.
Qed.
(** Without ties there is one rank. *)
Theorem rank_distinct s p r : (p < length s)%nat -> distinct s -> ranked s p r -> r = above s p.
Proof.
  intros H N [A B]. assert (E : not_below s p = above s p).
  { unfold not_below, above. f_equal. apply filter_ext_in. intros j Hj. apply in_seq in Hj.
    destruct (Nat.eqb_spec j p) as [->|Ne]; cbn [negb andb].
    - symmetry. apply negb_false_iff, Qle_bool_iff. lra.
    - destruct (Qle_bool (nth p s 0) (nth j s 0)) eqn:E1, (Qle_bool (nth j s 0) (nth p s 0)) eqn:E2; cbn; try reflexivity.
      + exfalso. apply Ne. apply N; [lia|lia|]. apply Qle_bool_iff in E1, E2. lra.
      + exfalso. destruct (Qlt_le_dec (nth p s 0) (nth j s 0)) as [X|X].
        * apply Qlt_le_weak in X. apply Qle_bool_iff in X. congruence.
        * apply Qle_bool_iff in X. congruence. }
  lia.
Qed.

Lemma dot_one_hot (r : list nat) n p : length r = n -> (p < n)%nat -> dot r (one_hot n p) == qnat (nth p r 0%nat).
Proof.
  intros L H. unfold dot, one_hot.
  rewrite (qsum_nth _ (0%nat, 0)). rewrite combine_length, map_length, seq_length, L, Nat.min_id.
  rewrite (qsum_ext _ (fun i => ind (i =? p)%nat * qnat (nth i r 0%nat))).
  - now rewrite qsum_pick.
  - intros i Hi. apply in_seq in Hi. rewrite combine_nth by (now rewrite map_length, seq_length). cbn [fst snd].
    rewrite (nth_indep _ 0 ((fun i => if (i =? p)%nat then 1 else 0) 0%nat)) by (rewrite map_length, seq_length; lia).
    rewrite (map_nth (fun i => if (i =? p)%nat then 1 else 0)), seq_nth by lia. cbn [plus]. unfold ind. destruct (i =? p)%nat; ring.
Qed.
Lemma recip_ext x k : x == qnat k -> 1 / (x + 1) == 1 / qnat (k + 1).
Proof.
  intros E. assert (X : x + 1 == qnat (k + 1)) by (rewrite E; unfold qnat; rewrite Nat2Z.inj_add, inject_Z_plus; reflexivity).
  now rewrite X.
Qed.

(** One row of scores and one label in each matrix. *)
Local Notation case := (list Q * nat)%type.
Lemma one_hot_length n p : length (one_hot n p) = n.
Proof. unfold one_hot. now rewrite map_length, seq_length. Qed.
Lemma same_size_of cs : forallb same_size (map matrix_of cs) = true.
Proof.
  apply forallb_forall. intros m Hm. apply in_map_iff in Hm. destruct Hm as ([s p] & <- & _). unfold same_size, matrix_of. cbn [fst snd length combine forallb Nat.eqb andb].
  rewrite one_hot_length, Nat.eqb_refl. reflexivity.
Qed.
Lemma signed_length asc s : length (signed asc s) = length s.
Proof. unfold signed. destruct asc; [apply map_length|reflexivity]. Qed.
Theorem mrr_rows asc cs : cs <> [] -> Forall (fun c => (snd c < length (fst c))%nat) cs ->
  exists v rs, mrr ord asc (map matrix_of cs) = Ok v /\ is_mrr v rs /\
    Forall2 (fun c r => ranked (signed asc (fst c)) (snd c) r) cs rs.
Proof.
  intros Ne F. unfold mrr. rewrite same_size_of.
  assert (Ec : flat_map (fun p => mrr_cells ord asc (fst p) (snd p)) (map matrix_of cs) =
               map (fun c => 1 / (dot (ranks ord (signed asc (fst c))) (one_hot (length (fst c)) (snd c)) + 1)) cs).
  { clear. induction cs as [|[s p] cs IH]; [reflexivity|]. cbn [map flat_map]. rewrite IH. unfold mrr_cells, matrix_of, signed. cbn [fst snd].
    destruct asc; reflexivity. }
  rewrite Ec. set (l := map _ cs). destruct (mean_ok l) as (v & E & S). { unfold l. destruct cs; [congruence|discriminate]. }
  exists v, (map (fun c => nth (snd c) (ranks ord (signed asc (fst c))) 0%nat) cs). split; [exact E|]. split.
  - unfold is_mrr. rewrite map_length. unfold l in S. rewrite map_length in S. rewrite S, !qsum_map. apply qsum_ext.
    intros c Hc. apply recip_ext. rewrite Forall_forall in F. specialize (F c Hc).
    apply dot_one_hot; [|exact F]. rewrite ranks_length. apply signed_length.
  - clear -F D. induction F as [|c cs Hc F IH]; constructor; [|exact IH]. apply rank_counts. now rewrite signed_length.
Qed.

(** ** compute_metric and evaluation *)
Lemma batches_flat css : flat_map fst (map batch_of css) = map fst (concat css) /\
  flat_map snd (map batch_of css) = map (fun c => one_hot (length (fst c)) (snd c)) (concat css).
Proof. induction css as [|cs css [A B]]; [split; reflexivity|]. cbn [map flat_map concat]. rewrite !map_app, A, B. split; reflexivity. Qed.
Lemma compute_rows css : css <> [] -> compute_metric ord (map batch_of css) = mrr ord false (map matrix_of (concat css)).
Proof.
  intros Ne. unfold compute_metric. destruct (map batch_of css) as [|b bs] eqn:E; [destruct css; [congruence|discriminate]|]. rewrite <- E.
  destruct (batches_flat css) as [A B]. rewrite A, B, !map_length, Nat.eqb_refl. f_equal.
  generalize (concat css). clear. induction l as [|c l IH]; [reflexivity|]. cbn [map combine]. now rewrite IH.
Qed.
Definition rank_of (c : case) : nat := nth (snd c) (ranks ord (fst c)) 0%nat.
Lemma rank_of_ranked cs : Forall (fun c => (snd c < length (fst c))%nat) cs -> Forall2 (fun c r => ranked (fst c) (snd c) r) cs (map rank_of cs).
Proof. induction 1 as [|c cs Hc F IH]; constructor; [now apply rank_counts|exact IH]. Qed.
Lemma mrr_value cs : cs <> [] -> Forall (fun c => (snd c < length (fst c))%nat) cs ->
  exists v, mrr ord false (map matrix_of cs) = Ok v /\ is_mrr v (map rank_of cs).
Proof.
  intros Ne F. unfold mrr. rewrite same_size_of.
  assert (Ec : flat_map (fun p => mrr_cells ord false (fst p) (snd p)) (map matrix_of cs) =
               map (fun c => 1 / (dot (ranks ord (fst c)) (one_hot (length (fst c)) (snd c)) + 1)) cs).
  { clear. induction cs as [|[s p] cs IH]; [reflexivity|]. cbn [map flat_map]. rewrite IH. reflexivity. }
  rewrite Ec. set (l := map _ cs). destruct (mean_ok l) as (v & E & S). { unfold l. destruct cs; [congruence|discriminate]. }
  exists v. split; [exact E|]. unfold is_mrr. rewrite map_length. unfold l in S. rewrite map_length in S. rewrite S, !qsum_map. apply qsum_ext.
  intros c Hc. apply recip_ext. rewrite Forall_forall in F. specialize (F c Hc). apply dot_one_hot; [apply ranks_length|exact F].
Qed.
(** All batches at once, or batch by batch when they have the same size. *)
Theorem eval_rows per_step css n :
  css <> [] -> (0 < n)%nat -> (per_step = true -> Forall (fun cs => length cs = n) css) -> Forall (fun cs => cs <> []) css ->
  Forall (Forall (fun c => (snd c < length (fst c))%nat)) css ->
  exists v rs, eval_metric ord per_step (map batch_of css) = Ok v /\ is_mrr v rs /\
    Forall2 (fun c r => ranked (fst c) (snd c) r) (concat css) rs.
Proof.
  intros Ne Hn Same Fn F.
  assert (Fc : Forall (fun c => (snd c < length (fst c))%nat) (concat css)).
  { rewrite Forall_forall in *. intros c Hc. apply in_concat in Hc. destruct Hc as (cs & Hcs & Hc). specialize (F cs Hcs).
    rewrite Forall_forall in F. now apply F. }
  assert (Nc : concat css <> []).
  { destruct css as [|cs css]; [congruence|]. inversion Fn; subst. destruct cs; [congruence|discriminate]. }
  destruct per_step; cbn [eval_metric].
  - specialize (Same eq_refl).
    assert (V : exists vs, mapM (fun b => compute_metric ord [b]) (map batch_of css) = Ok vs /\ length vs = length css /\
              qsum (fun x => x) vs * qnat n == qsum (fun r => 1 / qnat (r + 1)) (map rank_of (concat css))).
    { clear Ne Nc Fc. revert Same Fn F. induction css as [|cs css IH]; intros Same Fn F.
      - exists []. split; [reflexivity|]. split; [reflexivity|]. cbn. ring.
      - inversion Same; subst. inversion Fn; subst. inversion F; subst. destruct (IH ltac:(assumption) ltac:(assumption) ltac:(assumption)) as (vs & E & L & S).
        destruct (mrr_value cs) as (v & Ev & M); [assumption|assumption|].
        exists (v :: vs). cbn [map mapM]. change [batch_of cs] with (map batch_of [cs]). rewrite compute_rows by discriminate.
        cbn [concat]. rewrite app_nil_r. rewrite Ev. cbn [bind]. rewrite E. cbn [bind]. split; [reflexivity|]. split; [cbn; lia|].
        rewrite map_app, qsum_app. cbn [qsum]. rewrite Qmult_plus_distr_l, S. unfold is_mrr in M. rewrite map_length in M. rewrite M. reflexivity. }
    destruct V as (vs & E & L & S). rewrite E. cbn [bind]. destruct vs as [|v0 vs0] eqn:Ev; [destruct css; [congruence|discriminate]|].
    rewrite <- Ev in *. destruct (mean_ok vs) as (v & Em & Sm); [rewrite Ev; discriminate|]. exists v, (map rank_of (concat css)).
    split; [exact Em|]. split; [|now apply rank_of_ranked]. unfold is_mrr. rewrite map_length.
    assert (Lc : length (concat css) = (length css * n)%nat).
    { clear -Same. induction Same as [|cs css H S IH]; [reflexivity|]. cbn. rewrite app_length, IH, H. reflexivity. }
    rewrite Lc. assert (Q : qnat (length css * n) == qnat (length vs) * qnat n) by (rewrite L; unfold qnat; rewrite Nat2Z.inj_mul, inject_Z_mult; reflexivity).
    rewrite Q, Qmult_assoc, Sm. exact S.
  - rewrite compute_rows by exact Ne. destruct (mrr_value (concat css) Nc Fc) as (v & E & M). exists v, (map rank_of (concat css)).
    split; [exact E|]. split; [exact M|now apply rank_of_ranked].
Qed.
Theorem eval_nothing : eval_metric ord true [] = Ok 0 /\ eval_metric ord false [] = Fail EAssert.
Proof. split; reflexivity. Qed.

(** ** TensorFlow *)
Lemma last_nth {A} (l : list A) d : last l d = nth (length l - 1) l d.
Proof.
  induction l as [|x l IH]; [reflexivity|]. destruct l as [|y l]; [reflexivity|]. transitivity (last (y :: l) d); [reflexivity|]. rewrite IH.
  cbn [length]. rewrite !Nat.sub_succ, !Nat.sub_0_r. reflexivity.
Qed.
Theorem tf_rows neg pos : neg <> [] -> length neg = length pos ->
  exists v rs, tf_mrr ord neg pos = Ok v /\ is_mrr v rs /\
    Forall2 (fun p r => ranked (fst p ++ [snd p]) (length (fst p)) r) (combine neg pos) rs.
Proof.
  intros Ne L. unfold tf_mrr. rewrite L, Nat.eqb_refl. set (l := map _ (combine neg pos)).
  destruct (mean_ok l) as (v & E & S). { unfold l. destruct neg, pos; try discriminate. congruence. }
  exists v, (map (fun p => nth (length (fst p)) (ranks ord (fst p ++ [snd p])) 0%nat) (combine neg pos)). split; [exact E|]. split.
  - unfold is_mrr. rewrite map_length. unfold l in S. rewrite map_length in S. rewrite S, !qsum_map. apply qsum_ext. intros p _.
    rewrite last_nth, ranks_length, app_length. cbn [length]. rewrite Nat.add_sub. reflexivity.
  - generalize (combine neg pos) as ps. intros ps. induction ps as [|[s x] ps IH]; constructor; [|exact IH].
    apply rank_counts. rewrite app_length. cbn. lia.
Qed.
End Ord.

(** ** Accuracy *)
Lemma argmax_from_spec l : forall pre besti best,
  (besti < length pre)%nat -> nth besti pre 0 = best ->
  (forall j, (j < length pre)%nat -> nth j pre 0 <= best) -> (forall j, (j < besti)%nat -> nth j pre 0 < best) ->
  first_max (pre ++ l) (argmax_from (length pre) besti best l).
Proof.
  induction l as [|x l IH]; intros pre besti best Hb En Hm Hs; cbn [argmax_from].
  - rewrite app_nil_r. split; [exact Hb|]. rewrite En. split; assumption.
  - replace (pre ++ x :: l) with ((pre ++ [x]) ++ l) by (rewrite <- app_assoc; reflexivity).
    replace (S (length pre)) with (length (pre ++ [x])) by (rewrite app_length; cbn; lia).
    destruct (Qle_bool x best) eqn:E.
    + apply Qle_bool_iff in E. apply IH.
      * rewrite app_length. lia.
      * rewrite app_nth1 by exact Hb. exact En.
      * intros j Hj. rewrite app_length in Hj. cbn in Hj. destruct (Nat.eq_dec j (length pre)) as [->|N].
        { rewrite nth_middle. exact E. } rewrite app_nth1 by lia. apply Hm. lia.
      * intros j Hj. rewrite app_nth1 by lia. now apply Hs.
    + assert (G : best < x) by (apply Qnot_le_lt; intros C; apply Qle_bool_iff in C; congruence). apply IH.
      * rewrite app_length. cbn. lia.
      * now rewrite nth_middle.
      * intros j Hj. rewrite app_length in Hj. cbn in Hj. destruct (Nat.eq_dec j (length pre)) as [->|N].
        { rewrite nth_middle. lra. } rewrite app_nth1 by lia. specialize (Hm j ltac:(lia)). lra.
      * intros j Hj. rewrite app_nth1 by exact Hj. specialize (Hm j Hj). lra.
Qed.
Theorem argmax_first l : l <> [] -> exists i, argmax l = Ok i /\ first_max l i.
Proof.
  destruct l as [|x l]; [congruence|]. intros _. eexists. split; [reflexivity|].
  apply (argmax_from_spec l [x] 0 x); cbn; try lia; try reflexivity.
  - intros [|j] H; [lra|lia].
Qed.
Theorem first_max_unique l i j : first_max l i -> first_max l j -> i = j.
Proof.
  intros (A & B & C) (A' & B' & C'). destruct (Nat.lt_trichotomy i j) as [H|[H|H]]; [|exact H|].
  - specialize (C' i H). specialize (B j A'). lra.
  - specialize (C j H). specialize (B' i A). lra.
Qed.
Lemma one_hot_max n p : (p < n)%nat -> first_max (one_hot n p) p.
Proof.
  intros H. assert (E : forall j, (j < n)%nat -> nth j (one_hot n p) 0 = if (j =? p)%nat then 1 else 0).
  { intros j Hj. unfold one_hot. rewrite (nth_indep _ 0 ((fun i => if (i =? p)%nat then 1 else 0) 0%nat)) by (rewrite map_length, seq_length; exact Hj).
    rewrite (map_nth (fun i => if (i =? p)%nat then 1 else 0)), seq_nth by exact Hj. reflexivity. }
  unfold first_max. rewrite one_hot_length. split; [exact H|]. split.
  - intros j Hj. rewrite !E by lia. rewrite Nat.eqb_refl. destruct (j =? p)%nat; lra.
  - intros j Hj. rewrite !E by lia. rewrite Nat.eqb_refl. destruct (Nat.eqb_spec j p); [lia|lra].
Qed.
Lemma masked_ok {A} mask (l : list A) : (forall m, mask = Some m -> length m = length l) -> masked mask l = Ok (chosen mask l).
Proof. intros H. unfold masked, chosen. destruct mask as [m|]; [|reflexivity]. now rewrite (H m eq_refl), Nat.eqb_refl. Qed.
Lemma chosen_map {A B} (f : A -> B) mask l : chosen mask (map f l) = map f (chosen mask l).
Proof.
  unfold chosen. destruct mask as [m|]; [|reflexivity]. revert m. induction l as [|x l IH]; intros [|b m]; try reflexivity. cbn.
  destruct b; cbn; now rewrite IH.
Qed.
Lemma argmax_all l : Forall (fun r => r <> []) l -> exists is_, mapM argmax l = Ok is_ /\ Forall2 first_max l is_.
Proof.
  induction 1 as [|r l Hr F (is_ & E & G)]; [exists []; split; [reflexivity|constructor]|].
  destruct (argmax_first r Hr) as (i & Ei & Gi). exists (i :: is_). cbn [mapM]. rewrite Ei. cbn [bind]. rewrite E. split; [reflexivity|now constructor].
Qed.
Theorem accuracy_counts n (rows : list (list Q * nat)) mask :
  Forall (fun r => fst r <> [] /\ (snd r < n)%nat) rows -> (forall m, mask = Some m -> length m = length rows) ->
  chosen mask rows <> [] ->
  exists v hits, masked_accuracy (map fst rows) (map (fun r => one_hot n (snd r)) rows) mask = Ok v /\
    Forall2 (fun r h => h = true <-> first_max (fst r) (snd r)) (chosen mask rows) hits /\
    v * qnat (length hits) == qnat (length (filter (fun h => h) hits)).
Proof.
  intros F M Ne. unfold masked_accuracy.
  rewrite !masked_ok by (intros m E; rewrite map_length; now apply M). cbn [bind]. rewrite !chosen_map.
  assert (Fc : Forall (fun r => fst r <> [] /\ (snd r < n)%nat) (chosen mask rows)).
  { unfold chosen. destruct mask as [m|]; [|exact F]. rewrite Forall_forall in *. intros r Hr. apply in_map_iff in Hr.
    destruct Hr as ([b r'] & <- & Hr). apply filter_In in Hr. destruct Hr as [Hr _]. apply in_combine_r in Hr. now apply F. }
  revert Ne Fc. generalize (chosen mask rows) as cs. clear F M rows. intros cs Ne F.
  destruct (argmax_all (map fst cs)) as (ap & Ea & Ga). { rewrite Forall_forall in *. intros r Hr. apply in_map_iff in Hr. destruct Hr as (c & <- & Hc). now apply F. }
  destruct (argmax_all (map (fun r => one_hot n (snd r)) cs)) as (al & El & Gl).
  { rewrite Forall_forall in *. intros r Hr. apply in_map_iff in Hr. destruct Hr as (c & <- & Hc). intros Z0. apply (f_equal (@length Q)) in Z0.
    rewrite one_hot_length in Z0. destruct (F c Hc). cbn in Z0. lia. }
  rewrite Ea. cbn [bind]. rewrite El. cbn [bind].
  assert (Al : al = map snd cs).
  { clear -Gl F. revert al Gl. induction F as [|c cs Hc F IH]; intros al Gl; inversion Gl; subst; [reflexivity|]. cbn. f_equal; [|now apply IH].
    eapply first_max_unique; [eassumption|]. now apply one_hot_max. }
  subst al. assert (La : length ap = length cs).
  { clear -Ga. revert ap Ga. induction cs as [|c cs IH]; intros ap G; inversion G; subst; [reflexivity|]. cbn. f_equal. now apply IH. }
  rewrite map_length, La, Nat.eqb_refl. set (l := map _ (combine ap (map snd cs))).
  assert (Ll : length l = length cs) by (unfold l; rewrite map_length, combine_length, map_length; lia).
  destruct (mean_ok l) as (v & E & S). { destruct l; [|discriminate]. destruct cs; [congruence|discriminate]. }
  exists v, (map (fun q => (fst q =? snd q)%nat) (combine ap (map snd cs))). split; [exact E|]. split.
  - clear -Ga. revert ap Ga. induction cs as [|c cs IH]; intros ap G; inversion G; subst; cbn; constructor; [|now apply IH].
    rewrite Nat.eqb_eq. split; [now intros <-|intros X; eapply first_max_unique; eassumption].
  - rewrite map_length. replace (length (combine ap (map snd cs))) with (length l) by (unfold l; now rewrite map_length).
    rewrite S. unfold l. rewrite qsum_map. clear. generalize (combine ap (map snd cs)) as qs.
    induction qs as [|q qs IH]; [reflexivity|]. cbn [qsum map filter]. destruct (fst q =? snd q)%nat; cbn [length]; rewrite IH.
    + unfold qnat. rewrite Nat2Z.inj_succ, <- Z.add_1_l, inject_Z_plus. reflexivity.
    + ring.
Qed.
