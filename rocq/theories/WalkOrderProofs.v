(** The candidates of a step of a walk through servers do not depend on the order of the replies. *)
From Coq Require Import QArith Permutation Sorting.Sorted.
From Verif Require Import Base Dist LoaderModel NeighborModel WalkModel.
Local Open Scope Z_scope.

Definition pair_le (a b : Z * Q) : Prop := fst a < fst b \/ (fst a = fst b /\ (snd a <= snd b)%Q).
Definition pair_eq (a b : Z * Q) : Prop := fst a = fst b /\ (snd a == snd b)%Q.

Lemma pair_ltb_le a b : pair_ltb a b = true -> pair_le a b.
Proof.
  unfold pair_ltb, pair_le. destruct (Z.ltb_spec (fst a) (fst b)); [auto|]. cbn [orb]. destruct (Z.eqb_spec (fst a) (fst b)) as [E|]; [|discriminate].
  cbn [andb]. intro K. right. split; [exact E|]. destruct (Qle_bool (snd b) (snd a)) eqn:Q; [discriminate|].
  destruct (Qlt_le_dec (snd a) (snd b)) as [L|L]; [now apply Qlt_le_weak|]. apply Qle_bool_iff in L. congruence.
Qed.
Lemma pair_ltb_ge a b : pair_ltb a b = false -> pair_le b a.
Proof.
  unfold pair_ltb, pair_le. destruct (Z.ltb_spec (fst a) (fst b)); [discriminate|]. cbn [orb]. destruct (Z.eqb_spec (fst a) (fst b)) as [E|E].
  - cbn [andb]. intro Q. right. split; [congruence|]. apply Qle_bool_iff. destruct (Qle_bool (snd b) (snd a)); [reflexivity|discriminate].
  - intros _. left. lia.
Qed.
Lemma pair_le_trans a b c : pair_le a b -> pair_le b c -> pair_le a c.
Proof. intros [H|[H1 H2]] [G|[G1 G2]]; unfold pair_le; [left; lia|left; lia|left; lia|right]. split; [congruence|eapply Qle_trans; eassumption]. Qed.
Lemma pair_le_anti a b : pair_le a b -> pair_le b a -> pair_eq a b.
Proof. intros [H|[H1 H2]] [G|[G1 G2]]; try lia. split; [assumption|now apply Qle_antisym]. Qed.

Lemma insert_pair_in x l y : In y (insert_pair x l) -> y = x \/ In y l.
Proof.
  induction l as [|z l IH]; cbn; [intuition|]. destruct (pair_ltb x z); cbn; intuition.
Qed.
Lemma insert_pair_sorted x l : StronglySorted pair_le l -> StronglySorted pair_le (insert_pair x l).
Proof.
  induction l as [|y l IH]; intro S; [repeat constructor|]. apply StronglySorted_inv in S. destruct S as [S F]. cbn [insert_pair].
  destruct (pair_ltb x y) eqn:E.
  - constructor; [now constructor|]. apply pair_ltb_le in E. constructor; [assumption|].
    eapply Forall_impl; [|exact F]. intros a Ha. eapply pair_le_trans; eassumption.
  - constructor; [now apply IH|]. apply Forall_forall. intros a Ha. apply insert_pair_in in Ha. destruct Ha as [->|Ha]; [now apply pair_ltb_ge|].
    rewrite Forall_forall in F. now apply F.
Qed.
Lemma sort_pairs_sorted l : StronglySorted pair_le (sort_pairs l).
Proof. induction l as [|x l IH]; [constructor|]. cbn. now apply insert_pair_sorted. Qed.

Lemma insert_pair_perm' x l : Permutation (x :: l) (insert_pair x l).
Proof. induction l as [|y l IH]; cbn [insert_pair]; [reflexivity|]. destruct (pair_ltb x y); [reflexivity|]. rewrite perm_swap. now constructor. Qed.
Lemma sort_pairs_perm' l : Permutation l (sort_pairs l).
Proof. induction l as [|x l IH]; [reflexivity|]. cbn [sort_pairs fold_right]. fold (sort_pairs l). rewrite <- insert_pair_perm'. now constructor. Qed.

Lemma pair_eq_trans a b c : pair_eq a b -> pair_eq b c -> pair_eq a c.
Proof. intros [H1 H2] [G1 G2]. split; [congruence|now rewrite H2]. Qed.
Lemma pair_eq_sym a b : pair_eq a b -> pair_eq b a.
Proof. intros [H1 H2]. split; [congruence|now symmetry]. Qed.
Lemma pair_le_eq a b c : pair_le a b -> pair_eq b c -> pair_le a c.
Proof. intros [H|[H1 H2]] [E1 E2]; unfold pair_le; [left; lia|right]. split; [congruence|now rewrite <- E2]. Qed.

(** Sorted lists with the same elements agree place by place. *)
Lemma sorted_same l : forall m l', Permutation l m -> Forall2 pair_eq m l' -> StronglySorted pair_le l -> StronglySorted pair_le l' ->
  Forall2 pair_eq l l'.
Proof.
  induction l as [|x t IH]; intros m l' P F S S'.
  - apply Permutation_nil in P. subst m. inversion F. constructor.
  - destruct F as [|a y b t' E F]; [apply Permutation_sym, Permutation_nil in P; discriminate|].
    apply StronglySorted_inv in S. destruct S as [S Sx]. apply StronglySorted_inv in S'. destruct S' as [S' Sy].
    rewrite Forall_forall in Sx, Sy.
    assert (Exy : pair_eq x y).
    { assert (L1 : pair_eq x y \/ pair_le x y).
      { assert (Ha : In a (x :: t)) by (eapply Permutation_in; [symmetry; exact P|now left]). destruct Ha as [Ha|Ha]; [left; rewrite Ha; exact E|].
        right. apply (pair_le_eq x a y); [now apply Sx|exact E]. }
      assert (L2 : pair_eq x y \/ pair_le y x).
      { assert (Hx : In x (a :: b)) by (eapply Permutation_in; [exact P|now left]). destruct Hx as [Hx|Hx]; [left; rewrite <- Hx; exact E|]. right.
        clear -F Hx Sy. induction F as [|u v b t' E F IH]; [contradiction|]. destruct Hx as [->|Hx].
        - eapply pair_le_eq; [apply Sy; now left|now apply pair_eq_sym].
        - apply IH; [|assumption]. intros z Hz. apply Sy. now right. }
      destruct L1 as [L1|L1]; [exact L1|]. destruct L2 as [L2|L2]; [exact L2|]. now apply pair_le_anti. }
    constructor; [exact Exy|].
    assert (Hx : In x (a :: b)) by (eapply Permutation_in; [exact P|now left]).
    destruct Hx as [->|Hx].
    + apply Permutation_cons_inv in P. now apply (IH b).
    + apply in_split in Hx. destruct Hx as (u & v & ->).
      apply (IH (u ++ a :: v)); [| |assumption|assumption].
      * apply Permutation_cons_inv with x. rewrite P. rewrite <- Permutation_middle, <- Permutation_middle. apply perm_swap.
      * apply Forall2_app_inv_l in F. destruct F as (t1 & t2 & F1 & F2 & ->). inversion F2 as [|? z ? t3 Ez F3]; subst.
        apply Forall2_app; [assumption|]. constructor; [|assumption].
        eapply pair_eq_trans; [exact E|]. eapply pair_eq_trans; [apply pair_eq_sym; exact Exy|exact Ez].
Qed.

Lemma pair_eq_refl_all l : Forall2 pair_eq l l.
Proof. induction l; constructor; [split; reflexivity|assumption]. Qed.
Theorem sorted_perm l l' : Permutation l l' -> Forall2 pair_eq (sort_pairs l) (sort_pairs l').
Proof.
  intro P. apply (sorted_same _ (sort_pairs l')); [| |apply sort_pairs_sorted|apply sort_pairs_sorted].
  - now rewrite <- sort_pairs_perm', <- sort_pairs_perm'.
  - apply pair_eq_refl_all.
Qed.

Lemma candidates_perm qval p q past curr t nbs nbs' : Permutation nbs nbs' ->
  Permutation (candidates qval p q past curr t nbs) (candidates qval p q past curr t nbs').
Proof.
  intro P. unfold candidates. apply Permutation_app_head. now apply Permutation_flat_map.
Qed.

(** The node taken for the random number [u]. *)
Definition taken_node (l : list (Z * Q)) (u : Q) : option Z :=
  nth_error (map fst l) (picked 0 (qsum snd l) (partial_sums 0 l) u).

Lemma bsearch_ext {A B} (go : A -> bool) (go' : B -> bool) l l' : Forall2 (fun a b => go a = go' b) l l' ->
  forall n lo len, bsearch n go l lo len = bsearch n go' l' lo len.
Proof.
  intros F. assert (N : forall k, match nth_error l k, nth_error l' k with Some a, Some b => go a = go' b | None, None => True | _, _ => False end).
  { induction F as [|a b l l' E F IH]; intros [|k]; cbn; auto. apply IH. }
  induction n as [|n IH]; intros lo len; [reflexivity|]. cbn [bsearch]. destruct len as [|len]; [reflexivity|].
  specialize (N (lo + S len / 2)%nat). cbn zeta. destruct (nth_error l _), (nth_error l' _); try contradiction; [|reflexivity].
  rewrite N. destruct (go' b); apply IH.
Qed.

Lemma partial_sums_eq l l' : Forall2 pair_eq l l' -> forall a a', (a == a')%Q -> Forall2 Qeq (partial_sums a l) (partial_sums a' l').
Proof.
  induction 1 as [|x y l l' [_ E] F IH]; intros a a' Ea; cbn [partial_sums]; constructor; [now rewrite Ea, E|]. apply IH. now rewrite Ea, E.
Qed.
Lemma qsum_eq l l' : Forall2 pair_eq l l' -> (qsum snd l == qsum snd l')%Q.
Proof. induction 1 as [|x y l l' [_ E] F IH]; cbn [qsum]; [reflexivity|]. now rewrite E, IH. Qed.
Lemma forall2_map_fst l l' : Forall2 pair_eq l l' -> map fst l = map fst l'.
Proof. induction 1 as [|x y l l' [E _] F IH]; cbn; congruence. Qed.
Lemma forall2_len {A B} (P : A -> B -> Prop) l l' : Forall2 P l l' -> length l = length l'.
Proof. induction 1; cbn; congruence. Qed.

Lemma taken_eq l l' u : Forall2 pair_eq l l' -> taken_node l u = taken_node l' u.
Proof.
  intro F. unfold taken_node. rewrite (forall2_map_fst _ _ F). f_equal. unfold picked, bound.
  pose proof (partial_sums_eq _ _ F 0%Q 0%Q (Qeq_refl _)) as S. pose proof (qsum_eq _ _ F) as W.
  rewrite (forall2_len _ _ _ S). apply bsearch_ext. revert S. generalize (partial_sums 0 l) (partial_sums 0 l').
  induction 1 as [|a b m m' E _ IH]; constructor; [|exact IH]. f_equal.
  destruct (Qle_bool (0 + qsum snd l * u) a) eqn:Q1, (Qle_bool (0 + qsum snd l' * u) b) eqn:Q2; try reflexivity.
  - apply Qle_bool_iff in Q1. rewrite W, E in Q1. apply Qle_bool_iff in Q1. congruence.
  - apply Qle_bool_iff in Q2. rewrite <- W, <- E in Q2. apply Qle_bool_iff in Q2. congruence.
Qed.

Theorem reply_order qval p q past curr t nbs nbs' : Permutation nbs nbs' ->
  let l := arranged true (candidates qval p q past curr t nbs) in
  let l' := arranged true (candidates qval p q past curr t nbs') in
  StronglySorted pair_le l /\ Forall2 pair_eq l l' /\ forall u, taken_node l u = taken_node l' u.
Proof.
  intro P. cbn zeta. unfold arranged. split; [apply sort_pairs_sorted|].
  pose proof (sorted_perm _ _ (candidates_perm qval p q past curr t nbs nbs' P)) as F. split; [exact F|]. intro u. now apply taken_eq.
Qed.
