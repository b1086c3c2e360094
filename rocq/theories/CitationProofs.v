(** Citation datasets: proofs. *)
From Coq Require Import Permutation Sorting.Sorted ZifyBool ZifyNat.
From Verif Require Import Base CitationModel CitationSpec.

Lemma nth_ext {A} (l l' : list A) : (forall i, nth_error l i = nth_error l' i) -> l = l'.
Proof.
  revert l'. induction l as [|a l IH]; intros [|b l'] H; [reflexivity|specialize (H 0); discriminate|specialize (H 0); discriminate|].
  f_equal; [specialize (H 0); cbn in H; congruence|]. apply IH. intro i. apply (H (S i)).
Qed.

Lemma put_spec {A} (x : A) l : forall i, i < length l ->
  exists l', put i x l = Ok l' /\ length l' = length l /\ nth_error l' i = Some x /\ forall k, k <> i -> nth_error l' k = nth_error l k.
Proof.
  induction l as [|y l IH]; intros i Hi; [cbn in Hi; lia|]. destruct i as [|i]; cbn [put].
  - exists (x :: l). split; [reflexivity|]. split; [reflexivity|]. split; [reflexivity|]. intros [|k] H; [lia|reflexivity].
  - destruct (IH i) as (l' & E & H1 & H2 & H3); [cbn in Hi; lia|]. rewrite E. cbn [bind]. exists (y :: l').
    split; [reflexivity|]. split; [cbn; lia|]. split; [exact H2|]. intros [|k] H; [reflexivity|]. apply H3. lia.
Qed.
Lemma scatter_spec {A} idx : forall (rows l : list A), NoDup idx -> length idx = length rows -> (forall i, In i idx -> i < length l) ->
  exists out, scatter l idx rows = Ok out /\ length out = length l /\
    (forall j i, nth_error idx j = Some i -> nth_error out i = nth_error rows j) /\
    (forall k, ~ In k idx -> nth_error out k = nth_error l k).
Proof.
  induction idx as [|i idx IH]; intros [|x rows] l Hd Hl Hi; try discriminate.
  - exists l. split; [reflexivity|]. split; [reflexivity|]. split; [|reflexivity]. intros [|j] i; discriminate.
  - inversion Hd as [|? ? Hn Hd']; subst. destruct (put_spec x l i) as (l' & E & H1 & H2 & H3); [apply Hi; now left|].
    cbn [scatter]. rewrite E. cbn [bind].
    destruct (IH rows l' Hd') as (out & Eo & O1 & O2 & O3); [cbn in Hl; lia|intros k Hk; rewrite H1; apply Hi; now right|].
    exists out. split; [exact Eo|]. split; [lia|]. split.
    + intros [|j] k Hk; cbn in Hk.
      * injection Hk as <-. cbn. rewrite O3 by exact Hn. exact H2.
      * cbn. now apply O2.
    + intros k Hk. rewrite O3 by (intro X; apply Hk; now right). apply H3. intro X. apply Hk. now left.
Qed.
Lemma scatter_const {A} (x : A) idx : forall l, (forall i, In i idx -> i < length l) ->
  exists out, scatter l idx (repeat x (length idx)) = Ok out /\ length out = length l /\
    (forall i, In i idx -> nth_error out i = Some x) /\ (forall k, ~ In k idx -> nth_error out k = nth_error l k).
Proof.
  induction idx as [|i idx IH]; intros l Hi.
  - exists l. split; [reflexivity|]. split; [reflexivity|]. split; [intros i []|reflexivity].
  - destruct (put_spec x l i) as (l' & E & H1 & H2 & H3); [apply Hi; now left|]. cbn [length repeat scatter]. rewrite E. cbn [bind].
    destruct (IH l') as (out & Eo & O1 & O2 & O3); [intros k Hk; rewrite H1; apply Hi; now right|].
    exists out. split; [exact Eo|]. split; [lia|]. split.
    + intros k [<-|Hk]; [|now apply O2]. destruct (in_dec Nat.eq_dec i idx) as [X|X]; [now apply O2|]. rewrite O3 by exact X. exact H2.
    + intros k Hk. rewrite O3 by (intro X; apply Hk; now right). apply H3. intro X. apply Hk. now left.
Qed.
Lemma scatter_fails {A} (x : A) idx : forall l, (exists i, In i idx /\ length l <= i) -> scatter l idx (repeat x (length idx)) = Fail EIndex.
Proof.
  induction idx as [|i idx IH]; intros l (k & Hk & Hl); [contradiction|]. cbn [length repeat scatter].
  destruct (Nat.lt_ge_cases i (length l)) as [Hi|Hi].
  - destruct (put_spec x l i Hi) as (l' & E & H1 & _). rewrite E. cbn [bind]. destruct Hk as [<-|Hk]; [lia|]. apply IH. exists k. split; [exact Hk|lia].
  - assert (E : forall (l : list A) i, length l <= i -> put i x l = Fail EIndex).
    { clear. induction l as [|y l IH]; intros [|i] H; cbn in *; try reflexivity; [lia|]. rewrite IH by lia. reflexivity. }
    rewrite E by exact Hi. reflexivity.
Qed.

Lemma gather_is {A} (l rows : list A) idx : length idx = length rows ->
  (forall j i, nth_error idx j = Some i -> nth_error l i = nth_error rows j) -> gather l idx = Ok rows.
Proof.
  unfold gather. revert rows. induction idx as [|i idx IH]; intros [|x rows] Hl H; try discriminate; [reflexivity|].
  cbn [mapM]. unfold row_at at 1. rewrite (H 0 i eq_refl). cbn [nth_error bind].
  rewrite (IH rows); [reflexivity|cbn in Hl; lia|]. intros j k Hk. apply (H (S j) k Hk).
Qed.

Lemma insert_nat_perm x l : Permutation (insert_nat x l) (x :: l).
Proof.
  induction l as [|y l IH]; [reflexivity|]. cbn. destruct (x <=? y); [reflexivity|]. rewrite IH. apply perm_swap.
Qed.
Lemma sort_nat_perm l : Permutation (sort_nat l) l.
Proof. induction l as [|x l IH]; [reflexivity|]. cbn. rewrite insert_nat_perm. now apply perm_skip. Qed.
Lemma insert_nat_sorted x l : StronglySorted Nat.le l -> StronglySorted Nat.le (insert_nat x l).
Proof.
  induction 1 as [|y l Hs IH HF]; cbn; [repeat constructor|]. destruct (x <=? y) eqn:E.
  - constructor; [now constructor|]. constructor; [lia|]. eapply Forall_impl; [|exact HF]. cbn. lia.
  - constructor; [exact IH|]. apply Forall_forall. intros z Hz. apply (Permutation_in _ (insert_nat_perm x l)) in Hz.
    destruct Hz as [<-|Hz]; [lia|]. rewrite Forall_forall in HF. now apply HF.
Qed.
Lemma sort_nat_sorted l : StronglySorted Nat.le (sort_nat l).
Proof. induction l as [|x l IH]; [constructor|]. cbn. now apply insert_nat_sorted. Qed.
Lemma sorted_eq l : forall l', StronglySorted Nat.le l -> StronglySorted Nat.le l' -> Permutation l l' -> l = l'.
Proof.
  induction l as [|a l IH]; intros l' Hs Hs' Hp; [apply Permutation_nil in Hp; congruence|].
  destruct l' as [|b l']; [apply Permutation_sym, Permutation_nil in Hp; congruence|].
  inversion Hs as [|? ? Hs1 HF]; subst. inversion Hs' as [|? ? Hs1' HF']; subst. rewrite Forall_forall in HF, HF'.
  assert (a = b).
  { assert (Ha : In a (b :: l')) by (apply (Permutation_in _ Hp); now left).
    assert (Hb : In b (a :: l)) by (apply (Permutation_in _ (Permutation_sym Hp)); now left).
    destruct Ha as [Ha|Ha]; [congruence|]. destruct Hb as [Hb|Hb]; [congruence|]. specialize (HF b Hb). specialize (HF' a Ha). lia. }
  subst b. f_equal. apply IH; [assumption|assumption|]. now apply Permutation_cons_inv in Hp.
Qed.
Lemma seq_sorted n : forall a, StronglySorted Nat.le (seq a n).
Proof.
  induction n as [|n IH]; intro a; [constructor|]. cbn. constructor; [apply IH|]. apply Forall_forall. intros x Hx. apply in_seq in Hx. lia.
Qed.

Lemma fold_min_spec l : forall x, (forall y, In y l -> fold_left Nat.min l x <= y) /\ fold_left Nat.min l x <= x /\ In (fold_left Nat.min l x) (x :: l).
Proof.
  induction l as [|a l IH]; intro x; [cbn; split; [intros y []|split; [lia|now left]]|]. cbn [fold_left].
  destruct (IH (Nat.min x a)) as (H1 & H2 & H3). split; [|split].
  - intros y [<-|Hy]; [lia|now apply H1].
  - lia.
  - destruct H3 as [H3|H3]; [|right; now right]. destruct (Nat.min_spec x a) as [[_ E]|[_ E]]; rewrite E in H3 at 1; [now left|right; now left].
Qed.
Lemma list_min_is l m : In m l -> (forall i, In i l -> m <= i) -> list_min l = m.
Proof.
  destruct l as [|x l]; [intros []|]. intros Hm Hall. cbn [list_min]. destruct (fold_min_spec l x) as (H1 & H2 & H3).
  specialize (Hall _ H3). destruct Hm as [<-|Hm]; [lia|]. specialize (H1 m Hm). lia.
Qed.
Lemma fold_max_spec l : forall x, (forall y, In y (x :: l) -> y <= fold_left Nat.max l x) /\ In (fold_left Nat.max l x) (x :: l).
Proof.
  induction l as [|a l IH]; intro x; [cbn; split; [intros y [<-|[]]; lia|now left]|]. cbn [fold_left].
  destruct (IH (Nat.max x a)) as (H1 & H3). split.
  - intros y [<-|[<-|Hy]]; [specialize (H1 (Nat.max x a) ltac:(now left)); lia|specialize (H1 (Nat.max x a) ltac:(now left)); lia|apply H1; now right].
  - destruct H3 as [H3|H3]; [|right; now right]. destruct (Nat.max_spec x a) as [[_ E]|[_ E]]; rewrite E in H3 at 1; [right; now left|now left].
Qed.
Lemma list_max_ge l i : In i l -> i <= list_max l.
Proof. intro H. unfold list_max. apply fold_max_spec. now right. Qed.
Lemma list_max_in l : l <> [] -> In (list_max l) l.
Proof.
  intro H. destruct (fold_max_spec l 0) as [H1 [H2|H2]]; [|exact H2]. unfold list_max. rewrite <- H2.
  destruct l as [|x l]; [congruence|]. left. specialize (H1 x ltac:(right; now left)). lia.
Qed.

Lemma placed_from {A} (zero : A) reorder allx tx tx' :
  NoDup reorder -> length reorder = length tx -> (forall i, In i reorder -> length allx <= i < length allx + length tx') ->
  (forall j i, nth_error (sort_nat reorder) j = Some i -> nth_error tx' (i - length allx) = nth_error tx j) ->
  (forall k, k < length tx' -> ~ In (k + length allx) reorder -> nth_error tx' k = Some zero) ->
  exists out, (do rows <- gather (allx ++ tx') (sort_nat reorder) ;; scatter (allx ++ tx') reorder rows) = Ok out /\
    length out = length allx + length tx' /\
    (forall i, i < length allx -> nth_error out i = nth_error allx i) /\
    (forall j i, nth_error reorder j = Some i -> nth_error out i = nth_error tx j) /\
    (forall i, length allx <= i < length out -> ~ In i reorder -> nth_error out i = Some zero).
Proof.
  intros Hd Hl Hr Ht Hz.
  assert (Hin : forall j i, nth_error (sort_nat reorder) j = Some i -> In i reorder).
  { intros j i E. apply nth_error_In in E. now apply (Permutation_in _ (sort_nat_perm reorder)). }
  rewrite (gather_is _ tx).
  - cbn [bind]. destruct (scatter_spec reorder tx (allx ++ tx') Hd Hl) as (out & E & O1 & O2 & O3).
    { intros i Hi. rewrite app_length. specialize (Hr i Hi). lia. }
    exists out. rewrite app_length in O1. split; [exact E|]. split; [exact O1|]. split; [|split].
    + intros i Hi. rewrite O3; [now apply nth_error_app1|]. intro X. specialize (Hr i X). lia.
    + exact O2.
    + intros i Hi Hn. rewrite O3 by exact Hn. rewrite nth_error_app2 by lia. apply Hz; [lia|]. replace (i - length allx + length allx) with i by lia. exact Hn.
  - rewrite (Permutation_length (sort_nat_perm reorder)). exact Hl.
  - intros j i E. rewrite nth_error_app2; [now apply Ht|]. specialize (Hr i (Hin j i E)). lia.
Qed.

Lemma nodup_map_sub l lo : NoDup l -> (forall i, In i l -> lo <= i) -> NoDup (map (fun i => i - lo) l).
Proof.
  induction 1 as [|x l Hn Hd IH]; intro H; [constructor|]. cbn. constructor; [|apply IH; intros; apply H; now right].
  intro X. apply in_map_iff in X. destruct X as (y & E & Hy). assert (lo <= y) by (apply H; now right). assert (lo <= x) by (apply H; now left).
  assert (x = y) by lia. congruence.
Qed.

Lemma citeseer_placed {A} (zero : A) reorder allx tx : test_numbers (length allx) (length tx) reorder ->
  exists out, arrange zero true reorder allx tx = Ok out /\ placed zero reorder allx tx out.
Proof.
  intros (Hd & Hl & Hk & Hge). unfold arrange, extend. destruct reorder as [|r0 reorder'] eqn:Er; [contradiction|]. rewrite <- Er in *.
  assert (Hne : reorder <> []) by (rewrite Er; discriminate). clear Er r0 reorder'.
  rewrite (list_min_is reorder (length allx) Hk Hge).
  set (size := list_max reorder + 1 - length allx).
  assert (Hsz : forall i, In i (sort_nat reorder) -> length allx <= i < length allx + size).
  { intros i Hi. apply (Permutation_in _ (sort_nat_perm reorder)) in Hi. pose proof (list_max_ge reorder i Hi). specialize (Hge i Hi). unfold size. lia. }
  destruct (scatter_spec (map (fun i => i - length allx) (sort_nat reorder)) tx (repeat zero size)) as (tx' & E & T1 & T2 & T3).
  { apply nodup_map_sub; [apply (Permutation_NoDup (Permutation_sym (sort_nat_perm reorder)) Hd)|]. intros i Hi. now apply Hsz. }
  { rewrite map_length, (Permutation_length (sort_nat_perm reorder)). exact Hl. }
  { intros k Hk'. apply in_map_iff in Hk'. destruct Hk' as (i & <- & Hi). rewrite repeat_length. specialize (Hsz i Hi). lia. }
  rewrite E. cbn [bind]. rewrite repeat_length in T1.
  destruct (placed_from zero reorder allx tx tx' Hd Hl) as (out & Eo & O1 & O2 & O3 & O4).
  - intros i Hi. rewrite T1. apply Hsz. now apply (Permutation_in _ (Permutation_sym (sort_nat_perm reorder))).
  - intros j i Hj. apply T2. rewrite nth_error_map, Hj. reflexivity.
  - intros k Hlt Hn. rewrite T3.
    + rewrite nth_error_repeat; [reflexivity|lia].
    + intro X. apply in_map_iff in X. destruct X as (i & <- & Hi). apply Hn. specialize (Hsz i Hi). replace (i - length allx + length allx) with i by lia.
      now apply (Permutation_in _ (sort_nat_perm reorder)).
  - exists out. split; [exact Eo|]. split; [exact O2|]. split; [exact O3|]. split; [exact O4|]. intro i. rewrite O1, T1. unfold size.
    pose proof (list_max_in reorder Hne) as Hm. pose proof (Hge _ Hm). split.
    + intro Hi. destruct (Nat.lt_ge_cases i (length allx)); [now left|]. right. exists (list_max reorder). split; [exact Hm|lia].
    + intros [Hi|(j & Hj & Hi)]; [lia|]. pose proof (list_max_ge reorder j Hj). lia.
Qed.

Lemma cora_placed {A} (zero : A) reorder allx tx : dense (length allx) (length tx) reorder ->
  exists out, arrange zero false reorder allx tx = Ok out /\ placed zero reorder allx tx out.
Proof.
  intro Hp. unfold dense in Hp. unfold arrange. cbn [bind].
  assert (Es : sort_nat reorder = seq (length allx) (length tx)).
  { apply sorted_eq; [apply sort_nat_sorted|apply seq_sorted|]. rewrite sort_nat_perm. exact Hp. }
  assert (Hin : forall i, In i reorder <-> length allx <= i < length allx + length tx).
  { intro i. rewrite <- in_seq. split; apply Permutation_in; [exact Hp|now apply Permutation_sym]. }
  destruct (placed_from zero reorder allx tx tx) as (out & Eo & O1 & O2 & O3 & O4).
  - apply (Permutation_NoDup (Permutation_sym Hp)). apply seq_NoDup.
  - rewrite (Permutation_length Hp). apply seq_length.
  - intros i Hi. now apply Hin.
  - intros j i Hj. rewrite Es in Hj.
    assert (Hjl : j < length tx) by (rewrite <- (seq_length (length tx) (length allx)); apply nth_error_Some; congruence).
    pose proof (nth_error_nth _ _ 0 Hj) as X. rewrite seq_nth in X by exact Hjl. f_equal. lia.
  - intros k Hk Hn. elim Hn. apply Hin. lia.
  - exists out. split; [exact Eo|]. split; [exact O2|]. split; [exact O3|]. split; [exact O4|]. intro i. rewrite O1. split.
    + intro Hi. destruct (Nat.lt_ge_cases i (length allx)); [now left|]. right. exists i. split; [apply Hin; lia|lia].
    + intros [Hi|(j & Hj & Hi)]; [lia|]. apply Hin in Hj. lia.
Qed.

(** ** Masks *)
Lemma nth_false n i : nth_error (repeat false n) i <> Some true.
Proof. intro H. apply nth_error_In, repeat_spec in H. discriminate. Qed.
Lemma mask_marks idx n : (forall i, In i idx -> i < n) -> exists m, sample_mask idx n = Ok m /\ marks n m (fun i => In i idx).
Proof.
  intro H. unfold sample_mask. destruct (scatter_const true idx (repeat false n)) as (m & E & H1 & H2 & H3).
  { intros i Hi. rewrite repeat_length. now apply H. }
  rewrite repeat_length in H1. exists m. split; [exact E|]. split; [exact H1|]. intro i. split.
  - intro Hi. destruct (in_dec Nat.eq_dec i idx) as [X|X]; [split; [now apply H|exact X]|].
    rewrite H3 in Hi by exact X. now apply nth_false in Hi.
  - intros [_ Hi]. now apply H2.
Qed.
Lemma public_lemma ny reorder n : ny + 500 <= n -> (forall i, In i reorder -> i < n) ->
  exists train val test, public_masks ny reorder n = Ok (train, val, test) /\
    marks n train (fun i => i < ny) /\ marks n val (fun i => ny <= i < ny + 500) /\ marks n test (fun i => In i reorder).
Proof.
  intros Hn Hr. unfold public_masks.
  destruct (mask_marks (seq 0 ny) n) as (a & Ea & La & Ha); [intros i Hi; apply in_seq in Hi; lia|].
  destruct (mask_marks (seq ny 500) n) as (b & Eb & Lb & Hb); [intros i Hi; apply in_seq in Hi; lia|].
  destruct (mask_marks (sort_nat reorder) n) as (c & Ec & Lc & Hc); [intros i Hi; apply Hr; now apply (Permutation_in _ (sort_nat_perm reorder))|].
  rewrite Ea, Eb, Ec. cbn [bind]. exists a, b, c. split; [reflexivity|]. split; [|split]; (split; [assumption|]); intro i.
  - rewrite Ha, in_seq. split; intros [X Y]; split; lia.
  - rewrite Hb, in_seq. split; intros [X Y]; split; lia.
  - rewrite Hc. split; intros [X Y]; (split; [exact X|]); [apply (Permutation_in _ (sort_nat_perm reorder) Y)|apply (Permutation_in _ (Permutation_sym (sort_nat_perm reorder)) Y)].
Qed.
Lemma public_fails ny reorder n : ny <= n -> n < ny + 500 -> public_masks ny reorder n = Fail EIndex.
Proof.
  intros H0 Hn. unfold public_masks. destruct (mask_marks (seq 0 ny) n) as (a & Ea & _); [intros i Hi; apply in_seq in Hi; lia|].
  rewrite Ea. cbn [bind]. unfold sample_mask at 1. rewrite scatter_fails; [reflexivity|]. exists (ny + 499). rewrite in_seq, repeat_length. lia.
Qed.
