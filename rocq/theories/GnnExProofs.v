From Coq Require Import List Arith ZArith Bool Sorted Permutation Lia.
From Verif Require Import Base WriterModel LoaderModel GraphModel GraphSpec AnswerProofs GraphOpsModel GraphOpsProofs GnnExModel GnnExSpec.
Import ListNotations.
Open Scope list_scope.
Local Open Scope nat_scope.

(** ** Masks *)
Lemma mask_from : forall idx m, length (fold_left (fun m i => update i (fun _ => true) m) idx m) = length m /\
  forall k, k < length m ->
    (nth k (fold_left (fun m i => update i (fun _ => true) m) idx m) false = true <-> nth k m false = true \/ In k idx).
Proof.
  induction idx as [|i t IH]; intros m; simpl.
  - split; [reflexivity|]. intros; tauto.
  - destruct (IH (update i (fun _ => true) m)) as [L H]. rewrite update_length in *. split; [exact L|].
    intros k K. rewrite H by exact K. destruct (Nat.eq_dec i k) as [->|N].
    + rewrite update_nth by exact K. rewrite Nat.eqb_refl. tauto.
    + assert (E : nth k (update i (fun _ : bool => true) m) false = nth k m false).
      { clear - N. revert i k N. induction m as [|x m IH]; intros i k N; [destruct i; reflexivity|].
        destruct i, k; simpl; try reflexivity; try congruence. apply IH; congruence. }
      rewrite E. intuition congruence.
Qed.
Lemma mask_length : forall n idx, length (mask_of n idx) = n.
Proof. intros n idx; unfold mask_of. destruct (mask_from idx (repeat false n)) as [L _]. now rewrite L, repeat_length. Qed.
Lemma mask_nth : forall n idx k, k < n -> (nth k (mask_of n idx) false = true <-> In k idx).
Proof.
  intros n idx k K; unfold mask_of. destruct (mask_from idx (repeat false n)) as [_ H].
  rewrite H by (now rewrite repeat_length).
  assert (E : nth k (repeat false n) false = false) by (clear; revert k; induction n; intros [|k]; simpl; auto).
  rewrite E. intuition congruence.
Qed.
Lemma select_cons : forall {A} (x : A) l c m, select (x :: l) (c :: m) = if c then x :: select l m else select l m.
Proof. intros A x l [|] m; reflexivity. Qed.
Lemma select_in : forall {A} (l : list A) m x d, length m = length l ->
  (In x (select l m) <-> exists k, k < length l /\ nth k m false = true /\ nth k l d = x).
Proof.
  induction l as [|y l IH]; intros [|c m] x d L; simpl in L; try discriminate.
  - split; [intros []|]. intros (k & K & _); simpl in K; lia.
  - injection L as L. rewrite select_cons. specialize (IH m x d L). split.
    + intros H. destruct c.
      * destruct H as [<-|H]; [exists 0; simpl; repeat split; lia|]. apply IH in H.
        destruct H as (k & K & M & E). exists (S k); simpl; repeat split; auto; lia.
      * apply IH in H. destruct H as (k & K & M & E). exists (S k); simpl; repeat split; auto; lia.
    + intros (k & K & M & E). destruct k as [|k]; simpl in *.
      * rewrite M. left; exact E.
      * assert (I : In x (select l m)) by (apply IH; exists k; repeat split; auto; lia).
        destruct c; simpl; auto.
Qed.
Lemma select_incl : forall {A} (l : list A) m x, In x (select l m) -> In x l.
Proof.
  intros A; induction l as [|y l IH]; intros [|c m] x H; try (simpl in H; tauto).
  rewrite select_cons in H. destruct c; simpl in *; [destruct H; auto|]; right; eapply IH; eauto.
Qed.
Lemma select_sorted : forall l m, StronglySorted Z.lt l -> StronglySorted Z.lt (select l m).
Proof.
  intros l m S; revert m. induction S as [|x l S IH F]; intros [|c m]; try constructor.
  rewrite select_cons. destruct c; [|apply IH]. constructor; [apply IH|].
  rewrite Forall_forall in *. intros y Y. apply F. eapply select_incl; eauto.
Qed.
Lemma select_length : forall {A B} (a : list A) (b : list B) m, length a = length b ->
  length (select a m) = length (select b m).
Proof.
  intros A B; induction a as [|x a IH]; intros [|y b] m L; try discriminate; [reflexivity|].
  destruct m as [|c m]; [reflexivity|]. rewrite !select_cons. injection L as L. specialize (IH b m L).
  destruct c; simpl; congruence.
Qed.
Lemma select_combine : forall {A B} (a : list A) (b : list B) m, length a = length b ->
  combine (select a m) (select b m) = select (combine a b) m.
Proof.
  intros A B; induction a as [|x a IH]; intros [|y b] m L; try discriminate; [reflexivity|].
  destruct m as [|c m]; [reflexivity|]. simpl combine at 2. rewrite !select_cons. injection L as L. specialize (IH b m L).
  destruct c; simpl; congruence.
Qed.

(** ** Queries *)
Lemma sub_graph_idx : forall fsub g src types hops nodes adj idx,
  sub_graph fsub g src types hops true true true = Ok (nodes, adj, idx) ->
  idx = map (fun x => position x nodes) src /\ incl src nodes.
Proof.
  intros fsub g src types hops nodes adj idx H. unfold sub_graph in H.
  destruct (hop_nodes fsub g (hops - 1) src types) as [inner|]; [|discriminate]. cbn [bind] in H.
  destruct (neighbors fsub g (np_unique (src ++ inner)) types None) as [[nb cnt]|]; [|discriminate]. cbn [bind] in H.
  destruct (negb _); [discriminate|]. cbv zeta in H. injection H as <- _ <-. split; [reflexivity|].
  intros x X. apply unique_in. apply in_app_iff; auto.
Qed.
Section Query.
Variables fadd fsub : N -> N -> N.
Variable wval : N -> Z.
Variables (wm : option Z) (parts : list (list (list record))) (g : graph).
Hypothesis C : converted fadd wval wm parts g.

Lemma query_ok : forall {F} (feat : Z -> F) types hops inputs, guarded fadd fsub types parts -> 1 <= hops ->
  exists nodes edges mask, query fsub g feat types hops inputs = Ok (nodes, map feat nodes, mask, Edges edges) /\
  distinct_of inputs (select nodes mask) /\ length mask = length nodes /\
  StronglySorted Z.lt nodes /\ (forall x, In x nodes <-> within parts types inputs hops x) /\
  (forall i j, In (i, j) edges -> i < length nodes /\ j < length nodes) /\
  (forall i, i < length nodes -> In (i, i) edges) /\
  (forall i j, In (i, j) edges -> In (j, i) edges) /\
  exists inner, StronglySorted Z.lt inner /\ (forall x, In x inner <-> within parts types inputs (hops - 1) x) /\
  forall i j, i < length nodes -> j < length nodes ->
    (In (i, j) edges <-> wanted parts types inner nodes true i j \/ i = j).
Proof.
  intros F feat types hops inputs G H.
  destruct (sub_graph_spec fadd fsub wval wm parts g C types inputs hops true true true G H)
    as (nodes & adj & idx & inner & E & S & W & _ & S' & W' & A).
  destruct adj as [l|m]; [|destruct A as [A _]; discriminate].
  destruct A as (_ & B & _ & A). destruct (sub_graph_idx _ _ _ _ _ _ _ _ E) as [I J].
  exists nodes, l, (mask_of (length nodes) idx). unfold query. rewrite E. cbn [bind].
  split; [reflexivity|]. split; [|split; [apply mask_length|]; split; [exact S|]; split; [exact W|]; split; [exact B|]; split; [|split]].
  - split; [apply select_sorted, S|]. intros x. rewrite (select_in nodes _ x 0%Z) by apply mask_length. split.
    + intros (k & K & M & <-). apply mask_nth in M; [|exact K]. rewrite I in M. apply in_map_iff in M.
      destruct M as (y & <- & Y). rewrite position_nth by (apply J, Y). exact Y.
    + intros X. exists (position x nodes). pose proof (J x X) as N. split; [apply position_lt, N|]. split.
      * apply mask_nth; [apply position_lt, N|]. rewrite I. apply in_map_iff. exists x; auto.
      * apply position_nth, N.
  - intros i K. apply A; auto.
  - intros i j K. destruct (B i j K) as [K1 K2]. apply A in K; auto. apply A; auto.
    unfold wanted in *. destruct K as [[K|[_ K]]|[_ K]]; auto.
  - exists inner. split; [exact S'|]. split; [exact W'|]. intros i j Hi Hj. rewrite A by assumption. tauto.
Qed.
Lemma predict_ok : forall {F E} (feat : Z -> F) (model : list F -> adjacency -> list E) types hops inputs,
  guarded fadd fsub types parts -> 1 <= hops -> (forall x a, length (model x a) = length x) ->
  exists ns es nodes edges, predict fsub g feat model types hops inputs = Ok (ns, es) /\
  distinct_of inputs ns /\ length es = length ns /\
  (forall x, In x nodes <-> within parts types inputs hops x) /\ StronglySorted Z.lt nodes /\
  (exists mask, query fsub g feat types hops inputs = Ok (nodes, map feat nodes, mask, Edges edges)) /\
  forall n e, In (n, e) (combine ns es) -> In (n, e) (combine nodes (model (map feat nodes) (Edges edges))).
Proof.
  intros F E feat model types hops inputs G H L.
  destruct (query_ok feat types hops inputs G H) as (nodes & edges & mask & Q & D & M & S & W & _).
  unfold predict. rewrite Q. cbn [bind].
  assert (LN : length nodes = length (model (map feat nodes) (Edges edges))) by (rewrite L, map_length; reflexivity).
  exists (select nodes mask), (select (model (map feat nodes) (Edges edges)) mask), nodes, edges.
  split; [reflexivity|]. split; [exact D|]. split; [symmetry; apply select_length, LN|].
  split; [exact W|]. split; [exact S|]. split; [exists mask; reflexivity|]. intros n e I. rewrite select_combine in I by exact LN.
  eapply select_incl; eauto.
Qed.
Lemma sorted_ext : forall a b, StronglySorted Z.lt a -> StronglySorted Z.lt b -> (forall x, In x a <-> In x b) -> a = b.
Proof.
  induction a as [|x a IH]; intros b A B H.
  - destruct b as [|y b]; [reflexivity|]. exfalso. apply (H y); simpl; auto.
  - destruct b as [|y b]; [exfalso; apply (H x); simpl; auto|].
    inversion A as [|? ? A' FA]; inversion B as [|? ? B' FB]; subst. rewrite Forall_forall in FA, FB.
    assert (E : x = y).
    { destruct (proj1 (H x) (or_introl eq_refl)) as [K|K]; [auto|].
      destruct (proj2 (H y) (or_introl eq_refl)) as [J|J]; [auto|].
      specialize (FA y J). specialize (FB x K). lia. }
    subst y. f_equal. apply IH; auto. intros z. specialize (H z). simpl in H. split; intros K.
    + destruct (proj1 H (or_intror K)) as [J|J]; [|exact J]. subst z. specialize (FA x K). lia.
    + destruct (proj2 H (or_intror K)) as [J|J]; [|exact J]. subst z. specialize (FB x K). lia.
Qed.
Lemma arange_sorted : forall n, StronglySorted Z.lt (arange n).
Proof.
  intros n. unfold arange. generalize 0. induction n as [|n IH]; intros a; simpl; constructor; [apply IH|].
  apply Forall_forall. intros x X. apply in_map_iff in X. destruct X as (k & <- & K). apply in_seq in K. lia.
Qed.
Lemma arange_in : forall n x, In x (arange n) <-> (0 <= x < Z.of_nat n)%Z.
Proof.
  intros n x; unfold arange. rewrite in_map_iff. split.
  - intros (k & <- & K). apply in_seq in K. lia.
  - intros K. exists (Z.to_nat x). split; [lia|]. apply in_seq. lia.
Qed.
Lemma full_graph : forall {F} (feat : Z -> F) types hops n, guarded fadd fsub types parts -> 1 <= hops ->
  (forall x y, linked parts types x y -> (0 <= x < Z.of_nat n)%Z -> (0 <= y < Z.of_nat n)%Z) ->
  exists edges mask, query fsub g feat types hops (arange n) = Ok (arange n, map feat (arange n), mask, Edges edges).
Proof.
  intros F feat types hops n G H K.
  destruct (query_ok feat types hops (arange n) G H) as (nodes & edges & mask & Q & D & _ & S & W & _).
  exists edges, mask. replace nodes with (arange n) in Q; [exact Q|].
  apply sorted_ext; [apply arange_sorted|exact S|]. intros x. rewrite W. split.
  - intros I. exists 0. split; [lia|constructor; exact I].
  - intros (j & _ & R). clear - K R. induction R as [x I|k x y R IH L]; [exact I|].
    apply arange_in. apply arange_in in IH. eapply K; eauto.
Qed.
End Query.

(** ** Batches *)
Lemma chunk_ok : forall {A} n b (l : list A), length l = n * b ->
  concat (chunk n b l) = l /\ Forall (fun x => length x = b) (chunk n b l) /\ length (chunk n b l) = n.
Proof.
  intros A; induction n as [|n IH]; intros b l L; simpl in *.
  - destruct l; [auto|discriminate].
  - destruct (IH b (skipn b l)) as (C & F & N); [rewrite skipn_length; lia|].
    rewrite C, N, firstn_skipn. repeat split; auto. constructor; [rewrite firstn_length; lia|exact F].
Qed.
Lemma batches_ok : forall {A} b (inputs : list A), 0 < b ->
  exists l, batches b inputs = Some l /\ concat l = whole b inputs /\ Forall (fun x => length x = b) l
  /\ length l = length inputs / b.
Proof.
  intros A b inputs P. unfold batches. destruct (Nat.eqb_spec b 0) as [Z|_]; [lia|]. cbv zeta.
  pose proof (Nat.div_mod (length inputs) b ltac:(lia)) as D.
  set (l := if 0 <? length inputs mod b then _ else _).
  assert (E : l = whole b inputs).
  { unfold l, whole. destruct (Nat.ltb_spec 0 (length inputs mod b)).
    - f_equal. rewrite D at 1. apply Nat.add_sub.
    - rewrite firstn_all2; [reflexivity|]. rewrite D at 1. assert (length inputs mod b = 0) as -> by lia. lia. }
  assert (L : length l = (length inputs / b) * b).
  { rewrite E. unfold whole. rewrite firstn_length. nia. }
  assert (Q : length l / b = length inputs / b) by (rewrite L; apply Nat.div_mul; lia).
  rewrite Q. destruct (chunk_ok (length inputs / b) b l L) as (C & F & N).
  eexists; split; [reflexivity|]. rewrite C. auto.
Qed.
Lemma place : forall {X} (f : X -> nat) x (G : nat -> list X) n a, a <= f x < a + n ->
  Permutation (concat (map (fun i => if f x =? i then x :: G i else G i) (seq a n))) (x :: concat (map G (seq a n))).
Proof.
  intros X f x G; induction n as [|n IH]; intros a H; [lia|]. simpl.
  destruct (Nat.eqb_spec (f x) a) as [E|E].
  - simpl. apply perm_skip. apply Permutation_app_head. rewrite <- E.
    clear. assert (K : forall a, f x < a -> map (fun i => if f x =? i then x :: G i else G i) (seq a n) = map G (seq a n)).
    { induction n as [|n IH]; intros a H; [reflexivity|]. simpl. rewrite IH by lia.
      destruct (Nat.eqb_spec (f x) a); [lia|reflexivity]. }
    rewrite K by lia. reflexivity.
  - rewrite IH by lia. apply Permutation_sym, Permutation_middle.
Qed.
Lemma partition_perm : forall {X} (f : X -> nat) n l, (forall x, In x l -> f x < n) ->
  Permutation (concat (map (fun i => filter (fun x => f x =? i) l) (seq 0 n))) l.
Proof.
  intros X f n; induction l as [|x l IH]; intros H.
  - simpl. clear. induction (seq 0 n) as [|i s IHs]; [constructor|exact IHs].
  - simpl. rewrite (place f x (fun i => filter (fun x => f x =? i) l) n 0) by (specialize (H x (or_introl eq_refl)); lia).
    apply perm_skip, IH. intros y Y; apply H; simpl; auto.
Qed.
Lemma stride : forall i n j, i < n -> ((i <=? j) && ((j - i) mod n =? 0)) = (j mod n =? i).
Proof.
  intros i n j L. destruct (Nat.eqb_spec (j mod n) i) as [E|E].
  - pose proof (Nat.div_mod j n ltac:(lia)) as D. rewrite E in D. rewrite andb_true_iff, Nat.leb_le, Nat.eqb_eq.
    generalize dependent (j / n). intros q ->. split; [lia|].
    replace (n * q + i - i) with (q * n) by lia. apply Nat.mod_mul; lia.
  - apply andb_false_iff. destruct (Nat.leb_spec i j) as [K|K]; [right|left; reflexivity].
    apply Nat.eqb_neq. intros Z. apply E. pose proof (Nat.div_mod (j - i) n ltac:(lia)) as D. rewrite Z in D.
    generalize dependent ((j - i) / n). intros q D. replace j with (i + q * n) by lia.
    rewrite Nat.mod_add by lia. apply Nat.mod_small, L.
Qed.
Lemma fst_combine : forall {A} (l : list A) a, map fst (combine l (seq a (length l))) = l.
Proof. intros A; induction l as [|x l IH]; intros a; simpl; [reflexivity|]. now rewrite IH. Qed.
Lemma strided_perm : forall {A} n (l : list A), 0 < n ->
  Permutation (concat (map (fun i => strided i n l) (seq 0 n))) l.
Proof.
  intros A n l P. set (p := combine l (seq 0 (length l))).
  assert (E : map (fun i => strided i n l) (seq 0 n) = map (map fst) (map (fun i => filter (fun x => snd x mod n =? i) p) (seq 0 n))).
  { rewrite map_map. apply map_ext_in. intros i I. apply in_seq in I. unfold strided. f_equal.
    apply filter_ext. intros x. apply stride. lia. }
  rewrite E, <- concat_map. rewrite <- (fst_combine l 0) at 1. apply Permutation_map.
  apply (partition_perm (fun x => snd x mod n)). intros x _. apply Nat.mod_upper_bound. lia.
Qed.
Lemma workers_cover : forall {A} b n (inputs : list A), 0 < b -> 0 < n ->
  exists l, dataset b None inputs = Some l /\ concat l = whole b inputs /\ Forall (fun x => length x = b) l /\
  Permutation (concat (map (fun i => match dataset b (Some (i, n)) inputs with Some x => x | None => [] end) (seq 0 n))) l.
Proof.
  intros A b n inputs P Q. destruct (batches_ok b inputs P) as (l & B & W & F & _).
  exists l. unfold dataset. rewrite B. repeat split; auto. apply strided_perm, Q.
Qed.
Lemma evaluated_first : forall {A} b (inputs : list A), 0 < b ->
  evaluated b inputs = if b <=? length inputs then Some (firstn b inputs) else None.
Proof.
  intros A b inputs P. destruct (batches_ok b inputs P) as (l & B & W & F & L).
  unfold evaluated, dataset. rewrite B. destruct (Nat.leb_spec b (length inputs)) as [K|K].
  - assert (1 <= length inputs / b) by (apply Nat.div_le_lower_bound; lia).
    destruct l as [|x t]; [simpl in L; lia|]. inversion F; subst. f_equal.
    simpl in W. unfold whole in W.
    assert (E : firstn (length x) (x ++ concat t) = firstn (length x) (firstn (length x * (length inputs / length x)) inputs)) by now rewrite W.
    rewrite firstn_app, Nat.sub_diag, firstn_O, app_nil_r, firstn_all in E. etransitivity; [exact E|]. rewrite firstn_firstn. f_equal.
    generalize dependent (length inputs / length x). intros q; intros. apply Nat.min_l. nia.
  - rewrite Nat.div_small in L by lia. destruct l; [reflexivity|discriminate].
Qed.
Lemma zero_batch : forall {A} w (inputs : list A), dataset 0 w inputs = None.
Proof. reflexivity. Qed.
Lemma epoch_ok : forall {A} b ranks (shuffled : nat -> list A), 0 < b ->
  exists l, epoch b ranks shuffled = Some l /\ map (@concat A) l = map (fun r => whole b (shuffled r)) (seq 0 ranks).
Proof.
  intros A b ranks shuffled P. unfold epoch. induction (seq 0 ranks) as [|r s (l & E & M)]; simpl.
  - exists []; auto.
  - rewrite E. destruct (batches_ok b (shuffled r) P) as (x & B & W & _). unfold dataset. rewrite B.
    exists (x :: l). split; [reflexivity|]. simpl. now rewrite W, M.
Qed.

(** ** Shapes *)
Lemma squeeze_ok : forall n f x, n <> 1 -> f <> 1 -> x <> 1 -> forward_shapes n f x = ([n; f], [2; x], [n]).
Proof.
  intros n f x N F X. unfold forward_shapes, squeeze; simpl.
  destruct (Nat.eqb_spec n 1), (Nat.eqb_spec f 1), (Nat.eqb_spec x 1); try contradiction. reflexivity.
Qed.
Lemma squeeze_iff : forall n f x, forward_shapes n f x = ([n; f], [2; x], [n]) <-> n <> 1 /\ f <> 1 /\ x <> 1.
Proof.
  intros n f x; split; [|intros (N & F & X); apply squeeze_ok; auto].
  unfold forward_shapes, squeeze; simpl.
  destruct (Nat.eqb_spec n 1), (Nat.eqb_spec f 1), (Nat.eqb_spec x 1); simpl; intros H; try discriminate; auto.
Qed.

(** ** Training of GCN *)
Lemma train_state : forall n, train (S n) =
  {| mode := negb (n mod 10 =? 0); steps := S n; acc := Some {| training := true; version := 10 * (n / 10) |} |}.
Proof.
  induction n as [|n IH]; [reflexivity|].
  unfold train in *. rewrite seq_S, fold_left_app. cbn [fold_left]. rewrite IH. unfold run_epoch.
  cbn [steps acc Nat.add]. 
  pose proof (Nat.div_mod n 10 ltac:(lia)) as D. pose proof (Nat.div_mod (S n) 10 ltac:(lia)) as D'.
  pose proof (Nat.mod_upper_bound n 10 ltac:(lia)) as U. pose proof (Nat.mod_upper_bound (S n) 10 ltac:(lia)) as U'.
  destruct (Nat.eqb_spec (S n mod 10) 0) as [E|E].
  - assert (10 * (S n / 10) = S n) as -> by lia. reflexivity.
  - assert (S n / 10 = n / 10) as -> by lia. reflexivity.
Qed.
(** Masks of examples/pytorch/gcn.py choose rows by the id of the node. *)
Lemma nth_arange : forall n k, k < n -> nth k (arange n) 0%Z = Z.of_nat k.
Proof. intros n k K. unfold arange. change 0%Z with (Z.of_nat 0). rewrite map_nth, seq_nth by exact K. reflexivity. Qed.
Lemma full_set_ok : forall n ids, (forall i, In i ids -> i < n) ->
  distinct_of (map Z.of_nat ids) (select (arange n) (full_set n ids)).
Proof.
  intros n ids H. split; [apply select_sorted, arange_sorted|]. intros x.
  assert (L : length (arange n) = n) by (unfold arange; now rewrite map_length, seq_length).
  unfold full_set. rewrite (select_in _ _ x 0%Z) by (rewrite L; apply mask_length). rewrite L, in_map_iff. split.
  - intros (k & K & M & <-). exists k. rewrite nth_arange by exact K. split; [reflexivity|]. apply mask_nth in M; auto.
  - intros (k & <- & K). exists k. split; [auto|]. split; [apply mask_nth; auto|apply nth_arange; auto].
Qed.
Lemma stride_nth : forall {A} i n (l : list A) d k, i < n -> i + k * n < length l -> 
  nth k (strided i n l) d = nth (i + k * n) l d.
Proof.
  intros A i n l d k I K. unfold strided.
  assert (G : forall (l : list A) a r k, r < n -> r + k * n < length l -> (a + r) mod n = i ->
    nth k (map fst (filter (fun p => (i <=? snd p) && ((snd p - i) mod n =? 0)) (combine l (seq a (length l))))) d = nth (r + k * n) l d).
  { clear l k K. induction l as [|x l IH]; intros a r k R K E; [simpl in K; lia|].
    simpl length. cbn [seq combine filter]. rewrite stride by exact I. cbn [snd].
    destruct r as [|r].
    - rewrite Nat.add_0_r in E. rewrite E, Nat.eqb_refl. cbn [map fst].
      destruct k as [|k]; [reflexivity|]. cbn [nth].
      rewrite (IH (S a) (n - 1) k); [|lia|simpl in K; nia|].
      + replace (0 + S k * n) with (S (n - 1 + k * n)) by nia. reflexivity.
      + replace (S a + (n - 1)) with (a + 1 * n) by lia. rewrite Nat.mod_add by lia. exact E.
    - destruct (Nat.eqb_spec (a mod n) i) as [Q|Q].
      + exfalso. rewrite <- Q in E. pose proof (Nat.div_mod a n ltac:(lia)) as D. pose proof (Nat.div_mod (a + S r) n ltac:(lia)) as D'.
        rewrite E in D'. generalize dependent (a mod n). intros m Q E D D'.
        generalize dependent (a / n). intros u D. generalize dependent ((a + S r) / n). intros v D'.
        destruct (Nat.le_gt_cases v u) as [V|V]; [assert (n * v <= n * u) by (apply Nat.mul_le_mono_l, V); lia|].
        assert (n * S u <= n * v) by (apply Nat.mul_le_mono_l; lia). rewrite Nat.mul_succ_r in *. lia.
      + rewrite (IH (S a) r k); [reflexivity|lia|simpl in K; lia|]. rewrite <- E. f_equal. lia. }
  apply G; auto. simpl. apply Nat.mod_small, I.
Qed.
Lemma worker_batches : forall {A} b i n (inputs : list A), 0 < b -> i < n ->
  exists l p, dataset b None inputs = Some l /\ dataset b (Some (i, n)) inputs = Some p /\
  forall k, i + k * n < length l -> nth k p [] = nth (i + k * n) l [].
Proof.
  intros A b i n inputs P I. destruct (batches_ok b inputs P) as (l & B & _).
  exists l, (strided i n l). unfold dataset. rewrite B. repeat split. intros k K. apply stride_nth; auto.
Qed.
