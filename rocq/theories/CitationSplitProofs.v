(** Random splits and node types: proofs. *)
From Coq Require Import Permutation ZifyBool ZifyNat.
From Verif Require Import Base CitationModel CitationSpec CitationProofs.

Lemma nonzero_in l : forall k i, In i (nonzero k l) <-> k <= i /\ nth_error l (i - k) = Some true.
Proof.
  induction l as [|b l IH]; intros k i; cbn [nonzero].
  - split; [intros []|]. intros [_ H]. destruct (i - k); discriminate.
  - rewrite in_app_iff, IH. split.
    + intros [H|[H1 H2]].
      * destruct b; [|contradiction]. destruct H as [<-|[]]. split; [lia|]. rewrite Nat.sub_diag. reflexivity.
      * split; [lia|]. replace (i - k) with (S (i - S k)) by lia. exact H2.
    + intros [H1 H2]. destruct (Nat.eq_dec i k) as [->|Hne].
      * rewrite Nat.sub_diag in H2. cbn in H2. injection H2 as ->. left. now left.
      * right. split; [lia|]. replace (i - k) with (S (i - S k)) in H2 by lia. exact H2.
Qed.
Lemma nonzero_nodup l : forall k, NoDup (nonzero k l).
Proof.
  induction l as [|b l IH]; intro k; cbn [nonzero]; [constructor|]. destruct b; [|apply IH]. cbn [app]. constructor; [|apply IH].
  intro H. apply nonzero_in in H. lia.
Qed.
Lemma nonzero_length l : forall k, length (nonzero k l) = marked l.
Proof.
  unfold marked. induction l as [|b l IH]; intro k; cbn [nonzero]; [reflexivity|]. rewrite app_length, IH. destruct b; cbn; lia.
Qed.

Lemma marked_negb l : marked (map negb l) = length l - marked l.
Proof.
  enough (marked (map negb l) + marked l = length l) by lia. unfold marked. induction l as [|b l IH]; [reflexivity|].
  destruct b; cbn [map negb count_occ length]; repeat (destruct (Bool.bool_dec _ _); try congruence); lia.
Qed.

(** A mask marks as many numbers as distinct indices were given. *)
Lemma marked_length n mask idx : NoDup idx -> marks n mask (fun i => In i idx) -> (forall i, In i idx -> i < n) -> marked mask = length idx.
Proof.
  intros Hd [Hl Hm] Hr. rewrite <- (nonzero_length mask 0). apply Permutation_length. apply NoDup_Permutation; [apply nonzero_nodup|exact Hd|].
  intro i. rewrite nonzero_in, Nat.sub_0_r, Hm. split; [tauto|]. intro H. split; [lia|]. split; [now apply Hr|exact H].
Qed.

Lemma firstn_in {A} k (l : list A) x : In x (firstn k l) -> In x l.
Proof. revert l. induction k; intros [|y l] H; cbn in *; try contradiction. destruct H as [<-|H]; [now left|right; now apply IHk]. Qed.
Lemma skipn_in {A} k (l : list A) x : In x (skipn k l) -> In x l.
Proof. revert l. induction k; intros [|y l] H; cbn in *; try contradiction; try exact H. right. now apply IHk. Qed.
Lemma firstn_nodup {A} k (l : list A) : NoDup l -> NoDup (firstn k l).
Proof.
  revert l. induction k; intros l H; [constructor|]. destruct H as [|y l Hn Hd]; [constructor|]. cbn. constructor; [|now apply IHk].
  intro X. apply Hn. now apply firstn_in in X.
Qed.
Lemma skipn_nodup {A} k (l : list A) : NoDup l -> NoDup (skipn k l).
Proof. revert l. induction k; intros l H; [exact H|]. destruct H as [|y l Hn Hd]; [constructor|]. cbn. now apply IHk. Qed.
Lemma halves {A} k (l : list A) x : NoDup l -> In x (firstn k l) -> ~ In x (skipn k l).
Proof.
  intros Hd H1 H2. rewrite <- (firstn_skipn k l) in Hd. revert H1 H2 Hd. generalize (firstn k l) (skipn k l). intros a b Ha Hb.
  induction a as [|y a IH]; [contradiction|]. cbn. intro Hd. inversion Hd as [|? ? Hn Hd']; subst. destruct Ha as [<-|Ha]; [apply Hn, in_or_app; now right|now apply IH].
Qed.

Section Split.
Variable perm : nat -> list nat -> list nat.
Hypothesis permutes : forall k l, Permutation (perm k l) l.
Variables (labels : list nat) (classes num_val num_test : nat).
Let n := length labels.
Definition members (cl : nat) : list nat := nonzero 0 (map (Nat.eqb cl) labels).
Definition chosen (cl : nat) : list nat := firstn 20 (perm cl (members cl)).
Definition training : list nat := flat_map chosen (seq 0 classes).

Lemma members_in cl i : In i (members cl) <-> nth_error labels i = Some cl.
Proof using perm.
  clear permutes n. unfold members. rewrite nonzero_in, Nat.sub_0_r, nth_error_map. destruct (nth_error labels i) as [c|]; cbn.
  - split; [intros [_ H]; injection H as H; f_equal; lia|intro H; injection H as ->; split; [lia|]; now rewrite Nat.eqb_refl].
  - split; [intros [_ H]; discriminate|discriminate].
Qed.
Lemma chosen_in cl i : In i (chosen cl) -> nth_error labels i = Some cl.
Proof using permutes. intro H. apply members_in. unfold chosen in H. apply firstn_in in H. now apply (Permutation_in _ (permutes cl _)). Qed.
Lemma chosen_nodup cl : NoDup (chosen cl).
Proof using permutes. unfold chosen. apply firstn_nodup. apply (Permutation_NoDup (Permutation_sym (permutes cl _))). apply nonzero_nodup. Qed.
Lemma chosen_length cl : length (chosen cl) = Nat.min 20 (count_occ Nat.eq_dec labels cl).
Proof using permutes.
  unfold chosen. rewrite firstn_length, (Permutation_length (permutes cl _)). f_equal. unfold members. rewrite nonzero_length. unfold marked.
  clear n. induction labels as [|c l IH]; [reflexivity|]. cbn [map count_occ]. rewrite IH. destruct (Nat.eq_dec c cl) as [->|Hne].
  - rewrite Nat.eqb_refl. reflexivity.
  - replace (cl =? c) with false by lia. reflexivity.
Qed.
Lemma training_in i : In i training <-> exists cl, cl < classes /\ In i (chosen cl).
Proof using perm. clear permutes. unfold training. rewrite in_flat_map. split; intros (cl & H1 & H2); exists cl; (split; [|exact H2]); apply in_seq in H1 || apply in_seq; lia. Qed.
Lemma training_lt i : In i training -> i < n.
Proof using permutes. intro H. apply training_in in H. destruct H as (cl & _ & H). apply chosen_in in H. apply nth_error_Some. congruence. Qed.

(** The number of marked nodes of a class. *)
Lemma of_class_count mask cl : length mask = n ->
  of_class labels mask cl = length (filter (fun i => match nth_error mask i with Some true => true | _ => false end) (members cl)).
Proof using perm.
  clear permutes. unfold of_class, members, n. clear n. revert mask.
  assert (G : forall l mask k (f : nat -> bool), length mask = length l -> (forall i, i < length l -> f (k + i) = match nth_error mask i with Some true => true | _ => false end) ->
    length (filter (fun p => (fst p =? cl) && snd p) (combine l mask)) = length (filter f (nonzero k (map (Nat.eqb cl) l)))).
  { induction l as [|c l IH]; intros [|b mask] k f Hl Hf; try discriminate; [reflexivity|]. cbn [combine filter map nonzero fst snd].
    assert (Hrest : length (filter (fun p => (fst p =? cl) && snd p) (combine l mask)) = length (filter f (nonzero (S k) (map (Nat.eqb cl) l)))).
    { apply IH; [cbn in Hl; lia|]. intros i Hi. replace (S k + i) with (k + S i) by lia. apply (Hf (S i)). cbn. lia. }
    rewrite Nat.eqb_sym. destruct (cl =? c); cbn [andb app]; [|exact Hrest]. cbn [filter].
    specialize (Hf 0 ltac:(cbn; lia)). rewrite Nat.add_0_r in Hf. cbn in Hf. rewrite Hf. destruct b; cbn [length]; congruence. }
  intros mask Hl. apply G; [exact Hl|]. intros i _. reflexivity.
Qed.

Lemma split_lemma : 0 < classes -> forall per_class,
  exists train val test, random_split perm labels classes per_class num_val num_test = Ok (train, val, test) /\
    length train = n /\ length val = n /\ length test = n /\
    disjoint train val /\ disjoint train test /\ disjoint val test /\
    (forall cl, of_class labels train cl = if cl <? classes then Nat.min 20 (count_occ Nat.eq_dec labels cl) else 0) /\
    marked val = Nat.min num_val (n - marked train) /\ marked test = Nat.min num_test (n - marked train - num_val).
Proof using permutes.
  intros Hc per_class. unfold random_split. replace (classes =? 0) with false by lia. cbv zeta. fold n.
  change (flat_map _ (seq 0 classes)) with training.
  destruct (mask_marks training n training_lt) as (train & Et & Lt & Ht). rewrite Et. cbn [bind].
  set (rest := nonzero 0 (map negb train)). set (remaining := perm classes rest).
  assert (Hrest : forall i, In i rest <-> i < n /\ ~ In i training).
  { intro i. unfold rest. rewrite nonzero_in, Nat.sub_0_r, nth_error_map. rewrite <- Lt. destruct (nth_error train i) as [b|] eqn:E; cbn.
    - assert (i < length train) by (apply nth_error_Some; congruence). destruct b; cbn.
      + apply Ht in E. split; [intros [_ X]; discriminate|]. tauto.
      + split; [intros _; split; [assumption|]|intros _; split; [lia|reflexivity]]. intro X.
        assert (Y : nth_error train i = Some true) by (apply Ht; split; [rewrite <- Lt; assumption|exact X]). congruence.
    - apply nth_error_None in E. split; [intros [_ X]; discriminate|lia]. }
  assert (Hp : Permutation remaining rest) by apply permutes.
  assert (Hd : NoDup remaining) by (apply (Permutation_NoDup (Permutation_sym Hp)), nonzero_nodup).
  assert (Hin : forall i, In i remaining -> i < n /\ ~ In i training) by (intros i Hi; apply Hrest; now apply (Permutation_in _ Hp)).
  assert (Hlen : length remaining = n - marked train).
  { rewrite (Permutation_length Hp). unfold rest. rewrite nonzero_length. rewrite <- Lt. apply marked_negb. }
  destruct (mask_marks (firstn num_val remaining) n) as (val & Ev & Lv & Hv); [intros i Hi; apply Hin; now apply firstn_in in Hi|].
  destruct (mask_marks (firstn num_test (skipn num_val remaining)) n) as (test & Es & Ls & Hs);
    [intros i Hi; apply Hin; apply firstn_in in Hi; now apply skipn_in in Hi|].
  rewrite Ev. cbn [bind]. rewrite Es. cbn [bind]. exists train, val, test. split; [reflexivity|].
  split; [exact Lt|]. split; [exact Lv|]. split; [exact Ls|].
  split; [|split; [|split; [|split; [|split]]]].
  - intros i Hi Hj. apply Ht in Hi. apply Hv in Hj. apply (Hin i); [now apply (firstn_in num_val)|tauto].
  - intros i Hi Hj. apply Ht in Hi. apply Hs in Hj. apply (Hin i); [|tauto]. destruct Hj as [_ Hj]. apply firstn_in in Hj. now apply skipn_in in Hj.
  - intros i Hi Hj. apply Hv in Hi. apply Hs in Hj. destruct Hi as [_ Hi], Hj as [_ Hj]. apply firstn_in in Hj. now apply (halves num_val remaining i Hd).
  - intro cl. rewrite of_class_count by exact Lt.
    assert (Hf : forall i, In i (filter (fun i => match nth_error train i with Some true => true | _ => false end) (members cl)) <-> cl < classes /\ In i (chosen cl)).
    { intro i. rewrite filter_In. split.
      - intros [H1 H2]. apply members_in in H1. destruct (nth_error train i) as [[|]|] eqn:E; try discriminate. apply Ht in E. destruct E as [_ E].
        apply training_in in E. destruct E as (c & Hcl & E). pose proof (chosen_in c i E). assert (c = cl) by congruence. now subst c.
      - intros [H1 H2]. split; [apply members_in; now apply chosen_in|]. assert (X : nth_error train i = Some true); [|now rewrite X].
        apply Ht. assert (Y : In i training) by (apply training_in; now exists cl). split; [now apply training_lt|exact Y]. }
    assert (Hnd : NoDup (filter (fun i => match nth_error train i with Some true => true | _ => false end) (members cl))) by (apply NoDup_filter, nonzero_nodup).
    destruct (cl <? classes) eqn:Ec.
    + rewrite <- chosen_length. apply Permutation_length. apply NoDup_Permutation; [exact Hnd|apply chosen_nodup|]. intro i. rewrite Hf. split; [tauto|]. intro; split; [lia|assumption].
    + destruct (filter _ (members cl)) as [|i l]; [reflexivity|]. assert (X : cl < classes /\ In i (chosen cl)) by (apply Hf; now left). lia.
  - rewrite (marked_length n val (firstn num_val remaining)); [rewrite firstn_length; lia|now apply firstn_nodup|split; assumption|].
    intros i Hi. apply Hin. now apply firstn_in in Hi.
  - rewrite (marked_length n test (firstn num_test (skipn num_val remaining))); [rewrite firstn_length, skipn_length; lia|now apply firstn_nodup, skipn_nodup|split; assumption|].
    intros i Hi. apply Hin. apply firstn_in in Hi. now apply skipn_in in Hi.
Qed.
End Split.

(** ** Node types *)
Lemma types_lemma train : forall val test, length val = length train -> length test = length train ->
  exists ts, node_types train val test = Ok ts /\ length ts = length train /\
    (forall i, nth_error ts i = Some Train <-> in_mask train i) /\
    (forall i, nth_error ts i = Some Val <-> in_mask val i /\ ~ in_mask train i) /\
    (forall i, nth_error ts i = Some Test <-> in_mask test i /\ ~ in_mask train i /\ ~ in_mask val i).
Proof.
  induction train as [|a train IH]; intros [|b val] [|c test] Hv Ht; try discriminate.
  - exists []. split; [reflexivity|]. split; [reflexivity|]. unfold in_mask. repeat split; intros; repeat match goal with H : _ /\ _ |- _ => destruct H end; destruct i; discriminate.
  - destruct (IH val test) as (ts & E & H1 & H2 & H3 & H4); [cbn in Hv; lia|cbn in Ht; lia|].
    assert (X : forall t : ntype, (t = Train <-> a = true) -> (t = Val <-> b = true /\ a <> true) -> (t = Test <-> c = true /\ a <> true /\ b <> true) ->
      length (t :: ts) = length (a :: train) /\
      (forall i, nth_error (t :: ts) i = Some Train <-> in_mask (a :: train) i) /\
      (forall i, nth_error (t :: ts) i = Some Val <-> in_mask (b :: val) i /\ ~ in_mask (a :: train) i) /\
      (forall i, nth_error (t :: ts) i = Some Test <-> in_mask (c :: test) i /\ ~ in_mask (a :: train) i /\ ~ in_mask (b :: val) i)).
    { intros t X1 X2 X3. assert (Some_eq : forall (A : Type) (x y : A), Some x = Some y <-> x = y) by (intros; split; congruence).
      split; [cbn; lia|]. split; [|split]; intros [|i]; unfold in_mask in *; cbn [nth_error]; rewrite ?Some_eq; auto. }
    cbn [node_types tl]. destruct a; [|destruct b; [|destruct c]]; rewrite E; cbn [bind]; eexists; (split; [reflexivity|]); apply X; split; intuition congruence.
Qed.
Lemma file_lemma want ts : forall k,
  NoDup (node_file want k ts) /\ (forall i, In i (node_file want k ts) <-> k <= i /\ exists t, nth_error ts (i - k) = Some t /\ want t = true).
Proof.
  intro k. replace (node_file want k ts) with (nonzero k (map want ts)).
  - split; [apply nonzero_nodup|]. intro i. rewrite nonzero_in, nth_error_map. destruct (nth_error ts (i - k)) as [t|]; cbn.
    + split; intros [H X]; (split; [exact H|]); [exists t; split; [reflexivity|congruence]|]. destruct X as (t' & E & W). congruence.
    + split; intros [H X]; [discriminate|]. destruct X as (? & X & _). discriminate.
  - revert k. induction ts as [|t ts IH]; intro k; [reflexivity|]. cbn [map nonzero node_file]. now rewrite IH.
Qed.
Lemma files_lemma ts :
  NoDup (node_file is_train 0 ts) /\ (forall i, In i (node_file is_train 0 ts) <-> nth_error ts i = Some Train) /\
  NoDup (node_file is_test 0 ts) /\ (forall i, In i (node_file is_test 0 ts) <-> nth_error ts i = Some Test).
Proof.
  destruct (file_lemma is_train ts 0) as [A1 A2]. destruct (file_lemma is_test ts 0) as [B1 B2].
  split; [exact A1|]. split; [|split; [exact B1|]]; intro i; rewrite ?A2, ?B2, Nat.sub_0_r; split.
  - intros (_ & t & E & W). destruct t; now try discriminate.
  - intro E. split; [lia|]. now exists Train.
  - intros (_ & t & E & W). destruct t; now try discriminate.
  - intro E. split; [lia|]. now exists Test.
Qed.
