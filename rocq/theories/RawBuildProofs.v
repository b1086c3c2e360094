(** Cora and Citeseer: the graph that is written. *)
From Coq Require Import Permutation Sorting.Sorted.
From Verif Require Import Base SetupModel SetupProofs MetaModel DecoderModel DecoderProofs RawModel RawSpec RawTextProofs RawProofs.
Import ListNotations.

(** *** Sorting *)
Lemma sort_sorted l : StronglySorted Z.le l -> sort_by Z.leb l = l.
Proof.
  induction 1 as [|x l H IH HF]; [reflexivity|]. unfold sort_by in *. cbn [fold_right]. rewrite IH. clear IH H.
  destruct l as [|y l]; [reflexivity|]. cbn [insert_by]. inversion HF; subst. replace (x <=? y)%Z with true by lia. reflexivity.
Qed.
Lemma ids_sorted : forall n k, StronglySorted Z.le (map id_of (seq k n)).
Proof.
  induction n as [|n IH]; intros k; [constructor|]. cbn [seq map]. constructor; [apply IH|]. apply Forall_forall. intros z Hz.
  apply in_map_iff in Hz. destruct Hz as (i & <- & Hi). apply in_seq in Hi. unfold id_of. lia.
Qed.
Lemma sort_le l : StronglySorted Z.le (sort_by Z.leb l).
Proof. apply sort_by_sorted; intros; lia. Qed.
Lemma sorted_strict l : StronglySorted Z.le l -> NoDup l -> StronglySorted Z.lt l.
Proof.
  induction 1 as [|x l H IH HF]; intros HN; [constructor|]. inversion HN; subst. constructor; [auto|].
  rewrite Forall_forall in *. intros y Hy. specialize (HF y Hy). assert (x <> y) by (intros ->; contradiction). lia.
Qed.
Lemma out_sorted tr te : NoDup tr -> NoDup te -> StronglySorted before (out_of tr te).
Proof.
  intros N1 N2. unfold out_of.
  assert (S : forall l, NoDup l -> StronglySorted Z.lt (sort_by Z.leb l)).
  { intros l N. apply sorted_strict; [apply sort_le|]. apply (Permutation_NoDup (Permutation_sym (sort_by_perm Z.leb l))), N. }
  pose proof (S _ N1) as S1. pose proof (S _ N2) as S2. induction S1 as [|x l H IH HF]; cbn [map app].
  - clear N2 S. induction S2 as [|x l H IH HF]; cbn [map]; constructor; [exact IH|]. rewrite Forall_forall in *. intros e He. apply in_map_iff in He.
    destruct He as (y & <- & Hy). specialize (HF y Hy). right. cbn. lia.
  - constructor; [apply IH|]. rewrite Forall_forall in *. intros e He. apply in_app_or in He.
    destruct He as [He|He]; apply in_map_iff in He; destruct He as (y & <- & Hy).
    + right. cbn. specialize (HF y Hy). lia.
    + left. cbn. lia.
Qed.
Lemma in_out t b tr te : In (t, b) (out_of tr te) <-> (t = 0%Z /\ In b tr) \/ (t = 1%Z /\ In b te).
Proof.
  unfold out_of. rewrite in_app_iff, !in_map_iff.
  assert (P : forall l, In b (sort_by Z.leb l) <-> In b l).
  { intros l. split; intros H; [apply (Permutation_in b (sort_by_perm _ _) H)|apply (Permutation_in b (Permutation_sym (sort_by_perm _ _)) H)]. }
  split.
  - intros [(y & E & H)|(y & E & H)]; injection E as <- <-; apply (proj1 (P _)) in H; [left|right]; now split.
  - intros [[-> H]|[-> H]]; apply (proj2 (P _)) in H; [left|right]; now exists b.
Qed.
Lemma out_types tr te : Forall (fun e => fst e <> (-1)%Z) (out_of tr te).
Proof. apply Forall_forall. intros [t b] H. apply in_out in H. cbn. lia. Qed.

(** *** Sets of pairs *)
Lemma pair_mem a b l : existsb (fun p : Z * Z => (fst p =? a) && (snd p =? b))%Z l = true <-> In (a, b) l.
Proof.
  rewrite existsb_exists. split.
  - intros ([x y] & H & E). cbn in E. replace a with x by lia. now replace b with y by lia.
  - intros H. exists (a, b). split; [exact H|]. cbn. lia.
Qed.
Lemma add_pair_in a b l x : In x (add_pair a b l) <-> In x l \/ x = (a, b).
Proof.
  unfold add_pair. destruct (existsb _ l) eqn:E.
  - apply pair_mem in E. split; [tauto|]. intros [H| ->]; assumption.
  - rewrite in_app_iff. cbn. intuition congruence.
Qed.
Lemma nodup_snoc {A} (l : list A) x : NoDup l -> ~ In x l -> NoDup (l ++ [x]).
Proof.
  intros H N. rewrite <- (rev_involutive (l ++ [x])). apply NoDup_rev. rewrite rev_app_distr. cbn.
  constructor; [rewrite <- in_rev; exact N|now apply NoDup_rev].
Qed.
Lemma add_pair_nodup a b l : NoDup l -> NoDup (add_pair a b l).
Proof.
  intros H. unfold add_pair. destruct (existsb _ l) eqn:E; [exact H|]. apply nodup_snoc; [exact H|]. rewrite <- pair_mem. congruence.
Qed.
Lemma neighbors_in a b l : In b (neighbors_of a l) <-> In (a, b) l.
Proof.
  unfold neighbors_of. rewrite in_map_iff. split.
  - intros ([x y] & E & H). apply filter_In in H. cbn in *. destruct H as [H X]. replace a with x by lia. now subst.
  - intros H. exists (a, b). split; [reflexivity|]. apply filter_In. split; [exact H|]. cbn. lia.
Qed.
Lemma neighbors_nodup a l : NoDup l -> NoDup (neighbors_of a l).
Proof.
  induction 1 as [|[x y] l Hx H IH]; [constructor|]. unfold neighbors_of in *. cbn [filter fst]. destruct (x =? a)%Z eqn:E; [|exact IH].
  cbn [map snd]. constructor; [|exact IH]. intros X. apply Hx. apply Z.eqb_eq in E. subst x. now apply neighbors_in.
Qed.

(** *** Training and test nodes *)
Lemma zlookup_ids {A} (ts : list A) : forall n k i, List.length ts = n -> i < n ->
  zlookup (id_of (k + i)) (combine (map id_of (seq k n)) ts) = nth_error ts i.
Proof.
  induction ts as [|t ts IH]; intros n k i HL Hi; [cbn in HL; lia|]. destruct n as [|n]; [lia|]. cbn [seq map combine zlookup].
  destruct i as [|i].
  - rewrite Nat.add_0_r. replace (id_of k =? id_of k)%Z with true by lia. reflexivity.
  - replace (id_of (k + S i) =? id_of k)%Z with false by (unfold id_of; lia). cbn [nth_error].
    replace (k + S i) with (S k + i) by lia. apply IH; cbn in HL; lia.
Qed.
Lemma zlookup_ids_some {A} (ts : list A) n z t : List.length ts = n -> zlookup z (combine (ids n) ts) = Some t -> exists i, i < n /\ z = id_of i /\ nth_error ts i = Some t.
Proof.
  unfold ids. intros HL. assert (G : forall n k, List.length ts = n -> zlookup z (combine (map id_of (seq k n)) ts) = Some t -> exists i, i < n /\ z = id_of (k + i) /\ nth_error ts i = Some t).
  { clear. induction ts as [|t0 ts IH]; intros n k HL H; [destruct n; discriminate|]. destruct n as [|n]; [discriminate|]. cbn [seq map combine zlookup] in H.
    destruct (z =? id_of k)%Z eqn:E.
    - injection H as ->. exists 0. rewrite Nat.add_0_r. split; [lia|]. split; [lia|reflexivity].
    - apply IH in H; [|cbn in HL; lia]. destruct H as (i & Hi & -> & Hn). exists (S i). split; [lia|]. split; [f_equal; lia|exact Hn]. }
  intros H. apply (G n 0) in H; auto.
Qed.
Section Select.
Variable shuffle : list bool -> list bool.
Hypothesis Hs : forall l, Permutation (shuffle l) l.
Definition flags (k n : nat) : list bool := repeat true k ++ repeat false (n - k).
Lemma select_inv count random n types : select shuffle count random (ids n) = Ok types ->
  exists ts, types = combine (ids n) ts /\ List.length ts = n /\ (0 <= count <= Z.of_nat n)%Z /\
    ts = (if random then shuffle (flags (Z.to_nat count) n) else flags (Z.to_nat count) n).
Proof.
  unfold select. rewrite ids_length. set (base := repeat true _ ++ _). intros H.
  destruct (n =? List.length (if random then shuffle base else base)) eqn:E; [|discriminate]. apply Nat.eqb_eq in E.
  assert (L : List.length base = n) by (destruct random; [rewrite E; symmetry; apply Permutation_length, Hs|now symmetry]).
  injection H as <-. unfold base in L. rewrite app_length, !repeat_length in L.
  assert (R : (0 <= count <= Z.of_nat n)%Z) by lia.
  assert (B : base = flags (Z.to_nat count) n) by (unfold base, flags; f_equal; f_equal; lia).
  rewrite B in *. eexists. split; [f_equal; apply sort_sorted, ids_sorted|]. split; [now symmetry|]. split; [exact R|reflexivity].
Qed.
Lemma select_ok count random n : (0 <= count <= Z.of_nat n)%Z -> exists types, select shuffle count random (ids n) = Ok types.
Proof.
  intros H. unfold select. rewrite ids_length. set (base := repeat true _ ++ _).
  assert (L : List.length base = n) by (unfold base; rewrite app_length, !repeat_length; lia).
  assert (E : List.length (if random then shuffle base else base) = n) by (destruct random; [rewrite <- L; apply Permutation_length, Hs|exact L]).
  rewrite E, Nat.eqb_refl. eauto.
Qed.
End Select.

(** *** The cites file *)
Section Cites.
Variable ns : list str.
Variable ts : list bool.
Hypothesis HN : NoDup ns.
Hypothesis HL : List.length ts = List.length ns.
Let n := List.length ns.
Definition ps := combine ns (ids n).
Definition types := combine (ids n) ts.
Definition tr (i : nat) : bool := nth i ts false.
Definition joins (line : str) (i j : nat) : Prop :=
  exists p q rest, spaced line (p :: q :: rest) /\
    ((nth_error ns i = Some p /\ nth_error ns j = Some q) \/ (nth_error ns i = Some q /\ nth_error ns j = Some p)).
Lemma ps_lookup p z : lookup p ps = Some z -> exists i, nth_error ns i = Some p /\ z = id_of i /\ i < n.
Proof.
  intros H. apply lookup_combine in H; [|exact HN|now rewrite ids_length]. destruct H as (i & H1 & H2). exists i. split; [exact H1|].
  assert (L : i < n) by (apply nth_error_Some; congruence). rewrite (ids_nth _ _ L) in H2. injection H2 as <-. now split.
Qed.
Lemma ps_none p i : lookup p ps = None -> nth_error ns i <> Some p.
Proof. intros H X. apply lookup_none in H; [|now rewrite ids_length]. apply H. now apply nth_error_In in X. Qed.
Lemma ps_in p i : nth_error ns i = Some p -> lookup p ps = Some (id_of i).
Proof.
  intros H. apply lookup_combine; [exact HN|now rewrite ids_length|]. exists i. split; [exact H|]. apply ids_nth. apply nth_error_Some. congruence.
Qed.
Lemma types_lookup i : i < n -> zlookup (id_of i) types = Some (tr i).
Proof.
  intros H. unfold types, ids. pose proof (zlookup_ids ts n 0 i HL H) as X. cbn [Nat.add] in X. rewrite X. unfold tr. apply nth_error_nth'. rewrite HL. exact H.
Qed.
Lemma nth_inj i j p : nth_error ns i = Some p -> nth_error ns j = Some p -> i = j.
Proof. intros A B. apply (proj1 (NoDup_nth_error ns) HN); [apply nth_error_Some; congruence|congruence]. Qed.
Definition pairs_of (want : bool) (lines : list str) (x : Z * Z) : Prop :=
  exists i j line, x = (id_of i, id_of j) /\ In line lines /\ joins line i j /\ tr i && tr j = want.
Lemma load_cite_step strict line s s' : load_cite strict ps types line s = Ok s' ->
  (forall x, In x (fst s') <-> In x (fst s) \/ pairs_of true [line] x) /\
  (forall x, In x (snd s') <-> In x (snd s) \/ pairs_of false [line] x) /\
  (NoDup (fst s) -> NoDup (fst s')) /\ (NoDup (snd s) -> NoDup (snd s')).
Proof.
  unfold load_cite. cbv zeta. pose proof (words_spaced line) as W. destruct (words line) as [|a rest] eqn:EW; [discriminate|].
  assert (U : forall p q r, spaced line (p :: q :: r) -> p = a /\ rest = q :: r).
  { intros p q r X. pose proof (spaced_unique _ _ _ X W) as Y. injection Y as -> ->. now split. }
  assert (NO : (forall i j, ~ joins line i j) -> forall w x, ~ pairs_of w [line] x).
  { intros H w x (i & j & l & _ & [->|[]] & J & _). exact (H i j J). }
  assert (SAME : (forall i j, ~ joins line i j) -> Ok s = Ok s' ->
    (forall x, In x (fst s') <-> In x (fst s) \/ pairs_of true [line] x) /\
    (forall x, In x (snd s') <-> In x (snd s) \/ pairs_of false [line] x) /\
    (NoDup (fst s) -> NoDup (fst s')) /\ (NoDup (snd s) -> NoDup (snd s'))).
  { intros H X. injection X as <-. specialize (NO H). split; [|split]; [| |tauto]; intros x; specialize (NO true x) as N1; specialize (NO false x) as N2; tauto. }
  destruct (lookup a ps) as [p1|] eqn:E1.
  2:{ destruct strict; [discriminate|]. apply SAME. intros i j (p & q & r & X & D). apply U in X. destruct X as [-> ->].
      destruct D as [[D _]|[_ D]]; revert D; now apply ps_none. }
  destruct rest as [|b rest]; [discriminate|].
  destruct (lookup b ps) as [p2|] eqn:E2.
  2:{ destruct strict; [discriminate|]. apply SAME. intros i j (p & q & r & X & D). apply U in X. destruct X as [-> X]. injection X as <- <-.
      destruct D as [[_ D]|[D _]]; revert D; now apply ps_none. }
  apply ps_lookup in E1. apply ps_lookup in E2. destruct E1 as (i0 & I1 & -> & I2). destruct E2 as (j0 & J1 & -> & J2).
  rewrite (types_lookup i0 I2), (types_lookup j0 J2). cbn [or_raise bind].
  assert (T : (do t2 <- (if tr i0 then Ok (tr j0) else Ok false) ;;
     if tr i0 && t2 then Ok (add_pair (id_of j0) (id_of i0) (add_pair (id_of i0) (id_of j0) (fst s)), snd s)
     else Ok (fst s, add_pair (id_of j0) (id_of i0) (add_pair (id_of i0) (id_of j0) (snd s)))) =
     (if tr i0 && tr j0 then Ok (add_pair (id_of j0) (id_of i0) (add_pair (id_of i0) (id_of j0) (fst s)), snd s)
     else Ok (fst s, add_pair (id_of j0) (id_of i0) (add_pair (id_of i0) (id_of j0) (snd s))))).
  { destruct (tr i0); reflexivity. }
  rewrite T. clear T.
  assert (J : forall w x, pairs_of w [line] x <-> tr i0 && tr j0 = w /\ (x = (id_of i0, id_of j0) \/ x = (id_of j0, id_of i0))).
  { intros w x. split.
    - intros (i & j & l & -> & [->|[]] & (p & q & r & X & D) & TR). apply U in X. destruct X as [-> X]. injection X as <- <-.
      destruct D as [[D1 D2]|[D1 D2]].
      + rewrite <- (nth_inj _ _ _ I1 D1), <- (nth_inj _ _ _ J1 D2) in *. tauto.
      + rewrite <- (nth_inj _ _ _ J1 D1), <- (nth_inj _ _ _ I1 D2) in *. rewrite andb_comm. tauto.
    - intros [TR [-> | ->]].
      + exists i0, j0, line. split; [reflexivity|]. split; [now left|]. split; [|exact TR]. exists a, b, rest. split; [exact W|]. now left.
      + exists j0, i0, line. split; [reflexivity|]. split; [now left|]. split; [|now rewrite andb_comm]. exists a, b, rest. split; [exact W|]. now right. }
  destruct (tr i0 && tr j0) eqn:TR; intros H; injection H as <-; cbn [fst snd].
  - split; [|split; [|split; [|tauto]]].
    + intros x. rewrite !add_pair_in, J. intuition.
    + intros x. rewrite J. intuition congruence.
    + intros N. now apply add_pair_nodup, add_pair_nodup.
  - split; [|split; [|split; [tauto|]]].
    + intros x. rewrite J. intuition congruence.
    + intros x. rewrite !add_pair_in, J. intuition.
    + intros N. now apply add_pair_nodup, add_pair_nodup.
Qed.
Lemma pairs_cons w l lines x : pairs_of w (l :: lines) x <-> pairs_of w [l] x \/ pairs_of w lines x.
Proof.
  split.
  - intros (i & j & k & E & [->|H] & R); [left|right]; exists i, j, k; intuition.
  - intros [(i & j & k & E & [->|[]] & R)|(i & j & k & E & H & R)]; exists i, j, k; intuition.
Qed.
Lemma load_cites_inv strict lines : forall s s', load_cites strict ps types lines s = Ok s' ->
  (forall x, In x (fst s') <-> In x (fst s) \/ pairs_of true lines x) /\
  (forall x, In x (snd s') <-> In x (snd s) \/ pairs_of false lines x) /\
  (NoDup (fst s) -> NoDup (fst s')) /\ (NoDup (snd s) -> NoDup (snd s')).
Proof.
  induction lines as [|l lines IH]; intros s s' H; cbn [load_cites] in H.
  - injection H as <-. assert (N : forall w x, ~ pairs_of w [] x) by (intros w x (i & j & k & _ & [] & _)).
    split; [|split; [|tauto]]; intros x; [specialize (N true x)|specialize (N false x)]; tauto.
  - destruct (load_cite strict ps types l s) as [s1|] eqn:E; [|discriminate]. cbn [bind] in H.
    apply load_cite_step in E. destruct E as (A1 & A2 & A3 & A4). apply IH in H. destruct H as (B1 & B2 & B3 & B4).
    split; [|split; [|tauto]]; intros x; rewrite pairs_cons; [rewrite B1, A1|rewrite B2, A2]; tauto.
Qed.
Lemma load_cites_ok strict lines : 
  Forall (fun l => exists p q rest, spaced l (p :: q :: rest) /\ (strict = true -> In p ns /\ In q ns)) lines ->
  forall s, exists s', load_cites strict ps types lines s = Ok s'.
Proof.
  induction 1 as [|l lines (p & q & rest & S & K) H IH]; intros s; cbn [load_cites]; [eauto|].
  assert (X : exists s1, load_cite strict ps types l s = Ok s1).
  { unfold load_cite. cbv zeta. rewrite (spaced_words _ _ S).
    assert (N : forall w, lookup w ps = None -> ~ In w ns) by (intros w Hw; apply lookup_none in Hw; [exact Hw|now rewrite ids_length]).
    destruct (lookup p ps) as [p1|] eqn:E1; [|destruct strict; [exfalso; apply (N p E1), K; reflexivity|eauto]].
    destruct (lookup q ps) as [p2|] eqn:E2; [|destruct strict; [exfalso; apply (N q E2), K; reflexivity|eauto]].
    apply ps_lookup in E1. apply ps_lookup in E2. destruct E1 as (i0 & I1 & -> & I2). destruct E2 as (j0 & J1 & -> & J2).
    rewrite (types_lookup i0 I2), (types_lookup j0 J2). cbn [or_raise bind]. destruct (tr i0); cbn [bind andb]; [destruct (tr j0)|]; eauto. }
  destruct X as (s1 & ->). cbn [bind]. apply IH.
Qed.
End Cites.
