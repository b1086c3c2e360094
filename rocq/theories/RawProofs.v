(** Cora and Citeseer: what the files say is what is written. *)
From Coq Require Import Permutation Sorting.Sorted.
From Verif Require Import Base SetupModel SetupProofs MetaModel DecoderModel DecoderProofs RawModel RawSpec RawTextProofs.
Import ListNotations.

(** *** Words *)
Lemma words_blank s rest : Forall (fun c => blank c = true) s -> words (s ++ rest) = words rest.
Proof. induction 1 as [|c s Hc H IH]; [reflexivity|]. cbn [app words]. now rewrite Hc. Qed.
Lemma words_word w rest : w <> [] -> Forall (fun c => blank c = false) w ->
  (rest = [] \/ exists c t, rest = c :: t /\ blank c = true) -> words (w ++ rest) = w :: words rest.
Proof.
  intros Hn H R. induction H as [|c w Hc H IH]; [congruence|]. cbn [app words]. rewrite Hc. destruct w as [|d w]; cbn [app] in *.
  - destruct R as [->|(x & t & -> & Hx)]; [reflexivity|]. now rewrite Hx.
  - inversion H; subst. match goal with X : blank d = false |- _ => rewrite X end. rewrite IH by discriminate. reflexivity.
Qed.
Lemma spaced_words s ws : spaced s ws -> words s = ws.
Proof.
  induction 1 as [s H|s w rest ws H1 H2 H3 H4 H5 IH].
  - rewrite <- (app_nil_r s), words_blank by exact H. reflexivity.
  - rewrite words_blank, words_word by assumption. now rewrite IH.
Qed.
Lemma spaced_blank c s ws : blank c = true -> spaced s ws -> spaced (c :: s) ws.
Proof.
  intros Hc H. destruct H as [s H|s w rest ws H1 H2 H3 H4 H5].
  - apply sp_none. now constructor.
  - apply (sp_word (c :: s) w rest ws); auto.
Qed.
Lemma spaced_letter l ws : spaced l ws -> forall c d s, l = d :: s -> blank c = false -> blank d = false ->
  spaced (c :: d :: s) (match ws with [] => [[c]] | w :: ws' => (c :: w) :: ws' end).
Proof.
  intros H c d s E Hc Hd. destruct H as [l H|l w rest ws H1 H2 H3 H4 H5].
  - subst. inversion H; congruence.
  - destruct l as [|x l]; [|cbn in E; injection E as -> _; inversion H1; congruence]. cbn [app] in E.
    rewrite <- E. apply (sp_word [] (c :: w) rest ws); auto. discriminate.
Qed.
Lemma words_spaced s : spaced s (words s).
Proof.
  induction s as [|c s IH]; [apply sp_none; constructor|]. cbn [words]. destruct (blank c) eqn:Ec; [now apply spaced_blank|].
  destruct s as [|d s].
  - apply (sp_word [] [c] [] []); [constructor|discriminate|now repeat constructor|now left|apply sp_none; constructor].
  - destruct (blank d) eqn:Ed; [|now apply (spaced_letter (d :: s))].
    apply (sp_word [] [c] (d :: s)); [constructor|discriminate|now repeat constructor| |exact IH]. right. now exists d, s.
Qed.
Lemma spaced_unique s ws ws' : spaced s ws -> spaced s ws' -> ws = ws'.
Proof. intros A B. apply spaced_words in A. apply spaced_words in B. congruence. Qed.

(** *** Dictionaries *)
Lemma lookup_combine {A} k ks (vs : list A) v : NoDup ks -> List.length ks = List.length vs ->
  (lookup k (combine ks vs) = Some v <-> exists i, nth_error ks i = Some k /\ nth_error vs i = Some v).
Proof.
  revert vs. induction ks as [|x ks IH]; intros vs HN HL.
  - cbn. split; [discriminate|]. intros (i & H & _). destruct i; discriminate.
  - destruct vs as [|y vs]; [discriminate|]. cbn [combine lookup]. inversion HN as [|? ? Hx HN']; subst.
    destruct (str_eqb k x) eqn:E.
    + apply str_eqb_eq in E. subst x. split.
      * intros X. injection X as ->. now exists 0.
      * intros (i & H1 & H2). destruct i as [|i]; [cbn in H2; congruence|]. cbn in H1. apply nth_error_In in H1. contradiction.
    + rewrite IH by (auto; cbn in HL; lia). split.
      * intros (i & H1 & H2). now exists (S i).
      * intros (i & H1 & H2). destruct i as [|i]; [|now exists i]. cbn in H1. injection H1 as ->.
        exfalso. assert (str_eqb k k = true) by now apply str_eqb_eq. congruence.
Qed.
Lemma lookup_none {A} k ks (vs : list A) : List.length ks = List.length vs -> (lookup k (combine ks vs) = None <-> ~ In k ks).
Proof.
  revert vs. induction ks as [|x ks IH]; intros vs HL; [cbn; tauto|]. destruct vs as [|y vs]; [discriminate|]. cbn [combine lookup In].
  destruct (str_eqb k x) eqn:E.
  - apply str_eqb_eq in E. subst. split; [discriminate|tauto].
  - rewrite IH by (cbn in HL; lia). assert (k <> x) by (intros ->; assert (str_eqb x x = true) by (now apply str_eqb_eq); congruence).
    split; [intros H1 [H2|H2]; congruence|tauto].
Qed.
Lemma combine_snoc {A B} (a : list A) (b : list B) x y : List.length a = List.length b -> combine (a ++ [x]) (b ++ [y]) = combine a b ++ [(x, y)].
Proof. revert b. induction a as [|u a IH]; intros [|v b] H; try discriminate; [reflexivity|]. cbn in *. rewrite IH by lia. reflexivity. Qed.

(** *** Labels *)
Lemma firsts_snoc l x : firsts (l ++ [x]) = if existsb (str_eqb x) l then firsts l else firsts l ++ [x].
Proof.
  assert (S : forall a b, str_eqb a b = str_eqb b a).
  { intros a b. destruct (str_eqb a b) eqn:E.
    - apply str_eqb_eq in E. subst. symmetry. now apply str_eqb_eq.
    - symmetry. destruct (str_eqb b a) eqn:E'; [|reflexivity]. apply str_eqb_eq in E'. subst.
      assert (str_eqb a a = true) by (now apply str_eqb_eq). congruence. }
  induction l as [|y l IH]; [reflexivity|]. cbn [app firsts existsb]. rewrite IH. rewrite (S x y).
  destruct (str_eqb y x) eqn:E; cbn [orb].
  - apply str_eqb_eq in E. subst y. destruct (existsb _ l); [reflexivity|]. rewrite filter_app. cbn [filter].
    assert (X : str_eqb x x = true) by (now apply str_eqb_eq). rewrite X. cbn [negb]. now rewrite app_nil_r.
  - destruct (existsb _ l); [reflexivity|]. rewrite filter_app. cbn [filter]. rewrite E. reflexivity.
Qed.
Lemma firsts_in l x : In x (firsts l) <-> In x l.
Proof.
  induction l as [|y l IH]; [reflexivity|]. cbn [firsts In]. rewrite filter_In, IH. split; [tauto|].
  intros [->|H]; [now left|]. destruct (str_eqb y x) eqn:E; [left; now apply str_eqb_eq|]. right. now split.
Qed.
Lemma firsts_nodup l : NoDup (firsts l).
Proof.
  induction l as [|y l IH]; [constructor|]. cbn [firsts]. constructor; [|now apply NoDup_filter].
  rewrite filter_In. intros [_ H]. assert (str_eqb y y = true) by (now apply str_eqb_eq). rewrite H0 in H. discriminate.
Qed.
Lemma mem_in x l : existsb (str_eqb x) l = true <-> In x l.
Proof. rewrite existsb_exists. split; [intros (y & H & E); apply str_eqb_eq in E; now subst|]. intros H. exists x. split; [exact H|now apply str_eqb_eq]. Qed.

(** Position of a name in a list. *)
Fixpoint index (x : str) (l : list str) : nat := match l with [] => 0 | y :: t => if str_eqb x y then 0 else S (index x t) end.
Lemma index_nth x l : In x l -> nth_error l (index x l) = Some x.
Proof.
  induction l as [|y l IH]; [intros []|]. intros H. cbn [index]. destruct (str_eqb x y) eqn:E.
  - apply str_eqb_eq in E. now subst.
  - destruct H as [->|H]; [assert (str_eqb x x = true) by (now apply str_eqb_eq); congruence|]. exact (IH H).
Qed.
Lemma index_app x l l' : In x l -> index x (l ++ l') = index x l.
Proof.
  induction l as [|y l IH]; [intros []|]. intros H. cbn [app index]. destruct (str_eqb x y) eqn:E; [reflexivity|].
  destruct H as [->|H]; [assert (str_eqb x x = true) by (now apply str_eqb_eq); congruence|]. now rewrite IH.
Qed.
Lemma index_new x l : ~ In x l -> index x (l ++ [x]) = List.length l.
Proof.
  induction l as [|y l IH]; intros H; cbn [app index].
  - assert (E : str_eqb x x = true) by (now apply str_eqb_eq). now rewrite E.
  - destruct (str_eqb x y) eqn:E; [exfalso; apply H; left; symmetry; now apply str_eqb_eq|]. cbn [List.length]. rewrite IH; [reflexivity|]. intros X. apply H. now right.
Qed.

(** *** The content file *)
Section Citation.
Context {F : Type}.
Variable pfl : str -> res F.
Variable show : F -> str.
Definition ids (n : nat) : list Z := map id_of (seq 0 n).
Lemma ids_length n : List.length (ids n) = n.
Proof. unfold ids. now rewrite map_length, seq_length. Qed.
Lemma ids_snoc n : ids (S n) = ids n ++ [id_of n].
Proof. unfold ids. now rewrite seq_S, map_app. Qed.
Lemma ids_nth n i : i < n -> nth_error (ids n) i = Some (id_of i).
Proof. intros H. unfold ids. rewrite nth_error_map, (nth_error_nth' _ 0) by (now rewrite seq_length). rewrite seq_nth by exact H. reflexivity. Qed.
Definition zeros (n : nat) : list Z := map Z.of_nat (seq 0 n).
Lemma zeros_length n : List.length (zeros n) = n.
Proof. unfold zeros. now rewrite map_length, seq_length. Qed.
Lemma zeros_snoc n : zeros (S n) = zeros n ++ [Z.of_nat n].
Proof. unfold zeros. now rewrite seq_S, map_app. Qed.
Lemma zeros_nth n i v : nth_error (zeros n) i = Some v -> v = Z.of_nat i.
Proof.
  unfold zeros. rewrite nth_error_map. destruct (nth_error (seq 0 n) i) as [x|] eqn:E; [|discriminate]. cbn. intros X. injection X as <-.
  assert (L : i < n) by (rewrite <- (seq_length n 0); apply nth_error_Some; congruence).
  rewrite (nth_error_nth' _ 0) in E by (now rewrite seq_length). rewrite seq_nth in E by exact L. injection E as <-. reflexivity.
Qed.

Definition row := (paper * list F)%type.
Definition rname (r : row) := name (fst r).
Definition rlabel (r : row) := label (fst r).
Definition label_no (rs : list row) (r : row) : Z := Z.of_nat (index (rlabel r) (firsts (map rlabel rs))).
Definition state (rs : list row) : loading :=
  let names := firsts (map rlabel rs) in
  Loading (combine (map rname rs) (ids (List.length rs))) (combine names (zeros (List.length names)))
    (combine (ids (List.length rs)) (map (fun r => (snd r, label_no rs r)) rs)) (id_of (List.length rs)).
Definition reads (fdim : nat) (line : str) (r : row) : Prop := describes fdim line (fst r) /\ mapM pfl (feats (fst r)) = Ok (snd r).

Lemma state_snoc rs r : state (rs ++ [r]) =
  Loading (papers (state rs) ++ [(rname r, next_id (state rs))])
    (if existsb (str_eqb (rlabel r)) (map rlabel rs) then labels (state rs)
     else labels (state rs) ++ [(rlabel r, Z.of_nat (List.length (labels (state rs))))])
    (nodes (state rs) ++ [(next_id (state rs), (snd r, label_no (rs ++ [r]) r))]) (next_id (state rs) + 1).
Proof.
  unfold state at 1. rewrite app_length. cbn [List.length]. rewrite Nat.add_1_r, !map_app, ids_snoc. cbn [map].
  rewrite (combine_snoc (map rname rs)) by (now rewrite map_length, ids_length).
  rewrite (combine_snoc (ids _)) by (now rewrite map_length, ids_length).
  unfold state. cbn [papers labels nodes next_id]. f_equal.
  - rewrite firsts_snoc. destruct (existsb _ _); [reflexivity|]. rewrite app_length, Nat.add_1_r, zeros_snoc.
    rewrite combine_snoc by (now rewrite zeros_length). rewrite combine_length, zeros_length, Nat.min_id. reflexivity.
  - f_equal. f_equal. apply map_ext_in. intros q Hq. f_equal. unfold label_no. f_equal. rewrite map_app. cbn [map]. rewrite firsts_snoc.
    destruct (existsb _ _); [reflexivity|]. apply index_app. apply firsts_in. now apply in_map.
  - unfold id_of. lia.
Qed.

Lemma rev_last {A} (x : A) l y t : rev (x :: l ++ [y]) = t -> exists t', t = y :: t'.
Proof. intros <-. cbn [rev]. rewrite rev_app_distr. cbn. eauto. Qed.
Lemma slice_mid {A} (x : A) l y n : List.length l = n -> slice (x :: l ++ [y]) 1 n = l.
Proof. intros <-. unfold slice. cbn [skipn]. rewrite firstn_app, firstn_all, Nat.sub_diag. cbn. apply app_nil_r. Qed.
Lemma snoc_shape {A} (l : list A) n : List.length l = 1 + n + 1 -> exists x m y, l = x :: m ++ [y] /\ List.length m = n.
Proof.
  destruct l as [|x l]; [cbn; lia|]. intros H. cbn in H. destruct l as [|z l']; [cbn in H; lia|].
  destruct (@exists_last _ (z :: l')) as (m & y & E); [discriminate|]. exists x, m, y. rewrite E. split; [reflexivity|].
  apply (f_equal (@List.length A)) in E. rewrite app_length in E. cbn in *. lia.
Qed.

Lemma load_paper_step fdim line rs r : NoDup (map rname rs) -> reads fdim line r -> ~ In (rname r) (map rname rs) ->
  load_paper pfl fdim line (state rs) = Ok (state (rs ++ [r])).
Proof.
  intros HN [[HS HL] HM] HI. unfold load_paper. cbv zeta. rewrite (spaced_words _ _ HS). destruct r as [[nm fs lb] xs]. cbn [fst snd name feats label] in *.
  replace (List.length (nm :: fs ++ [lb]) =? 1 + fdim + 1) with true by (cbn [List.length]; rewrite app_length; cbn [List.length]; lia).
  cbn [negb]. destruct (rev (nm :: fs ++ [lb])) as [|z t] eqn:E.
  { apply rev_last in E. destruct E; discriminate. }
  pose proof (rev_last _ _ _ _ E) as (t' & Et). injection Et as -> ->.
  rewrite state_snoc. cbn [rname rlabel fst snd name label].
  assert (N : lookup nm (papers (state rs)) = None).
  { unfold state. cbn [papers]. apply lookup_none; [now rewrite map_length, ids_length|exact HI]. }
  rewrite N, (slice_mid _ _ _ _ HL), HM. cbn [bind].
  unfold label_no. rewrite map_app. cbn [map rlabel fst label]. rewrite firsts_snoc.
  assert (ML : List.length (firsts (map rlabel rs)) = List.length (zeros (List.length (firsts (map rlabel rs))))) by (now rewrite zeros_length).
  destruct (existsb (str_eqb lb) (map rlabel rs)) eqn:El.
  - apply mem_in in El. apply firsts_in in El.
    assert (X : lookup lb (labels (state rs)) = Some (Z.of_nat (index lb (firsts (map rlabel rs))))).
    { unfold state. cbn [labels]. apply lookup_combine; [apply firsts_nodup|exact ML|]. exists (index lb (firsts (map rlabel rs))).
      split; [now apply index_nth|]. unfold zeros. rewrite nth_error_map.
      assert (L : index lb (firsts (map rlabel rs)) < List.length (firsts (map rlabel rs))) by (apply nth_error_Some; rewrite (index_nth _ _ El); discriminate).
      rewrite (nth_error_nth' _ 0) by (now rewrite seq_length). rewrite seq_nth by exact L. reflexivity. }
    rewrite X. reflexivity.
  - assert (NI : ~ In lb (firsts (map rlabel rs))) by (rewrite firsts_in, <- mem_in; congruence).
    assert (X : lookup lb (labels (state rs)) = None) by (unfold state; cbn [labels]; now apply lookup_none).
    rewrite X, (index_new _ _ NI). unfold state. cbn [labels]. rewrite combine_length, <- ML, Nat.min_id. reflexivity.
Qed.
Lemma load_paper_inv fdim line rs s' : NoDup (map rname rs) -> load_paper pfl fdim line (state rs) = Ok s' ->
  exists r, reads fdim line r /\ ~ In (rname r) (map rname rs) /\ s' = state (rs ++ [r]).
Proof.
  intros HN H. pose proof H as H0. unfold load_paper in H. cbv zeta in H. destruct (List.length (words line) =? 1 + fdim + 1) eqn:EL; [|discriminate].
  apply Nat.eqb_eq in EL. destruct (snoc_shape _ _ EL) as (nm & fs & lb & E & HL). cbn [negb] in H. rewrite E in H.
  destruct (rev (nm :: fs ++ [lb])) as [|z t]; [discriminate|].
  destruct (lookup nm (papers (state rs))) eqn:EP; [discriminate|]. rewrite (slice_mid _ _ _ _ HL) in H.
  destruct (mapM pfl fs) as [xs|] eqn:EM; [|discriminate].
  assert (HI : ~ In nm (map rname rs)).
  { unfold state in EP. cbn [papers] in EP. apply lookup_none in EP; [exact EP|]. now rewrite map_length, ids_length. }
  set (r := (Paper nm fs lb, xs) : row). assert (R : reads fdim line r).
  { split; [split; [|exact HL]|exact EM]. pose proof (words_spaced line) as W. rewrite E in W. exact W. }
  exists r. split; [exact R|]. split; [exact HI|]. rewrite (load_paper_step fdim line rs r HN R HI) in H0. congruence.
Qed.
Lemma load_papers_inv fdim lines : forall rs s', NoDup (map rname rs) -> load_papers pfl fdim lines (state rs) = Ok s' ->
  exists rs', Forall2 (reads fdim) lines rs' /\ NoDup (map rname (rs ++ rs')) /\ s' = state (rs ++ rs').
Proof.
  induction lines as [|l lines IH]; intros rs s' HN H; cbn [load_papers] in H.
  - injection H as <-. exists []. rewrite app_nil_r. split; [constructor|]. now split.
  - destruct (load_paper pfl fdim l (state rs)) as [s1|] eqn:E; [|discriminate]. cbn [bind] in H.
    apply load_paper_inv in E; [|exact HN]. destruct E as (r & R & HI & ->).
    apply IH in H.
    + destruct H as (rs' & F2 & HN' & ->). exists (r :: rs'). rewrite <- app_assoc in *. split; [now constructor|]. now split.
    + rewrite map_app. cbn [map]. apply NoDup_rev in HN. rewrite <- (rev_involutive (_ ++ _)). apply NoDup_rev. rewrite rev_app_distr. cbn. constructor; [rewrite <- in_rev; exact HI|exact HN].
Qed.
Lemma nodup_app_l {A} (a b : list A) : NoDup (a ++ b) -> NoDup a.
Proof. induction a as [|x a IH]; [constructor|]. cbn. intros H. inversion H; subst. constructor; [|auto]. intros X. apply H2. apply in_or_app. now left. Qed.
Lemma nodup_app_notin {A} (a : list A) x b : NoDup (a ++ x :: b) -> ~ In x a.
Proof. intros H. apply NoDup_remove_2 in H. intros X. apply H. apply in_or_app. now left. Qed.
Lemma load_papers_ok fdim lines rs' : Forall2 (reads fdim) lines rs' -> forall rs, NoDup (map rname (rs ++ rs')) ->
  load_papers pfl fdim lines (state rs) = Ok (state (rs ++ rs')).
Proof.
  induction 1 as [|l r lines rs' R H IH]; intros rs HN; cbn [load_papers]; [now rewrite app_nil_r|].
  rewrite map_app in HN. cbn [map] in HN.
  rewrite (load_paper_step fdim l rs r); [|now apply nodup_app_l in HN|exact R|now apply nodup_app_notin in HN]. cbn [bind].
  rewrite IH; rewrite <- app_assoc; cbn [app]; [reflexivity|]. rewrite map_app. exact HN.
Qed.
Lemma nothing_state : nothing = state [].
Proof. reflexivity. Qed.
End Citation.
