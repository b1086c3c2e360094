(** Proofs about GraphSAGE encoders. *)
From Verif Require Import Base ConvertProofs GraphOpsModel GraphOpsProofs SageModel SageSpec.
From Coq Require Import ZifyBool ZifyNat.

Lemma nth_error_position x l : In x l -> nth_error l (position x l) = Some x.
Proof.
  intro H. rewrite (nth_error_nth' l x (position_lt x l H)). now rewrite position_nth.
Qed.
Lemma take_map {A} (f : Z -> A) xs (l : list Z) :
  (forall y, In y l -> In y xs) -> take (map f xs) (map (fun y => position y xs) l) = Ok (map f l).
Proof.
  intro H. unfold take. induction l as [|y l IH]; [reflexivity|]. cbn [map mapM].
  rewrite nth_error_map, nth_error_position by (apply H; now left). cbn [option_map bind].
  rewrite IH by (intros z Hz; apply H; now right). reflexivity.
Qed.
Lemma unique_in l : forall y, In y l -> In y (np_unique l).
Proof. intros y H. unfold np_unique. now apply make_sorted_in. Qed.

(** The list drawn for [u] among answers to [nodes]. *)
Definition row_of (nodes : list Z) (ls : list (list Z)) (u : Z) : list Z := nth (position u nodes) ls [].
Lemma map_row_of nodes ls :
  NoDup nodes -> length ls = length nodes -> map (row_of nodes ls) nodes = ls.
Proof.
  revert ls. induction nodes as [|x nodes IH]; intros [|a ls] ND L; try discriminate; [reflexivity|].
  inversion ND as [|? ? Hx ND']; subst. cbn [map]. unfold row_of at 1. cbn [position]. rewrite Z.eqb_refl. cbn [nth].
  f_equal. rewrite <- (IH ls ND') at 2 by (cbn in L; lia). apply map_ext_in. intros y Hy.
  unfold row_of. cbn [position]. destruct (Z.eqb_spec y x) as [->|E]; [contradiction|]. reflexivity.
Qed.
Lemma row_of_prop (P : Z -> list Z -> Prop) nodes ls u :
  Forall2 P nodes ls -> In u nodes -> P u (row_of nodes ls u).
Proof.
  induction 1 as [|x a nodes ls Hp _ IH]; [intros []|]. intro H. unfold row_of. cbn [position].
  destruct (Z.eqb_spec u x) as [->|E]; [exact Hp|]. destruct H as [->|H]; [contradiction|]. now apply IH.
Qed.

Lemma forall2_incl (P : Z -> list Z -> Prop) R nodes Q :
  incl Q R -> Forall2 P nodes Q -> Forall2 (fun v S => P v S /\ incl S (concat R)) nodes Q.
Proof.
  intros I H. induction H as [|v S nodes Q Hv H IH]; constructor.
  - split; [exact Hv|]. intros u Hu. apply in_concat. exists S. split; [apply I; now left|exact Hu].
  - apply IH. intros z Hz. apply I. now right.
Qed.

Section Sage.
Context {elem : Type}.
Variables (draw : nat -> Z -> list Z -> nat -> list (list Z)) (feat : Z -> row elem) (enc : row elem -> row elem)
  (mean : list (row elem) -> row elem) (dim : nat) (nbrs : Z -> Z -> list Z -> Prop).
Hypothesis An : answers nbrs draw.
Local Notation x := (fun v => enc (feat v)).
Local Notation query := (query elem draw feat dim).
Local Notation forward := (forward elem enc mean).

Lemma draw_rows i t nodes k : Forall (fun S => length S = k) (draw i t nodes k) /\ length (draw i t nodes k) = length nodes.
Proof.
  pose proof (An i t nodes k) as H. induction H as [|v S nodes' ds [_ L] H [F E]]; [split; constructor|].
  split; [constructor; assumption|cbn; lia].
Qed.

(** One layer whose neighbors are the rows [D]. *)
Definition layer1 (l : layer elem) (nodes : list Z) (D : list (list Z)) : list (row elem) :=
  map (fun p => sage1 x mean (l_comb l) (snd p) (fst p)) (combine nodes D).

Lemma query1_some l nodes neigh c :
  query [l] nodes (Some neigh) c = Ok (Dict (Arr (map feat nodes)) (Arr (map feat neigh)) (length nodes), c).
Proof.
  cbn [SageModel.query bind]. unfold query_feature.
  rewrite take_map by (apply unique_in). reflexivity.
Qed.
Lemma query1_none l nodes c :
  query [l] nodes None c =
  Ok (Dict (Arr (map feat nodes)) (Arr (map feat (concat (draw c (l_type l) nodes (l_sample l))))) (length nodes), S c).
Proof.
  cbn [SageModel.query bind]. unfold query_feature.
  rewrite take_map by (apply unique_in). reflexivity.
Qed.

Lemma aggregate_rows {A} (f : A -> row elem) k (D : list (list A)) :
  Forall (fun S => length S = k) D -> 0 < length D ->
  aggregate elem mean (map f (concat D)) (length D) = Ok (map (fun S => mean (map f S)) D).
Proof.
  intros F L. unfold aggregate. rewrite map_length, (concat_length_const k) by exact F.
  rewrite Nat.div_mul by lia. replace (length D =? 0) with false by (symmetry; apply Nat.eqb_neq; lia).
  rewrite (Nat.mul_comm k), Nat.eqb_refl. f_equal. rewrite concat_map.
  rewrite <- (app_nil_r (concat (map (map f) D))). rewrite <- (map_length (map f) D) at 1.
  rewrite chunks_concat.
  - now rewrite map_map.
  - apply Forall_map. eapply Forall_impl; [|exact F]. cbn. intros a H. now rewrite map_length.
Qed.

Lemma forward1 l nodes k (D : list (list Z)) :
  Forall (fun S => length S = k) D -> length D = length nodes -> 0 < length nodes ->
  forward [l] (Dict (Arr (map feat nodes)) (Arr (map feat (concat D))) (length nodes)) = Ok (layer1 l nodes D).
Proof.
  intros F L P. cbn [SageModel.forward bind]. rewrite <- L at 1. rewrite !map_map.
  rewrite (aggregate_rows x k) by (assumption || lia). cbn [bind].
  rewrite !map_length, L, Nat.eqb_refl. f_equal. unfold layer1.
  clear F P. revert D L. induction nodes as [|v nodes IH]; intros [|S D] L; try discriminate; [reflexivity|].
  cbn. f_equal. apply IH. cbn in L; lia.
Qed.

Lemma combine_forall2 {A B C} (R : A -> B -> Prop) (Q : A -> C -> Prop) (f : A * B -> C) l m :
  Forall2 R l m -> (forall a b, R a b -> Q a (f (a, b))) -> Forall2 Q l (map f (combine l m)).
Proof. intros H K. induction H; cbn; constructor; auto. Qed.

Theorem one_layer l nodes c :
  nodes <> [] ->
  exists out, embed elem draw feat enc mean dim [l] nodes c = Ok out /\
    Forall2 (fun v e => exists S, nbrs (l_type l) v S /\ length S = l_sample l /\ e = sage1 x mean (l_comb l) S v) nodes out.
Proof.
  intro NE. assert (P : 0 < length nodes) by (destruct nodes; [contradiction|cbn; lia]).
  destruct (draw_rows c (l_type l) nodes (l_sample l)) as [F L].
  exists (layer1 l nodes (draw c (l_type l) nodes (l_sample l))). split.
  - unfold embed. rewrite query1_none. cbn [bind fst]. now apply (forward1 l nodes (l_sample l)).
  - apply (combine_forall2 (fun v S => nbrs (l_type l) v S /\ length S = l_sample l)); [apply An|].
    intros v S [H1 H2]. exists S. auto.
Qed.

Hypothesis Dim : 0 < dim.
Hypothesis Width : forall v, length (feat v) = dim.

Lemma concat_feat_len k S : length S = k -> length (concat (map feat S)) = k * dim.
Proof.
  intros <-. rewrite (concat_length_const dim); [rewrite map_length; lia|].
  apply Forall_map, Forall_forall. intros v _. apply Width.
Qed.

Lemma reshape_rows k (E : list (list Z)) :
  0 < k -> Forall (fun S => length S = k) E ->
  reshape elem k dim (map feat (concat E)) = Ok (map (fun S => concat (map feat S)) E).
Proof.
  intros K F. unfold reshape. rewrite concat_map.
  assert (Eq : concat (concat (map (map feat) E)) = concat (map (fun S => concat (map feat S)) E)).
  { clear F. induction E as [|S E IH]; [reflexivity|]. cbn. rewrite concat_app. now rewrite IH. }
  assert (G : Forall (fun b => length b = k * dim) (map (fun S => concat (map feat S)) E)).
  { apply Forall_map. eapply Forall_impl; [|exact F]. cbn. intros S H. now apply concat_feat_len. }
  rewrite Eq, (concat_length_const (k * dim)) by exact G.
  replace (k * dim =? 0) with false by (symmetry; apply Nat.eqb_neq; nia).
  rewrite Nat.mul_comm, Nat.mod_mul by nia. cbn [Nat.eqb]. f_equal. apply fields_concat; [nia|exact G].
Qed.

Lemma query2 l2 l1 nodes c :
  0 < l_sample l2 -> l_sample l1 = l_sample l2 ->
  exists T, (forall u, In u (concat (draw c (l_type l2) nodes (l_sample l2))) -> nbrs (l_type l1) u (T u) /\ length (T u) = l_sample l1) /\
    query [l2; l1] nodes None c =
    let D := concat (draw c (l_type l2) nodes (l_sample l2)) in
    Ok (Dict (Dict (Arr (map feat nodes)) (Arr (map feat D)) (length nodes))
         (Dict (Arr (map feat D)) (Arr (map feat (flat_map T D))) (length D)) (length nodes), S (S c)).
Proof.
  intros K2 K1. set (D := concat (draw c (l_type l2) nodes (l_sample l2))).
  set (U := np_unique D). set (E := draw (S c) (l_type l1) U (l_sample l1)).
  exists (row_of U E).
  assert (HT : forall u, In u D -> nbrs (l_type l1) u (row_of U E u) /\ length (row_of U E u) = l_sample l1).
  { intros u Hu. apply (row_of_prop (fun v S => nbrs (l_type l1) v S /\ length S = l_sample l1)); [apply An|].
    now apply unique_in. }
  split; [exact HT|].
  destruct (draw_rows (S c) (l_type l1) U (l_sample l1)) as [F L]. fold E in F, L.
  assert (HE : map (row_of U E) U = E) by (apply map_row_of; [apply sorted_nodup, make_sorted_sorted|exact L]).
  remember [l1] as below eqn:Hb. cbn [SageModel.query]. fold D. fold U. subst below.
  rewrite query1_some. cbn [bind]. rewrite query1_none. cbn [bind]. fold E.
  rewrite (reshape_rows (l_sample l2)) by (try exact K2; rewrite <- K1; exact F). cbn [bind].
  rewrite take_map by (apply unique_in). cbn [bind].
  rewrite <- HE at 1. rewrite map_map.
  rewrite (take_map (fun u => concat (map feat (row_of U E u)))) by (apply unique_in). cbn [bind].
  rewrite map_length. cbn zeta. do 6 f_equal.
  replace (concat (map (fun u => concat (map feat (row_of U E u))) D)) with (concat (map feat (flat_map (row_of U E) D))).
  - apply fields_concat; [exact Dim|]. apply Forall_map, Forall_forall. intros v _. apply Width.
  - generalize (row_of U E) D. clear. intros T D. induction D as [|u D IH]; [reflexivity|]. cbn. rewrite map_app, concat_app. now rewrite IH.
Qed.

Theorem two_layers l2 l1 nodes c :
  nodes <> [] -> 0 < l_sample l2 -> l_sample l1 = l_sample l2 ->
  exists out T, embed elem draw feat enc mean dim [l2; l1] nodes c = Ok out /\
    Forall2 (fun v e => exists S, nbrs (l_type l2) v S /\ length S = l_sample l2 /\
      (forall u, In u S -> nbrs (l_type l1) u (T u) /\ length (T u) = l_sample l1) /\
      e = sage2 x mean (l_comb l2) (l_comb l1) S T v) nodes out.
Proof.
  intros NE K2 K1. assert (P : 0 < length nodes) by (destruct nodes; [contradiction|cbn; lia]).
  destruct (query2 l2 l1 nodes c K2 K1) as (T & HT & HQ).
  set (R := draw c (l_type l2) nodes (l_sample l2)) in *.
  destruct (draw_rows c (l_type l2) nodes (l_sample l2)) as [F L]. fold R in F, L.
  exists (map (fun p => sage2 x mean (l_comb l2) (l_comb l1) (snd p) T (fst p)) (combine nodes R)), T. split.
  - unfold embed. rewrite HQ. cbn [bind fst]. cbn zeta.
    remember [l1] as below eqn:Hb. cbn [SageModel.forward]. subst below.
    assert (FT : Forall (fun S => length S = l_sample l1) (map T (concat R))).
    { apply Forall_map, Forall_forall. intros u Hu. now apply HT. }
    assert (PD : 0 < length (concat R)).
    { rewrite (concat_length_const (l_sample l2)) by exact F. nia. }
    rewrite flat_map_concat_map.
    rewrite (forward1 l1 (concat R) (l_sample l1)) by (try exact FT; rewrite ?map_length; auto).
    cbn [bind].
    assert (E1 : layer1 l1 (concat R) (map T (concat R)) = map (fun u => sage1 x mean (l_comb l1) (T u) u) (concat R)).
    { unfold layer1. generalize (concat R). clear. intro l. induction l as [|u l IH]; [reflexivity|]. cbn. now rewrite IH. }
    rewrite E1. rewrite <- L at 1.
    rewrite (aggregate_rows _ (l_sample l2)) by (try exact F; lia). cbn [bind].
    rewrite (forward1 l1 nodes (l_sample l2)) by assumption. cbn [bind].
    unfold layer1. rewrite !map_length, combine_length, L, Nat.min_id, Nat.eqb_refl. f_equal.
    clear - L. revert L. generalize R. clear. induction nodes as [|v nodes IH]; intros [|S R] L; try discriminate; [reflexivity|].
    cbn. f_equal. apply IH. cbn in L; lia.
  - assert (H : Forall2 (fun v S => (nbrs (l_type l2) v S /\ length S = l_sample l2) /\ incl S (concat R)) nodes R).
    { pose proof (An c (l_type l2) nodes (l_sample l2)) as H. fold R in H.
      apply (forall2_incl (fun v S => nbrs (l_type l2) v S /\ length S = l_sample l2)); [apply incl_refl|exact H]. }
    apply (combine_forall2 _ _ _ _ _ H). intros v S [[H1 H2] H3]. exists S.
    refine (conj H1 (conj H2 (conj _ eq_refl))). intros u Hu. apply HT, H3, Hu.
Qed.
End Sage.

(** More than two layers never work. *)
Lemma deep {elem} draw (feat : Z -> row elem) dim a b ls nodes neigh c :
  forall r, query elem draw feat dim (a :: b :: ls) nodes neigh c = Ok r -> exists nf bf n k, r = (Dict nf bf n, k).
Proof.
  intros r H. remember (b :: ls) as below. cbn [query] in H.
  destruct (match neigh with Some n => (n, c) | None => _ end) as [N c1].
  destruct (query elem draw feat dim below nodes (Some N) c1) as [[nf c2]|]; [|discriminate]. cbn [bind] in H.
  destruct (query elem draw feat dim below (np_unique N) None c2) as [[u c3]|]; [|discriminate]. cbn [bind] in H.
  destruct u as [f|[nf1|] [bf1|] k]; cbn [bind] in H; try discriminate.
  - destruct (take f _); cbn [bind] in H; [injection H as <-; eauto 6|discriminate].
  - destruct (reshape _ _ _ _); cbn [bind] in H; [|discriminate].
    destruct (take nf1 _); cbn [bind] in H; [|discriminate].
    destruct (take _ _); cbn [bind] in H; [injection H as <-; eauto 6|discriminate].
Qed.
Lemma inner_dict {elem} draw (feat : Z -> row elem) dim a b ls nodes neigh c :
  forall nf bf n k, query elem draw feat dim (a :: b :: ls) nodes neigh c = Ok (Dict nf bf n, k) -> exists p q m, nf = Dict p q m.
Proof.
  intros nf bf n k H. remember (b :: ls) as below eqn:Hb. cbn [query] in H.
  destruct (match neigh with Some n => (n, c) | None => _ end) as [N c1].
  destruct (query elem draw feat dim below nodes (Some N) c1) as [[nf0 c2]|] eqn:Q; [|discriminate]. cbn [bind] in H.
  assert (exists p q m, nf0 = Dict p q m).
  { subst below. destruct ls as [|d ls].
    - rewrite query1_some in Q. injection Q as <- _. eauto.
    - apply deep in Q. destruct Q as (p & q & m & z & Q). injection Q as -> _. eauto. }
  destruct (query elem draw feat dim below (np_unique N) None c2) as [[u c3]|]; [|discriminate]. cbn [bind] in H.
  destruct u as [f|[nf1|] [bf1|] ?]; cbn [bind] in H; try discriminate.
  - destruct (take f _); cbn [bind] in H; [injection H as <- _ _ _; assumption|discriminate].
  - destruct (reshape _ _ _ _); cbn [bind] in H; [|discriminate].
    destruct (take nf1 _); cbn [bind] in H; [|discriminate].
    destruct (take _ _); cbn [bind] in H; [injection H as <- _ _ _; assumption|discriminate].
Qed.
Theorem three_layers {elem} draw (feat : Z -> row elem) enc mean dim a b d ls nodes c :
  exists e, embed elem draw feat enc mean dim (a :: b :: d :: ls) nodes c = Fail e.
Proof.
  destruct (query elem draw feat dim (a :: b :: d :: ls) nodes None c) as [r|e] eqn:Q;
    unfold embed; rewrite Q; cbn [bind]; [exfalso|eauto].
  remember (b :: d :: ls) as below eqn:Hb. cbn [query] in Q.
  destruct (query elem draw feat dim below nodes _ (S c)) as [[nf0 c2]|]; [|discriminate]. cbn [bind] in Q.
  destruct (query elem draw feat dim below _ None c2) as [[u c3]|] eqn:Qu; [|discriminate]. cbn [bind] in Q.
  subst below. pose proof Qu as Qu'. apply deep in Qu'. destruct Qu' as (nf & bf & n & k & E). injection E as -> ->.
  apply inner_dict in Qu. destruct Qu as (p & q & m & ->). discriminate.
Qed.

Lemma Forall2_impl {A B} (P Q : A -> B -> Prop) l m : (forall a b, P a b -> Q a b) -> Forall2 P l m -> Forall2 Q l m.
Proof. intros H F. induction F; constructor; auto. Qed.

(** A graph that always answers the same for a node: batches do not matter. *)
Lemma forall2_map {A B} (f : A -> B) l m : Forall2 (fun a b => b = f a) l m -> m = map f l.
Proof. induction 1; cbn; congruence. Qed.
Theorem batches {elem} (pick : Z -> Z -> nat -> list Z) (feat : Z -> row elem) enc mean dim l2 l1 nodes c :
  0 < dim -> (forall v, length (feat v) = dim) -> (forall t v k, length (pick t v k) = k) ->
  nodes <> [] -> 0 < l_sample l2 -> l_sample l1 = l_sample l2 ->
  embed elem (fun _ t ns k => map (fun v => pick t v k) ns) feat enc mean dim [l2; l1] nodes c =
  Ok (map (fun v => sage2 (fun v => enc (feat v)) mean (l_comb l2) (l_comb l1) (pick (l_type l2) v (l_sample l2))
                      (fun u => pick (l_type l1) u (l_sample l1)) v) nodes).
Proof.
  intros D W L NE K2 K1.
  destruct (two_layers (fun _ t ns k => map (fun v => pick t v k) ns) feat enc mean dim (fun t v S => S = pick t v (length S)))
    with (l2 := l2) (l1 := l1) (nodes := nodes) (c := c) as (out & T & E & F); try assumption.
  - intros i t ns k. induction ns as [|v ns IH]; [constructor|]. constructor; [|exact IH]. rewrite L. auto.
  - rewrite E. f_equal. apply forall2_map. eapply Forall2_impl; [|exact F]. cbn. intros v e (S & H1 & H2 & H3 & ->).
    rewrite H2 in H1. unfold sage2. rewrite <- H1. f_equal. f_equal. apply map_ext_in. intros u Hu.
    destruct (H3 u Hu) as [H4 H5]. rewrite H5 in H4. now rewrite H4.
Qed.
