From Coq Require Import List Arith ZArith Bool Sorted Permutation Lia.
From Verif Require Import Base ConvertProofs GraphOpsModel GraphOpsProofs SageExModel SageExSpec.
Import ListNotations.
Open Scope list_scope.
Local Open Scope nat_scope.

(** ** Order of first occurrences *)
Lemma sorted_weaken : forall {A} (R Q : A -> A -> Prop) l, StronglySorted R l ->
  (forall a b, In a l -> In b l -> R a b -> Q a b) -> StronglySorted Q l.
Proof.
  intros A R Q l S. induction S as [|x l S IH F]; intros H; constructor.
  - apply IH. intros a b I J. apply H; simpl; auto.
  - rewrite Forall_forall in *. intros y Y. apply H; simpl; auto.
Qed.
Lemma sorted_map : forall {A B} (f : A -> B) (R : B -> B -> Prop) l,
  StronglySorted R (map f l) <-> StronglySorted (fun a b => R (f a) (f b)) l.
Proof.
  intros A B f R; induction l as [|x l IH]; simpl; split; intros H; try constructor.
  - inversion H; subst. now apply IH.
  - inversion H as [|? ? _ F]; subst. rewrite Forall_map in F. exact F.
  - inversion H; subst. now apply IH.
  - inversion H as [|? ? _ F]; subst. rewrite Forall_map. exact F.
Qed.
Lemma insert_key_perm : forall t l, Permutation (insert_key t l) (t :: l).
Proof.
  intros t; induction l as [|x l IH]; simpl; [reflexivity|]. destruct (fst t <=? fst x); [reflexivity|].
  rewrite IH. apply perm_swap.
Qed.
Lemma keys_perm : forall l, Permutation (fold_right insert_key [] l) l.
Proof. induction l as [|x l IH]; simpl; [constructor|]. rewrite insert_key_perm. now apply perm_skip. Qed.
Lemma insert_key_sorted : forall t l, StronglySorted (fun a b : nat * Z => fst a <= fst b) l ->
  StronglySorted (fun a b => fst a <= fst b) (insert_key t l).
Proof.
  intros t l S. induction S as [|x l S IH F]; simpl; [repeat constructor|].
  destruct (Nat.leb_spec (fst t) (fst x)).
  - constructor; [now constructor|]. constructor; [auto|]. rewrite Forall_forall in *. intros y Y. specialize (F y Y). lia.
  - constructor; [exact IH|]. rewrite Forall_forall in *. intros y Y.
    apply (Permutation_in _ (insert_key_perm t l)) in Y. destruct Y as [<-|Y]; [lia|auto].
Qed.
Lemma keys_sorted : forall l, StronglySorted (fun a b : nat * Z => fst a <= fst b) (fold_right insert_key [] l).
Proof. induction l as [|x l IH]; simpl; [constructor|now apply insert_key_sorted]. Qed.
Lemma combine_self : forall {A B} (f : A -> B) l, combine (map f l) l = map (fun x => (f x, x)) l.
Proof. intros A B f; induction l as [|x l IH]; simpl; congruence. Qed.
Lemma position_inj : forall l x y, In x l -> In y l -> position x l = position y l -> x = y.
Proof. intros l x y I J E. rewrite <- (position_nth x l 0%Z I), <- (position_nth y l 0%Z J). now rewrite E. Qed.
Lemma first_order_perm : forall l, Permutation (first_order l) (np_unique l).
Proof.
  intros l. unfold first_order, by_key. rewrite keys_perm, combine_self, map_map. simpl. now rewrite map_id.
Qed.
Lemma first_order_in : forall l x, In x (first_order l) <-> In x l.
Proof.
  intros l x. rewrite <- (unique_in l x). split; apply Permutation_in; [|apply Permutation_sym]; apply first_order_perm.
Qed.
Lemma first_order_nodup : forall l, NoDup (first_order l).
Proof.
  intros l. eapply Permutation_NoDup; [apply Permutation_sym, first_order_perm|]. apply sorted_nodup, make_sorted_sorted.
Qed.
Lemma sorted_pairs : forall {A} (R : A -> A -> Prop) l, StronglySorted R l -> NoDup l ->
  StronglySorted (fun a b => R a b /\ a <> b) l.
Proof.
  intros A R l S. induction S as [|x l S IH F]; intros N; inversion N; subst; constructor; auto.
  rewrite Forall_forall in *. intros y Y. split; auto. intros ->; contradiction.
Qed.
Lemma first_order_sorted : forall l, StronglySorted (fun a b => position a l < position b l) (first_order l).
Proof.
  intros l.
  assert (S : StronglySorted (fun a b => position a l <= position b l) (first_order l)).
  { unfold first_order, by_key. apply sorted_map. eapply sorted_weaken; [apply keys_sorted|].
    intros a b I J H. apply (Permutation_in _ (keys_perm _)) in I. apply (Permutation_in _ (keys_perm _)) in J.
    rewrite combine_self in I, J. apply in_map_iff in I. apply in_map_iff in J.
    destruct I as (u & <- & _), J as (v & <- & _). exact H. }
  eapply sorted_weaken; [apply (sorted_pairs _ _ S (first_order_nodup l))|]. simpl.
  intros a b I J [H N]. apply (proj1 (first_order_in l a)) in I. apply (proj1 (first_order_in l b)) in J.
  pose proof (position_inj l a b I J). lia.
Qed.
Lemma position_split : forall l x, In x l -> exists b, l = firstn (position x l) l ++ x :: b.
Proof.
  induction l as [|y l IH]; intros x I; [destruct I|]. simpl. destruct (Z.eqb_spec x y) as [->|N].
  - exists l; reflexivity.
  - destruct I as [->|I]; [contradiction|]. destruct (IH x I) as [b E]. exists b. simpl. now rewrite <- E.
Qed.
Lemma position_before : forall l x k, k <= position x l -> ~ In x (firstn k l).
Proof.
  induction l as [|y l IH]; intros x k K; [rewrite firstn_nil; auto|].
  destruct k as [|k]; simpl in *; [auto|]. destruct (Z.eqb_spec x y) as [->|N]; [lia|].
  intros [E|I]; [congruence|]. revert I. apply IH. lia.
Qed.
Lemma sorted_at : forall {A} (R : A -> A -> Prop) l d, StronglySorted R l -> forall i j, i < j -> j < length l ->
  R (nth i l d) (nth j l d).
Proof.
  intros A R l d S. induction S as [|x l S IH F]; intros i j I J; simpl in J; [lia|].
  destruct j as [|j]; [lia|]. destruct i as [|i]; simpl.
  - rewrite Forall_forall in F. apply F, nth_In. lia.
  - apply IH; lia.
Qed.
Lemma first_order_ok : forall l, first_occurrences l (first_order l).
Proof.
  intros l. split; [apply first_order_nodup|]. split; [apply first_order_in|]. intros i j I J.
  pose proof (sorted_at _ _ 0%Z (first_order_sorted l) i j I J) as H. simpl in H.
  set (x := nth i _ _) in *. set (y := nth j _ _) in *.
  assert (X : In x l) by (apply first_order_in, nth_In; lia).
  destruct (position_split l x X) as [b E]. exists (firstn (position x l) l), b. split; [exact E|].
  apply position_before. lia.
Qed.

(** ** Seeds come first *)
Lemma position_app_out : forall a b x, ~ In x a -> position x (a ++ b) = length a + position x b.
Proof.
  induction a as [|y a IH]; intros b x N; [reflexivity|]. simpl. destruct (Z.eqb_spec x y) as [->|D].
  - exfalso; apply N; simpl; auto.
  - rewrite IH; [reflexivity|]. intros I; apply N; simpl; auto.
Qed.
Lemma position_app_in : forall a b x, In x a -> position x (a ++ b) < length a.
Proof.
  induction a as [|y a IH]; intros b x I; [destruct I|]. simpl. destruct (Z.eqb_spec x y) as [->|D]; [lia|].
  destruct I as [->|I]; [contradiction|]. specialize (IH b x I). lia.
Qed.
Lemma repeat_each_in : forall {A} c (l : list A) x, In x (repeat_each c l) -> In x l.
Proof.
  intros A c l x H. apply in_flat_map in H. destruct H as (y & Y & R). apply repeat_spec in R. now subst.
Qed.
Lemma repeat_each_has : forall {A} c (l : list A) x, 0 < c -> In x l -> In x (repeat_each c l).
Proof. intros A c l x C H. apply in_flat_map. exists x. split; [exact H|]. destruct c; [lia|simpl; auto]. Qed.
Lemma repeat_each_length : forall {A} c (l : list A), length (repeat_each c l) = length l * c.
Proof. intros A c l; induction l as [|x l IH]; simpl; [reflexivity|]. now rewrite app_length, repeat_length, IH. Qed.
Lemma seeds_sorted : forall c r seed, 0 < c -> NoDup seed ->
  StronglySorted (fun a b => position a (repeat_each c seed ++ r) < position b (repeat_each c seed ++ r)) seed.
Proof.
  intros c r seed C. induction seed as [|y s IH]; intros N; inversion N as [|? ? Y N']; subst; constructor.
  - eapply sorted_weaken; [apply IH, N'|]. intros a b I J H. cbv beta in *. change (repeat_each c (y :: s)) with (repeat y c ++ repeat_each c s). rewrite <- app_assoc.
    rewrite !(position_app_out (repeat y c)); [lia| |]; intros K; apply repeat_spec in K; subst; contradiction.
  - apply Forall_forall. intros x X. change (repeat_each c (y :: s)) with (repeat y c ++ repeat_each c s). rewrite <- app_assoc.
    assert (P : position y (repeat y c ++ repeat_each c s ++ r) < length (repeat y c)).
    { apply position_app_in. destruct c; [lia|simpl; auto]. }
    rewrite (position_app_out _ _ x); [lia|]. intros K; apply repeat_spec in K; subst; contradiction.
Qed.
Lemma sorted_app : forall {A} (R : A -> A -> Prop) a b, StronglySorted R a -> StronglySorted R b ->
  (forall x y, In x a -> In y b -> R x y) -> StronglySorted R (a ++ b).
Proof.
  intros A R a b S. induction S as [|x a S IH F]; intros T H; [exact T|]. simpl. constructor.
  - apply IH; auto. intros u v U V; apply H; simpl; auto.
  - apply Forall_app. split; [exact F|]. apply Forall_forall. intros y Y. apply H; simpl; auto.
Qed.
Lemma key_ext : forall (R : Z -> Z -> Prop), (forall x, ~ R x x) -> (forall x y, R x y -> ~ R y x) ->
  forall a b, StronglySorted R a -> StronglySorted R b -> (forall x, In x a <-> In x b) -> a = b.
Proof.
  intros R Irr As. induction a as [|x a IH]; intros b A B H.
  - destruct b as [|y b]; [reflexivity|]. exfalso. apply (H y); simpl; auto.
  - destruct b as [|y b]; [exfalso; apply (H x); simpl; auto|].
    inversion A as [|? ? A' FA]; inversion B as [|? ? B' FB]; subst. rewrite Forall_forall in FA, FB.
    assert (E : x = y).
    { destruct (proj1 (H x) (or_introl eq_refl)) as [K|K]; [auto|].
      destruct (proj2 (H y) (or_introl eq_refl)) as [J|J]; [auto|]. exfalso. exact (As _ _ (FA y J) (FB x K)). }
    subst y. f_equal. apply IH; auto. intros z. specialize (H z). simpl in H. split; intros K.
    + destruct (proj1 H (or_intror K)) as [J|J]; [|exact J]. subst z. destruct (Irr x (FA x K)).
    + destruct (proj2 H (or_intror K)) as [J|J]; [|exact J]. subst z. destruct (Irr x (FB x K)).
Qed.
Lemma sorted_filter : forall {A} (R : A -> A -> Prop) f l, StronglySorted R l -> StronglySorted R (filter f l).
Proof.
  intros A R f l S. induction S as [|x l S IH F]; simpl; [constructor|]. destruct (f x); [|exact IH].
  constructor; [exact IH|]. rewrite Forall_forall in *. intros y Y. apply filter_In in Y. apply F, Y.
Qed.
Lemma seeds_first : forall c r seed, 0 < c -> NoDup seed -> exists t, first_order (repeat_each c seed ++ r) = seed ++ t.
Proof.
  intros c r seed C N. set (l := repeat_each c seed ++ r).
  set (t := filter (fun x => negb (existsb (Z.eqb x) seed)) (first_order l)). exists t.
  assert (T : forall x, In x t <-> In x (first_order l) /\ ~ In x seed).
  { intros x. unfold t. rewrite filter_In, negb_true_iff. split; intros [I J]; split; auto.
    - intros K. assert (Q : existsb (Z.eqb x) seed = true) by (apply existsb_exists; exists x; split; [exact K|apply Z.eqb_refl]). congruence.
    - apply not_true_is_false. intros Q. apply existsb_exists in Q. destruct Q as (y & Y & E). apply Z.eqb_eq in E. subst; contradiction. }
  apply (key_ext (fun a b => position a l < position b l)); try (intros; lia).
  - apply first_order_sorted.
  - apply sorted_app; [apply seeds_sorted; auto|apply sorted_filter, first_order_sorted|].
    intros x y X Y. apply T in Y. destruct Y as [_ Y]. unfold l.
    rewrite (position_app_out _ _ y) by (intros K; apply Y; eapply repeat_each_in; eauto).
    pose proof (position_app_in _ r x (repeat_each_has c seed x C X)). lia.
  - intros x. rewrite in_app_iff, T. destruct (in_dec Z.eq_dec x seed) as [I|I]; [|tauto].
    split; [auto|]. intros _. apply first_order_in. unfold l. apply in_app_iff. left. now apply repeat_each_has.
Qed.

(** ** Edges of a sub-graph *)
Lemma inverse_ok : forall l, map (fun k => nth k (first_order l) 0%Z) (map (fun x => position x (first_order l)) l) = l.
Proof.
  intros l. rewrite map_map. transitivity (map (fun x => x) l); [|apply map_id]. apply map_ext_in. intros x X. apply position_nth, first_order_in, X.
Qed.
Lemma unique_zpairs_in : forall l x, In x (unique_zpairs l) <-> In x l.
Proof.
  assert (I : forall t l x, In x (insert_zpair t l) <-> x = t \/ In x l).
  { intros t; induction l as [|y l IH]; intros x; simpl; [intuition|].
    destruct (zpair_ltb t y); [simpl; intuition|]. destruct (zpair_eqb t y) eqn:E; [|simpl; rewrite IH; intuition].
    unfold zpair_eqb in E. apply andb_true_iff in E. destruct E as [E1 E2]. apply Z.eqb_eq in E1, E2.
    destruct t, y; simpl in *; subst. intuition. }
  induction l as [|y l IH]; intros x; simpl; [tauto|]. unfold unique_zpairs in *. rewrite I, IH. intuition.
Qed.
Definition zlt (a b : Z * Z) : Prop := (fst a < fst b \/ fst a = fst b /\ snd a < snd b)%Z.
Lemma unique_zpairs_sorted : forall l, StronglySorted zlt (unique_zpairs l).
Proof.
  induction l as [|t l IH]; simpl; [constructor|]. fold (unique_zpairs l). remember (unique_zpairs l) as u. clear Hequ.
  induction IH as [|x u S IH F]; simpl; [repeat constructor|].
  destruct (zpair_ltb t x) eqn:L.
  - assert (T : zlt t x).
    { unfold zpair_ltb in L. unfold zlt. apply orb_true_iff in L. destruct L as [L|L]; [apply Z.ltb_lt in L; auto|].
      apply andb_true_iff in L. destruct L as [L M]. apply Z.eqb_eq in L. apply Z.ltb_lt in M. auto. }
    constructor; [now constructor|]. constructor; [exact T|]. rewrite Forall_forall in *. intros y Y. specialize (F y Y).
    unfold zlt in *. lia.
  - destruct (zpair_eqb t x) eqn:E; [now constructor|]. constructor; [exact IH|]. rewrite Forall_forall in *. intros y Y.
    assert (Q : y = t \/ In y u).
    { clear - Y. induction u as [|z u IH]; simpl in *; [intuition|]. destruct (zpair_ltb t z); [simpl in Y; intuition|].
      destruct (zpair_eqb t z); [simpl in Y; intuition|]. simpl in Y. intuition. }
    destruct Q as [->|Q]; [|auto]. unfold zpair_ltb, zpair_eqb in L, E. unfold zlt.
    apply orb_false_iff in L. destruct L as [L M]. apply Z.ltb_ge in L. apply andb_false_iff in M, E.
    rewrite Z.eqb_neq in M, E. rewrite Z.ltb_ge in M. rewrite Z.eqb_neq in E. lia.
Qed.
Lemma combine_app : forall {A B} (u : list A) (v : list B) s t, length u = length v -> combine (u ++ s) (v ++ t) = combine u v ++ combine s t.
Proof. intros A B; induction u as [|p u IHu]; intros [|q v] s t E; try discriminate; [reflexivity|]. simpl. f_equal. apply IHu. now injection E. Qed.
Lemma sampled_pairs : forall nb draw c l count, sampled nb draw -> length (draw c l count) = length l * count /\
  forall a b, In (a, b) (combine (repeat_each count l) (draw c l count)) -> In a l /\ nb a b.
Proof.
  intros nb draw c l count S. destruct (S c l count) as (blocks & E & L & H). rewrite E. clear E S.
  revert l L H. induction blocks as [|x blocks IH]; intros [|y l] L H; try discriminate; [simpl; tauto|].
  injection L as L. destruct (IH l L) as [N P]; [intros i I; apply (H (S i)); simpl; lia|].
  destruct (H 0) as [X Q]; [simpl; lia|]. simpl in X, Q. simpl concat. split; [rewrite app_length, N; simpl; lia|].
  intros a b I. change (repeat_each count (y :: l)) with (repeat y count ++ repeat_each count l) in I.
  rewrite combine_app in I by (rewrite repeat_length; auto).
  apply in_app_iff in I. destruct I as [I|I].
  - pose proof (in_combine_l _ _ _ _ I) as A. apply repeat_spec in A. subst a. apply in_combine_r in I. split; [simpl; auto|apply Q, I].
  - apply P in I. split; [right|]; apply I.
Qed.
(** All edges as pairs of a node and its neighbour. *)
Definition drawn (draw : nat -> list Z -> nat -> list Z) f0 f1 seed : list (Z * Z) :=
  combine (repeat_each f0 seed) (draw 0 seed f0) ++
  unique_zpairs (combine (repeat_each f1 (np_unique (draw 0 seed f0))) (draw 1 (np_unique (draw 0 seed f0)) f1)).
Lemma halves : forall {A} (a b : list A), length a = length b ->
  firstn (length (a ++ b) / 2) (a ++ b) = a /\ skipn (length (a ++ b) / 2) (a ++ b) = b.
Proof.
  intros A a b L. rewrite app_length, <- L. replace (length a + length a) with (length a * 2) by lia. rewrite Nat.div_mul by lia.
  rewrite firstn_app, skipn_app, Nat.sub_diag, firstn_all, skipn_all. simpl. now rewrite app_nil_r.
Qed.
Lemma map_halves : forall {A B} (f : A -> B) n l, map f (firstn n l) = firstn n (map f l) /\ map f (skipn n l) = skipn n (map f l).
Proof. intros; split; [symmetry; apply firstn_map|symmetry; apply skipn_map]. Qed.
Lemma combine_split_eq : forall {A B} (l : list (A * B)), combine (map fst l) (map snd l) = l.
Proof. intros A B; induction l as [|[x y] l IH]; simpl; congruence. Qed.
Lemma index_ok : forall nb draw f0 f1 seed, sampled nb draw -> exists n c r,
  make_edge_index draw f0 f1 seed = (n, c, r) /\ first_occurrences (edge_lists draw f0 f1 seed) n /\ length c = length r /\
  combine (map (fun k => nth k n 0%Z) c) (map (fun k => nth k n 0%Z) r) = drawn draw f0 f1 seed /\
  (forall k, In k c \/ In k r -> k < length n).
Proof.
  intros nb draw f0 f1 seed S. unfold make_edge_index. set (l := edge_lists draw f0 f1 seed). do 3 eexists. split; [reflexivity|].
  split; [apply first_order_ok|].
  destruct (sampled_pairs nb draw 0 seed f0 S) as [L _].
  set (u := unique_zpairs (combine (repeat_each f1 (np_unique (draw 0 seed f0))) (draw 1 (np_unique (draw 0 seed f0)) f1))).
  assert (E : l = (repeat_each f0 seed ++ map fst u) ++ (draw 0 seed f0 ++ map snd u)) by (unfold l, edge_lists; fold u; now rewrite !app_assoc).
  assert (Q : length (repeat_each f0 seed ++ map fst u) = length (draw 0 seed f0 ++ map snd u)).
  { rewrite !app_length, !map_length, repeat_each_length, L. reflexivity. }
  destruct (halves _ _ Q) as [H1 H2]. rewrite <- E in H1, H2. repeat split.
  - rewrite firstn_length, skipn_length, map_length. rewrite E, app_length, <- Q.
    set (a := length (repeat_each f0 seed ++ map fst u)). replace (a + a) with (a * 2) by lia. rewrite Nat.div_mul by lia. lia.
  - rewrite (proj1 (map_halves _ _ _)), (proj2 (map_halves _ _ _)), inverse_ok, H1, H2.
    rewrite combine_app by (rewrite repeat_each_length, L; reflexivity). now rewrite combine_split_eq.
  - intros k K. assert (I : In k (map (fun x => position x (first_order l)) l)).
    { rewrite <- (firstn_skipn (length l / 2) (map _ l)). apply in_app_iff. exact K. }
    apply in_map_iff in I. destruct I as (x & <- & X). apply position_lt, first_order_in, X.
Qed.
Lemma drawn_ok : forall nb draw f0 f1 seed a b, sampled nb draw -> In (a, b) (drawn draw f0 f1 seed) ->
  nb a b /\ (In a seed \/ exists s, In s seed /\ nb s a).
Proof.
  intros nb draw f0 f1 seed a b S I. unfold drawn in I. apply in_app_iff in I. destruct I as [I|I].
  - apply (proj2 (sampled_pairs nb draw 0 seed f0 S)) in I. tauto.
  - apply (proj1 (unique_zpairs_in _ _)) in I. apply (proj2 (sampled_pairs nb draw 1 _ f1 S)) in I. destruct I as [A N]. split; [exact N|]. right.
    apply (proj1 (unique_in _ _)) in A. destruct (sampled_pairs nb draw 0 seed f0 S) as [L P].
    destruct (In_nth _ _ 0%Z A) as (k & K & <-). exists (nth k (repeat_each f0 seed) 0%Z).
    apply P. rewrite <- combine_nth by (rewrite repeat_each_length; auto). apply nth_In.
    rewrite combine_length, repeat_each_length, L. rewrite L in K. lia.
Qed.

(** ** Queries *)
Lemma randint_ok : forall rnd n size neg, randint rnd n size = Some neg ->
  length neg = size /\ forall v, In v neg -> (0 <= v < Z.of_nat n - 1)%Z.
Proof.
  intros rnd n size neg H. unfold randint in H. destruct (Nat.leb_spec n 1); [discriminate|]. injection H as <-. split.
  - now rewrite map_length, seq_length.
  - intros v V. apply in_map_iff in V. destruct V as (k & <- & _). pose proof (Nat.mod_upper_bound (rnd k) (n - 1)). lia.
Qed.
Lemma query_ok : forall nb draw rnd n f0 f1 positive, sampled nb draw -> 1 < n -> 0 < f0 ->
  exists s neg_src neg_dst, query draw rnd n f0 f1 positive = Some s /\
  length neg_src = length positive /\ length neg_dst = length positive /\
  (forall v, In v (neg_src ++ neg_dst) -> (0 <= v < Z.of_nat n - 1)%Z) /\
  map (fun k => nth k (nodes s) 0%Z) (label_src s) = map fst positive ++ neg_src /\
  map (fun k => nth k (nodes s) 0%Z) (label_dst s) = map snd positive ++ neg_dst /\
  (forall k, In k (label_src s) \/ In k (label_dst s) -> k < length (nodes s)) /\
  label s = map (fun _ => true) positive ++ map (fun _ => false) positive /\
  (forall a b, In (a, b) (train_edges s) -> nb (nth b (nodes s) 0%Z) (nth a (nodes s) 0%Z)) /\ NoDup (nodes s).
Proof.
  intros nb draw rnd n f0 f1 positive S N F. unfold query. cbv zeta. rewrite !map_length.
  destruct (randint rnd n (2 * length positive)) as [neg|] eqn:R; [|unfold randint in R; destruct (Nat.leb_spec n 1); [lia|discriminate]].
  destruct (randint_ok _ _ _ _ R) as [L V].
  set (p := length positive) in *. set (ends := map fst positive ++ firstn p neg ++ map snd positive ++ skipn p neg).
  set (seed := np_unique ends).
  destruct (index_ok nb draw f0 f1 seed S) as (ns & c & r & E & FO & CR & P & B). rewrite E.
  assert (T : exists t, ns = seed ++ t).
  { unfold make_edge_index in E. injection E as E _ _. rewrite <- E. unfold edge_lists. apply seeds_first; [exact F|].
    apply sorted_nodup, make_sorted_sorted. }
  destruct T as [t T].
  assert (L1 : length (firstn p neg) = p) by (rewrite firstn_length; lia).
  assert (L2 : length (skipn p neg) = p) by (rewrite skipn_length; lia).
  assert (EE : ends = (map fst positive ++ firstn p neg) ++ (map snd positive ++ skipn p neg)) by (unfold ends; now rewrite !app_assoc).
  assert (Q : length (map fst positive ++ firstn p neg) = length (map snd positive ++ skipn p neg)) by (rewrite !app_length, !map_length; lia).
  destruct (halves _ _ Q) as [H1 H2]. rewrite <- EE in H1, H2.
  assert (I : forall x, In x ends -> In x seed) by (intros x X; apply unique_in, X).
  assert (W : map (fun k => nth k ns 0%Z) (map (fun x => position x seed) ends) = ends).
  { rewrite map_map. transitivity (map (fun x => x) ends); [|apply map_id]. apply map_ext_in. intros x X. rewrite T, app_nth1 by (apply position_lt, I, X).
    apply position_nth, I, X. }
  eexists; exists (firstn p neg), (skipn p neg). split; [reflexivity|]. cbn [nodes label_src label_dst label].
  split; [exact L1|]. split; [exact L2|]. split; [rewrite firstn_skipn; exact V|].
  split; [rewrite (proj1 (map_halves _ _ _)), W; exact H1|]. split; [rewrite (proj2 (map_halves _ _ _)), W; exact H2|].
  split; [|split; [|split]].
  - intros k K. assert (J : In k (map (fun x => position x seed) ends)).
    { rewrite <- (firstn_skipn (length ends / 2) (map _ ends)). apply in_app_iff. exact K. }
    apply in_map_iff in J. destruct J as (x & <- & X). rewrite T, app_length. pose proof (position_lt x seed (I x X)). lia.
  - f_equal; unfold p; clear; induction positive; simpl; congruence.
  - intros a b K. unfold train_edges in K. cbn [rows cols] in K. cbn [nodes].
    apply (drawn_ok nb draw f0 f1 seed); auto. rewrite <- P.
    revert K. clear. revert r. induction c as [|x c IH]; intros [|y r] K; simpl in *; try tauto.
    destruct K as [K|K]; [injection K as -> ->; auto|]. right. apply IH, K.
  - apply FO.
Qed.

(** ** Evaluation and epochs *)
Lemma eval_ok : forall nbrs n a b, In (a, b) (eval_edges nbrs n) <-> (0 <= a < Z.of_nat n)%Z /\ In b (nbrs a).
Proof.
  intros nbrs n a b. unfold eval_edges. cbv zeta.
  assert (E : forall l, combine (flat_map (fun n => repeat n (length (nbrs n))) l) (flat_map nbrs l) = flat_map (fun n => map (pair n) (nbrs n)) l).
  { induction l as [|x l IH]; [reflexivity|]. simpl. rewrite combine_app by apply repeat_length. rewrite IH. f_equal.
    clear. induction (nbrs x); simpl; congruence. }
  rewrite E, in_flat_map. split.
  - intros (x & X & H). apply in_map_iff in H. destruct H as (y & Q & Y). injection Q as -> ->. apply in_map_iff in X.
    destruct X as (k & <- & K). apply in_seq in K. split; [lia|exact Y].
  - intros [H I]. exists a. split; [|apply in_map, I]. apply in_map_iff. exists (Z.to_nat a). split; [lia|apply in_seq; lia].
Qed.
Lemma epoch_draws : forall arg e, 0 < e -> let total := length (batch_ids arg e) * batch_size arg in e <= total < e + 256.
Proof.
  intros arg e E. unfold batch_ids, batch_size. cbv zeta. rewrite map_length, seq_length.
  pose proof (Nat.div_mod (e + (256 - 1)) 256 ltac:(lia)). pose proof (Nat.mod_upper_bound (e + (256 - 1)) 256 ltac:(lia)). lia.
Qed.
Lemma batch_fixed : forall a b e, batch_ids a e = batch_ids b e.
Proof. reflexivity. Qed.
Lemma zlt_nodup : forall l, StronglySorted zlt l -> NoDup l.
Proof.
  intros l S. induction S as [|x l S IH F]; constructor; [|exact IH]. intros I. rewrite Forall_forall in F.
  specialize (F x I). unfold zlt in F. lia.
Qed.
Lemma index_pairs : forall nb draw f0 f1 seed, sampled nb draw -> exists n c r second,
  make_edge_index draw f0 f1 seed = (n, c, r) /\ length c = length r /\ NoDup n /\
  combine (map (fun k => nth k n 0%Z) c) (map (fun k => nth k n 0%Z) r) = combine (repeat_each f0 seed) (draw 0 seed f0) ++ second /\
  NoDup second /\
  (forall x, In x second <-> In x (combine (repeat_each f1 (np_unique (draw 0 seed f0))) (draw 1 (np_unique (draw 0 seed f0)) f1))) /\
  (forall k, In k c \/ In k r -> k < length n) /\
  (forall x, In x n -> In x (map (fun k => nth k n 0%Z) (c ++ r))).
Proof.
  intros nb draw f0 f1 seed S. destruct (index_ok nb draw f0 f1 seed S) as (n & c & r & E & FO & L & P & B).
  exists n, c, r. eexists. split; [exact E|]. split; [exact L|]. split; [apply FO|]. split; [exact P|].
  split; [apply zlt_nodup, unique_zpairs_sorted|]. split; [intros x; apply unique_zpairs_in|]. split; [exact B|].
  intros x X. unfold make_edge_index in E. injection E as E1 E2 E3. rewrite <- E2, <- E3, firstn_skipn, <- E1, inverse_ok.
  apply FO, X.
Qed.
Lemma index_nb : forall nb draw f0 f1 seed n c r, sampled nb draw -> make_edge_index draw f0 f1 seed = (n, c, r) ->
  forall a b, In (a, b) (combine (map (fun k => nth k n 0%Z) c) (map (fun k => nth k n 0%Z) r)) ->
  nb a b /\ (In a seed \/ exists s, In s seed /\ nb s a).
Proof.
  intros nb draw f0 f1 seed n c r S E a b I. destruct (index_ok nb draw f0 f1 seed S) as (n' & c' & r' & E' & _ & _ & P & _).
  rewrite E in E'. injection E' as <- <- <-. rewrite P in I. eapply drawn_ok; eauto.
Qed.
Lemma eval_symmetric : forall nbrs n a b, (forall x y, In y (nbrs x) -> In x (nbrs y)) ->
  In (a, b) (eval_edges nbrs n) -> In a (nbrs b).
Proof. intros nbrs n a b H I. apply eval_ok in I. apply H, I. Qed.
Lemma last_never : forall n rnd size neg, randint rnd n size = Some neg -> ~ In (Z.of_nat n - 1)%Z neg.
Proof. intros n rnd size neg R I. apply (proj2 (randint_ok _ _ _ _ R)) in I. lia. Qed.
Lemma randint_all : forall n v, 1 < n -> (0 <= v < Z.of_nat n - 1)%Z -> exists rnd, forall size, randint rnd n size = Some (repeat v size).
Proof.
  intros n v N V. exists (fun _ => Z.to_nat v). intros size. unfold randint. destruct (Nat.leb_spec n 1); [lia|]. f_equal.
  rewrite Nat.mod_small by lia. rewrite Z2Nat.id by lia. generalize 0. induction size as [|s IH]; intros a; simpl; [reflexivity|]. now rewrite IH.
Qed.
Lemma randint_one : forall rnd n size, n <= 1 -> randint rnd n size = None.
Proof. intros rnd n size H. unfold randint. destruct (Nat.leb_spec n 1); [reflexivity|lia]. Qed.
Lemma const_sampled : forall (f : Z -> Z) (nb : Z -> Z -> Prop), (forall x, nb x (f x)) ->
  sampled nb (fun _ l count => flat_map (fun x => repeat (f x) count) l).
Proof.
  intros f nb H c l count. exists (map (fun x => repeat (f x) count) l). split; [apply flat_map_concat_map|].
  split; [apply map_length|]. intros i I.
  assert (E : nth i (map (fun x => repeat (f x) count) l) [] = repeat (f (nth i l 0%Z)) count).
  { rewrite (nth_indep _ [] (repeat (f 0%Z) count)) by (now rewrite map_length). apply (map_nth (fun x => repeat (f x) count)). }
  rewrite E. split; [apply repeat_length|]. intros y Y. apply repeat_spec in Y. subst; apply H.
Qed.
Lemma messages_ok : forall nb draw rnd n f0 f1 positive s, sampled nb draw -> 0 < f0 ->
  query draw rnd n f0 f1 positive = Some s ->
  exists seed second, StronglySorted Z.lt seed /\
  (forall x, In x seed <-> In x (map (fun k => nth k (nodes s) 0%Z) (label_src s ++ label_dst s))) /\
  map (fun e => (nth (snd e) (nodes s) 0%Z, nth (fst e) (nodes s) 0%Z)) (train_edges s)
  = combine (repeat_each f0 seed) (draw 0 seed f0) ++ second /\ NoDup second /\
  forall x, In x second <-> In x (combine (repeat_each f1 (np_unique (draw 0 seed f0))) (draw 1 (np_unique (draw 0 seed f0)) f1)).
Proof.
  intros nb draw rnd n f0 f1 positive s S F H. unfold query in H. cbv zeta in H.
  destruct (randint rnd n _) as [neg|]; [|discriminate].
  set (ends := map fst positive ++ _) in H. set (seed := np_unique ends) in H.
  destruct (index_pairs nb draw f0 f1 seed S) as (ns & c & r & second & E & L & _ & P & N & I & _). rewrite E in H.
  assert (T : exists t, ns = seed ++ t).
  { unfold make_edge_index in E. injection E as E _ _. rewrite <- E. unfold edge_lists. apply seeds_first; [exact F|].
    apply sorted_nodup, make_sorted_sorted. }
  destruct T as [t T]. injection H as <-. exists seed, second. split; [apply make_sorted_sorted|]. cbn [nodes label_src label_dst].
  split; [|split; [|split; [exact N|exact I]]].
  - intros x. rewrite firstn_skipn, map_map.
    assert (W : map (fun y => nth (position y seed) ns 0%Z) ends = ends).
    { transitivity (map (fun x => x) ends); [|apply map_id]. apply map_ext_in. intros y Y. apply unique_in in Y. fold seed in Y.
      rewrite T, app_nth1 by (apply position_lt, Y). apply position_nth, Y. }
    rewrite W. apply unique_in.
  - rewrite <- P. unfold train_edges; cbn [rows cols]. clear. revert r. induction c as [|x c IH]; intros [|y r]; simpl; try reflexivity.
    now rewrite IH.
Qed.
Lemma batch_starts : forall arg e k, k < length (batch_ids arg e) -> nth k (batch_ids arg e) 0 = 256 * k.
Proof.
  intros arg e k K. unfold batch_ids in *. rewrite map_length, seq_length in K.
  rewrite (nth_indep _ 0 (0 * batch_size arg)) by (now rewrite map_length, seq_length).
  rewrite (map_nth (fun i => i * batch_size arg)), seq_nth by exact K. unfold batch_size. lia.
Qed.
