From Verif Require Import Base AcademicModel AcademicSpec.
From Coq Require Import QArith.
Local Open Scope Z_scope.
Local Opaque base.
Lemma base_pos : base = 1000000. Proof. reflexivity. Qed.

(** ** Ids *)
Lemma code_type t id : 0 <= id < base -> map_node_id (t, id) / base - 1 = Z.of_nat t.
Proof. intros H. unfold map_node_id. cbn [fst snd]. rewrite Z.mul_comm, Z.div_add by (rewrite base_pos; lia). rewrite Z.div_small by exact H. lia. Qed.
Lemma code_id t id : 0 <= id < base -> map_node_id (t, id) mod base = id.
Proof. intros H. unfold map_node_id. cbn [fst snd]. rewrite Z.mul_comm, Z.mod_add by (rewrite base_pos; lia). apply Z.mod_small. exact H. Qed.
Lemma code_pos t id : 0 <= id -> 0 < map_node_id (t, id).
Proof. intros H. unfold map_node_id. cbn [fst snd]. rewrite base_pos. lia. Qed.
Lemma py_item_nth {A} (l : list A) i x : nth_error l i = Some x -> py_item l (Z.of_nat i) = Ok x.
Proof.
  intros E. unfold py_item. assert (L : (i < length l)%nat) by (apply nth_error_Some; congruence).
  destruct (Z.ltb_spec (Z.of_nat i) 0); [lia|]. destruct (Z.leb_spec 0 (Z.of_nat i)); [|lia].
  destruct (Z.ltb_spec (Z.of_nat i) (Z.of_nat (length l))); [|lia]. cbn [andb]. now rewrite Nat2Z.id, E.
Qed.
Lemma py_item_out {A} (l : list A) i : Z.of_nat (length l) <= i -> py_item l i = Fail EIndex.
Proof.
  intros L. unfold py_item. destruct (Z.ltb_spec i 0); [lia|]. destruct (Z.ltb_spec i (Z.of_nat (length l))); [lia|]. now rewrite andb_false_r.
Qed.

(** ** Tables of neighbors *)
Lemma intervals_length s adj : length (intervals s adj) = length adj.
Proof. revert s. induction adj as [|l adj IH]; intros s; [reflexivity|]. cbn [intervals length]. now rewrite IH. Qed.
Lemma intervals_nth adj : forall s i l pre, nth_error adj i = Some l ->
  exists a, nth_error (intervals s adj) i = Some (Some (s + a, s + a + length l))%nat /\
    (length pre = s -> skipn (s + a) (firstn (s + a + length l) (pre ++ flat_map (map map_node_id) adj)) = map map_node_id l).
Proof.
  induction adj as [|l0 adj IH]; intros s i l pre E; [destruct i; discriminate|]. destruct i as [|i].
  - injection E as <-. exists O. cbn [intervals nth_error]. rewrite Nat.add_0_r. split; [reflexivity|]. intros L. cbn [flat_map].
    rewrite app_assoc, firstn_app, app_length, map_length, L, Nat.sub_diag. cbn [firstn]. rewrite app_nil_r.
    rewrite firstn_all2 by (rewrite app_length, map_length; lia). rewrite skipn_app, L, Nat.sub_diag, skipn_all2 by lia. reflexivity.
  - cbn [nth_error] in E. destruct (IH (s + length l0)%nat i l (pre ++ map map_node_id l0) E) as (a & E1 & E2).
    exists (length l0 + a)%nat. cbn [intervals nth_error]. rewrite E1. split; [f_equal; f_equal; f_equal; lia|].
    intros L. cbn [flat_map]. rewrite app_assoc, <- E2 by (rewrite app_length, map_length; lia). f_equal; [lia|]. f_equal. lia.
Qed.
Lemma build_nth sizes : forall feats adjs g t n f adj, build sizes feats adjs = Ok g ->
  nth_error sizes t = Some n -> nth_error feats t = Some f -> nth_error adjs t = Some adj ->
  exists s, nth_error g t = Some s /\ build_side n f adj = Ok s.
Proof.
  induction sizes as [|n0 sizes IH]; intros [|f0 feats] [|a0 adjs] g t n f adj E E1 E2 E3; try (destruct t; discriminate).
  cbn [build] in E. destruct (build_side n0 f0 a0) as [s|] eqn:Es; [|discriminate]. cbn [bind] in E.
  destruct (build sizes feats adjs) as [r|] eqn:Er; [|discriminate]. cbn [bind] in E. injection E as <-.
  destruct t as [|t]; cbn [nth_error] in *.
  - injection E1 as <-. injection E2 as <-. injection E3 as <-. exists s. auto.
  - exact (IH _ _ _ _ _ _ _ Er E1 E2 E3).
Qed.
Lemma build_ok sizes : forall feats adjs, length feats = length sizes -> length adjs = length sizes ->
  ((exists g, build sizes feats adjs = Ok g) <-> Forall2 (fun n adj => length adj <= n)%nat sizes adjs).
Proof.
  induction sizes as [|n sizes IH]; intros [|f feats] [|a adjs] Lf La; try discriminate.
  - split; [constructor|eexists; reflexivity].
  - cbn [length] in *. specialize (IH feats adjs ltac:(lia) ltac:(lia)). cbn [build]. unfold build_side.
    destruct (Nat.ltb_spec n (length a)).
    + split; [intros [g E]; discriminate|intros F; inversion F; lia].
    + cbn [bind]. split.
      * intros [g E]. destruct (build sizes feats adjs) eqn:Er; [|discriminate]. constructor; [lia|]. apply IH. eauto.
      * intros F. inversion F as [|? ? ? ? ? F']; subst. apply IH in F'. destruct F' as [g' ->]. eexists. reflexivity.
Qed.

Lemma neighbors_right sizes feats adjs g t n f adj id l pick count :
  build sizes feats adjs = Ok g -> nth_error sizes t = Some n -> nth_error feats t = Some f -> nth_error adjs t = Some adj ->
  nth_error adj id = Some l -> Z.of_nat id < base -> (forall x, In x l -> 0 <= snd x < base) -> (forall k m, 0 < m -> pick k m < m)%nat ->
  sample_one pick g (map_node_id (t, Z.of_nat id)) count =
  Ok (match l with
      | [] => (repeat (-1) count, repeat (-1) count, O)
      | x :: _ => (map (fun k => map_node_id (nth (pick k (length l)) l x)) (seq 0 count),
                   map (fun k => Z.of_nat (fst (nth (pick k (length l)) l x))) (seq 0 count), count)
      end).
Proof.
  intros B En Ef Ea El Hid Hl Hp. destruct (build_nth _ _ _ _ _ _ _ _ B En Ef Ea) as (s & Es & Bs).
  unfold build_side in Bs. destruct (Nat.ltb_spec n (length adj)); [discriminate|]. injection Bs as <-.
  unfold sample_one. pose proof (code_pos t (Z.of_nat id) ltac:(lia)) as P. destruct (Z.eqb_spec (map_node_id (t, Z.of_nat id)) (-1)); [lia|].
  rewrite code_type, code_id by lia. rewrite (py_item_nth g t _ Es). cbn [bind s_int s_nbs].
  destruct (intervals_nth adj 0 id l [] El) as (a & E1 & E2).
  rewrite (py_item_nth _ id (Some (a, a + length l)%nat)).
  2:{ rewrite nth_error_app1; [exact E1|]. rewrite intervals_length. apply nth_error_Some. congruence. }
  cbn [bind]. destruct l as [|x l'].
  - cbn [length]. rewrite Nat.add_0_r, Nat.eqb_refl. reflexivity.
  - set (l := x :: l') in *. destruct (Nat.eqb_spec a (a + length l)); [cbn in *; lia|].
    specialize (E2 eq_refl). cbn [plus app] in E2. rewrite E2, map_length.
    assert (G : forall k, nth (pick k (length l)) (map map_node_id l) 0 = map_node_id (nth (pick k (length l)) l x)).
    { intros k. rewrite (nth_indep _ 0 (map_node_id x)); [apply map_nth|]. rewrite map_length. apply Hp. cbn. lia. }
    f_equal. f_equal. f_equal.
    + apply map_ext. exact G.
    + rewrite map_map. apply map_ext. intros k. rewrite G.
      assert (I : In (nth (pick k (length l)) l x) l) by (apply nth_In, Hp; cbn; lia).
      destruct (nth (pick k (length l)) l x) as [t' id'] eqn:E'. pose proof (Hl _ I) as H'. cbn [snd] in H'.
      pose proof (code_pos t' id' ltac:(lia)). destruct (Z.eqb_spec (map_node_id (t', id')) (-1)); [lia|]. rewrite code_type by exact H'. reflexivity.
Qed.
Lemma features_right sizes feats adjs g t n f adj id dim :
  build sizes feats adjs = Ok g -> nth_error sizes t = Some n -> nth_error feats t = Some f -> nth_error adjs t = Some adj ->
  0 <= id < base ->
  feature_one g dim (map_node_id (t, id)) =
  (if id <? Z.of_nat (length f) then match nth (Z.to_nat id) f None with Some row => Ok row | None => Fail EUB end
   else if id =? Z.of_nat (length f) then Fail EIndex else Ok (repeat 0 dim)).
Proof.
  intros B En Ef Ea Hid. destruct (build_nth _ _ _ _ _ _ _ _ B En Ef Ea) as (s & Es & Bs).
  unfold build_side in Bs. destruct (Nat.ltb_spec n (length adj)); [discriminate|]. injection Bs as <-.
  unfold feature_one. pose proof (code_pos t id ltac:(lia)) as P. destruct (Z.eqb_spec (map_node_id (t, id)) (-1)); [lia|].
  rewrite code_type, code_id by lia. rewrite (py_item_nth g t _ Es). cbn [bind s_feat].
  destruct (Z.ltb_spec (Z.of_nat (length f)) id), (Z.ltb_spec id (Z.of_nat (length f))); try lia.
  - destruct (Z.eqb_spec id (Z.of_nat (length f))); [lia|reflexivity].
  - destruct (nth_error f (Z.to_nat id)) as [r|] eqn:E; [|apply nth_error_None in E; lia].
    rewrite <- (Z2Nat.id id) at 1 by lia. rewrite (py_item_nth _ _ _ E). cbn [bind]. now rewrite (nth_error_nth _ _ _ E).
  - destruct (Z.eqb_spec id (Z.of_nat (length f))); [|lia]. rewrite py_item_out by lia. reflexivity.
Qed.

Lemma untyped_right g s pick dim count id : 0 <= id < base ->
  sample_one pick (g ++ [s]) id count = sample_one pick (g ++ [s]) (map_node_id (length g, id)) count /\
  feature_one (g ++ [s]) dim id = feature_one (g ++ [s]) dim (map_node_id (length g, id)).
Proof.
  intros H. pose proof (code_pos (length g) id ltac:(lia)) as P.
  assert (E1 : py_item (g ++ [s]) (id / base - 1) = Ok s).
  { rewrite Z.div_small by exact H. change (0 - 1) with (-1). unfold py_item. change (-1 <? 0) with true. cbv iota zeta. rewrite app_length. cbn [length].
    replace (-1 + Z.of_nat (length g + 1)) with (Z.of_nat (length g)) by lia. destruct (Z.leb_spec 0 (Z.of_nat (length g))); [|lia].
    destruct (Z.ltb_spec (Z.of_nat (length g)) (Z.of_nat (length g + 1))); [|lia]. cbn [andb]. rewrite Nat2Z.id, nth_error_app2, Nat.sub_diag by lia. reflexivity. }
  assert (E2 : py_item (g ++ [s]) (map_node_id (length g, id) / base - 1) = Ok s).
  { rewrite code_type by exact H. apply py_item_nth. rewrite nth_error_app2, Nat.sub_diag by lia. reflexivity. }
  unfold sample_one, feature_one. rewrite E1, E2, code_id, (Z.mod_small id base) by exact H.
  destruct (Z.eqb_spec id (-1)); [lia|]. destruct (Z.eqb_spec (map_node_id (length g, id)) (-1)); [lia|]. auto.
Qed.

(** ** The loader of files *)
Section Loader.
Context {A : Type}.
Variables (nodes : list A) (b : nat).
Local Notation n := (length nodes).
Lemma load_right fuel : forall k, (0 < b)%nat -> (k * b < n)%nat -> (n < fuel + k)%nat ->
  ((exists q, n = q * b + 1)%nat /\ load_all fuel nodes b k = Fail EIndex) \/
  (~ (exists q, n = q * b + 1)%nat /\ exists bs K, load_all fuel nodes b k = Ok (bs, K) /\ (n <= K * b)%nat /\
     concat bs = skipn (k * b) (firstn (n - 1) nodes) /\ Forall (fun l => l <> [] /\ length l <= b)%nat bs).
Proof.
  induction fuel as [|fuel IH]; intros k Hb Hk Hf; [exfalso; nia|]. cbn [load_all]. unfold load_next at 1 2.
  destruct (Nat.leb_spec n (k * b)); [lia|]. destruct (Nat.leb_spec n (S k * b)) as [He|He].
  - set (l := skipn (k * b) (firstn (n - 1) nodes)).
    assert (Ll : length l = (n - 1 - k * b)%nat) by (unfold l; rewrite skipn_length, firstn_length; lia).
    destruct l as [|x l'] eqn:El.
    + left. split; [exists k; cbn in Ll; lia|]. reflexivity.
    + right. split.
      * intros [q Eq]. cbn in Ll. assert (k <= q \/ q < k)%nat as [|] by lia; [|nia]. assert (q = k \/ q >= S k)%nat as [->|] by lia; [lia|nia].
      * exists [x :: l'], (S k). cbn [bind]. destruct fuel as [|fuel]; [exfalso; nia|]. cbn [load_all]. unfold load_next.
        destruct (Nat.leb_spec n (S k * b)); [|lia]. cbn [bind fst snd]. split; [reflexivity|]. split; [lia|].
        cbn [concat]. rewrite app_nil_r. split; [reflexivity|]. repeat constructor; [discriminate|]. lia.
  - set (l := skipn (k * b) (firstn (S k * b) nodes)).
    assert (Ll : length l = b) by (unfold l; rewrite skipn_length, firstn_length; nia).
    destruct l as [|x l'] eqn:El; [cbn in Ll; lia|]. cbn [bind].
    destruct (IH (S k) Hb He ltac:(lia)) as [[Q ->]|(Q & bs & K & -> & HK & C & F)].
    + left. split; [exact Q|]. reflexivity.
    + right. split; [exact Q|]. exists ((x :: l') :: bs), K. cbn [bind fst snd]. split; [reflexivity|]. split; [exact HK|]. cbn [concat]. rewrite C. split.
      * rewrite <- El. unfold l. rewrite <- (firstn_skipn (S k * b) (firstn (n - 1) nodes)) at 2.
        rewrite firstn_firstn, Nat.min_l by lia. rewrite (skipn_app (k * b)), firstn_length, Nat.min_l by lia.
        replace (k * b - S k * b)%nat with O by lia. reflexivity.
      * constructor; [split; [discriminate|lia]|exact F].
Qed.
End Loader.

(** ** Collaborations *)
Lemma push_right l i x : (i < length l)%nat ->
  exists r, push l i x = Ok r /\ length r = length l /\ forall j, nth j r [] = if (j =? i)%nat then nth i l [] ++ [x] else nth j l [].
Proof.
  intros H. unfold push. destruct (Nat.ltb_spec i (length l)); [|lia]. eexists. split; [reflexivity|]. split.
  - rewrite app_length, firstn_length. cbn [length]. rewrite skipn_length. lia.
  - intros j. destruct (Nat.eqb_spec j i) as [->|N].
    + rewrite app_nth2 by (rewrite firstn_length; lia). rewrite firstn_length, Nat.min_l, Nat.sub_diag by lia. reflexivity.
    + destruct (Nat.lt_ge_cases j i).
      * rewrite app_nth1 by (rewrite firstn_length; lia). rewrite <- (firstn_skipn i l) at 2. rewrite app_nth1 by (rewrite firstn_length; lia). reflexivity.
      * rewrite app_nth2 by (rewrite firstn_length; lia). rewrite firstn_length, Nat.min_l by lia.
        destruct (j - i)%nat as [|m] eqn:E; [lia|]. cbn [nth]. rewrite <- (firstn_skipn (S i) l) at 2.
        rewrite app_nth2 by (rewrite firstn_length; lia). rewrite firstn_length, Nat.min_l by lia. f_equal. lia.
Qed.
Lemma push_out l i x : (length l <= i)%nat -> push l i x = Fail EIndex.
Proof. intros H. unfold push. destruct (Nat.ltb_spec i (length l)); [lia|reflexivity]. Qed.
Lemma push_in l i x r : push l i x = Ok r -> (i < length l)%nat /\ length r = length l /\ forall j y, In y (nth j r []) <-> In y (nth j l []) \/ (j = i /\ y = x).
Proof.
  intros E. destruct (Nat.lt_ge_cases i (length l)) as [H|H]; [|rewrite push_out in E by exact H; discriminate].
  destruct (push_right l i x H) as (r' & E' & L & N). rewrite E in E'. injection E' as <-. split; [exact H|]. split; [exact L|].
  intros j y. rewrite N. destruct (Nat.eqb_spec j i) as [->|D]; [rewrite in_app_iff; cbn [In]; intuition|intuition].
Qed.
Definition within (n : nat) (ps : list (nat * nat)) : Prop := forall a b, In (a, b) ps -> (a < n /\ b < n)%nat.
Lemma train_right ps : forall acc, within (length acc) ps ->
  exists r, train_lists acc ps = Ok r /\ length r = length acc /\
    forall i x, In x (nth i r []) <-> In x (nth i acc []) \/ In (i, x) ps \/ In (x, i) ps.
Proof.
  induction ps as [|[a b] ps IH]; intros acc W; [exists acc; cbn [In]; intuition|].
  destruct (W a b (or_introl eq_refl)) as [Ha Hb]. cbn [train_lists].
  destruct (push_right acc a b Ha) as (x & E1 & _). rewrite E1. cbn [bind]. destruct (push_in _ _ _ _ E1) as (_ & L1 & I1).
  destruct (push_right x b a ltac:(lia)) as (y & E2 & _). rewrite E2. cbn [bind]. destruct (push_in _ _ _ _ E2) as (_ & L2 & I2).
  destruct (IH y) as (r & -> & L & I).
  { intros u v H. rewrite L2, L1. apply W. now right. }
  exists r. split; [reflexivity|]. split; [lia|]. intros i v. rewrite I, I2, I1. cbn [In].
  split.
  - intros [[[H|[-> ->]]|[-> ->]]|[H|H]]; auto.
  - intros [H|[[H|H]|[H|H]]]; auto; injection H as <- <-; auto.
Qed.
Lemma mem_in x l : mem x l = true <-> In x l.
Proof. unfold mem. rewrite existsb_exists. split; [intros (y & H & E); apply Nat.eqb_eq in E; now subst|intros H; exists x; split; [exact H|apply Nat.eqb_refl]]. Qed.
Lemma test_right train ps : forall acc, length train = length acc -> within (length acc) ps ->
  exists r, test_lists train acc ps = Ok r /\ length r = length acc /\
    forall i x, In x (nth i r []) <-> In x (nth i acc []) \/
      ((In (i, x) ps \/ In (x, i) ps) /\ ~ In x (nth i train []) /\ nth i train [] <> [] /\ nth x train [] <> []).
Proof.
  induction ps as [|[a b] ps IH]; intros acc Lt W; [exists acc; cbn [In]; intuition|].
  destruct (W a b (or_introl eq_refl)) as [Ha Hb].
  assert (W' : within (length acc) ps) by (intros u v H; apply W; now right).
  cbn [test_lists]. unfold get. rewrite (nth_error_nth' train [] (n := a)), (nth_error_nth' train [] (n := b)) by lia. cbn [bind].
  destruct (nth a train []) as [|a0 ta] eqn:Ea.
  { destruct (IH acc Lt W') as (r & -> & L & I). exists r. split; [reflexivity|]. split; [exact L|]. intros i x. rewrite I. cbn [In]. split.
    - intros [H|[[H|H] R]]; auto.
    - intros [H|[[[H|H]|[H|H]] (R1 & R2 & R3)]]; auto; injection H as <- <-; congruence. }
  destruct (nth b train []) as [|b0 tb] eqn:Eb.
  { destruct (IH acc Lt W') as (r & -> & L & I). exists r. split; [reflexivity|]. split; [exact L|]. intros i x. rewrite I. cbn [In]. split.
    - intros [H|[[H|H] R]]; auto.
    - intros [H|[[[H|H]|[H|H]] (R1 & R2 & R3)]]; auto; injection H as <- <-; congruence. }
  assert (S1 : exists x, (if mem b (a0 :: ta) then Ok acc else push acc a b) = Ok x /\ length x = length acc /\
     forall j y, In y (nth j x []) <-> In y (nth j acc []) \/ (j = a /\ y = b /\ ~ In b (nth a train []))).
  { rewrite Ea. destruct (mem b (a0 :: ta)) eqn:M.
    - apply mem_in in M. exists acc. intuition.
    - destruct (push_right acc a b Ha) as (x & E1 & _). destruct (push_in _ _ _ _ E1) as (_ & L1 & I1). exists x. split; [exact E1|]. split; [exact L1|].
      intros j y. rewrite I1. assert (~ In b (a0 :: ta)) by (intros H; apply mem_in in H; congruence). intuition. }
  destruct S1 as (x1 & -> & L1 & I1). cbn [bind].
  assert (S2 : exists x, (if mem a (b0 :: tb) then Ok x1 else push x1 b a) = Ok x /\ length x = length acc /\
     forall j y, In y (nth j x []) <-> In y (nth j x1 []) \/ (j = b /\ y = a /\ ~ In a (nth b train []))).
  { rewrite Eb. destruct (mem a (b0 :: tb)) eqn:M.
    - apply mem_in in M. exists x1. intuition.
    - destruct (push_right x1 b a ltac:(lia)) as (x & E1 & _). destruct (push_in _ _ _ _ E1) as (_ & L2 & I2). exists x. split; [exact E1|]. split; [lia|].
      intros j y. rewrite I2. assert (~ In a (b0 :: tb)) by (intros H; apply mem_in in H; congruence). intuition. }
  destruct S2 as (x2 & -> & L2 & I2). cbn [bind].
  destruct (IH x2 ltac:(lia)) as (r & -> & L & I); [now rewrite L2|]. exists r. split; [reflexivity|]. split; [lia|].
  intros i x. rewrite I, I2, I1. cbn [In]. split.
  - intros [[[H|(-> & -> & H)]|(-> & -> & H)]|[[H|H] R]]; auto.
    + right. split; [auto|]. split; [exact H|]. rewrite Ea, Eb. split; discriminate.
    + right. split; [auto|]. split; [exact H|]. rewrite Ea, Eb. split; discriminate.
  - intros [H|[[[H|H]|[H|H]] (R1 & R2 & R3)]]; auto; injection H as <- <-; auto 6.
Qed.
Lemma pairs_in {A} (l : list A) a b : In (a, b) (pairs l) <-> exists j k, (j < k)%nat /\ nth_error l j = Some a /\ nth_error l k = Some b.
Proof.
  induction l as [|x l IH]; cbn [pairs]; [split; [intros []|intros (j & k & _ & H & _); destruct j; discriminate]|].
  rewrite in_app_iff, in_map_iff, IH. split.
  - intros [(y & E & H)|(j & k & L & E1 & E2)].
    + injection E as <- <-. apply In_nth_error in H. destruct H as [k H]. exists O, (S k). split; [lia|]. split; [reflexivity|exact H].
    + exists (S j), (S k). split; [lia|]. auto.
  - intros (j & k & L & E1 & E2). destruct k as [|k]; [lia|]. destruct j as [|j]; cbn [nth_error] in E1, E2.
    + left. injection E1 as ->. exists b. split; [reflexivity|]. eapply nth_error_In. exact E2.
    + right. exists j, k. split; [lia|]. auto.
Qed.
Lemma together_pairs papers a b : together papers a b <-> In (a, b) (flat_map pairs papers) \/ In (b, a) (flat_map pairs papers).
Proof.
  rewrite !in_flat_map. split.
  - intros (p & j & k & H & N & E1 & E2). destruct (Nat.lt_ge_cases j k).
    + left. exists p. split; [exact H|]. apply pairs_in. exists j, k. auto.
    + right. exists p. split; [exact H|]. apply pairs_in. exists k, j. split; [lia|]. auto.
  - intros [(p & H & I)|(p & H & I)]; apply pairs_in in I; destruct I as (j & k & L & E1 & E2).
    + exists p, j, k. split; [exact H|]. split; [lia|]. auto.
    + exists p, k, j. split; [exact H|]. split; [lia|]. auto.
Qed.
Lemma within_papers n papers : (forall p a, In p papers -> In a p -> (a < n)%nat) -> within n (flat_map pairs papers).
Proof.
  intros H a b I. apply in_flat_map in I. destruct I as (p & Hp & I). apply pairs_in in I. destruct I as (j & k & _ & E1 & E2).
  split; eapply H; eauto using nth_error_In.
Qed.
Lemma nth_map_nodup (l : list (list nat)) i : nth i (map (nodup Nat.eq_dec) l) [] = nodup Nat.eq_dec (nth i l []).
Proof. exact (map_nth (nodup Nat.eq_dec) l [] i). Qed.
Lemma nth_repeat_nil {A} n i : nth i (repeat (@nil A) n) [] = [].
Proof. revert i. induction n; intros [|i]; cbn; auto. Qed.
Lemma collab_right n train test :
  (forall p a, In p train -> In a p -> (a < n)%nat) -> (forall p a, In p test -> In a p -> (a < n)%nat) ->
  exists tr te, collaborations n train test = Ok (tr, te) /\ length tr = n /\ length te = n /\
    (forall i, NoDup (nth i tr [])) /\ (forall i, NoDup (nth i te [])) /\
    (forall i x, In x (nth i tr []) <-> together train i x) /\ (forall i x, In x (nth i te []) <-> new_pair train test i x).
Proof.
  intros H1 H2. unfold collaborations.
  destruct (train_right (flat_map pairs train) (repeat [] n)) as (tr & E1 & L1 & I1); [rewrite repeat_length; now apply within_papers|].
  rewrite E1. cbn [bind].
  destruct (test_right tr (flat_map pairs test) (repeat [] n)) as (te & E2 & L2 & I2); [rewrite L1; reflexivity|rewrite repeat_length; now apply within_papers|].
  rewrite E2. cbn [bind]. rewrite repeat_length in L1, L2. exists (map (nodup Nat.eq_dec) tr), (map (nodup Nat.eq_dec) te). rewrite !map_length.
  split; [reflexivity|]. split; [exact L1|]. split; [exact L2|].
  split; [intros i; rewrite nth_map_nodup; apply NoDup_nodup|]. split; [intros i; rewrite nth_map_nodup; apply NoDup_nodup|].
  assert (T : forall i x, In x (nth i tr []) <-> together train i x).
  { intros i x. rewrite I1, nth_repeat_nil, together_pairs. cbn [In]. tauto. }
  assert (Any : forall i, nth i tr [] <> [] <-> has_any train i).
  { intros i. split.
    - destruct (nth i tr []) as [|y l] eqn:E; [congruence|]. intros _. exists y. apply T. rewrite E. now left.
    - intros [y Hy]. apply T in Hy. destruct (nth i tr []); [destruct Hy|discriminate]. }
  split.
  - intros i x. rewrite nth_map_nodup, nodup_In. apply T.
  - intros i x. rewrite nth_map_nodup, nodup_In, I2, nth_repeat_nil, !Any, T. cbn [In]. unfold new_pair. rewrite (together_pairs test). tauto.
Qed.

Lemma train_outside ps : forall acc a b, In (a, b) ps -> (length acc <= a \/ length acc <= b)%nat -> train_lists acc ps = Fail EIndex.
Proof.
  induction ps as [|[u v] ps IH]; intros acc a b I O; [destruct I|]. cbn [train_lists].
  destruct (Nat.lt_ge_cases u (length acc)) as [Hu|Hu]; [|now rewrite push_out by exact Hu].
  destruct (push_right acc u v Hu) as (x & E1 & L1 & _). rewrite E1. cbn [bind].
  destruct (Nat.lt_ge_cases v (length x)) as [Hv|Hv]; [|now rewrite push_out by exact Hv].
  destruct (push_right x v u Hv) as (y & E2 & L2 & _). rewrite E2. cbn [bind].
  destruct I as [I|I]; [injection I as <- <-; lia|]. apply (IH y a b I). lia.
Qed.
Lemma test_outside train ps : forall acc a b, length train = length acc -> In (a, b) ps -> (length acc <= a \/ length acc <= b)%nat -> test_lists train acc ps = Fail EIndex.
Proof.
  induction ps as [|[u v] ps IH]; intros acc a b Lt I O; [destruct I|]. cbn [test_lists]. unfold get.
  destruct (nth_error train u) as [tu|] eqn:Eu; [|reflexivity]. cbn [bind]. destruct (nth_error train v) as [tv|] eqn:Ev; [|reflexivity]. cbn [bind].
  assert (Hu : (u < length acc)%nat) by (rewrite <- Lt; apply nth_error_Some; congruence). assert (Hv : (v < length acc)%nat) by (rewrite <- Lt; apply nth_error_Some; congruence).
  destruct I as [I|I]; [injection I as <- <-; lia|].
  destruct tu as [|tu0 tu]; [exact (IH acc a b Lt I O)|]. destruct tv as [|tv0 tv]; [exact (IH acc a b Lt I O)|].
  destruct (push_right acc u v Hu) as (x & E1 & L1 & _).
  assert (S1 : exists x, (if mem v (tu0 :: tu) then Ok acc else push acc u v) = Ok x /\ length x = length acc) by (destruct (mem v (tu0 :: tu)); eauto).
  destruct S1 as (x1 & -> & Lx). cbn [bind].
  destruct (push_right x1 v u ltac:(lia)) as (y & E2 & L2 & _).
  assert (S2 : exists y, (if mem u (tv0 :: tv) then Ok x1 else push x1 v u) = Ok y /\ length y = length acc) by (destruct (mem u (tv0 :: tv)); [eauto|exists y; split; [exact E2|lia]]).
  destruct S2 as (y1 & -> & Ly). cbn [bind]. apply (IH y1 a b); [lia|exact I|lia].
Qed.
Lemma collab_outside n train test a b : together (train ++ test) a b -> (n <= a)%nat -> collaborations n train test = Fail EIndex.
Proof.
  intros T Ha. assert (D : together train a b \/ together test a b).
  { destruct T as (p & j & k & I & R). apply in_app_iff in I. destruct I as [I|I]; [left|right]; exists p, j, k; auto. }
  unfold collaborations. destruct (train_lists (repeat [] n) (flat_map pairs train)) as [tr|e] eqn:E.
  - cbn [bind]. assert (Lt : length tr = n).
    { clear -E. assert (A : forall ps acc r, train_lists acc ps = Ok r -> length r = length acc).
      { induction ps as [|[u v] ps IH]; intros acc r Er; cbn [train_lists] in Er; [now injection Er as <-|]. destruct (push acc u v) as [x|] eqn:E1; [|discriminate]. cbn [bind] in Er.
        destruct (push x v u) as [y|] eqn:E2; [|discriminate]. cbn [bind] in Er. rewrite (IH _ _ Er). destruct (push_in _ _ _ _ E1) as (_ & L1 & _). destruct (push_in _ _ _ _ E2) as (_ & L2 & _). lia. }
      now rewrite (A _ _ _ E), repeat_length. }
    destruct D as [D|D]; apply together_pairs in D.
    + exfalso. destruct D as [D|D]; rewrite (train_outside _ _ _ _ D) in E by (rewrite repeat_length; lia); discriminate.
    + destruct D as [D|D]; rewrite (test_outside tr _ (repeat [] n) _ _ ltac:(rewrite repeat_length; exact Lt) D) by (rewrite repeat_length; lia); reflexivity.
  - cbn [bind]. f_equal. clear D T. revert E. generalize (repeat (@nil nat) n). induction (flat_map pairs train) as [|[u v] ps IH]; intros acc E; cbn [train_lists] in E; [discriminate|].
    destruct (push acc u v) as [x|] eqn:E1; [|unfold push in E1; destruct (u <? length acc)%nat; [discriminate|]; cbn [bind] in E; congruence]. cbn [bind] in E.
    destruct (push x v u) as [y|] eqn:E2; [|unfold push in E2; destruct (v <? length x)%nat; [discriminate|]; cbn [bind] in E; congruence]. cbn [bind] in E. exact (IH _ E).
Qed.
Lemma build_fail sizes : forall feats adjs, build sizes feats adjs = Fail EIndex \/ exists g, build sizes feats adjs = Ok g.
Proof.
  induction sizes as [|n sizes IH]; intros feats adjs; [right; eexists; reflexivity|]. destruct feats as [|f feats]; [right; eexists; reflexivity|]. destruct adjs as [|a adjs]; [right; eexists; reflexivity|].
  cbn [build]. unfold build_side. destruct (n <? length a)%nat; [left; reflexivity|]. cbn [bind]. destruct (IH feats adjs) as [->|[g ->]]; [left; reflexivity|right; eexists; reflexivity].
Qed.

(** ** Lines of files *)
Lemma reject_right fuel draws bad : forall k v, reject fuel draws k bad = Ok v -> bad v = false /\ exists j, v = draws j.
Proof.
  induction fuel as [|f IH]; intros k v E; cbn [reject] in E; [discriminate|]. destruct (bad (draws k)) eqn:B; [exact (IH _ _ E)|].
  injection E as <-. split; [exact B|]. now exists k.
Qed.
Lemma reject_finds draws bad : forall j fuel k, (j < fuel)%nat -> bad (draws (k + j)%nat) = false -> exists v, reject fuel draws k bad = Ok v.
Proof.
  induction j as [|j IH]; intros [|f] k H B; try lia; cbn [reject].
  - rewrite Nat.add_0_r in B. rewrite B. eexists. reflexivity.
  - destruct (bad (draws k)); [|eexists; reflexivity]. apply IH; [lia|]. now rewrite Nat.add_succ_comm.
Qed.
Lemma reject_never fuel draws bad : (forall j, bad (draws j) = true) -> forall k, reject fuel draws k bad = Fail EFuel.
Proof. intros H. induction fuel as [|f IH]; intros k; cbn [reject]; [reflexivity|]. rewrite H. apply IH. Qed.
Lemma mapM_in {A B} (f : A -> res B) l r : mapM f l = Ok r -> forall y, In y r <-> exists x, In x l /\ f x = Ok y.
Proof.
  revert r. induction l as [|x l IH]; intros r E y; cbn [mapM] in E.
  - injection E as <-. split; [intros []|intros (x & [] & _)].
  - destruct (f x) as [z|] eqn:Ex; [|discriminate]. cbn [bind] in E. destruct (mapM f l) as [t|] eqn:Em; [|discriminate]. cbn [bind] in E. injection E as <-.
    cbn [In]. rewrite (IH t eq_refl y). split.
    + intros [<-|(u & I & Eu)]; [exists x; auto|exists u; auto].
    + intros (u & [->|I] & Eu); [left; congruence|right; exists u; auto].
Qed.
Lemma lines_right fuel draw bad lists ls : lines_of fuel draw bad lists = Ok ls ->
  (forall i x y, In (i, x, y) ls -> (y = 1 /\ In x (nth i lists []) \/ y = 0 /\ bad i x = false /\ exists j k, x = draw i j k)%nat) /\
  (forall i x, In x (nth i lists []) -> In (i, x, 1%nat) ls).
Proof.
  unfold lines_of. intros E.
  set (F := fun i => do l0 <- mapM (fun j => do v <- reject fuel (draw i j) 0 (bad i);; Ok [(i, nth j (nth i lists []) O, 1%nat); (i, v, O)]) (seq 0 (length (nth i lists [])));; Ok (concat l0)).
  change ((do r <- mapM F (seq 0 (length lists)) ;; Ok (concat r)) = Ok ls) in E.
  destruct (mapM F (seq 0 (length lists))) as [r|] eqn:Er; [|discriminate]. cbn [bind] in E. injection E as <-. pose proof (mapM_in _ _ _ Er) as M.
  split.
  - intros i x y H. apply in_concat in H. destruct H as (b & Hb & H). apply M in Hb. destruct Hb as (i' & Hi' & Eb). unfold F in Eb.
    destruct (mapM _ (seq 0 (length (nth i' lists [])))) as [l0|] eqn:El; [|discriminate]. cbn [bind] in Eb. injection Eb as <-.
    apply in_concat in H. destruct H as (c & Hc & H). apply (mapM_in _ _ _ El) in Hc. destruct Hc as (j & Hj & Ec).
    destruct (reject fuel (draw i' j) 0 (bad i')) as [v|] eqn:Ev; [|discriminate]. cbn [bind] in Ec. injection Ec as <-. apply in_seq in Hj.
    destruct H as [H|[H|[]]]; injection H as <- <- <-.
    + left. split; [reflexivity|]. apply nth_In. lia.
    + right. split; [reflexivity|]. destruct (reject_right _ _ _ _ _ Ev) as (B & k & ->). split; [exact B|]. now exists j, k.
  - intros i x H.
    assert (Li : (i < length lists)%nat) by (destruct (Nat.lt_ge_cases i (length lists)); [assumption|rewrite nth_overflow in H by assumption; destruct H]).
    destruct (F i) as [b|e] eqn:Eb.
    2:{ exfalso. clear -Er Eb Li. assert (I : In i (seq 0 (length lists))) by (apply in_seq; lia). revert r Er. induction (seq 0 (length lists)) as [|a l IH]; intros r Er; [destruct I|].
        cbn [mapM] in Er. destruct I as [->|I]; [rewrite Eb in Er; discriminate|]. destruct (F a); [|discriminate]. cbn [bind] in Er. destruct (mapM F l) eqn:El; [|discriminate]. exact (IH I _ eq_refl). }
    apply in_concat. exists b. split; [apply M; exists i; split; [apply in_seq; lia|exact Eb]|].
    unfold F in Eb. destruct (mapM _ (seq 0 (length (nth i lists [])))) as [l0|] eqn:El; [|discriminate]. cbn [bind] in Eb. injection Eb as <-.
    apply In_nth with (d := O) in H. destruct H as (j & Hj & <-). apply in_concat.
    destruct (reject fuel (draw i j) 0 (bad i)) as [v|e] eqn:Ev.
    + exists [(i, nth j (nth i lists []) O, 1%nat); (i, v, O)]. split; [|now left]. apply (mapM_in _ _ _ El). exists j. split; [apply in_seq; lia|]. rewrite Ev. reflexivity.
    + exfalso. clear -El Ev Hj. assert (I : In j (seq 0 (length (nth i lists [])))) by (apply in_seq; lia). revert l0 El. induction (seq 0 (length (nth i lists []))) as [|a l IH]; intros r Er; [destruct I|].
      cbn [mapM] in Er. destruct I as [->|I]; [rewrite Ev in Er; discriminate|]. destruct (reject fuel (draw i a) 0 (bad i)); [|discriminate]. cbn [bind] in Er.
      match type of Er with bind (mapM ?f l) _ = _ => destruct (mapM f l) eqn:El; [|discriminate] end. exact (IH I _ eq_refl).
Qed.

Lemma count_app (p : nat * nat * nat -> bool) a b : length (filter p (a ++ b)) = (length (filter p a) + length (filter p b))%nat.
Proof. now rewrite filter_app, app_length. Qed.
Lemma balanced_right fuel draw bad lists ls : lines_of fuel draw bad lists = Ok ls ->
  length (filter (fun l => snd l =? 1)%nat ls) = length (filter (fun l => snd l =? 0)%nat ls) /\ length ls = (2 * length (concat lists))%nat.
Proof.
  unfold lines_of. intros E.
  set (G := fun i j => do v <- reject fuel (draw i j) 0 (bad i);; Ok [(i, nth j (nth i lists []) O, 1%nat); (i, v, O)]) in E.
  assert (Inner : forall i l r, mapM (G i) l = Ok r -> length (filter (fun l => snd l =? 1)%nat (concat r)) = length l /\ length (filter (fun l => snd l =? 0)%nat (concat r)) = length l /\ length (concat r) = (2 * length l)%nat).
  { intros i l. induction l as [|j l IH]; intros r Er; cbn [mapM] in Er; [injection Er as <-; auto|].
    unfold G in Er at 1. destruct (reject fuel (draw i j) 0 (bad i)) as [v|]; [|discriminate]. cbn [bind] in Er. destruct (mapM (G i) l) as [t|]; [|discriminate]. cbn [bind] in Er. injection Er as <-.
    destruct (IH t eq_refl) as (A & B & C). cbn [concat]. rewrite !count_app, app_length, A, B, C. cbn [filter snd Nat.eqb length]. lia. }
  cbn zeta in E.
  set (F := fun i => do l0 <- mapM (G i) (seq 0 (length (nth i lists [])));; Ok (concat l0)).
  change ((do r <- mapM F (seq 0 (length lists)) ;; Ok (concat r)) = Ok ls) in E.
  assert (Outer : forall l r, mapM F l = Ok r -> let s := list_sum (map (fun i => length (nth i lists [])) l) in
    length (filter (fun l => snd l =? 1)%nat (concat r)) = s /\ length (filter (fun l => snd l =? 0)%nat (concat r)) = s /\ length (concat r) = (2 * s)%nat).
  { induction l as [|i l IH]; intros r Er; cbn [mapM] in Er; [injection Er as <-; auto|].
    unfold F in Er at 1. destruct (mapM (G i) (seq 0 (length (nth i lists [])))) as [b|] eqn:Eb; [|discriminate]. cbn [bind] in Er. destruct (mapM F l) as [t|]; [|discriminate]. cbn [bind] in Er. injection Er as <-.
    destruct (IH t eq_refl) as (A & B & C). destruct (Inner _ _ _ Eb) as (A' & B' & C'). rewrite seq_length in *. cbn [concat map]. cbn zeta. change (list_sum (?x :: ?y)) with (x + list_sum y)%nat.
    rewrite !count_app, app_length, A, B, C, A', B', C'. cbn [list_sum fold_right]. unfold list_sum. lia. }
  destruct (mapM F (seq 0 (length lists))) as [r|] eqn:Er; [|discriminate]. cbn [bind] in E. injection E as <-. destruct (Outer _ _ Er) as (A & B & C). rewrite A, B, C. split; [reflexivity|]. f_equal.
  clear. assert (X : forall pre l, list_sum (map (fun i => length (nth i (pre ++ l) [])) (seq (length pre) (length l))) = length (@concat nat l)).
  { intros pre l. revert pre. induction l as [|x l IH]; intros pre; [reflexivity|]. cbn [length seq map concat]. change (list_sum (?x :: ?y)) with (x + list_sum y)%nat.
    rewrite app_nth2, Nat.sub_diag, app_length by lia. cbn [nth]. specialize (IH (pre ++ [x])). rewrite app_length, <- app_assoc in IH. cbn [length app] in IH. rewrite Nat.add_1_r in IH. cbn [list_sum fold_right]. unfold list_sum in *. rewrite IH. reflexivity. }
  exact (X [] lists).
Qed.

(** ** Venues *)
Lemma max_bound l x : In x l -> (x <= list_max' l)%nat.
Proof. induction l as [|y l IH]; intros []; cbn [list_max']; [lia|specialize (IH H); lia]. Qed.
Lemma max_in l : l <> [] -> In (list_max' l) l.
Proof.
  induction l as [|y l IH]; [congruence|]. intros _. cbn [list_max']. destruct l as [|z l]; [left; cbn; lia|].
  destruct (Nat.max_spec y (list_max' (z :: l))) as [[_ ->]|[_ ->]]; [right; apply IH; discriminate|now left].
Qed.
Lemma index_right l x d : In x l -> (index l x < length l)%nat /\ nth (index l x) l d = x /\ forall j, (j < index l x)%nat -> nth j l d <> x.
Proof.
  induction l as [|y l IH]; intros []; cbn [index].
  - subst. rewrite Nat.eqb_refl. cbn. split; [lia|]. split; [reflexivity|]. lia.
  - destruct (Nat.eqb_spec y x) as [->|N]; cbn [length nth]; [split; [lia|]; split; [reflexivity|]; lia|].
    destruct (IH H) as (A & B & C). split; [lia|]. split; [exact B|]. intros [|j] Hj; [exact N|]. apply C. lia.
Qed.
Lemma occurs_filter x l : length (filter (Nat.eqb x) l) = occurs x l.
Proof. induction l as [|y l IH]; [reflexivity|]. cbn [filter occurs]. destruct (x =? y)%nat; cbn [length]; lia. Qed.
Lemma venue_right v_n p_v papers : (0 < v_n)%nat ->
  let cnt v := occurs v (map (fun p => nth p p_v O) papers) in
  let m := a_max_v v_n p_v papers in
  (m < v_n)%nat /\ (forall v, (v < v_n)%nat -> (cnt v <= cnt m)%nat) /\ (forall v, (v < m)%nat -> (cnt v < cnt m)%nat).
Proof.
  intros H cnt m. unfold m, a_max_v. set (num := a_v_num v_n (map (fun p => nth p p_v O) papers)).
  assert (L : length num = v_n) by (unfold num, a_v_num; rewrite map_length, seq_length; reflexivity).
  assert (N : forall v, (v < v_n)%nat -> nth v num O = cnt v).
  { intros v Hv. unfold num, a_v_num. rewrite (nth_indep _ O (length (filter (Nat.eqb O) (map (fun p => nth p p_v O) papers)))) by (rewrite map_length, seq_length; exact Hv).
    rewrite (map_nth (fun v => length (filter (Nat.eqb v) (map (fun p => nth p p_v O) papers)))), seq_nth by exact Hv. apply occurs_filter. }
  assert (I : In (list_max' num) num) by (apply max_in; intros E; rewrite E in L; cbn in L; lia).
  destruct (index_right num (list_max' num) O I) as (A & B & C). rewrite L in A. split; [exact A|].
  rewrite N in B by exact A. split.
  - intros v Hv. rewrite B, <- N by exact Hv. apply max_bound, nth_In. lia.
  - intros v Hv. specialize (C v Hv). rewrite N in C by lia. rewrite B.
    assert (cnt v <= list_max' num)%nat by (rewrite <- N by lia; apply max_bound, nth_In; lia). lia.
Qed.

(** ** F1 *)
Lemma count2_tally p t l : Z.of_nat (count2 p t l) = tally p t l.
Proof.
  unfold count2. induction l as [|[a b] l IH]; [reflexivity|]. cbn [filter fst snd tally]. destruct (Bool.eqb a p), (Bool.eqb b t); cbn [andb length]; lia.
Qed.
Lemma qn_pos n : (0 < n)%nat -> ~ (qn n == 0)%Q.
Proof. intros H E. unfold qn, Qeq in E. cbn in E. lia. Qed.
Lemma f1_right l : (0 < tally true true l -> exists v, f1 l = Ok v /\ (v == f1_score l)%Q) /\ (tally true true l = 0 -> f1 l = Fail EAssert).
Proof.
  unfold f1, f1_score. rewrite <- !count2_tally. set (tp := count2 true true l). set (fp := count2 true false l). set (fn := count2 false true l). split.
  - intros H. assert (P : (0 < qn tp)%Q) by (unfold qn, Qlt; cbn; lia).
    assert (P1 : (0 <= qn fp)%Q) by (unfold qn, Qle; cbn; lia). assert (P2 : (0 <= qn fn)%Q) by (unfold qn, Qle; cbn; lia).
    assert (N1 : ~ (qn tp + qn fp == 0)%Q) by (intros E; assert (X : (0 < qn tp + qn fp)%Q) by (rewrite <- (Qplus_0_r 0); now apply Qplus_lt_le_compat); rewrite E in X; discriminate X).
    assert (N2 : ~ (qn tp + qn fn == 0)%Q) by (intros E; assert (X : (0 < qn tp + qn fn)%Q) by (rewrite <- (Qplus_0_r 0); now apply Qplus_lt_le_compat); rewrite E in X; discriminate X).
    unfold pydiv. destruct (Qeq_bool (qn tp + qn fp) 0) eqn:B1; [apply Qeq_bool_iff in B1; contradiction|]. cbn [bind].
    destruct (Qeq_bool (qn tp + qn fn) 0) eqn:B2; [apply Qeq_bool_iff in B2; contradiction|]. cbn [bind].
    assert (N3 : ~ (qn tp == 0)%Q) by (intros E; rewrite E in P; discriminate P).
    assert (N4 : ~ (2 * qn tp + qn fp + qn fn == 0)%Q).
    { intros E. assert (X : (0 < 2 * qn tp + qn fp + qn fn)%Q).
      { setoid_replace (2 * qn tp + qn fp + qn fn)%Q with ((qn tp + qn fp) + (qn tp + qn fn))%Q by ring. rewrite <- (Qplus_0_r 0). apply Qplus_lt_le_compat.
        - rewrite <- (Qplus_0_r 0). now apply Qplus_lt_le_compat.
        - rewrite <- (Qplus_0_r 0). apply Qplus_le_compat; [now apply Qlt_le_weak|exact P2]. }
      rewrite E in X. discriminate X. }
    assert (S : (qn tp / (qn tp + qn fp) + qn tp / (qn tp + qn fn) == qn tp * (2 * qn tp + qn fp + qn fn) / ((qn tp + qn fp) * (qn tp + qn fn)))%Q) by (field; auto).
    destruct (Qeq_bool (qn tp / (qn tp + qn fp) + qn tp / (qn tp + qn fn)) 0) eqn:B3.
    + exfalso. apply Qeq_bool_iff in B3. rewrite S in B3. apply N4.
      assert (X : (qn tp * (2 * qn tp + qn fp + qn fn) == 0)%Q).
      { setoid_replace (qn tp * (2 * qn tp + qn fp + qn fn))%Q with (qn tp * (2 * qn tp + qn fp + qn fn) / ((qn tp + qn fp) * (qn tp + qn fn)) * ((qn tp + qn fp) * (qn tp + qn fn)))%Q by (field; auto). rewrite B3. ring. }
      apply Qmult_integral in X. tauto.
    + eexists. split; [reflexivity|]. rewrite S. rewrite !inject_Z_plus, !inject_Z_mult. change (inject_Z (Z.of_nat tp)) with (qn tp). change (inject_Z (Z.of_nat fp)) with (qn fp). change (inject_Z (Z.of_nat fn)) with (qn fn).
      change (inject_Z 2) with 2%Q. field. auto.
  - intros H. assert (E0 : tp = O) by lia. rewrite E0. unfold pydiv. change (qn 0) with 0%Q.
    destruct (Qeq_bool (0 + qn fp) 0); [reflexivity|]. cbn [bind]. destruct (Qeq_bool (0 + qn fn) 0); [reflexivity|]. cbn [bind].
    assert (B : Qeq_bool (0 / (0 + qn fp) + 0 / (0 + qn fn)) 0 = true) by (apply Qeq_bool_iff; unfold Qdiv; ring). now rewrite B.
Qed.
