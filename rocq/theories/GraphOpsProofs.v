(** Proofs about GraphOpsModel.v. *)
From Coq Require Import Permutation Sorted ZifyBool ZifyNat.
From Verif Require Import Base WriterModel LoaderModel GraphModel GraphSpec ConvertProofs AnswerProofs GraphOpsModel.

(** ** Skip-grams *)

(** The pairs of positions of a window. *)
Definition in_window (l r j k : nat) : bool := negb (k =? j) && (j <=? k + l) && (k <=? j + r).
Definition window_pairs (path : list Z) (l r : nat) : list (Z * Z) :=
  flat_map (fun j => map (fun k => (nth j path 0%Z, nth k path 0%Z)) (filter (in_window l r j) (seq 0 (length path))))
           (seq 0 (length path)).

Lemma filter_none {A} (f : A -> bool) l : (forall x, In x l -> f x = false) -> filter f l = [].
Proof.
  induction l as [|x l IH]; intros H; [reflexivity|]. cbn. rewrite (H x) by now left.
  apply IH. intros y Hy. apply H. now right.
Qed.
Lemma filter_every {A} (f : A -> bool) l : (forall x, In x l -> f x = true) -> filter f l = l.
Proof.
  induction l as [|x l IH]; intros H; [reflexivity|]. cbn. rewrite (H x) by now left.
  f_equal. apply IH. intros y Hy. apply H. now right.
Qed.

(** The window, as the interval the loop visits. *)
Lemma window_interval len l r j :
  j < len ->
  filter (in_window l r j) (seq 0 len)
  = filter (fun k => negb (k =? j)) (seq (j - l) (Nat.min (len - 1) (j + r) + 1 - (j - l))).
Proof.
  intros Hj. set (a := j - l). set (b := Nat.min (len - 1) (j + r) + 1).
  replace len with (a + ((b - a) + (len - b))) at 1 by lia.
  rewrite seq_app, seq_app, !filter_app.
  rewrite (filter_none _ (seq 0 a)); [|intros k Hk; apply in_seq in Hk; unfold in_window; lia].
  rewrite (filter_none _ (seq (0 + a + (b - a)) (len - b)));
    [|intros k Hk; apply in_seq in Hk; unfold in_window; lia].
  rewrite app_nil_r. cbn [app]. apply filter_ext_in. intros k Hk. apply in_seq in Hk. unfold in_window. lia.
Qed.
Lemma window_size len l r j :
  j < len -> length (filter (in_window l r j) (seq 0 len)) = (j - (j - l)) + (Nat.min (len - 1) (j + r) - j).
Proof.
  intros Hj. rewrite window_interval by assumption.
  set (a := j - l). set (b := Nat.min (len - 1) (j + r) + 1).
  replace (b - a) with ((j - a) + (1 + (b - S j))) by lia.
  rewrite seq_app, seq_app, !filter_app. replace (a + (j - a)) with j by lia. cbn [seq filter].
  rewrite Nat.eqb_refl. cbn [negb].
  rewrite filter_every, filter_every; [rewrite !app_length, !seq_length; cbn; lia| |];
    intros k Hk; apply in_seq in Hk; lia.
Qed.

Lemma flat_map_cond {A B} (c : A -> bool) (f : A -> B) l :
  flat_map (fun k => if c k then [] else [f k]) l = map f (filter (fun k => negb (c k)) l).
Proof. induction l as [|x l IH]; [reflexivity|]. cbn. destruct (c x); cbn; now rewrite IH. Qed.
Lemma flat_map_ext_in {A B} (f g : A -> list B) l : (forall x, In x l -> f x = g x) -> flat_map f l = flat_map g l.
Proof.
  induction l as [|x l IH]; intros H; [reflexivity|]. cbn. rewrite H by now left. f_equal. apply IH.
  intros y Hy. apply H. now right.
Qed.
Lemma path_pairs_window path l : path_pairs path (length path) l = window_pairs path l l.
Proof.
  unfold path_pairs, window_pairs. apply flat_map_ext_in. intros j Hj. apply in_seq in Hj.
  rewrite window_interval by lia. now rewrite flat_map_cond.
Qed.

Lemma fold_add_acc l a : fold_left Nat.add l a = a + fold_left Nat.add l 0.
Proof. revert a. induction l as [|x l IH]; intros a; cbn; [lia|]. rewrite IH, (IH x). lia. Qed.
Lemma length_flat_map {A B} (f : A -> list B) l : length (flat_map f l) = fold_left Nat.add (map (fun x => length (f x)) l) 0.
Proof. induction l as [|x l IH]; [reflexivity|]. cbn. rewrite app_length, IH, (fold_add_acc _ (length (f x))). reflexivity. Qed.
Lemma skipgrams_size_window path l r : skipgrams_size (length path) l r = length (window_pairs path l r).
Proof.
  unfold skipgrams_size, window_pairs. rewrite length_flat_map. f_equal. apply map_ext_in. intros j Hj.
  apply in_seq in Hj. rewrite map_length. symmetry. apply window_size. lia.
Qed.
Lemma windows_length paths len l r :
  Forall (fun p => length p = len) paths ->
  length (flat_map (fun p => window_pairs p l r) paths) = length paths * skipgrams_size len l r.
Proof.
  induction 1 as [|p ps Hp _ IH]; [reflexivity|]. cbn [flat_map length]. rewrite app_length, IH.
  rewrite <- skipgrams_size_window, Hp. lia.
Qed.
Lemma written_windows paths len l :
  Forall (fun p => length p = len) paths ->
  flat_map (fun p => path_pairs p len l) paths = flat_map (fun p => window_pairs p l l) paths.
Proof.
  intros H. apply flat_map_ext_in. intros p Hp. rewrite Forall_forall in H. rewrite <- (H p Hp).
  apply path_pairs_window.
Qed.
Lemma skipgrams_exact paths len l :
  0 < len -> Forall (fun p => length p = len) paths ->
  gen_skipgrams paths len l l = Ok (map Some (flat_map (fun p => window_pairs p l l) paths)).
Proof.
  intros Hl H. unfold gen_skipgrams. destruct (Nat.eqb_spec len 0); [lia|]. rewrite (written_windows _ _ _ H).
  rewrite (windows_length _ _ _ _ H), Nat.ltb_irrefl, Nat.sub_diag. cbn [repeat]. now rewrite app_nil_r.
Qed.
Lemma skipgrams_right_wider paths len l r :
  0 < len -> Forall (fun p => length p = len) paths -> l <= r ->
  gen_skipgrams paths len l r
  = Ok (map Some (flat_map (fun p => window_pairs p l l) paths)
        ++ repeat None (length (flat_map (fun p => window_pairs p l r) paths)
                        - length (flat_map (fun p => window_pairs p l l) paths))).
Proof.
  intros Hl H Hr. unfold gen_skipgrams. destruct (Nat.eqb_spec len 0); [lia|].
  rewrite (written_windows _ _ _ H), !(windows_length _ _ _ _ H).
  assert (G : skipgrams_size len l l <= skipgrams_size len l r).
  { unfold skipgrams_size. generalize (seq 0 len). intros ls. induction ls as [|x ls IH]; [cbn; lia|].
    cbn. rewrite (fold_add_acc _ (_ + _)).
    rewrite (fold_add_acc (map (fun i => i - (i - l) + (Nat.min (len - 1) (i + r) - i)) ls)). lia. }
  destruct (Nat.ltb_spec (length paths * skipgrams_size len l r) (length paths * skipgrams_size len l l)); [nia|].
  reflexivity.
Qed.

(** ** np.unique *)

Lemma unique_in l x : In x (np_unique l) <-> In x l.
Proof. apply make_sorted_in. Qed.
Lemma sorted_nodup (l : list Z) : StronglySorted Z.lt l -> NoDup l.
Proof.
  induction 1 as [|x l _ IH H]; constructor; [|assumption]. intros Hx. rewrite Forall_forall in H. specialize (H x Hx). lia.
Qed.
Lemma unique_nodup l : NoDup (np_unique l).
Proof. apply sorted_nodup, make_sorted_sorted. Qed.
Lemma position_lt x l : In x l -> position x l < length l.
Proof.
  induction l as [|y l IH]; [easy|]. cbn. intros [->|H].
  - rewrite Z.eqb_refl. lia.
  - destruct (x =? y)%Z; [lia|]. specialize (IH H). lia.
Qed.
Lemma position_nth x l d : In x l -> nth (position x l) l d = x.
Proof.
  induction l as [|y l IH]; [easy|]. cbn. intros H. destruct (Z.eqb_spec x y) as [->|Hn]; [reflexivity|].
  destruct H as [->|H]; [lia|]. now apply IH.
Qed.
Lemma nth_position l i d : NoDup l -> i < length l -> position (nth i l d) l = i.
Proof.
  intros Hd Hi. apply (NoDup_nth l d); try assumption.
  - apply position_lt. now apply nth_In.
  - apply position_nth. now apply nth_In.
Qed.

Lemma insert_pair_in t l x : In x (insert_pair t l) <-> x = t \/ In x l.
Proof.
  induction l as [|y l IH]; cbn; [intuition congruence|].
  destruct (pair_ltb t y); cbn; [intuition congruence|].
  destruct (pair_eqb t y) eqn:E; cbn.
  - assert (t = y) by (unfold pair_eqb in E; destruct t, y; cbn in *; f_equal; lia). intuition congruence.
  - rewrite IH. intuition congruence.
Qed.
Lemma unique_pairs_in l x : In x (unique_pairs l) <-> In x l.
Proof. induction l as [|y l IH]; cbn; [tauto|]. rewrite insert_pair_in, IH. intuition congruence. Qed.
Definition plt (a b : nat * nat) : Prop := pair_ltb a b = true.
Lemma insert_pair_sorted t l : StronglySorted plt l -> StronglySorted plt (insert_pair t l).
Proof.
  induction 1 as [|y l S IH H]; cbn [insert_pair]; [repeat constructor|].
  destruct (pair_ltb t y) eqn:E1.
  - constructor; [constructor; assumption|]. constructor; [assumption|].
    rewrite Forall_forall in *. intros z Hz. specialize (H z Hz). unfold plt, pair_ltb in *. lia.
  - destruct (pair_eqb t y) eqn:E2; [constructor; assumption|].
    constructor; [assumption|]. rewrite Forall_forall in *. intros z Hz. apply insert_pair_in in Hz.
    destruct Hz as [->|Hz]; [|now apply H]. unfold plt, pair_ltb, pair_eqb in *. lia.
Qed.
Lemma unique_pairs_nodup l : NoDup (unique_pairs l).
Proof.
  assert (S : StronglySorted plt (unique_pairs l)).
  { induction l as [|y l IH]; cbn; [constructor|]. now apply insert_pair_sorted. }
  induction S as [|x m _ IH H]; constructor; [|assumption]. intros Hx. rewrite Forall_forall in H.
  specialize (H x Hx). unfold plt, pair_ltb in H. lia.
Qed.

(** ** Matrices *)
Definition mget (m : list (list nat)) (i j : nat) : nat := nth j (nth i m []) 0.
Definition square (n : nat) (m : list (list nat)) : Prop := length m = n /\ Forall (fun r => length r = n) m.

Lemma update_length {A} i (f : A -> A) l : length (update i f l) = length l.
Proof. revert i. induction l as [|x l IH]; intros [|i]; cbn; auto. Qed.
Lemma update_nth {A} i (f : A -> A) l k d :
  i < length l -> nth k (update i f l) d = if k =? i then f (nth k l d) else nth k l d.
Proof.
  revert i k. induction l as [|x l IH]; intros [|i] [|k] H; cbn in *; try lia; auto.
  apply IH. lia.
Qed.
Lemma update_Forall {A} (P : A -> Prop) i f l : Forall P l -> (forall x, P x -> P (f x)) -> Forall P (update i f l).
Proof. intros H Hf. revert i. induction H; intros [|i]; cbn; constructor; auto. Qed.
Lemma update2_square n i j f m : square n m -> square n (update i (update j f) m).
Proof.
  intros [H1 H2]. split; [now rewrite update_length|]. apply update_Forall; [assumption|].
  intros r Hr. now rewrite update_length.
Qed.
Lemma update2_get n i j f m a b :
  square n m -> i < n -> j < n ->
  mget (update i (update j f) m) a b = if (a =? i) && (b =? j) then f (mget m a b) else mget m a b.
Proof.
  intros [H1 H2] Hi Hj. unfold mget. rewrite update_nth by lia. destruct (Nat.eqb_spec a i) as [->|]; [|reflexivity].
  cbn. assert (length (nth i m []) = n).
  { rewrite Forall_forall in H2. apply H2. apply nth_In. lia. }
  rewrite update_nth by lia. reflexivity.
Qed.
Lemma zeros_square n : square n (repeat (repeat 0 n) n).
Proof.
  split; [apply repeat_length|]. apply Forall_forall. intros r Hr. apply repeat_spec in Hr. subst r. apply repeat_length.
Qed.
Lemma nth_rep {A} (x d : A) n k : nth k (repeat x n) d = if k <? n then x else d.
Proof.
  revert k. induction n as [|n IH]; intros [|k]; cbn; auto. rewrite IH. reflexivity.
Qed.
Lemma zeros_get n a b : mget (repeat (repeat 0 n) n) a b = 0.
Proof.
  unfold mget. rewrite nth_rep. destruct (a <? n); [|now destruct b]. rewrite nth_rep. now destruct (b <? n).
Qed.
(** Setting ones. *)
Lemma ones_get n es m :
  square n m -> (forall e, In e es -> fst e < n /\ snd e < n) ->
  square n (fold_left (fun m e => mset (fst e) (snd e) 1 m) es m) /\
  forall a b, mget (fold_left (fun m e => mset (fst e) (snd e) 1 m) es m) a b
              = if existsb (pair_eqb (a, b)) es then 1 else mget m a b.
Proof.
  revert m. induction es as [|e es IH]; intros m Hm He; [split; [assumption|reflexivity]|]. cbn [fold_left existsb].
  destruct (He e) as [H1 H2]; [now left|].
  destruct (IH (mset (fst e) (snd e) 1 m)) as [IS IG].
  - now apply update2_square.
  - intros x Hx. apply He. now right.
  - split; [assumption|]. intros a b. rewrite IG. unfold mset. rewrite (update2_get n) by assumption.
    unfold pair_eqb at 2. cbn [fst snd]. now destruct (existsb _ es), ((a =? fst e) && (b =? snd e)).
Qed.
Lemma swap_fold (es : list (nat * nat)) m :
  fold_left (fun m e => mset (snd e) (fst e) 1 m) es m
  = fold_left (fun m e => mset (fst e) (snd e) 1 m) (map (fun e => (snd e, fst e)) es) m.
Proof. revert m. induction es as [|e es IH]; intros m; [reflexivity|]. cbn. apply IH. Qed.
Lemma eye_get n k m :
  square n m -> k <= n ->
  square n (fold_left (fun m i => update i (update i S) m) (seq 0 k) m) /\
  forall a b, mget (fold_left (fun m i => update i (update i S) m) (seq 0 k) m) a b
              = mget m a b + if (a =? b) && (a <? k) then 1 else 0.
Proof.
  intros Hm. induction k as [|k IH]; intros Hk; [split; [assumption|]|].
  - intros a b. cbn [seq fold_left]. replace (a <? 0) with false by (symmetry; apply Nat.ltb_ge; lia).
    rewrite andb_false_r. lia.
  - destruct (IH ltac:(lia)) as [IS IG]. rewrite seq_S, fold_left_app. cbn [fold_left].
    split; [now apply update2_square|]. intros a b. rewrite (update2_get n) by (assumption || lia). rewrite IG.
    cbn [Nat.add]. destruct (Nat.eqb_spec a b), (Nat.eqb_spec a k), (Nat.eqb_spec b k), (Nat.ltb_spec a k), (Nat.ltb_spec a (S k)); cbn; lia.
Qed.

(** ** sub_graph *)

(** Specification: edges of the input records, walks along them. *)
Definition linked (parts : list (list (list record))) (T : list Z) (x y : Z) : Prop :=
  exists e, In e (flat_map edges_of parts) /\ e_src e = x /\ e_dst e = y /\ In (e_typ e) T.
Inductive reach (parts : list (list (list record))) (T src : list Z) : nat -> Z -> Prop :=
| reach_0 x : In x src -> reach parts T src 0 x
| reach_S k x y : reach parts T src k x -> linked parts T x y -> reach parts T src (S k) y.
Definition within parts T src (k : nat) (x : Z) : Prop := exists j, j <= k /\ reach parts T src j x.

Lemma mem_in t T : mem t T = true <-> In t T.
Proof.
  unfold mem. rewrite existsb_exists. split.
  - intros (x & Hx & E). apply Z.eqb_eq in E. now subst.
  - intros H. exists t. split; [assumption|apply Z.eqb_refl].
Qed.
Lemma linked_spec parts T x y : linked parts T x y <-> In y (map e_dst (spec_edges parts T x)).
Proof.
  unfold linked, spec_edges. rewrite in_map_iff. split.
  - intros (e & He & Hs & Hd & Ht). exists e. split; [assumption|]. apply filter_In. split; [assumption|].
    apply mem_in in Ht. rewrite Ht. lia.
  - intros (e & Hd & He). apply filter_In in He. destruct He as [He Hf]. apply andb_prop in Hf. destruct Hf as [Hs Ht].
    exists e. repeat split; try assumption; [lia|]. now apply mem_in.
Qed.

Section Converted.
Variables fadd fsub : N -> N -> N.
Variable wval : N -> Z.
Variables (wm : option Z) (parts : list (list (list record))) (g : graph).
Hypothesis C : converted fadd wval wm parts g.

Lemma ask types nodes :
  guarded fadd fsub types parts ->
  neighbors fsub g nodes types None
  = Ok (flat_map (fun n => map answer (spec_edges parts types n)) nodes,
        map (fun n => length (spec_edges parts types n)) nodes).
Proof. intros H. now apply (converted_neighbors fadd fsub wval wm). Qed.

Lemma ids_answer types nodes :
  map nb_id (flat_map (fun n => map answer (spec_edges parts types n)) nodes)
  = flat_map (fun n => map e_dst (spec_edges parts types n)) nodes.
Proof.
  induction nodes as [|n ns IH]; [reflexivity|]. cbn. rewrite map_app, IH, map_map. reflexivity.
Qed.

Lemma reach_from_nexts types cur nxt k x :
  (forall y, In y nxt <-> exists u, In u cur /\ linked parts types u y) ->
  (reach parts types nxt k x <-> reach parts types cur (S k) x).
Proof.
  intros H. revert x. induction k as [|k IH]; intros x.
  - split; intros R.
    + inversion R; subst. apply H in H0. destruct H0 as (u & Hu & L). exact (reach_S _ _ _ 0 u x (reach_0 _ _ _ u Hu) L).
    + inversion R; subst. inversion H1; subst. constructor. apply H. eauto.
  - split; intros R; inversion R; subst; econstructor; try eassumption; now apply IH.
Qed.

Lemma hop_nodes_spec types k cur :
  guarded fadd fsub types parts ->
  exists l, hop_nodes fsub g k cur types = Ok l /\
            forall x, In x l <-> exists j, 1 <= j <= k /\ reach parts types cur j x.
Proof.
  intros G. revert cur. induction k as [|k IH]; intros cur.
  - exists []. split; [reflexivity|]. intros x. split; [easy|]. intros (j & Hj & _). lia.
  - cbn [hop_nodes]. rewrite (ask types cur G). cbn [bind fst]. rewrite ids_answer.
    set (tmp := np_unique (flat_map (fun n => map e_dst (spec_edges parts types n)) cur)).
    assert (HT : forall y, In y tmp <-> exists u, In u cur /\ linked parts types u y).
    { intros y. unfold tmp. rewrite unique_in, in_flat_map. split; intros (u & Hu & L); exists u; split; try assumption; now apply linked_spec. }
    destruct (IH tmp) as (rest & E & HR). rewrite E. cbn [bind]. eexists. split; [reflexivity|].
    intros x. rewrite in_app_iff, HR. split.
    + intros [H|(j & Hj & R)].
      * exists 1. split; [lia|]. apply (reach_from_nexts types cur tmp 0 x HT). now constructor.
      * exists (S j). split; [lia|]. now apply (reach_from_nexts types cur tmp j x HT).
    + intros (j & Hj & R). destruct j as [|[|j]]; [lia| |].
      * left. apply (reach_from_nexts types cur tmp 0 x HT) in R. now inversion R.
      * right. exists (S j). split; [lia|]. now apply (reach_from_nexts types cur tmp (S j) x HT).
Qed.

Definition out_edges types (us : list Z) : list (Z * Z) :=
  flat_map (fun u => map (fun e => (u, e_dst e)) (spec_edges parts types u)) us.

Lemma sources_repeat types us :
  flat_map (fun x => repeat (fst x) (snd x)) (combine us (map (fun n => length (spec_edges parts types n)) us))
  = flat_map (fun u => map (fun _ => u) (spec_edges parts types u)) us.
Proof.
  induction us as [|u us IH]; [reflexivity|]. cbn. rewrite IH. f_equal.
  induction (spec_edges parts types u) as [|e l IHl]; [reflexivity|]. cbn. now rewrite IHl.
Qed.
Lemma combine_edges types us :
  combine (flat_map (fun u => map (fun _ => u) (spec_edges parts types u)) us)
          (flat_map (fun n => map e_dst (spec_edges parts types n)) us) = out_edges types us.
Proof.
  induction us as [|u us IH]; [reflexivity|]. unfold out_edges in *. cbn [flat_map]. rewrite <- IH.
  induction (spec_edges parts types u) as [|e l IHl]; [reflexivity|]. cbn [map app combine]. now rewrite IHl.
Qed.
Lemma out_edges_in types us x y : In (x, y) (out_edges types us) <-> In x us /\ linked parts types x y.
Proof.
  unfold out_edges. rewrite in_flat_map. split.
  - intros (u & Hu & H). apply in_map_iff in H. destruct H as (e & E & He). injection E as -> <-.
    split; [assumption|]. apply linked_spec. now apply in_map.
  - intros [Hx L]. exists x. split; [assumption|]. apply linked_spec in L. apply in_map_iff in L.
    destruct L as (e & <- & He). apply in_map_iff. now exists e.
Qed.

Definition at_ (nodes : list Z) (i : nat) : Z := nth i nodes 0%Z.
(** What [adj] has to be, for inner nodes [inner]. *)
Definition arc types (inner nodes : list Z) (i j : nat) : Prop :=
  In (at_ nodes i) inner /\ linked parts types (at_ nodes i) (at_ nodes j).
Definition wanted types inner nodes (undirected : bool) i j : Prop :=
  arc types inner nodes i j \/ (undirected = true /\ arc types inner nodes j i).

Lemma sub_graph_spec types src hops self_loop undirected return_edges :
  guarded fadd fsub types parts -> 1 <= hops ->
  exists nodes adj src_idx inner,
    sub_graph fsub g src types hops self_loop undirected return_edges = Ok (nodes, adj, src_idx) /\
    StronglySorted Z.lt nodes /\ (forall x, In x nodes <-> within parts types src hops x) /\
    map (at_ nodes) src_idx = src /\
    StronglySorted Z.lt inner /\ (forall x, In x inner <-> within parts types src (hops - 1) x) /\
    match adj with
    | Edges l =>
        return_edges = true /\ (forall i j, In (i, j) l -> i < length nodes /\ j < length nodes) /\
        if self_loop || undirected then
          NoDup l /\
          forall i j, i < length nodes -> j < length nodes ->
            (In (i, j) l <-> wanted types inner nodes undirected i j \/ (self_loop = true /\ i = j))
        else map (fun e => (at_ nodes (fst e), at_ nodes (snd e))) l = out_edges types inner
    | Matrix m =>
        return_edges = false /\ square (length nodes) m /\
        forall i j, i < length nodes -> j < length nodes ->
          exists b : bool, (b = true <-> wanted types inner nodes undirected i j) /\
                           mget m i j = (if b then 1 else 0) + (if self_loop && (i =? j) then 1 else 0)
    end.
Proof.
  intros G Hh. unfold sub_graph.
  destruct (hop_nodes_spec types (hops - 1) src G) as (inn & E & HI). rewrite E. cbn [bind].
  set (inner := np_unique (src ++ inn)).
  assert (HN : forall x, In x inner <-> within parts types src (hops - 1) x).
  { intros x. unfold inner, within. rewrite unique_in, in_app_iff, HI. split.
    - intros [H|(j & Hj & R)]; [exists 0; split; [lia|now constructor]|exists j; split; [lia|assumption]].
    - intros (j & Hj & R). destruct j as [|j]; [left; now inversion R|right; exists (S j); split; [lia|assumption]]. }
  rewrite (ask types inner G). cbn [bind].
  rewrite sources_repeat, ids_answer.
  assert (L : length (flat_map (fun n => map answer (spec_edges parts types n)) inner)
              = length (flat_map (fun u => map (fun _ => u) (spec_edges parts types u)) inner)).
  { clear. induction inner as [|u us IH]; [reflexivity|]. cbn. now rewrite !app_length, !map_length, IH. }
  rewrite L, Nat.eqb_refl. cbn [negb]. rewrite combine_edges.
  set (edges := out_edges types inner).
  set (nodes := np_unique (src ++ flat_map (fun e => [fst e; snd e]) edges)).
  assert (Hin : forall x y, In (x, y) edges -> In x nodes /\ In y nodes).
  { intros x y H. unfold nodes. rewrite !unique_in, !in_app_iff, !in_flat_map.
    split; right; exists (x, y); cbn; auto. }
  assert (HS : forall x, In x src -> In x nodes) by (intros x H; unfold nodes; rewrite unique_in, in_app_iff; now left).
  assert (ND : NoDup nodes) by apply unique_nodup.
  assert (HW : forall x, In x nodes <-> within parts types src hops x).
  { intros x. unfold nodes. rewrite unique_in, in_app_iff, in_flat_map. split.
    - intros [H|((u & v) & He & H)]; [exists 0; split; [lia|now constructor]|]. apply out_edges_in in He. destruct He as [Hu Lk].
      apply HN in Hu. destruct Hu as (j & Hj & R). destruct H as [<-|[<-|[]]]; cbn.
      + exists j. split; [lia|assumption].
      + exists (S j). split; [lia|]. econstructor; eassumption.
    - intros (j & Hj & R). destruct R as [y H|k u y R Lk]; [now left|]. right. exists (u, y). split; [|cbn; auto].
      apply out_edges_in. split; [|assumption]. apply HN. exists k. split; [lia|assumption]. }
  set (ix := fun x => position x nodes).
  set (eidx := map (fun e : Z * Z => (ix (fst e), ix (snd e))) edges).
  assert (EB : forall i j, In (i, j) eidx -> i < length nodes /\ j < length nodes).
  { intros i j H. apply in_map_iff in H. destruct H as ((x, y) & He & H). injection He as <- <-.
    destruct (Hin _ _ H). split; now apply position_lt. }
  assert (EI : forall i j, i < length nodes -> j < length nodes -> (In (i, j) eidx <-> arc types inner nodes i j)).
  { intros i j Hi Hj. unfold arc. rewrite <- out_edges_in. fold edges. unfold eidx. rewrite in_map_iff. split.
    - intros ((x, y) & He & H). cbn in He. injection He as <- <-. destruct (Hin _ _ H).
      unfold at_. cbn. unfold ix. now rewrite !position_nth by assumption.
    - intros H. exists (at_ nodes i, at_ nodes j). split; [|assumption]. cbn. unfold ix, at_. now rewrite !nth_position. }
  assert (SI : map (at_ nodes) (map ix src) = src).
  { rewrite map_map. rewrite <- (map_id src) at 2. apply map_ext_in. intros x Hx. unfold at_, ix. apply position_nth. auto. }
  destruct return_edges.
  - eexists nodes, (Edges _), (map ix src), inner. split; [reflexivity|].
    split; [apply make_sorted_sorted|]. split; [assumption|]. split; [assumption|].
    split; [apply make_sorted_sorted|]. split; [assumption|]. split; [reflexivity|].
    fold eidx. set (e1 := if undirected then eidx ++ map (fun e => (snd e, fst e)) eidx else eidx).
    set (e2 := if self_loop then e1 ++ map (fun i => (i, i)) (seq 0 (length nodes)) else e1).
    assert (I1 : forall i j, In (i, j) e1 <-> In (i, j) eidx \/ (undirected = true /\ In (j, i) eidx)).
    { intros i j. unfold e1. destruct undirected; [|intuition congruence]. rewrite in_app_iff, in_map_iff. split.
      - intros [H|((x, y) & He & H)]; [now left|]. right. split; [reflexivity|]. cbn in He. congruence.
      - intros [H|[_ H]]; [now left|]. right. now exists (j, i). }
    assert (I2 : forall i j, In (i, j) e2 <-> In (i, j) e1 \/ (self_loop = true /\ i = j /\ i < length nodes)).
    { intros i j. unfold e2. destruct self_loop; [|intuition congruence]. rewrite in_app_iff, in_map_iff. split.
      - intros [H|(k & He & H)]; [now left|]. right. apply in_seq in H. assert (k = i /\ k = j) by (split; congruence). lia.
      - intros [H|(_ & <- & H)]; [now left|]. right. exists i. split; [reflexivity|]. apply in_seq. lia. }
    assert (B2 : forall i j, In (i, j) e2 -> i < length nodes /\ j < length nodes).
    { intros i j H. apply I2 in H. destruct H as [H|(_ & <- & H)]; [|auto]. apply I1 in H.
      destruct H as [H|[_ H]]; apply EB in H; tauto. }
    destruct (self_loop || undirected) eqn:SU.
    + split; [intros i j H; apply (proj1 (unique_pairs_in _ _)) in H; exact (B2 i j H)|].
      split; [apply unique_pairs_nodup|]. intros i j Hi Hj. rewrite unique_pairs_in. etransitivity; [exact (I2 i j)|]. rewrite I1. unfold wanted.
      rewrite (EI i j Hi Hj), (EI j i Hj Hi). intuition.
    + split; [assumption|]. apply orb_false_elim in SU. destruct SU as [-> ->]. unfold e2, e1, eidx.
      rewrite map_map. rewrite <- (map_id (out_edges types inner)). fold edges. apply map_ext_in.
      intros (x, y) H. destruct (Hin _ _ H). cbn. unfold at_, ix. rewrite !position_nth by assumption. reflexivity.
  - eexists nodes, (Matrix _), (map ix src), inner. split; [reflexivity|].
    split; [apply make_sorted_sorted|]. split; [assumption|]. split; [assumption|].
    split; [apply make_sorted_sorted|]. split; [assumption|]. split; [reflexivity|].
    fold eidx. set (n := length nodes) in *.
    destruct (ones_get n eidx (repeat (repeat 0 n) n) (zeros_square n)) as [S1 G1].
    { intros (i, j) H. now apply EB. }
    set (m1 := fold_left (fun m e => mset (fst e) (snd e) 1 m) eidx (repeat (repeat 0 n) n)) in *.
    set (m2 := if undirected then fold_left (fun m e => mset (snd e) (fst e) 1 m) eidx m1 else m1).
    assert (X : square n m2 /\ forall a b, mget m2 a b
                = if existsb (pair_eqb (a, b)) eidx || (undirected && existsb (pair_eqb (b, a)) eidx) then 1 else 0).
    { unfold m2. destruct undirected.
      - rewrite swap_fold. destruct (ones_get n (map (fun e => (snd e, fst e)) eidx) m1 S1) as [S2 G2].
        + intros (i, j) H. apply in_map_iff in H. destruct H as ((x, y) & He & H). cbn in He. injection He as <- <-.
          cbn. apply EB in H. tauto.
        + split; [assumption|]. intros a b. rewrite G2, G1, zeros_get.
          assert (XE : existsb (pair_eqb (a, b)) (map (fun e => (snd e, fst e)) eidx) = existsb (pair_eqb (b, a)) eidx).
          { clear. induction eidx as [|(x, y) l IH]; [reflexivity|]. cbn. rewrite IH. f_equal.
            unfold pair_eqb. cbn. apply andb_comm. }
          rewrite XE. cbn. now destruct (existsb (pair_eqb (b, a)) eidx), (existsb (pair_eqb (a, b)) eidx).
      - split; [assumption|]. intros a b. rewrite G1, zeros_get. cbn. now rewrite orb_false_r. }
    destruct X as [S2 G2].
    assert (XI : forall i j, existsb (pair_eqb (i, j)) eidx = true <-> In (i, j) eidx).
    { intros i j. rewrite existsb_exists. split.
      - intros ((x, y) & H & He). unfold pair_eqb in He. cbn in He.
        assert (i = x /\ j = y) as [-> ->] by lia. assumption.
      - intros H. exists (i, j). split; [assumption|]. unfold pair_eqb. cbn. now rewrite !Nat.eqb_refl. }
    assert (XW : forall i j, i < n -> j < n ->
       (existsb (pair_eqb (i, j)) eidx || (undirected && existsb (pair_eqb (j, i)) eidx) = true
        <-> wanted types inner nodes undirected i j)).
    { intros i j Hi Hj. unfold wanted. rewrite <- (EI i j Hi Hj), <- (EI j i Hj Hi).
      rewrite orb_true_iff, andb_true_iff, !XI. tauto. }
    destruct self_loop.
    + destruct (eye_get n n m2 S2 (le_n n)) as [S3 G3]. split; [assumption|]. intros i j Hi Hj.
      eexists. split; [apply XW; assumption|]. rewrite G3, G2. cbn [andb].
      destruct (Nat.ltb_spec i n); [|lia]. now rewrite andb_true_r.
    + split; [assumption|]. intros i j Hi Hj. eexists. split; [apply XW; assumption|]. rewrite G2. cbn [andb]. lia.
Qed.
End Converted.

(** ** get_neighbor *)

Lemma combine_map2 {A B A' B'} (f : A -> A') (h : B -> B') a b :
  map (fun p => (f (fst p), h (snd p))) (combine a b) = combine (map f a) (map h b).
Proof. revert b. induction a as [|x a IH]; intros [|y b]; cbn; [reflexivity..|]. now rewrite IH. Qed.
Lemma firstn_app_exact {A} n (a b : list A) : length a = n -> firstn n (a ++ b) = a.
Proof. intros <-. rewrite firstn_app, firstn_all, Nat.sub_diag, firstn_O. apply app_nil_r. Qed.

(** The entries of a sparse matrix mapped back to (node, neighbor, weight). *)
Definition triples (cur next : list Z) (a : sparse) : list (Z * Z * N) :=
  map (fun p => ((at_ cur (fst (fst p)), at_ next (snd (fst p))), snd p))
      (combine (firstn (s_len a) (s_indices a)) (firstn (s_len a) (s_values a))).
Definition edges_from (parts : list (list (list record))) (types cur : list Z) : list (Z * Z * N) :=
  flat_map (fun n => map (fun e => (n, e_dst e, e_w e)) (spec_edges parts types n)) cur.
(** One hop from the node list [p] with [c] real nodes to [q] with [d] real nodes. *)
Definition hop_ok parts (max : nat) (types p : list Z) (c : nat) (q : list Z) (d : nat) (a : sparse) : Prop :=
  triples (firstn c p) (firstn d q) a = edges_from parts types (firstn c p) /\
  StronglySorted Z.lt (firstn d q) /\ d <= length q /\ length q = max * length p /\
  (forall x, In x (firstn d q) <-> exists n, In n (firstn c p) /\ linked parts types n x) /\
  s_shape a = (length (firstn c p), d) /\ s_len a = length (edges_from parts types (firstn c p)) /\
  length (s_indices a) = max * length p /\ length (s_values a) = max * length p /\
  Forall (fun ij => fst ij < length (firstn c p) /\ snd ij < d) (firstn (s_len a) (s_indices a)) /\
  skipn (s_len a) (s_indices a) = repeat (0, 0) (max * length p - s_len a) /\
  skipn (s_len a) (s_values a) = repeat 0%N (max * length p - s_len a) /\
  skipn d q = repeat 0%Z (max * length p - d).

Section Multihop.
Variables fadd fsub : N -> N -> N.
Variable wval : N -> Z.
Variables (wm : option Z) (parts : list (list (list record))) (g : graph).
Hypothesis C : converted fadd wval wm parts g.

Lemma rows_sources types rest pre :
  map (at_ (pre ++ rest))
      (map fst (flat_map (fun x => map (fun k => (fst x, k)) (seq 0 (snd x)))
         (combine (seq (length pre) (length rest)) (map (fun n => length (spec_edges parts types n)) rest))))
  = flat_map (fun n => map (fun _ => n) (spec_edges parts types n)) rest.
Proof.
  revert pre. induction rest as [|n rest IH]; intros pre; [reflexivity|].
  cbn [length seq map combine flat_map]. rewrite !map_app. f_equal.
  - rewrite map_map, map_map. cbn [fst snd]. unfold at_. rewrite app_nth2, Nat.sub_diag by lia. cbn [nth].
    generalize 0. induction (spec_edges parts types n) as [|e l IHl]; intros s; [reflexivity|]. cbn. now rewrite IHl.
  - specialize (IH (pre ++ [n])). rewrite app_length in IH. cbn [length] in IH. rewrite Nat.add_1_r, <- app_assoc in IH.
    exact IH.
Qed.
Lemma rows_bound types rest pre n :
  n = length (pre ++ rest) ->
  Forall (fun i => i < n)
    (map fst (flat_map (fun x => map (fun k => (fst x, k)) (seq 0 (snd x)))
         (combine (seq (length pre) (length rest)) (map (fun n => length (spec_edges parts types n)) rest)))).
Proof.
  intros ->. apply Forall_forall. intros i Hi. apply in_map_iff in Hi. destruct Hi as (p & <- & Hp).
  apply in_flat_map in Hp. destruct Hp as ((j, m) & Hj & Hp). apply in_map_iff in Hp. destruct Hp as (k & <- & _).
  cbn. apply in_combine_l in Hj. apply in_seq in Hj. rewrite app_length. lia.
Qed.
Lemma triple_rows types cur :
  combine (combine (flat_map (fun n => map (fun _ => n) (spec_edges parts types n)) cur)
                   (flat_map (fun n => map e_dst (spec_edges parts types n)) cur))
          (flat_map (fun n => map e_w (spec_edges parts types n)) cur) = edges_from parts types cur.
Proof.
  induction cur as [|n cur IH]; [reflexivity|]. unfold edges_from in *. cbn [flat_map]. rewrite <- IH.
  induction (spec_edges parts types n) as [|e l IHl]; [reflexivity|]. cbn [map app combine]. now rewrite IHl.
Qed.
Lemma weights_answer types nodes :
  map nb_weight (flat_map (fun n => map answer (spec_edges parts types n)) nodes)
  = flat_map (fun n => map e_w (spec_edges parts types n)) nodes.
Proof. induction nodes as [|n ns IH]; [reflexivity|]. cbn. rewrite map_app, IH, map_map. reflexivity. Qed.

Lemma hop_neighbors_spec types cur :
  guarded fadd fsub types parts ->
  exists indices,
    hop_neighbors fsub g cur types
    = Ok (flat_map (fun n => map e_dst (spec_edges parts types n)) cur,
          flat_map (fun n => map e_w (spec_edges parts types n)) cur, indices) /\
    map (at_ cur) (map fst indices) = flat_map (fun n => map (fun _ => n) (spec_edges parts types n)) cur /\
    Forall (fun i => i < length cur) (map fst indices).
Proof.
  intros G. unfold hop_neighbors. destruct cur as [|n cur]; [exists []; repeat split; constructor|].
  rewrite (ask fadd fsub wval wm parts g C types (n :: cur) G). cbn [bind].
  eexists. split; [rewrite ids_answer, weights_answer; reflexivity|]. rewrite map_length.
  split; [apply (rows_sources types (n :: cur) [])|].
  apply (rows_bound types (n :: cur) []). reflexivity.
Qed.

Lemma edges_from_length types cur :
  length (edges_from parts types cur) = length (flat_map (fun n => map e_dst (spec_edges parts types n)) cur).
Proof. unfold edges_from. induction cur as [|n cur IH]; [reflexivity|]. cbn. now rewrite !app_length, !map_length, IH. Qed.
Lemma sorted_firstn (l : list Z) n : StronglySorted Z.lt l -> StronglySorted Z.lt (firstn n l).
Proof.
  intros H. revert n. induction H as [|x l S IH F]; intros [|n]; cbn; constructor; auto.
  rewrite Forall_forall in *. intros y Hy. apply F. rewrite <- (firstn_skipn n l). apply in_or_app. now left.
Qed.
Lemma insert_length t l : length (insert_type t l) <= S (length l).
Proof. induction l as [|x l IH]; cbn; [lia|]. destruct (t <? x)%Z, (t =? x)%Z; cbn in *; lia. Qed.
Lemma unique_length l : length (np_unique l) <= length l.
Proof.
  induction l as [|x l IH]; [cbn; lia|]. unfold np_unique, make_sorted_list in *. cbn [fold_right length].
  pose proof (insert_length x (fold_right insert_type [] l)). lia.
Qed.

Lemma get_neighbor_hop_spec prev cnt types max :
  guarded fadd fsub types parts ->
  let n := length (edges_from parts types (firstn cnt prev)) in
  if max * length prev <? n then get_neighbor_hop fsub g prev cnt types max = Fail EFatal
  else exists q d a, get_neighbor_hop fsub g prev cnt types max = Ok (q, d, a) /\ hop_ok parts max types prev cnt q d a.
Proof.
  intros G. cbv zeta. unfold get_neighbor_hop. set (cur := firstn cnt prev).
  destruct (hop_neighbors_spec types cur G) as (indices & E & HM & HB). rewrite E. cbn [bind].
  set (values := flat_map (fun n => map e_dst (spec_edges parts types n)) cur) in *.
  set (ws := flat_map (fun n => map e_w (spec_edges parts types n)) cur) in *.
  set (next := np_unique values). set (idxs := map (fun x => position x next) values).
  set (pairs := combine (map fst indices) idxs).
  assert (LV : length values = length (edges_from parts types cur)) by (symmetry; apply edges_from_length).
  assert (LF : length (map fst indices) = length values).
  { apply (f_equal (@length Z)) in HM. rewrite map_length in HM. rewrite HM. unfold values. clear.
    induction cur as [|n cur IH]; [reflexivity|]. cbn. now rewrite !app_length, !map_length, IH. }
  assert (LI : length idxs = length values) by apply map_length.
  assert (LP : length pairs = length (edges_from parts types cur)).
  { unfold pairs. rewrite combine_length. lia. }
  assert (LW : length ws = length values).
  { unfold ws, values. clear. induction cur as [|n cur IH]; [reflexivity|]. cbn. now rewrite !app_length, !map_length, IH. }
  rewrite LP. set (n := length (edges_from parts types cur)) in *. set (size := max * length prev).
  destruct (Nat.ltb_spec size n) as [Hlt|Hge]; [reflexivity|].
  assert (LN : length next <= size) by (pose proof (unique_length values); unfold next; lia).
  do 3 eexists. split; [reflexivity|]. unfold hop_ok. fold cur. fold size.
  cbn [s_shape s_len s_indices s_values].
  rewrite (firstn_app_exact (length next) next) by reflexivity.
  assert (PI : map (at_ next) idxs = values).
  { unfold idxs. rewrite map_map. rewrite <- (map_id values) at 2. apply map_ext_in. intros x Hx. unfold at_.
    apply position_nth. unfold next. now apply unique_in. }
  split.
  { unfold triples. cbn [s_len s_indices s_values].
    rewrite (firstn_app_exact n pairs), (firstn_app_exact n ws) by lia.
    rewrite (combine_map2 (fun ij => (at_ cur (fst ij), at_ next (snd ij))) (fun w => w)).
    unfold pairs. rewrite combine_map2, map_id, HM, PI. apply triple_rows. }
  split; [apply make_sorted_sorted|].
  rewrite !app_length, !repeat_length.
  split; [lia|]. split; [lia|]. split.
  { intros x. unfold next. rewrite unique_in. unfold values. rewrite in_flat_map.
    split; intros (u & Hu & L); exists u; split; try assumption; now apply linked_spec. }
  split; [reflexivity|]. split; [reflexivity|]. split; [rewrite LP; lia|]. split; [lia|]. split.
  { rewrite (firstn_app_exact n pairs) by lia. apply Forall_forall. intros (i, j) H. unfold pairs in H. cbn.
    split.
    - apply in_combine_l in H. rewrite Forall_forall in HB. now apply HB.
    - apply in_combine_r in H. unfold idxs in H. apply in_map_iff in H. destruct H as (x & <- & Hx).
      apply position_lt. unfold next. now apply unique_in. }
  rewrite !skipn_app, (skipn_all2 pairs), (skipn_all2 ws), (skipn_all2 next) by lia.
  replace (n - length pairs) with 0 by lia. replace (n - length ws) with 0 by lia. rewrite Nat.sub_diag. cbn [skipn app]. rewrite ?LP. auto.
Qed.

Lemma get_neighbor_loop_spec max path prev cnt :
  (forall types, In types path -> guarded fadd fsub types parts) ->
  get_neighbor_loop fsub g prev cnt path max = Fail EFatal \/
  exists nl al,
    get_neighbor_loop fsub g prev cnt path max = Ok (nl, al) /\
    nth_error nl 0 = Some (prev, cnt) /\ length nl = S (length path) /\ length al = length path /\
    forall h types, nth_error path h = Some types ->
      exists p c q d a, nth_error nl h = Some (p, c) /\ nth_error nl (S h) = Some (q, d) /\
                        nth_error al h = Some a /\ hop_ok parts max types p c q d a.
Proof.
  revert prev cnt. induction path as [|T path IH]; intros prev cnt G.
  - right. exists [(prev, cnt)], []. repeat split. intros [|h] types H; discriminate.
  - cbn [get_neighbor_loop].
    pose proof (get_neighbor_hop_spec prev cnt T max (G T (or_introl eq_refl))) as H. cbv zeta in H.
    destruct (max * length prev <? length (edges_from parts T (firstn cnt prev))); [left; now rewrite H|].
    destruct H as (q & d & a & E & HO). rewrite E. cbn [bind].
    destruct (IH q d) as [F|(nl & al & F & H0 & H1 & H2 & HF)]; [intros; apply G; now right|left; now rewrite F|].
    rewrite F. cbn [bind fst snd]. right. do 2 eexists. split; [reflexivity|]. split; [reflexivity|].
    split; [cbn; lia|]. split; [cbn; lia|]. intros [|h] types Hh.
    + cbn in Hh. injection Hh as <-. exists prev, cnt, q, d, a. cbn. auto.
    + cbn in Hh. destruct (HF h types Hh) as (p' & c' & q' & d' & a' & A1 & A2 & A3 & A4).
      exists p', c', q', d', a'. cbn. auto.
Qed.
(** Enough room: no node has more than [max] matching edges. *)
Lemma get_neighbor_fits max path prev cnt :
  (forall types, In types path -> guarded fadd fsub types parts) ->
  (forall types n, In types path -> length (spec_edges parts types n) <= max) ->
  exists r, get_neighbor_loop fsub g prev cnt path max = Ok r.
Proof.
  revert prev cnt. induction path as [|T path IH]; intros prev cnt G M; [eexists; reflexivity|].
  cbn [get_neighbor_loop].
  pose proof (get_neighbor_hop_spec prev cnt T max (G T (or_introl eq_refl))) as H. cbv zeta in H.
  destruct (Nat.ltb_spec (max * length prev) (length (edges_from parts T (firstn cnt prev)))) as [K|K].
  - exfalso. assert (length (edges_from parts T (firstn cnt prev)) <= max * length (firstn cnt prev)).
    { clear -M. unfold edges_from. induction (firstn cnt prev) as [|n l IHl]; [cbn; lia|]. cbn [flat_map length].
      rewrite app_length, map_length. specialize (M T n (or_introl eq_refl)).
 nia. }
    rewrite firstn_length in H0. nia.
  - destruct H as (q & d & a & E & _). rewrite E. cbn [bind].
    destruct (IH q d) as (r & F); [intros; apply G; now right|intros; apply M; now right|]. rewrite F. eexists; reflexivity.
Qed.
End Multihop.

(** ** sample_fanout *)
(** Hop by hop: as many entries as asked for, and the j-th block belongs to the j-th entry of the
    hop before. *)
Fixpoint fanned {X} (id : X -> Z) (good : list Z -> Z -> X -> Prop) (prev : list Z) (path : list (list Z * nat)) (out : list (list X)) : Prop :=
  match path, out with
  | [], [] => True
  | (types, count) :: path', row :: out' =>
      length row = length prev * count /\
      (forall j n x, nth_error prev j = Some n -> In x (slice row (j * count) count) -> good types n x) /\
      fanned id good (map id row) path' out'
  | _, _ => False
  end.
Lemma skipn_skipn_add {A} (a b : nat) (l : list A) : skipn a (skipn b l) = skipn (b + a) l.
Proof. revert l. induction b; intros [|x l]; cbn; auto. now destruct a. Qed.
Lemma concat_block {A} (ls : list (list A)) c j l :
  Forall (fun l => length l = c) ls -> nth_error ls j = Some l -> slice (concat ls) (j * c) c = l.
Proof.
  revert j. induction ls as [|x ls IH]; intros [|j] F H; [discriminate..| |].
  - cbn in H. injection H as ->. apply Forall_inv in F. unfold slice. cbn. now apply firstn_app_exact.
  - cbn [nth_error] in H. pose proof (Forall_inv F) as Hx. apply Forall_inv_tail in F.
    rewrite <- (IH j F H). unfold slice. f_equal. cbn [concat]. rewrite skipn_app.
    rewrite skipn_all2 by (rewrite Hx; cbn; lia). cbn [app]. f_equal. rewrite Hx. cbn. lia.
Qed.
Lemma concat_block_length {A} (ls : list (list A)) c : Forall (fun l => length l = c) ls -> length (concat ls) = length ls * c.
Proof. induction 1 as [|l ls H _ IH]; [reflexivity|]. cbn. rewrite app_length, IH, H. reflexivity. Qed.

Lemma fanout_fanned {X} (id : X -> Z) (sample : list Z -> nat -> Z -> res (list X) -> Prop) (good : list Z -> Z -> X -> Prop) path :
  forall nodes,
  (forall types count n r, In (types, count) path -> sample types count n r ->
     exists l, r = Ok l /\ length l = count /\ forall x, In x l -> good types n x) ->
  forall out, fanout id sample nodes path out -> exists rows, out = Ok rows /\ fanned id good nodes path rows.
Proof.
  induction path as [|(types, count) path IH]; intros nodes HS out H.
  - cbn in H. subst. now exists [].
  - cbn in H. destruct H as (rs & HF & H).
    assert (exists ls, mapM (fun r => r) rs = Ok ls /\ length ls = length nodes /\ Forall (fun l => length l = count) ls /\
              forall j n l, nth_error nodes j = Some n -> nth_error ls j = Some l -> forall x, In x l -> good types n x) as (ls & E & HL & HC & HG).
    { assert (HS' := HS types count). clear -HF HS'. induction HF as [|n r ns rs H HF IH].
      - exists []. repeat split; [constructor|]. intros [|j]; discriminate.
      - destruct IH as (ls & E & HL & HC & HG). destruct (HS' n r (or_introl eq_refl) H) as (l & -> & Hl & Hx).
        exists (l :: ls). cbn. rewrite E. cbn. split; [reflexivity|]. split; [lia|]. split; [constructor; assumption|].
        intros [|j] n' l' H1 H2; cbn in H1, H2; [|now apply (HG j)].
        injection H1 as <-. injection H2 as <-. assumption. }
    rewrite E in H. destruct H as (rest & HR & ->).
    destruct (IH (map id (concat ls))) with (out := rest) as (rows & -> & HA); [intros; eapply HS; [right; eassumption|eassumption]|assumption|].
    exists (concat ls :: rows). split; [reflexivity|]. cbn. split; [rewrite concat_block_length with (c := count) by assumption; lia|].
    split; [|assumption]. intros j n x Hn Hx.
    destruct (nth_error ls j) as [l|] eqn:El.
    + rewrite (concat_block ls count j l HC El) in Hx. now apply (HG j n l).
    + exfalso. apply nth_error_None in El. assert (j < length nodes) by (apply nth_error_Some; congruence). lia.
Qed.
(** Number of entries of a hop. *)
Lemma fanned_length {X} (id : X -> Z) (good : list Z -> Z -> X -> Prop) path : forall prev rows,
  fanned id good prev path rows ->
  length rows = length path /\
  forall h row, nth_error rows h = Some row ->
    length row = fold_left Nat.mul (map snd (firstn (S h) path)) (length prev).
Proof.
  induction path as [|(types, count) path IH]; intros prev [|row rows] H; try easy.
  - split; [reflexivity|]. intros [|h]; discriminate.
  - cbn in H. destruct H as (HL & _ & HF). destruct (IH _ _ HF) as [I1 I2]. split; [cbn; lia|].
    intros [|h] r Hr; cbn in Hr.
    + injection Hr as <-. cbn. exact HL.
    + rewrite (I2 h r Hr). rewrite map_length, HL. reflexivity.
Qed.
