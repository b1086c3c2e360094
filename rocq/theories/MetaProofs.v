From Verif Require Import Base WriterModel GraphSpec WriterProofs ConvertProofs MetaModel MetaSpec.
From Coq Require Import Permutation Sorting.Sorted ZifyBool ZifyNat ZifyN.
Local Open Scope nat_scope.

(** * Counters of one writer *)

Lemma py_add_app {A} (add : A -> A) a x b i :
  i = Z.of_nat (length a) -> py_add add (a ++ x :: b) i = Ok (a ++ add x :: b).
Proof.
  intros ->. unfold py_add. rewrite app_length. cbn [length].
  replace (Z.of_nat (length a) <? 0)%Z with false by lia.
  replace ((Z.of_nat (length a) <? 0)%Z || (Z.of_nat (length a + S (length b)) <=? Z.of_nat (length a))%Z)
    with false by lia.
  rewrite Nat2Z.id. rewrite nth_error_app2 by lia. rewrite Nat.sub_diag. cbn [nth_error].
  rewrite firstn_app, firstn_all, Nat.sub_diag. cbn [firstn]. rewrite app_nil_r.
  rewrite skipn_app. rewrite skipn_all2 by lia.
  replace (S (length a) - length a) with 1 by lia. reflexivity.
Qed.

Lemma map_seq_split {A} (f : nat -> A) n t :
  t < n -> map f (seq 0 n) = map f (seq 0 t) ++ f t :: map f (seq (S t) (n - S t)).
Proof.
  intro H. replace n with (t + S (n - S t)) at 1 by lia.
  rewrite seq_app, map_app. reflexivity.
Qed.

Lemma map_ext_seq {A} (f g : nat -> A) a n :
  (forall t, a <= t < a + n -> f t = g t) -> map f (seq a n) = map g (seq a n).
Proof. intro H. apply map_ext_in. intros t Ht. apply in_seq in Ht. apply H. lia. Qed.

Lemma grow_add {A} (d : A) (add : A -> A) (f : nat -> A) n typ :
  (0 <= typ)%Z -> (forall t, n <= t -> f t = d) ->
  py_add add (grow d (map f (seq 0 n)) typ) typ =
  Ok (map (fun t => if Z.eqb typ (Z.of_nat t) then add (f t) else f t)
          (seq 0 (Nat.max n (Z.to_nat (typ + 1))))).
Proof.
  intros Ht Hd. unfold grow. rewrite map_length, seq_length.
  set (m := Nat.max n (Z.to_nat (typ + 1))).
  replace (map f (seq 0 n) ++ repeat d (Z.to_nat (typ + 1) - n)) with (map f (seq 0 m)).
  2:{ replace m with (n + (Z.to_nat (typ + 1) - n)) by lia.
      rewrite seq_app, map_app. f_equal. cbn [plus].
      generalize (Z.to_nat (typ + 1) - n). intro k.
      assert (H : forall a k, n <= a -> map f (seq a k) = repeat d k).
      { clear k. intros a k. revert a. induction k as [|k IH]; intros a Ha; [reflexivity|].
        cbn [seq map repeat]. rewrite Hd, IH by lia. reflexivity. }
      apply H. lia. }
  set (t := Z.to_nat typ).
  rewrite (map_seq_split f m t) by (unfold t, m; lia).
  rewrite py_add_app by (rewrite map_length, seq_length; unfold t; lia).
  f_equal.
  rewrite (map_seq_split (fun t => if Z.eqb typ (Z.of_nat t) then add (f t) else f t) m t) by (unfold t, m; lia).
  f_equal.
  - apply map_ext_seq. intros u Hu. replace (Z.eqb typ (Z.of_nat u)) with false by lia. reflexivity.
  - replace (Z.eqb typ (Z.of_nat t)) with true by lia. f_equal.
    apply map_ext_seq. intros u Hu. replace (Z.eqb typ (Z.of_nat u)) with false by lia. reflexivity.
Qed.

Definition typ_ok (r : record) : Prop := (0 <= rtyp r)%Z.

Record Tally (wval : N -> Z) (rs : list record) (s : wstate) : Prop := {
  t_nodes : node_count s = length (nodes_in rs);
  t_edges : edge_count s = length (edges_in rs);
  t_ntc : node_type_count s = count_table (types_in (nodes_in rs)) (nodes_in rs);
  t_etc : edge_type_count s = count_table (types_in (edges_in rs)) (edges_in rs);
  t_nw : node_weight s = weight_table wval (types_in (nodes_in rs)) (nodes_in rs);
  t_ew : edge_weight s = weight_table wval (types_in (edges_in rs)) (edges_in rs);
  t_nf : node_feature_count s = feats_in (nodes_in rs);
  t_ef : edge_feature_count s = feats_in (edges_in rs)
}.

Lemma types_in_app a b : types_in (a ++ b) = Nat.max (types_in a) (types_in b).
Proof. induction a as [|x a IH]; cbn; [reflexivity|]. fold (types_in (a ++ b)) (types_in a). rewrite IH. lia. Qed.
Lemma feats_in_app a b : feats_in (a ++ b) = Nat.max (feats_in a) (feats_in b).
Proof. induction a as [|x a IH]; cbn; [reflexivity|]. fold (feats_in (a ++ b)) (feats_in a). rewrite IH. lia. Qed.
Lemma weight_in_app w a b : weight_in w (a ++ b) = (weight_in w a + weight_in w b)%Z.
Proof. induction a as [|x a IH]; cbn; [reflexivity|]. fold (weight_in w (a ++ b)) (weight_in w a). rewrite IH. lia. Qed.
Lemma nodes_in_app a b : nodes_in (a ++ b) = nodes_in a ++ nodes_in b.
Proof. apply filter_app. Qed.
Lemma edges_in_app a b : edges_in (a ++ b) = edges_in a ++ edges_in b.
Proof. apply filter_app. Qed.
Lemma of_type_app t a b : of_type t (a ++ b) = of_type t a ++ of_type t b.
Proof. apply filter_app. Qed.

Lemma of_type_one t r : of_type t [r] = if Z.eqb (rtyp r) (Z.of_nat t) then [r] else [].
Proof. reflexivity. Qed.

Lemma of_type_beyond t rs : Forall typ_ok rs -> types_in rs <= t -> of_type t rs = [].
Proof.
  intros H. induction H as [|r rs Hr H IH]; intro Ht; [reflexivity|].
  cbn in Ht. fold (types_in rs) in Ht. unfold of_type in *. cbn [filter].
  unfold typ_ok in Hr. replace (Z.eqb (rtyp r) (Z.of_nat t)) with false by lia.
  apply IH. lia.
Qed.

Lemma count_table_snoc rs r :
  Forall typ_ok rs -> typ_ok r ->
  py_add S (grow 0 (count_table (types_in rs) rs) (rtyp r)) (rtyp r)
  = Ok (count_table (types_in (rs ++ [r])) (rs ++ [r])).
Proof.
  intros H Hr. unfold count_table.
  rewrite (grow_add 0 S (fun t => length (of_type t rs))) by
    (try assumption; intros t Ht; rewrite of_type_beyond; auto).
  rewrite types_in_app. cbn [types_in fold_right]. rewrite Nat.max_0_r.
  f_equal. apply map_ext. intro t. rewrite of_type_app, app_length.
  rewrite of_type_one. destruct (Z.eqb_spec (rtyp r) (Z.of_nat t)); cbn [length weight_in fold_right]; lia.
Qed.

Lemma weight_table_snoc w rs r :
  Forall typ_ok rs -> typ_ok r ->
  py_add (fun x => x + w (rweight r))%Z (grow 0%Z (weight_table w (types_in rs) rs) (rtyp r)) (rtyp r)
  = Ok (weight_table w (types_in (rs ++ [r])) (rs ++ [r])).
Proof.
  intros H Hr. unfold weight_table.
  rewrite (grow_add 0%Z _ (fun t => weight_in w (of_type t rs))) by
    (try assumption; intros t Ht; rewrite of_type_beyond; auto).
  rewrite types_in_app. cbn [types_in fold_right]. rewrite Nat.max_0_r.
  f_equal. apply map_ext. intro t. rewrite of_type_app, weight_in_app.
  rewrite of_type_one. destruct (Z.eqb_spec (rtyp r) (Z.of_nat t)); cbn [length weight_in fold_right]; lia.
Qed.

Lemma add_node_tally w rs id typ feats s s' :
  Tally w rs s -> add_node id typ feats s = Ok s' ->
  node_count s' = node_count s /\ edge_count s' = edge_count s /\
  node_type_count s' = node_type_count s /\ edge_type_count s' = edge_type_count s /\
  node_weight s' = node_weight s /\ edge_weight s' = edge_weight s /\
  node_feature_count s' = Nat.max (node_feature_count s) (length feats) /\
  edge_feature_count s' = edge_feature_count s.
Proof.
  intros _ H. unfold add_node in H.
  apply bind_ok in H as (a & _ & H). apply bind_ok in H as (t & _ & H).
  destruct (write_features feats (nfi s) (nfd s) (nfd_pos s)) as [[? ?] ?].
  injection H as <-. cbn. repeat split.
Qed.

Lemma add_edge_tally tmp dst typ wt feats c r s s' :
  add_edge tmp dst typ wt feats c r s = Ok s' ->
  node_count s' = node_count s /\ edge_count s' = edge_count s /\
  node_type_count s' = node_type_count s /\ edge_type_count s' = edge_type_count s /\
  node_weight s' = node_weight s /\ edge_weight s' = edge_weight s /\
  node_feature_count s' = node_feature_count s /\
  edge_feature_count s' = Nat.max (edge_feature_count s) (length feats).
Proof.
  intro H. unfold add_edge in H.
  apply bind_ok in H as (a & _ & H). apply bind_ok in H as (t & _ & H).
  apply bind_ok in H as (ts & _ & H).
  destruct (write_features feats (efi s) (efd s) (efd_pos s)) as [[? ?] ?].
  injection H as <-. cbn. repeat split.
Qed.

Lemma filter_forall {A} (P : A -> Prop) f (l : list A) : Forall P l -> Forall P (filter f l).
Proof. intro H. apply Forall_forall. intros x Hx. apply filter_In in Hx as [Hx _]. rewrite Forall_forall in H. auto. Qed.

Lemma add_record_tally w tmp rs r nc nr s nc' nr' s' :
  Forall typ_ok rs -> typ_ok r -> Tally w rs s ->
  add_record w tmp r nc nr s = Ok (nc', nr', s') -> Tally w (rs ++ [r]) s'.
Proof.
  intros Hrs Hr T H. unfold add_record in H.
  assert (Hn : Forall typ_ok (nodes_in rs)) by (now apply filter_forall).
  assert (He : Forall typ_ok (edges_in rs)) by (now apply filter_forall).
  destruct (Z.eqb_spec (rdst r) (-1)) as [Hd|Hd].
  - assert (Ni : nodes_in [r] = [r]) by (unfold nodes_in, is_node; cbn; now rewrite Hd).
    assert (Ei : edges_in [r] = []) by (unfold edges_in, is_node; cbn; now rewrite Hd).
    apply bind_ok in H as (s1 & H1 & H). apply (add_node_tally w rs) in H1; [|assumption].
    destruct H1 as (A1 & A2 & A3 & A4 & A5 & A6 & A7 & A8).
    destruct T as [T1 T2 T3 T4 T5 T6 T7 T8].
    rewrite T5 in H. rewrite weight_table_snoc in H by assumption. cbn [bind] in H.
    rewrite T3 in H. rewrite count_table_snoc in H by assumption. cbn [bind] in H.
    injection H as <- <- <-.
    constructor; cbn [node_count edge_count node_type_count edge_type_count node_weight edge_weight
      WriterModel.node_feature_count WriterModel.edge_feature_count];
      rewrite ?nodes_in_app, ?edges_in_app, ?Ni, ?Ei, ?app_nil_r, ?app_length, ?feats_in_app;
      cbn [length feats_in fold_right]; try congruence; lia.
  - assert (Ni : nodes_in [r] = []).
    { unfold nodes_in, is_node; cbn. replace (rdst r =? -1)%Z with false by lia. reflexivity. }
    assert (Ei : edges_in [r] = [r]).
    { unfold edges_in, is_node; cbn. replace (rdst r =? -1)%Z with false by lia. reflexivity. }
    apply bind_ok in H as (s1 & H1 & H).
    assert (T1 : Tally w rs s1).
    { destruct (match prev_node s with Some p => (rsrc r =? p)%Z | None => false end).
      - injection H1 as <-. assumption.
      - apply bind_ok in H1 as (s0 & H0 & H1). injection H1 as <-.
        apply (add_node_tally w rs) in H0; [|assumption].
        destruct H0 as (A1 & A2 & A3 & A4 & A5 & A6 & A7 & A8). destruct T.
        constructor; cbn [node_count edge_count node_type_count edge_type_count node_weight edge_weight
          WriterModel.node_feature_count WriterModel.edge_feature_count] in *; try congruence.
        cbn [length] in A7. lia. }
    clear T H1.
    destruct (match prev_type s1 with Some p => (rtyp r <? p)%Z | None => false end); [discriminate|].
    destruct (match rcreated r with Some c => (c <? nc)%Z | None => false end); [discriminate|].
    destruct (match rremoved r with Some d => negb (nr =? -1)%Z && (nr <? d)%Z | None => false end); [discriminate|].
    apply bind_ok in H as (s2 & H2 & H). apply add_edge_tally in H2.
    destruct H2 as (A1 & A2 & A3 & A4 & A5 & A6 & A7 & A8). destruct T1 as [T1 T2 T3 T4 T5 T6 T7 T8].
    rewrite T6 in H. rewrite weight_table_snoc in H by assumption. cbn [bind] in H.
    rewrite T4 in H. rewrite count_table_snoc in H by assumption. cbn [bind] in H.
    injection H as <- <- <-.
    constructor; cbn [node_count edge_count node_type_count edge_type_count node_weight edge_weight
      WriterModel.node_feature_count WriterModel.edge_feature_count];
      rewrite ?nodes_in_app, ?edges_in_app, ?Ni, ?Ei, ?app_nil_r, ?app_length, ?feats_in_app;
      cbn [length feats_in fold_right]; try congruence; lia.
Qed.

Lemma add_records_tally w tmp l : forall rs nc nr s s',
  Forall typ_ok rs -> Forall typ_ok l -> Tally w rs s ->
  add_records w tmp l nc nr s = Ok s' -> Tally w (rs ++ l) s'.
Proof.
  induction l as [|r l IH]; intros rs nc nr s s' Hrs Hl T H.
  - injection H as <-. now rewrite app_nil_r.
  - cbn [add_records] in H. apply bind_ok in H as ([[nc' nr'] s1] & H1 & H).
    apply Forall_cons_iff in Hl as [Hr Hl].
    apply (add_record_tally w tmp rs) in H1; auto.
    replace (rs ++ r :: l) with ((rs ++ [r]) ++ l) by (now rewrite <- app_assoc).
    eapply IH; [| |exact H1|exact H]; auto. apply Forall_app; auto.
Qed.

Lemma add_batches_tally w tmp bs : forall rs s s',
  Forall typ_ok rs -> Forall typ_ok (concat bs) -> Tally w rs s ->
  add_batches w tmp bs s = Ok s' -> Tally w (rs ++ concat bs) s'.
Proof.
  induction bs as [|b bs IH]; intros rs s s' Hrs Hl T H.
  - injection H as <-. cbn. now rewrite app_nil_r.
  - cbn [add_batches] in H. apply bind_ok in H as (s1 & H1 & H).
    cbn [concat] in *. apply Forall_app in Hl as [Hb Hl].
    apply (add_records_tally w tmp b rs) in H1; auto.
    rewrite app_assoc. eapply IH; [| |exact H1|exact H]; auto. apply Forall_app; auto.
Qed.

Lemma write_partition_tally w wm bs s :
  Forall typ_ok (concat bs) -> write_partition w wm bs = Ok s -> Tally w (concat bs) s.
Proof.
  intros H Hs. unfold write_partition in Hs. apply bind_ok in Hs as (s1 & H1 & Hs). injection Hs as <-.
  assert (T : Tally w ([] ++ concat bs) s1).
  { eapply add_batches_tally; [constructor|exact H| |exact H1]. constructor; reflexivity. }
  destruct T. constructor; assumption.
Qed.

(** * Dispatching *)

Lemma send_nth {L} (qs : list (list L)) i x qs' :
  send qs i x = Ok qs' ->
  length qs' = length qs /\ i < length qs /\
  forall j, nth j qs' [] = if j =? i then nth j qs [] ++ [x] else nth j qs [].
Proof.
  unfold send. destruct (nth_error qs i) as [q|] eqn:E; [|discriminate]. intro H.
  assert (H' : qs' = firstn i qs ++ (q ++ [x]) :: skipn (S i) qs) by congruence. subst qs'. clear H.
  assert (Hi : i < length qs) by (apply nth_error_Some; congruence).
  assert (Hq : nth i qs [] = q) by (now apply nth_error_nth).
  assert (Hs : qs = firstn i qs ++ q :: skipn (S i) qs).
  { clear - E. revert i E. induction qs as [|a qs IH]; intros [|i] E; try discriminate.
    - injection E as ->. reflexivity.
    - cbn. f_equal. apply IH. exact E. }
  assert (Hl : length (firstn i qs) = i) by (rewrite firstn_length; lia).
  split; [|split; [assumption|]].
  - rewrite app_length, firstn_length. cbn [length]. rewrite skipn_length. lia.
  - intro j. destruct (Nat.eqb_spec j i) as [->|Hj].
    + rewrite Hq. rewrite app_nth2 by lia. rewrite Hl, Nat.sub_diag. reflexivity.
    + transitivity (nth j (firstn i qs ++ q :: skipn (S i) qs) []); [|now rewrite <- Hs].
      destruct (Nat.lt_ge_cases j i).
      * rewrite !app_nth1 by lia. reflexivity.
      * rewrite !app_nth2 by lia. rewrite Hl. destruct (j - i) as [|k] eqn:Ek; [lia|]. reflexivity.
Qed.

Lemma share_snoc {L} n i (lines : list L) x :
  share n i (lines ++ [x]) =
  if length lines mod n =? i then share n i lines ++ [x] else share n i lines.
Proof.
  unfold share. rewrite app_length. cbn [length]. rewrite Nat.add_1_r, seq_S.
  rewrite combine_app by (now rewrite seq_length). cbn [combine plus].
  rewrite filter_app, map_app. cbn [filter fst].
  destruct (length lines mod n =? i); cbn; [reflexivity|]. apply app_nil_r.
Qed.

Lemma pipe_queues {L} n (lines : list L) : forall done s s',
  fst s = length done -> length (snd s) = n ->
  (forall i, i < n -> nth i (snd s) [] = share n i done) ->
  dispatch_all (pipe_dispatch n) lines s = Ok s' ->
  length (snd s') = n /\ forall i, i < n -> nth i (snd s') [] = share n i (done ++ lines).
Proof.
  induction lines as [|x lines IH]; intros done s s' Hc Hl Hq H.
  - injection H as <-. rewrite app_nil_r. auto.
  - cbn [dispatch_all] in H. apply bind_ok in H as (s1 & H1 & H).
    unfold pipe_dispatch in H1. destruct n as [|n]; [discriminate|].
    apply bind_ok in H1 as (qs & H1 & H2). injection H2 as <-.
    apply send_nth in H1 as (Hl' & Hi & Hn).
    replace (done ++ x :: lines) with ((done ++ [x]) ++ lines) by (now rewrite <- app_assoc).
    eapply IH; [| | |exact H].
    + cbn [fst]. rewrite app_length. cbn. lia.
    + cbn [snd]. congruence.
    + cbn [snd]. intros i Hi'. rewrite Hn, share_snoc, Hc, Nat.eqb_sym.
      rewrite (Hq i Hi'). destruct (length done mod S n =? i); reflexivity.
Qed.

Lemma pipe_dispatch_total {L} n (lines : list L) : 0 < n -> forall s,
  length (snd s) = n -> exists s', dispatch_all (pipe_dispatch n) lines s = Ok s'.
Proof.
  intros Hn. induction lines as [|x lines IH]; intros s Hl; [eexists; reflexivity|].
  cbn [dispatch_all]. unfold pipe_dispatch at 1. destruct n as [|n]; [lia|].
  unfold send. destruct (nth_error (snd s) (fst s mod S n)) as [q|] eqn:E.
  - cbn [bind]. apply IH. cbn [snd]. rewrite !app_length, firstn_length. cbn [length].
    pose proof (Nat.mod_upper_bound (fst s) (S n)). rewrite skipn_length. lia.
  - apply nth_error_None in E. pose proof (Nat.mod_upper_bound (fst s) (S n)). lia.
Qed.

Lemma list_nth_ext {A} (d : A) (l l' : list A) :
  length l = length l' -> (forall i, i < length l -> nth i l d = nth i l' d) -> l = l'.
Proof. intros. eapply nth_ext; eauto. Qed.

Lemma pipe_workers_spec {L} offset n (lines : list L) ws :
  pipe_workers offset n lines = Ok ws ->
  ws = map (fun i => (offset + i, share n i lines)) (seq 0 n).
Proof.
  unfold pipe_workers. intro H. apply bind_ok in H as (s & H1 & H). injection H as <-.
  apply (pipe_queues n lines []) in H1.
  - destruct H1 as [Hl Hq]. cbn [app] in Hq.
    replace (snd s) with (map (fun i => share n i lines) (seq 0 n)).
    + clear.
      assert (G : forall n' a offset, combine (seq (offset + a) n') (map (fun i => share n i lines) (seq a n'))
                 = map (fun i => (offset + i, share n i lines)) (seq a n')).
      { induction n' as [|n' IH]; intros a o; [reflexivity|]. cbn [seq map combine]. f_equal.
        rewrite <- IH. f_equal. f_equal. lia. }
      rewrite <- G. now rewrite Nat.add_0_r.
    + apply (list_nth_ext []); rewrite map_length, seq_length; [congruence|].
      intros i Hi. rewrite (Hq i Hi). rewrite (nth_indep _ [] (share n 0 lines)) by (rewrite map_length, seq_length; lia).
      rewrite (map_nth (fun i => share n i lines)). now rewrite seq_nth by lia.
  - reflexivity.
  - apply repeat_length.
  - intros i Hi. cbn [snd]. now rewrite nth_repeat.
Qed.

(** Every line goes to exactly one worker. *)
Lemma perm_class {A} (f : A -> nat) n (l : list A) :
  (forall x, In x l -> f x < n) ->
  Permutation (concat (map (fun i => filter (fun x => f x =? i) l) (seq 0 n))) l.
Proof.
  intro H. induction l as [|x l IH].
  - replace (map _ (seq 0 n)) with (repeat (@nil A) n).
    + clear. induction n; cbn; auto.
    + clear. generalize 0. induction n as [|n IHn]; intro a; [reflexivity|]. cbn. f_equal. apply IHn.
  - assert (Hx : f x < n) by (apply H; now left).
    rewrite (map_seq_split _ n (f x) Hx).
    etransitivity; [|apply perm_skip; apply IH; intros; apply H; now right].
    rewrite (map_seq_split (fun i => filter (fun x => f x =? i) l) n (f x) Hx).
    rewrite !concat_app. cbn [concat].
    cbn [filter]. rewrite Nat.eqb_refl.
    replace (map (fun i => if f x =? i then x :: filter (fun x => f x =? i) l else filter (fun x => f x =? i) l) (seq 0 (f x)))
      with (map (fun i => filter (fun x => f x =? i) l) (seq 0 (f x))).
    2:{ apply map_ext_seq. intros i Hi. replace (f x =? i) with false by lia. reflexivity. }
    replace (map (fun i => if f x =? i then x :: filter (fun x => f x =? i) l else filter (fun x => f x =? i) l) (seq (S (f x)) (n - S (f x))))
      with (map (fun i => filter (fun x => f x =? i) l) (seq (S (f x)) (n - S (f x)))).
    2:{ apply map_ext_seq. intros i Hi. replace (f x =? i) with false by lia. reflexivity. }
    cbn [app]. symmetry. apply Permutation_middle.
Qed.

Lemma shares_perm {L} n (lines : list L) : 0 < n ->
  Permutation (concat (map (fun i => share n i lines) (seq 0 n))) lines.
Proof.
  intro Hn. unfold share.
  set (pl := combine (seq 0 (length lines)) lines).
  assert (Hp : map snd pl = lines).
  { unfold pl. generalize 0. clear. induction lines as [|x l IH]; intro a; [reflexivity|].
    cbn. f_equal. apply IH. }
  transitivity (map snd pl); [|now rewrite Hp].
  rewrite <- (map_map (fun i => filter (fun p : nat * L => fst p mod n =? i) pl) (map snd)).
  rewrite <- concat_map. apply Permutation_map.
  apply (perm_class (fun p : nat * L => fst p mod n)).
  intros x _. apply Nat.mod_upper_bound. lia.
Qed.

(** * Joining *)

Definition max_of (l : list nat) : nat := fold_right Nat.max 0 l.

Lemma join_fold arrived : forall d,
  fold_left join_one arrived d =
  J (d_nodes d + sum (map o_nodes arrived)) (d_edges d + sum (map o_edges arrived))
    (Nat.max (d_ntypes d) (max_of (map o_ntypes arrived))) (Nat.max (d_etypes d) (max_of (map o_etypes arrived)))
    (Nat.max (d_nfeats d) (max_of (map o_nfeats arrived))) (Nat.max (d_efeats d) (max_of (map o_efeats arrived)))
    (d_parts d ++ arrived).
Proof.
  induction arrived as [|o l IH]; intro d; cbn [fold_left map].
  - destruct d as [x1 x2 x3 x4 x5 x6 x7]; cbn [d_nodes d_edges d_ntypes d_etypes d_nfeats d_efeats d_parts]. unfold sum. cbn.
    rewrite !Nat.add_0_r, !Nat.max_0_r, app_nil_r. reflexivity.
  - rewrite IH. unfold join_one. cbn [d_nodes d_edges d_ntypes d_etypes d_nfeats d_efeats d_parts max_of fold_right].
    rewrite !sum_cons, !Nat.add_assoc, !Nat.max_assoc, <- app_assoc. reflexivity.
Qed.

Lemma sum_perm l l' : Permutation l l' -> sum l = sum l'.
Proof. induction 1; rewrite ?sum_cons; lia. Qed.
Lemma max_perm l l' : Permutation l l' -> max_of l = max_of l'.
Proof. unfold max_of. induction 1; cbn [fold_right]; lia. Qed.

(** Sorting by distinct ids does not depend on the order. *)
Lemma ins_perm x l : Permutation (ins_id x l) (x :: l).
Proof.
  induction l as [|y l IH]; cbn; [reflexivity|]. destruct (o_id x <=? o_id y); [reflexivity|].
  rewrite IH. apply perm_swap.
Qed.
Lemma sort_perm l : Permutation (sort_id l) l.
Proof. induction l as [|x l IH]; cbn; [constructor|]. rewrite ins_perm. now apply perm_skip. Qed.

Lemma ins_sorted x l : StronglySorted (fun a b => o_id a <= o_id b) l ->
  StronglySorted (fun a b => o_id a <= o_id b) (ins_id x l).
Proof.
  induction l as [|y l IH]; intro H; cbn.
  - repeat constructor.
  - apply StronglySorted_inv in H as [H Hy]. destruct (Nat.leb_spec (o_id x) (o_id y)).
    + constructor; [constructor; assumption|]. constructor; [assumption|].
      eapply Forall_impl; [|exact Hy]. cbn. lia.
    + constructor; [now apply IH|]. eapply Permutation_Forall; [symmetry; apply ins_perm|].
      constructor; [lia|assumption].
Qed.
Lemma sort_sorted l : StronglySorted (fun a b => o_id a <= o_id b) (sort_id l).
Proof. induction l as [|x l IH]; cbn; [constructor|]. now apply ins_sorted. Qed.

Lemma sorted_unique l1 : forall l2,
  StronglySorted (fun a b => o_id a <= o_id b) l1 -> StronglySorted (fun a b => o_id a <= o_id b) l2 ->
  NoDup (map o_id l1) -> Permutation l1 l2 -> l1 = l2.
Proof.
  induction l1 as [|x l1 IH]; intros l2 S1 S2 Nd P.
  - apply Permutation_nil in P. now subst.
  - destruct l2 as [|y l2]; [symmetry in P; apply Permutation_nil in P; discriminate|].
    apply StronglySorted_inv in S1 as [S1 F1]. apply StronglySorted_inv in S2 as [S2 F2].
    cbn [map] in Nd. apply NoDup_cons_iff in Nd as [Nx Nd].
    assert (E : x = y).
    { assert (Hy : In y (x :: l1)) by (eapply Permutation_in; [symmetry; exact P|now left]).
      assert (Hx : In x (y :: l2)) by (eapply Permutation_in; [exact P|now left]).
      destruct Hy as [|Hy]; [assumption|]. destruct Hx as [|Hx]; [congruence|].
      rewrite Forall_forall in F1, F2. pose proof (F1 _ Hy). pose proof (F2 _ Hx).
      exfalso. apply Nx. replace (o_id x) with (o_id y) by lia. now apply in_map. }
    subst y. f_equal. apply IH; auto. eapply Permutation_cons_inv. exact P.
Qed.

Lemma sort_of_sorted l l' :
  StronglySorted (fun a b => o_id a <= o_id b) l -> NoDup (map o_id l) -> Permutation l' l -> sort_id l' = l.
Proof.
  intros S Nd P. symmetry. apply sorted_unique; auto using sort_sorted.
  rewrite sort_perm. now symmetry.
Qed.

Lemma dict_set_fresh {V} (d : list (nat * V)) k v :
  ~ In k (map fst d) -> dict_set d k v = d ++ [(k, v)].
Proof.
  induction d as [|[k' v'] d IH]; intro H; cbn; [reflexivity|].
  cbn in H. destruct (Nat.eqb_spec k k') as [->|]; [tauto|]. rewrite IH by tauto. reflexivity.
Qed.

Lemma dict_build {A V} (key : A -> nat) (val : A -> V) l : forall d,
  NoDup (map fst d ++ map key l) ->
  fold_left (fun m p => dict_set m (key p) (val p)) l d = d ++ map (fun p => (key p, val p)) l.
Proof.
  induction l as [|x l IH]; intros d H; cbn [fold_left map].
  - now rewrite app_nil_r.
  - cbn [map] in H. rewrite dict_set_fresh.
    + rewrite IH.
      * rewrite <- app_assoc. reflexivity.
      * rewrite map_app. cbn [map fst]. rewrite <- app_assoc. exact H.
    + apply NoDup_remove_2 in H. rewrite in_app_iff in H. tauto.
Qed.

(** Adding per type tables of equal length. *)
Lemma map_add_table (f g : nat -> nat) n a :
  map_add (map f (seq a n)) (map g (seq a n)) = map (fun t => f t + g t) (seq a n).
Proof. revert a; induction n as [|n IH]; intro a; [reflexivity|]. cbn [seq map map_add]. now rewrite IH. Qed.

Lemma fold_map_add n (gs : list (nat -> nat)) : forall f,
  fold_left map_add (map (fun g => map g (seq 0 n)) gs) (map f (seq 0 n)) =
  map (fun t => f t + sum (map (fun g => g t) gs)) (seq 0 n).
Proof.
  induction gs as [|g gs IH]; intro f; cbn [map fold_left].
  - apply map_ext. intro t. unfold sum. cbn. lia.
  - rewrite map_add_table, IH. apply map_ext. intro t. rewrite sum_cons. lia.
Qed.

Lemma repeat_map_seq {A} (x : A) n : repeat x n = map (fun _ => x) (seq 0 n).
Proof. generalize 0. induction n as [|n IH]; intro a; [reflexivity|]. cbn. f_equal. apply IH. Qed.

Lemma pad_table {A} (d : A) (f : nat -> A) k n :
  k <= n -> (forall t, k <= t -> f t = d) ->
  map f (seq 0 k) ++ repeat d (n - k) = map f (seq 0 n).
Proof.
  intros H Hd. replace n with (k + (n - k)) at 2 by lia. rewrite seq_app, map_app. f_equal. cbn [plus].
  rewrite (repeat_map_seq d).
  generalize (n - k) as j. clear H. intro j.
  assert (G : forall j a b, k <= b -> map (fun _ : nat => d) (seq a j) = map f (seq b j)).
  { clear j. induction j as [|j IH]; intros a b Hb; [reflexivity|]. cbn. rewrite Hd by lia. f_equal. apply IH. lia. }
  apply G. lia.
Qed.

(** * The whole conversion *)

(** What one worker reports, in terms of its records. *)
Definition report (wval : N -> Z) (id : nat) (rs : list record) : wout :=
  WO (length (nodes_in rs)) (length (edges_in rs)) (types_in (nodes_in rs)) (types_in (edges_in rs))
     (feats_in (nodes_in rs)) (feats_in (edges_in rs)) id
     (weight_table wval (types_in (nodes_in rs)) (nodes_in rs))
     (count_table (types_in (nodes_in rs)) (nodes_in rs))
     (weight_table wval (types_in (edges_in rs)) (edges_in rs))
     (count_table (types_in (edges_in rs)) (edges_in rs)).

Lemma tally_report wval rs s id : Tally wval rs s -> wout_of id s = report wval id rs.
Proof.
  intros []. unfold wout_of, report. rewrite t_nodes0, t_edges0, t_ntc0, t_etc0, t_nw0, t_ew0, t_nf0, t_ef0.
  unfold count_table. rewrite !map_length, !seq_length. reflexivity.
Qed.

Lemma count_table_ext_len n rs : length (count_table n rs) = n.
Proof. unfold count_table. now rewrite map_length, seq_length. Qed.

(** meta.json in terms of the workers' records, for any order of arrival. *)
Definition ids_sorted (ws : list (nat * list record)) : Prop := StronglySorted lt (map fst ws).

Lemma max_in x l : In x l -> x <= max_of l.
Proof. induction l as [|y l IH]; cbn; [tauto|]. fold (max_of l). intros [->|H]; [lia|]. apply IH in H. lia. Qed.

Lemma types_concat (P : list record -> list record) rss :
  (forall a b, P (a ++ b) = P a ++ P b) -> P [] = [] ->
  types_in (P (concat rss)) = max_of (map (fun rs => types_in (P rs)) rss).
Proof.
  intros Ha H0. induction rss as [|rs rss IH]; cbn; [now rewrite H0|].
  rewrite Ha, types_in_app, IH. reflexivity.
Qed.
Lemma feats_concat (P : list record -> list record) rss :
  (forall a b, P (a ++ b) = P a ++ P b) -> P [] = [] ->
  feats_in (P (concat rss)) = max_of (map (fun rs => feats_in (P rs)) rss).
Proof.
  intros Ha H0. induction rss as [|rs rss IH]; cbn; [now rewrite H0|].
  rewrite Ha, feats_in_app, IH. reflexivity.
Qed.
Lemma length_concat' (P : list record -> list record) rss :
  (forall a b, P (a ++ b) = P a ++ P b) -> P [] = [] ->
  length (P (concat rss)) = sum (map (fun rs => length (P rs)) rss).
Proof.
  intros Ha H0. induction rss as [|rs rss IH]; cbn; [now rewrite H0|].
  rewrite Ha, app_length, IH, sum_cons. reflexivity.
Qed.
Lemma weight_concat w (P : list record -> list record) rss :
  (forall a b, P (a ++ b) = P a ++ P b) -> P [] = [] ->
  weight_in w (P (concat rss)) = fold_right Z.add 0%Z (map (fun rs => weight_in w (P rs)) rss).
Proof.
  intros Ha H0. induction rss as [|rs rss IH]; cbn; [now rewrite H0|].
  rewrite Ha, weight_in_app, IH. reflexivity.
Qed.

Definition spec_json (wval : N -> Z) (wm : option Z) (ws : list (nat * list record)) : mjson :=
  let all := concat (map snd ws) in
  let nt := types_in (nodes_in all) in
  let et := types_in (edges_in all) in
  MJ 2 (length (nodes_in all)) (length (edges_in all)) nt et
     (feats_in (nodes_in all)) (feats_in (edges_in all))
     (map (fun w => (fst w, (weight_table wval nt (nodes_in (snd w)), weight_table wval et (edges_in (snd w))))) ws)
     (count_table nt (nodes_in all)) (count_table et (edges_in all))
     (match wm with Some t => t | None => (-1)%Z end).

Lemma sorted_lt_le (l : list wout) :
  StronglySorted lt (map o_id l) -> StronglySorted (fun a b => o_id a <= o_id b) l /\ NoDup (map o_id l).
Proof.
  induction l as [|x l IH]; intro H; [split; constructor|].
  cbn [map] in H. apply StronglySorted_inv in H as [H F]. apply IH in H as [H1 H2].
  rewrite Forall_forall in F. split.
  - constructor; [assumption|]. apply Forall_forall. intros y Hy.
    pose proof (F (o_id y) (in_map _ _ _ Hy)). lia.
  - cbn [map]. constructor; [|assumption]. intro K. apply F in K. lia.
Qed.

Lemma pad_report wval nt et id rs :
  Forall typ_ok rs -> types_in (nodes_in rs) <= nt -> types_in (edges_in rs) <= et ->
  pad nt et (report wval id rs) =
  WO (length (nodes_in rs)) (length (edges_in rs)) (types_in (nodes_in rs)) (types_in (edges_in rs))
     (feats_in (nodes_in rs)) (feats_in (edges_in rs)) id
     (weight_table wval nt (nodes_in rs)) (count_table nt (nodes_in rs))
     (weight_table wval et (edges_in rs)) (count_table et (edges_in rs)).
Proof.
  intros H Hn He. unfold pad, report. cbn [o_nodes o_edges o_ntypes o_etypes o_nfeats o_efeats o_id o_nw o_ntc o_ew o_etc].
  assert (Fn : Forall typ_ok (nodes_in rs)) by (now apply filter_forall).
  assert (Fe : Forall typ_ok (edges_in rs)) by (now apply filter_forall).
  rewrite !count_table_ext_len. unfold weight_table, count_table.
  f_equal; apply pad_table; try assumption; intros t Ht; rewrite of_type_beyond by assumption; reflexivity.
Qed.

Lemma meta_of_reports wval wm ws arrived :
  Forall (fun w => Forall typ_ok (snd w)) ws -> StronglySorted lt (map fst ws) ->
  Permutation arrived (map (fun w => report wval (fst w) (snd w)) ws) ->
  meta_of wm arrived = spec_json wval wm ws.
Proof.
  intros Hok Hs P. unfold meta_of, join. rewrite join_fold. cbn [d_nodes d_edges d_ntypes d_etypes d_nfeats d_efeats d_parts app Nat.add Nat.max].
  set (outs := map (fun w => report wval (fst w) (snd w)) ws) in *.
  rewrite (sum_perm _ _ (Permutation_map o_nodes P)), (sum_perm _ _ (Permutation_map o_edges P)).
  rewrite (max_perm _ _ (Permutation_map o_ntypes P)), (max_perm _ _ (Permutation_map o_etypes P)).
  rewrite (max_perm _ _ (Permutation_map o_nfeats P)), (max_perm _ _ (Permutation_map o_efeats P)).
  set (nt := max_of (map o_ntypes outs)). set (et := max_of (map o_etypes outs)).
  rewrite (sort_of_sorted (map (pad nt et) outs)).
  2,3: destruct (sorted_lt_le (map (pad nt et) outs)) as [A B]; auto;
       unfold outs; rewrite !map_map; cbn [pad report o_id]; exact Hs.
  2: now apply Permutation_map.
  assert (Ent : nt = types_in (nodes_in (concat (map snd ws)))).
  { unfold nt, outs. rewrite types_concat by (auto using nodes_in_app). rewrite !map_map. reflexivity. }
  assert (Eet : et = types_in (edges_in (concat (map snd ws)))).
  { unfold et, outs. rewrite types_concat by (auto using edges_in_app). rewrite !map_map. reflexivity. }
  assert (Hpad : map (pad nt et) outs = map (fun w =>
     WO (length (nodes_in (snd w))) (length (edges_in (snd w))) (types_in (nodes_in (snd w))) (types_in (edges_in (snd w)))
     (feats_in (nodes_in (snd w))) (feats_in (edges_in (snd w))) (fst w)
     (weight_table wval nt (nodes_in (snd w))) (count_table nt (nodes_in (snd w)))
     (weight_table wval et (edges_in (snd w))) (count_table et (edges_in (snd w)))) ws).
  { unfold outs at 1. rewrite map_map. apply map_ext_in. intros w Hw. apply pad_report.
    - rewrite Forall_forall in Hok. auto.
    - unfold nt, outs. apply max_in. rewrite !map_map. cbn [report o_ntypes].
      apply (in_map (fun w => types_in (nodes_in (snd w)))). assumption.
    - unfold et, outs. apply max_in. rewrite !map_map. cbn [report o_etypes].
      apply (in_map (fun w => types_in (edges_in (snd w)))). assumption. }
  rewrite Hpad. unfold spec_json. rewrite <- Ent, <- Eet. f_equal.
  - rewrite length_concat' by (auto using nodes_in_app). unfold outs. rewrite !map_map. reflexivity.
  - rewrite length_concat' by (auto using edges_in_app). unfold outs. rewrite !map_map. reflexivity.
  - rewrite feats_concat by (auto using nodes_in_app). unfold outs. rewrite !map_map. reflexivity.
  - rewrite feats_concat by (auto using edges_in_app). unfold outs. rewrite !map_map. reflexivity.
  - rewrite (dict_build o_id (fun p => (o_nw p, o_ew p))).
    + cbn [app]. rewrite map_map. reflexivity.
    + cbn [map app]. rewrite map_map. cbn [o_id].
      clear - Hs. induction (map fst ws) as [|x l IH]; [constructor|].
      apply StronglySorted_inv in Hs as [Hs F]. constructor; auto.
      intro K. rewrite Forall_forall in F. apply F in K. lia.
  - rewrite repeat_map_seq.
    assert (E : forall l a, fold_left (fun a p => map_add a (o_ntc p)) l a = fold_left map_add (map o_ntc l) a).
    { induction l as [|x l IH]; intro a; cbn; auto. }
    rewrite E, map_map. cbn [o_ntc]. unfold count_table.
    rewrite <- (map_map (fun w => fun t => length (of_type t (nodes_in (snd w)))) (fun g => map g (seq 0 nt))).
    rewrite fold_map_add. apply map_ext. intro t. cbn [plus].
    rewrite (length_concat' (fun rs => of_type t (nodes_in rs))).
    + rewrite !map_map. reflexivity.
    + intros a b. now rewrite nodes_in_app, of_type_app.
    + reflexivity.
  - rewrite repeat_map_seq.
    assert (E : forall l a, fold_left (fun a p => map_add a (o_etc p)) l a = fold_left map_add (map o_etc l) a).
    { induction l as [|x l IH]; intro a; cbn; auto. }
    rewrite E, map_map. cbn [o_etc]. unfold count_table.
    rewrite <- (map_map (fun w => fun t => length (of_type t (edges_in (snd w)))) (fun g => map g (seq 0 et))).
    rewrite fold_map_add. apply map_ext. intro t. cbn [plus].
    rewrite (length_concat' (fun rs => of_type t (edges_in rs))).
    + rewrite !map_map. reflexivity.
    + intros a b. now rewrite edges_in_app, of_type_app.
    + reflexivity.
Qed.

(** * Conversions *)

Lemma mapM_filter {A B} (f : A -> res B) (g : nat -> bool) : forall l bs a,
  mapM f l = Ok bs ->
  mapM f (map snd (filter (fun p => g (fst p)) (combine (seq a (length l)) l))) =
  Ok (map snd (filter (fun p => g (fst p)) (combine (seq a (length bs)) bs))).
Proof.
  induction l as [|x l IH]; intros bs a H.
  - injection H as <-. reflexivity.
  - cbn [mapM] in H. apply bind_ok in H as (b & Hb & H). apply bind_ok in H as (bs' & Hbs & H).
    injection H as <-. cbn [length seq combine filter fst].
    destruct (g a); cbn [map snd mapM]; rewrite ?Hb; cbn [bind];
      rewrite (IH _ (S a) Hbs); reflexivity.
Qed.

Lemma mapM_share {A B} (f : A -> res B) n i l bs :
  mapM f l = Ok bs -> mapM f (share n i l) = Ok (share n i bs).
Proof. intro H. exact (mapM_filter f (fun k => k mod n =? i) l bs 0 H). Qed.

Lemma worker_report {L} (decode : L -> res (list record)) wval wm id ls bs o :
  mapM decode ls = Ok bs -> Forall typ_ok (concat bs) ->
  worker decode wval wm (id, ls) = Ok o -> o = report wval id (concat bs).
Proof.
  intros Hd Hok H. unfold worker in H. cbn [snd fst] in H. rewrite Hd in H. cbn [bind] in H.
  apply bind_ok in H as (s & Hs & H). injection H as <-.
  apply tally_report. now apply (write_partition_tally wval wm).
Qed.

Lemma workers_reports {L I} (decode : L -> res (list record)) wval wm (is : list I) (id : I -> nat)
    (ls : I -> list L) (bs : I -> list (list record)) outs :
  (forall i, In i is -> mapM decode (ls i) = Ok (bs i)) ->
  (forall i, In i is -> Forall typ_ok (concat (bs i))) ->
  mapM (worker decode wval wm) (map (fun i => (id i, ls i)) is) = Ok outs ->
  outs = map (fun i => report wval (id i) (concat (bs i))) is.
Proof.
  revert outs. induction is as [|i is IH]; intros outs Hd Hok H; cbn [map mapM] in H.
  - injection H as <-. reflexivity.
  - apply bind_ok in H as (o & Ho & H). apply bind_ok in H as (os & Hos & H). injection H as <-.
    cbn [map]. f_equal.
    + eapply worker_report; [apply Hd; now left|apply Hok; now left|exact Ho].
    + apply IH; auto; intros; [apply Hd|apply Hok]; now right.
Qed.

Lemma sorted_shift a n : StronglySorted lt (map (fun i => a + i) (seq 0 n)).
Proof.
  generalize 0. induction n as [|n IH]; intro b; [constructor|]. cbn [seq map]. constructor; [apply IH|].
  apply Forall_forall. intros x Hx. apply in_map_iff in Hx as (y & <- & Hy). apply in_seq in Hy. lia.
Qed.

Lemma share_in {L} n i (l : list L) x : In x (share n i l) -> In x l.
Proof.
  unfold share. intro H. apply in_map_iff in H as ([k y] & <- & H). apply filter_In in H as [H _].
  now apply in_combine_r in H.
Qed.

Lemma concat_forall {A} (P : A -> Prop) (ls ls' : list (list A)) :
  (forall x, In x ls' -> In x ls) -> Forall P (concat ls) -> Forall P (concat ls').
Proof.
  intros H F. rewrite Forall_forall in *. intros x Hx. apply in_concat in Hx as (l & Hl & Hx).
  apply F. apply in_concat. eauto.
Qed.

Lemma pipe_meta_spec {L} (decode : L -> res (list record)) wval wm offset n lines batches m :
  mapM decode lines = Ok batches -> Forall typ_ok (concat batches) ->
  pipe_meta wval decode wm offset n lines m ->
  m = spec_json wval wm (map (fun i => (offset + i, concat (share n i batches))) (seq 0 n)).
Proof.
  intros Hd Hok (ws & outs & arrived & Hw & Ho & P & ->).
  apply pipe_workers_spec in Hw. subst ws.
  eapply (workers_reports decode wval wm (seq 0 n) (fun i => offset + i) (fun i => share n i lines)
            (fun i => share n i batches)) in Ho; subst.
  - apply meta_of_reports.
    + apply Forall_forall. intros w Hin. apply in_map_iff in Hin as (i & <- & _). cbn [snd].
      eapply concat_forall; [|exact Hok]. intros x. apply share_in.
    + rewrite map_map. apply sorted_shift.
    + rewrite map_map. exact P.
  - intros i _. now apply mapM_share.
  - intros i _. eapply concat_forall; [|exact Hok]. intros x. apply share_in.
Qed.

(** Tables do not depend on the order of the records. *)
Lemma filter_perm {A} (f : A -> bool) l l' : Permutation l l' -> Permutation (filter f l) (filter f l').
Proof.
  induction 1; cbn; auto.
  - destruct (f x); auto.
  - destruct (f x), (f y); auto. apply perm_swap.
  - etransitivity; eauto.
Qed.
Lemma types_perm l l' : Permutation l l' -> types_in l = types_in l'.
Proof. unfold types_in. induction 1; cbn [fold_right]; lia. Qed.
Lemma feats_perm l l' : Permutation l l' -> feats_in l = feats_in l'.
Proof. unfold feats_in. induction 1; cbn [fold_right]; lia. Qed.
Lemma weight_perm w l l' : Permutation l l' -> weight_in w l = weight_in w l'.
Proof. unfold weight_in. induction 1; cbn [fold_right]; lia. Qed.
Lemma type_weight_perm w t l l' : Permutation l l' -> weight_in w (of_type t l) = weight_in w (of_type t l').
Proof. intro P. apply weight_perm. now apply filter_perm. Qed.
Lemma count_table_perm n l l' : Permutation l l' -> count_table n l = count_table n l'.
Proof.
  intro P. unfold count_table. apply map_ext. intro t. apply Permutation_length. now apply filter_perm.
Qed.

Lemma concat_concat {A} (l : list (list (list A))) : concat (concat l) = concat (map (@concat A) l).
Proof. induction l as [|x l IH]; [reflexivity|]. cbn. now rewrite concat_app, IH. Qed.

Lemma concat_perm {A} (l l' : list (list A)) : Permutation l l' -> Permutation (concat l) (concat l').
Proof.
  induction 1; cbn; auto.
  - now apply Permutation_app_head.
  - rewrite !app_assoc. apply Permutation_app_tail. apply Permutation_app_comm.
  - etransitivity; eauto.
Qed.

Lemma nth_weight_table w n rs t : t < n -> nth t (weight_table w n rs) 0%Z = weight_in w (of_type t rs).
Proof.
  intro H. unfold weight_table.
  rewrite (nth_indep _ 0%Z (weight_in w (of_type 0 rs))) by (now rewrite map_length, seq_length).
  rewrite (map_nth (fun t => weight_in w (of_type t rs))). now rewrite seq_nth.
Qed.

Lemma spec_json_totals wval wm ws all :
  Permutation (concat (map snd ws)) all -> totals wval wm all (spec_json wval wm ws).
Proof.
  intro P. unfold totals, spec_json.
  cbn [j_nodes j_edges j_ntypes j_etypes j_nfeats j_efeats j_npt j_ept j_watermark j_parts].
  assert (Pn : Permutation (nodes_in (concat (map snd ws))) (nodes_in all)) by (now apply filter_perm).
  assert (Pe : Permutation (edges_in (concat (map snd ws))) (edges_in all)) by (now apply filter_perm).
  repeat split; try (now apply Permutation_length); try (now apply types_perm); try (now apply feats_perm);
    try (now apply count_table_perm).
  - intros t Ht. rewrite map_map. cbn [fst snd].
    rewrite <- (type_weight_perm wval t _ _ Pn).
    rewrite (weight_concat wval (fun rs => of_type t (nodes_in rs))).
    + rewrite map_map. f_equal. apply map_ext. intro w. now rewrite nth_weight_table.
    + intros a b. now rewrite nodes_in_app, of_type_app.
    + reflexivity.
  - intros t Ht. rewrite map_map. cbn [fst snd].
    rewrite <- (type_weight_perm wval t _ _ Pe).
    rewrite (weight_concat wval (fun rs => of_type t (edges_in rs))).
    + rewrite map_map. f_equal. apply map_ext. intro w. now rewrite nth_weight_table.
    + intros a b. now rewrite edges_in_app, of_type_app.
    + reflexivity.
Qed.

(** ** C12, PipeDispatcher *)
Theorem pipe_totals {L} (decode : L -> res (list record)) wval wm offset n lines batches m :
  0 < n -> mapM decode lines = Ok batches -> Forall (fun r => (0 <= rtyp r)%Z) (concat batches) ->
  pipe_meta wval decode wm offset n lines m ->
  totals wval wm (concat batches) m /\
  j_parts m = map (fun i =>
    (offset + i, (weight_table wval (j_ntypes m) (nodes_in (concat (share n i batches))),
                  weight_table wval (j_etypes m) (edges_in (concat (share n i batches)))))) (seq 0 n).
Proof.
  intros Hn Hd Hok H. apply (pipe_meta_spec decode wval wm offset n lines batches) in H; auto. subst m.
  split.
  - apply spec_json_totals. rewrite map_map. cbn [snd].
    rewrite <- (map_map (fun i => share n i batches) (@concat record)), <- concat_concat.
    apply concat_perm. now apply shares_perm.
  - unfold spec_json. cbn [j_parts j_ntypes j_etypes]. rewrite map_map. reflexivity.
Qed.

Theorem pipe_completes {L} (decode : L -> res (list record)) wval wm offset n lines batches :
  0 < n -> mapM decode lines = Ok batches ->
  (forall i, i < n -> exists s, write_partition wval wm (share n i batches) = Ok s) ->
  exists m, pipe_meta wval decode wm offset n lines m.
Proof.
  intros Hn Hd Hw.
  destruct (pipe_dispatch_total n lines Hn (0, repeat [] n)) as (s & Hs); [apply repeat_length|].
  assert (E : pipe_workers offset n lines = Ok (combine (seq offset n) (snd s))).
  { unfold pipe_workers. rewrite Hs. reflexivity. }
  pose proof (pipe_workers_spec _ _ _ _ E) as Ews.
  assert (Ho : exists outs, mapM (worker decode wval wm) (combine (seq offset n) (snd s)) = Ok outs).
  { rewrite Ews. clear - Hd Hw.
    assert (G : forall is, (forall i, In i is -> i < n) -> exists outs,
       mapM (worker decode wval wm) (map (fun i => (offset + i, share n i lines)) is) = Ok outs).
    { induction is as [|i is IH]; intro Hi; [eexists; reflexivity|].
      destruct IH as (outs & Ho); [intros; apply Hi; now right|].
      destruct (Hw i (Hi i (or_introl eq_refl))) as (st & Hst).
      exists (wout_of (offset + i) st :: outs). cbn [map mapM]. unfold worker at 1. cbn [snd fst].
      rewrite (mapM_share decode n i lines batches Hd). cbn [bind]. rewrite Hst. cbn [bind]. rewrite Ho. reflexivity. }
    apply G. intros i Hi. apply in_seq in Hi. lia. }
  destruct Ho as (outs & Ho). exists (meta_of wm outs). exists (combine (seq offset n) (snd s)), outs, outs.
  repeat split; auto.
Qed.

(** ** C12, QueueDispatcher *)

Lemma queue_queues {L} (f : L -> nat) n (lines : list L) : forall done s s',
  length (snd (fst s)) = n ->
  (forall i, i < n -> nth i (snd (fst s)) [] = filter (fun x => f x =? i) done) ->
  NoDup (snd s) -> (forall i, In i (snd s) <-> active f done i = true) ->
  (forall x, In x done -> f x < n) ->
  dispatch_all (queue_dispatch f) lines s = Ok s' ->
  (forall i, i < n -> nth i (snd (fst s')) [] = filter (fun x => f x =? i) (done ++ lines)) /\
  NoDup (snd s') /\ (forall i, In i (snd s') <-> active f (done ++ lines) i = true) /\
  (forall x, In x (done ++ lines) -> f x < n).
Proof.
  induction lines as [|x lines IH]; intros done s s' Hl Hq Hd Ha Hf H.
  - injection H as <-. rewrite app_nil_r. auto.
  - cbn [dispatch_all] in H. apply bind_ok in H as (s1 & H1 & H).
    unfold queue_dispatch in H1. apply bind_ok in H1 as (qs & H1 & H2).
    apply send_nth in H1 as (Hl' & Hi & Hn).
    replace (done ++ x :: lines) with ((done ++ [x]) ++ lines) by (now rewrite <- app_assoc).
    assert (Hact : forall i, active f (done ++ [x]) i = active f done i || (f x =? i)).
    { intro i. unfold active. rewrite existsb_app. cbn. now rewrite orb_false_r. }
    assert (Hex : existsb (Nat.eqb (f x)) (snd s) = true <-> In (f x) (snd s)).
    { rewrite existsb_exists. split.
      - intros (y & Hy & E). apply Nat.eqb_eq in E. now subst.
      - intro K. exists (f x). split; [assumption|apply Nat.eqb_refl]. }
    injection H2 as <-.
    eapply IH; [| | | | |exact H]; cbn [fst snd]; unfold dstate in *.
    + congruence.
    + intros i Hi'. rewrite Hn, filter_app, (Hq i Hi'). cbn [filter]. rewrite (Nat.eqb_sym i).
      destruct (f x =? i); [reflexivity|now rewrite app_nil_r].
    + destruct (existsb (Nat.eqb (f x)) (snd s)) eqn:E; [assumption|].
      apply (Permutation_NoDup (Permutation_cons_append (snd s) (f x))). constructor; [|assumption].
      intro K. apply Hex in K. congruence.
    + intro i. rewrite Hact, orb_true_iff, <- Ha, Nat.eqb_eq.
      destruct (existsb (Nat.eqb (f x)) (snd s)) eqn:E.
      * split; [tauto|]. intros [K|<-]; [assumption|]. now apply Hex.
      * rewrite in_app_iff. cbn. tauto.
    + intros y Hy. apply in_app_iff in Hy as [Hy|[<-|[]]]; auto. lia.
Qed.

Lemma filter_sorted (g : nat -> bool) a n offset :
  StronglySorted lt (map (fun i => offset + i) (filter g (seq a n))).
Proof.
  revert a; induction n as [|n IH]; intro a; [constructor|]. cbn [seq filter].
  destruct (g a); [|apply IH]. cbn [map]. constructor; [apply IH|].
  apply Forall_forall. intros x Hx. apply in_map_iff in Hx as (y & <- & Hy).
  apply filter_In in Hy as [Hy _]. apply in_seq in Hy. lia.
Qed.

Lemma filter_class_nil {A} (f : A -> nat) n (l : list A) :
  concat (map (fun i => filter (fun x => f x =? i) l) (filter (active f l) (seq 0 n))) =
  concat (map (fun i => filter (fun x => f x =? i) l) (seq 0 n)).
Proof.
  generalize (seq 0 n) as is. induction is as [|i is IH]; [reflexivity|]. cbn [filter].
  destruct (active f l i) eqn:E; cbn [map concat]; rewrite IH; [reflexivity|].
  replace (filter (fun x => f x =? i) l) with (@nil A); [reflexivity|].
  clear - E. unfold active in E. induction l as [|x l IH]; [reflexivity|]. cbn in *.
  apply orb_false_iff in E as [E1 E2]. rewrite E1. auto.
Qed.

Lemma mapM_filter_elem {A B} (f : A -> res B) (g : A -> nat) (h : A -> B) l : 
  (forall x, In x l -> f x = Ok (h x)) -> forall i,
  mapM f (filter (fun x => g x =? i) l) = Ok (map h (filter (fun x => g x =? i) l)).
Proof.
  intros H i. apply mapM_ok. intros x Hx. apply H. now apply filter_In in Hx.
Qed.

Theorem queue_totals {L} (decode : L -> list record) wval wm f offset n (lines : list L) m :
  Forall (fun r => (0 <= rtyp r)%Z) (flat_map decode lines) ->
  queue_meta wval (fun l => Ok (decode l)) wm f offset n lines m ->
  totals wval wm (flat_map decode lines) m /\
  map fst (j_parts m) = map (fun i => offset + i) (filter (active f lines) (seq 0 n)).
Proof.
  intros Hok (ws & outs & arrived & Hw & Ho & P & ->).
  unfold queue_workers in Hw. apply bind_ok in Hw as (s & Hs & Hw). injection Hw as <-.
  apply (queue_queues f n lines []) in Hs; cbn [fst snd].
  2: apply repeat_length.
  2: intros i Hi; now rewrite nth_repeat.
  2: constructor.
  2: intro i; cbn; intuition discriminate.
  2: intros x [].
  cbn [app] in Hs. destruct Hs as (Hq & Hnd & Hact & Hf).
  assert (Pa : Permutation (snd s) (filter (active f lines) (seq 0 n))).
  { apply NoDup_Permutation; [assumption|apply NoDup_filter, seq_NoDup|].
    intro i. rewrite Hact, filter_In, in_seq. split; [|tauto]. intro K. split; [|assumption].
    unfold active in K. apply existsb_exists in K as (x & Hx & E). apply Nat.eqb_eq in E. subst i.
    specialize (Hf x Hx). lia. }
  assert (Ews : map (fun i => (offset + i, nth i (snd (fst s)) [])) (snd s) =
                map (fun i => (offset + i, filter (fun x => f x =? i) lines)) (snd s)).
  { apply map_ext_in. intros i Hi. rewrite Hq; [reflexivity|].
    eapply Permutation_in in Hi; [|exact Pa]. apply filter_In in Hi as [Hi _]. apply in_seq in Hi. lia. }
  rewrite Ews in Ho.
  eapply (workers_reports (fun l => Ok (decode l)) wval wm (snd s) (fun i => offset + i)
            (fun i => filter (fun x => f x =? i) lines)
            (fun i => map decode (filter (fun x => f x =? i) lines))) in Ho.
  2:{ intros i _. apply (mapM_filter_elem _ f decode). reflexivity. }
  2:{ intros i _. rewrite Forall_forall in *. intros r Hr. apply Hok.
      apply in_concat in Hr as (b & Hb & Hr). apply in_map_iff in Hb as (l & <- & Hl).
      apply filter_In in Hl as [Hl _]. apply in_flat_map. eauto. }
  subst outs.
  set (W := map (fun i => (offset + i, concat (map decode (filter (fun x => f x =? i) lines))))
                (filter (active f lines) (seq 0 n))).
  assert (E : meta_of wm arrived = spec_json wval wm W).
  { apply meta_of_reports.
    - apply Forall_forall. intros w Hin. unfold W in Hin. apply in_map_iff in Hin as (i & <- & _). cbn [snd].
      apply Forall_forall. intros r Hr. apply in_concat in Hr as (b & Hb & Hr).
      apply in_map_iff in Hb as (l & <- & Hl). apply filter_In in Hl as [Hl _].
      rewrite Forall_forall in Hok. apply Hok. apply in_flat_map. eauto.
    - unfold W. rewrite map_map. apply filter_sorted.
    - rewrite P. unfold W. rewrite map_map. cbn [fst snd].
      apply (Permutation_map (fun i => report wval (offset + i) (concat (map decode (filter (fun x => f x =? i) lines))))).
      exact Pa. }
  rewrite E. split.
  - apply spec_json_totals. unfold W. rewrite map_map. cbn [snd].
    rewrite <- (map_map (fun i => map decode (filter (fun x => f x =? i) lines)) (@concat record)), <- concat_concat.
    rewrite flat_map_concat_map. apply concat_perm.
    rewrite <- (map_map (fun i => filter (fun x => f x =? i) lines) (map decode)).
    rewrite <- concat_map. apply Permutation_map.
    rewrite filter_class_nil. apply perm_class. exact Hf.
  - unfold spec_json, W. cbn [j_parts]. rewrite !map_map. reflexivity.
Qed.
