(** Proofs about learning from timestamped interactions. *)
From Verif Require Import Base WriterModel LoaderModel GraphModel GraphSpec WriterProofs ConvertProofs AnswerProofs LastNModel LastNProofs TgnModel TgnSpec.
From Coq Require Import QArith Qround Lqa Sorting.Sorted Permutation ZifyBool ZifyNat ZifyN.
Local Open Scope Z_scope.

(** ** Positions *)
Lemma index_of_in x l : In x l -> nth_error l (index_of x l) = Some x /\ (index_of x l < length l)%nat.
Proof.
  induction l as [|y l IH]; [intros []|]. cbn [index_of]. destruct (Z.eqb_spec x y) as [->|N]; [cbn; split; [reflexivity|lia]|].
  intros [E|H]; [congruence|]. destruct (IH H). cbn [nth_error length]. split; [assumption|lia].
Qed.
Lemma index_of_app x a b : index_of x (a ++ b) = if existsb (Z.eqb x) a then index_of x a else (length a + index_of x b)%nat.
Proof.
  induction a as [|y a IH]; [reflexivity|]. cbn [app index_of existsb]. destruct (x =? y); [reflexivity|]. cbn [orb]. rewrite IH.
  now destruct (existsb (Z.eqb x) a).
Qed.
Lemma mem_in x l : existsb (Z.eqb x) l = true <-> In x l.
Proof. rewrite existsb_exists. split; [intros (y & H & E); now apply Z.eqb_eq in E as ->|]. intros H. exists x. split; [assumption|apply Z.eqb_refl]. Qed.
Lemma assign_in t ids x : In x ids -> assign t ids x = index_of x ids.
Proof. intros H. unfold assign. apply mem_in in H. now rewrite H. Qed.
Lemma index_inj ids x y : In x ids -> In y ids -> index_of x ids = index_of y ids -> x = y.
Proof. intros Hx Hy E. apply index_of_in in Hx as [Hx _]. apply index_of_in in Hy as [Hy _]. rewrite E in Hx. congruence. Qed.

(** ** Times of the nodes of a batch *)
Lemma first_time_nth batch s : In s (map r_src batch) -> nth (index_of s (map r_src batch)) (map r_time batch) 0 = first_time batch s.
Proof.
  unfold first_time. induction batch as [|r b IH]; [intros []|]. cbn [map index_of find]. rewrite (Z.eqb_sym (r_src r) s).
  destruct (Z.eqb_spec s (r_src r)) as [->|N]; [reflexivity|]. intros [E|H]; [congruence|]. cbn [nth]. now apply IH.
Qed.
Lemma first_time_none batch s : ~ In s (map r_src batch) -> first_time batch s = 1.
Proof.
  unfold first_time. intros H. destruct (find _ batch) as [r|] eqn:E; [|reflexivity]. apply find_some in E as [E1 E2].
  exfalso. apply H. apply in_map_iff. exists r. split; [lia|assumption].
Qed.
Lemma nth_ones n k : (k < n)%nat -> nth k (repeat 1 n) 0 = 1.
Proof. revert k. induction n as [|n IH]; intros k H; [lia|]. destruct k; [reflexivity|]. cbn [repeat nth]. apply IH. lia. Qed.
Lemma nth_times batch neg x : In x (map r_src batch ++ map r_dst batch ++ neg) ->
  nth (index_of x (map r_src batch ++ map r_dst batch ++ neg)) (map r_time batch ++ repeat 1 (length batch) ++ repeat 1 (length neg)) 0 = first_time batch x.
Proof.
  intros H. pose proof (index_of_in _ _ H) as [_ L]. revert L. rewrite index_of_app. destruct (existsb (Z.eqb x) (map r_src batch)) eqn:E; intros L.
  - apply mem_in in E. pose proof (index_of_in _ _ E) as [_ L2]. rewrite app_nth1 by (rewrite map_length in *; lia). now apply first_time_nth.
  - rewrite first_time_none by (rewrite <- mem_in; congruence). rewrite !app_length, !map_length in L. rewrite map_length.
    rewrite app_nth2 by (rewrite map_length; lia). rewrite map_length, <- repeat_app. apply nth_ones. lia.
Qed.
Lemma batch_nodes_right batch neg :
  batch_nodes batch neg = map (fun x => (x, first_time batch x - 1)) (make_sorted_list (map r_src batch ++ map r_dst batch ++ neg)).
Proof.
  unfold batch_nodes, unique_index. rewrite map_map. apply map_ext_in. intros x H. apply (proj1 (make_sorted_in _ _)) in H. cbn [fst snd].
  now rewrite (nth_times batch neg x H).
Qed.
Lemma batch_nodes_ids batch neg : map fst (batch_nodes batch neg) = make_sorted_list (map r_src batch ++ map r_dst batch ++ neg).
Proof. rewrite batch_nodes_right, map_map. cbn [fst]. apply map_id. Qed.
Lemma sorted_nodup l : StronglySorted Z.lt l -> NoDup l.
Proof.
  induction 1 as [|x l _ IH F]; constructor; [|assumption]. intros H. rewrite Forall_forall in F. specialize (F x H). lia.
Qed.

(** ** Masks *)
Lemma combine_app2 {A B} (a1 a2 : list A) (b1 b2 : list B) : length a1 = length b1 -> combine (a1 ++ a2) (b1 ++ b2) = combine a1 b1 ++ combine a2 b2.
Proof. revert b1. induction a1 as [|a a1 IH]; intros [|b b1] H; cbn in H; try lia; [reflexivity|]. cbn [app combine]. now rewrite IH by lia. Qed.
Lemma masked_app {A} n1 n2 (l1 l2 : list A) : length n1 = length l1 -> masked (n1 ++ n2) (l1 ++ l2) = masked n1 l1 ++ masked n2 l2.
Proof. intros H. unfold masked. now rewrite combine_app2, filter_app, map_app by assumption. Qed.
Definition real (y : nbr) : bool := -1 <? nbr_id y.
Lemma masked_map {A} (f : nbr -> A) row : masked (map nbr_id row) (map f row) = map f (filter real row).
Proof. unfold masked, real. induction row as [|y r IH]; [reflexivity|]. cbn [map combine filter fst]. destruct (-1 <? nbr_id y); cbn [map snd]; now rewrite IH. Qed.
Lemma masked_const {A} (x : A) row : masked (map nbr_id row) (repeat x (length row)) = map (fun _ => x) (filter real row).
Proof. unfold masked, real. induction row as [|y r IH]; [reflexivity|]. cbn [length repeat map combine filter fst]. destruct (-1 <? nbr_id y); cbn [map snd]; now rewrite IH. Qed.

(** Interactions of the rows of some nodes. *)
Definition row_of (n : Z) (l : list nbr) : list row := map (fun y => (n, nbr_id y, snd y)) (filter real l).
Definition all_of (ns : list Z) (rows : list (list nbr)) : list row := flat_map (fun x => row_of (fst x) (snd x)) (combine ns rows).
Lemma masks count ns : forall rows, length ns = length rows -> Forall (fun r => length r = count) rows ->
  let nbs := map nbr_id (concat rows) in
  masked nbs nbs = map r_dst (all_of ns rows) /\
  masked nbs (flat_map (fun n => repeat n count) ns) = map r_src (all_of ns rows) /\
  masked nbs (map snd (concat rows)) = map r_time (all_of ns rows).
Proof.
  induction ns as [|n ns IH]; intros [|r rows] HL HF; cbn [length] in HL; try lia; [repeat split; reflexivity|].
  inversion HF as [|? ? Hr HF']; subst. specialize (IH rows ltac:(lia) HF'). cbv zeta in IH. destruct IH as (I1 & I2 & I3).
  cbv zeta. cbn [concat flat_map]. unfold all_of. cbn [combine flat_map fst snd]. fold (all_of ns rows). rewrite !map_app.
  assert (P : forall f : row -> Z, map f (row_of n r) = map (fun y => f (n, nbr_id y, snd y)) (filter real r)) by (intros f; unfold row_of; now rewrite map_map).
  rewrite !masked_app by (rewrite ?map_length, ?repeat_length; reflexivity).
  split; [|split]; [refine (f_equal2 (@app _) _ I1)|refine (f_equal2 (@app _) _ I2)|refine (f_equal2 (@app _) _ I3)]; rewrite P.
  - apply masked_map.
  - apply masked_const.
  - exact (masked_map (fun y : nbr => snd y) r).
Qed.
Lemma combine_parts (l : list row) : combine (combine (map r_src l) (map r_dst l)) (map r_time l) = l.
Proof. induction l as [|[[a b] c] l IH]; [reflexivity|]. cbn [map combine]. now rewrite IH. Qed.
Lemma combine_two (f h : Z -> nat) (l : list row) : combine (map f (map r_dst l)) (map h (map r_src l)) = map (fun m => (f (r_dst m), h (r_src m))) l.
Proof. rewrite !map_map. induction l as [|m l IH]; [reflexivity|]. cbn [map combine]. now rewrite IH. Qed.

Lemma filter_map_all {A B} (p : B -> bool) (f : A -> B) l : (forall x, In x l -> p (f x) = true) -> filter p (map f l) = map f l.
Proof. induction l as [|x l IH]; intros H; [reflexivity|]. cbn [map filter]. rewrite H by now left. rewrite IH; [reflexivity|]. intros y Hy. apply H. now right. Qed.
Lemma filter_none {A} (p : A -> bool) l : (forall x, In x l -> p x = false) -> filter p l = [].
Proof. induction l as [|x l IH]; intros H; [reflexivity|]. cbn [filter]. rewrite H by now left. apply IH. intros y Hy. apply H. now right. Qed.

(** The row of one node. *)
Lemma all_of_in (R : Z * Z -> list nbr -> Prop) nt : forall rows, Forall2 R nt rows -> forall m, In m (all_of (map fst nt) rows) ->
  exists t row, In (r_src m, t) nt /\ R (r_src m, t) row /\ In (r_dst m, r_time m) (map (fun y => (nbr_id y, snd y)) (filter real row)).
Proof.
  induction nt as [|[n t] nt IH]; intros rows H m Hm; inversion H as [|? row ? rows' Hr Hrs]; subst; [destruct Hm|].
  unfold all_of in Hm. cbn [map combine flat_map fst snd] in Hm. apply in_app_or in Hm as [Hm|Hm].
  - unfold row_of in Hm. apply in_map_iff in Hm as (y & <- & Hy). exists t, row. unfold r_src, r_dst, r_time. cbn [fst snd]. split; [now left|]. split; [assumption|].
    apply in_map_iff. now exists y.
  - destruct (IH rows' Hrs m Hm) as (t' & row' & H1 & H2 & H3). exists t', row'. split; [now right|]. now split.
Qed.
Lemma all_of_node (R : Z * Z -> list nbr -> Prop) nt : NoDup (map fst nt) -> forall rows, Forall2 R nt rows -> forall s t, In (s, t) nt ->
  exists row, R (s, t) row /\ filter (fun m => r_src m =? s) (all_of (map fst nt) rows) = row_of s row.
Proof.
  induction nt as [|[n u] nt IH]; intros ND rows H s t Hs; [destruct Hs|]. inversion H as [|? row ? rows' Hr Hrs]; subst.
  inversion ND as [|? ? Nn ND']; subst. cbn [fst map] in Nn. unfold all_of. cbn [map combine flat_map fst snd]. fold (all_of (map fst nt) rows'). rewrite filter_app.
  destruct Hs as [E|Hs].
  - injection E as -> ->. exists row. split; [assumption|]. rewrite (filter_none _ (all_of _ _)), app_nil_r.
    + unfold row_of. apply filter_map_all. intros y _. unfold r_src. cbn [fst]. apply Z.eqb_refl.
    + intros m Hm. destruct (all_of_in R nt rows' Hrs m Hm) as (t' & _ & H1 & _). apply Z.eqb_neq. intros E. apply Nn.
      rewrite <- E. change (r_src m) with (fst (r_src m, t')). now apply in_map.
  - destruct (IH ND' rows' Hrs s t Hs) as (row' & H1 & H2). exists row'. split; [assumption|]. rewrite H2.
    rewrite filter_none; [reflexivity|]. intros m Hm. unfold row_of in Hm. apply in_map_iff in Hm as (y & <- & _). unfold r_src. cbn [fst].
    apply Z.eqb_neq. intros ->. apply Nn. change s with (fst (s, t)). now apply in_map.
Qed.

(** Ids in files are not negative. *)
Definition no_negative (parts : list (list (list record))) : Prop := forall n e, In e (spec_edges parts [0] n) -> 0 <= e_dst e.
Lemma converted_no_negative fadd wval wm parts g : converted fadd wval wm parts g -> no_negative parts.
Proof.
  intros (all & ps & m & sel & H & _ & _ & -> & _) n e He. unfold spec_edges in He. apply filter_In in He as [He _].
  assert (A : Forall (fun bs => Forall (fun r => Forall (fun e => 0 <= e_dst e) (row_edges r)) (rows bs)) all).
  { unfold convert in H. apply bind_ok in H as (ss & Hss & _). apply mapM_ok_inv in Hss. clear He.
    induction Hss as [|bs s ps' ss' Hw _ IH]; [constructor|]. constructor; [|exact IH].
    apply write_partition_enc in Hw as (s0 & _ & E). pose proof (enc_edges _ _ _ _ E) as F. rewrite <- (rev_involutive (rows bs)). apply Forall_rev.
    eapply Forall_impl; [|exact F]. intros r Hr. eapply Forall_impl; [|exact Hr]. intros x (Hx & _). lia. }
  apply (pick_forall _ _ sel) in A. apply in_flat_map in He as (bs & Hbs & He). rewrite Forall_forall in A. specialize (A bs Hbs). cbv beta in A.
  unfold edges_of in He. rewrite <- rows_all_edges in He. apply in_flat_map in He as (r & Hr & He). rewrite Forall_forall in A. specialize (A r Hr). cbv beta in A.
  rewrite Forall_forall in A. now apply A.
Qed.

(** ** One batch *)
Definition row_ok (parts : list (list (list record))) (count : nat) (x : Z * Z) (out : list nbr) : Prop :=
  length out = count /\ latest_of count (map answer_ts (filter (still (snd x)) (spec_edges parts [0] (fst x)))) (filter real out).
Definition view (nodes : list Z) (m : list row) (table assoc : Z -> nat) (batch : list row) (neg : list Z) : inputs :=
  Inputs nodes (map (fun m => (table (r_dst m), table (r_src m))) m) (map r_time m)
    (map (fun r => assoc (r_src r)) batch) (map (fun r => assoc (r_dst r)) batch) (map assoc neg) m.

Lemma kept_in count all kept x : latest_of count all kept -> In x kept -> In x all.
Proof. intros (_ & d & P & _) H. apply Permutation_sym in P. apply (Permutation_in _ P). apply in_or_app. now left. Qed.
Lemma kept_real parts count n t kept : no_negative parts -> latest_of count (map answer_ts (filter (still t) (spec_edges parts [0] n))) kept -> filter real kept = kept.
Proof.
  intros NN H. rewrite <- (map_id kept) at 1. rewrite filter_map_all; [apply map_id|]. intros y Hy.
  apply (kept_in _ _ _ _ H) in Hy. apply in_map_iff in Hy as (e & <- & He). apply filter_In in He as [He _]. specialize (NN n e He). unfold real, nbr_id, answer_ts. cbn [fst]. lia.
Qed.
Lemma filter_defaults k : filter real (repeat no_nbr k) = [].
Proof. induction k as [|k IH]; [reflexivity|exact IH]. Qed.
Lemma latest_length count all kept : latest_of count all kept -> (length kept <= count)%nat.
Proof. intros [L _]. lia. Qed.
Lemma row_ok_of parts count x out kept : no_negative parts -> out = kept ++ repeat no_nbr (count - length kept) ->
  latest_of count (map answer_ts (filter (still (snd x)) (spec_edges parts [0] (fst x)))) kept -> row_ok parts count x out.
Proof.
  intros NN -> H. split.
  - apply latest_length in H. rewrite app_length, repeat_length. lia.
  - rewrite filter_app, filter_defaults, app_nil_r, (kept_real parts count (fst x) (snd x) kept NN H). exact H.
Qed.

Section Batch.
Context (fadd fsub : N -> N -> N) (wval : N -> Z).
Lemma predict_view w parts g count la asc batch neg :
  0 <= w -> (0 < count)%nat -> converted fadd wval (Some w) parts g -> guarded fadd fsub [0] parts ->
  exists rows, Forall2 (row_ok parts count) (batch_nodes batch neg) rows /\
    let m := all_of (map fst (batch_nodes batch neg)) rows in
    let final := make_sorted_list (map fst (batch_nodes batch neg) ++ map r_dst m) in
    predict fsub g count la asc batch neg =
    Ok (match m with
        | [] => (None, assign la final, asc)
        | _ => (Some (view final m (assign la final) (assign asc final) batch neg), assign la final, assign asc final)
        end).
Proof.
  intros Hw Hc C HG. pose proof (converted_no_negative fadd wval _ parts g C) as NN. unfold predict.
  destruct (converted_lastn fadd fsub wval w parts g [0] (map fst (batch_nodes batch neg)) (map snd (batch_nodes batch neg)) count no_nbr Hw Hc C HG) as (rows & E & F).
  assert (EC : forall l : list (Z * Z), combine (map fst l) (map snd l) = l) by (intros l; induction l as [|[a b] l IH]; [reflexivity|cbn [map combine fst snd]; now rewrite IH]).
  rewrite EC in F. assert (F2 : Forall2 (row_ok parts count) (batch_nodes batch neg) rows).
  { clear E. induction F as [|x out xs outs (kept & H1 & H2) _ IH]; constructor; [|exact IH]. now apply (row_ok_of parts count x out kept). }
  exists rows. split; [exact F2|]. cbv zeta. rewrite E. cbn [bind].
  assert (L : length (map fst (batch_nodes batch neg)) = length rows) by (rewrite map_length; clear -F2; induction F2; cbn; lia).
  assert (LR : Forall (fun r => length r = count) rows) by (clear -F2; induction F2 as [|x out xs outs [H _] _ IH]; constructor; assumption).
  destruct (masks count _ rows L LR) as (M1 & M2 & M3). cbv zeta in M1, M2, M3. rewrite M1, M2, M3.
  set (m := all_of (map fst (batch_nodes batch neg)) rows).
  destruct m as [|m0 m'] eqn:Em; [reflexivity|]. rewrite <- Em. rewrite combine_two, combine_parts. unfold view.
  destruct (map r_src m) as [|z zs] eqn:Ez; [rewrite Em in Ez; discriminate|]. reflexivity.
Qed.
End Batch.

(** What the embedding of a node sees. *)
Lemma sees_view final m la asc batch neg s : In s final -> incl (map r_src m) final -> incl (map r_dst m) final ->
  sees (view final m (assign la final) (assign asc final) batch neg) (assign asc final s) =
  map (fun x => (r_dst x, r_time x)) (filter (fun x => r_src x =? s) m).
Proof.
  intros Hs H1 H2. unfold sees, view. cbn [i_edges i_times i_nodes].
  assert (EC : forall l : list row, combine (map (fun m => (assign la final (r_dst m), assign la final (r_src m))) l) (map r_time l) =
    map (fun m => ((assign la final (r_dst m), assign la final (r_src m)), r_time m)) l) by (intros l; induction l as [|x l IH]; [reflexivity|cbn [map combine]; now rewrite IH]).
  rewrite EC. clear EC. induction m as [|x m IH]; [reflexivity|]. cbn [map flat_map filter fst snd].
  rewrite IH by (intros y Hy; first [apply H1; now right|apply H2; now right]).
  assert (I1 : In (r_src x) final) by (apply H1; now left). assert (I2 : In (r_dst x) final) by (apply H2; now left).
  rewrite !assign_in by assumption. destruct (Z.eqb_spec (r_src x) s) as [->|N].
  - rewrite Nat.eqb_refl. cbn [app map]. f_equal. f_equal. destruct (index_of_in _ _ I2) as [E _]. now apply nth_error_nth.
  - destruct (Nat.eqb_spec (index_of (r_src x) final) (index_of s final)) as [E|_]; [|reflexivity]. exfalso. apply N. now apply (index_inj final).
Qed.
Lemma node_at_view final m la asc batch neg s : In s final -> node_at (view final m la (assign asc final) batch neg) (assign asc final s) = Some s.
Proof. intros H. unfold node_at, view. cbn [i_nodes]. rewrite assign_in by assumption. now apply index_of_in. Qed.

Lemma all_of_src ns rows : incl (map r_src (all_of ns rows)) ns.
Proof.
  intros s H. apply in_map_iff in H as (m & <- & H). unfold all_of in H. apply in_flat_map in H as ([n r] & H1 & H2). apply in_combine_l in H1.
  unfold row_of in H2. cbn [fst snd] in H2. apply in_map_iff in H2 as (y & <- & _). exact H1.
Qed.

Lemma answered_view parts count la asc batch neg rows :
  Forall2 (row_ok parts count) (batch_nodes batch neg) rows -> (0 < count)%nat ->
  let m := all_of (map fst (batch_nodes batch neg)) rows in
  let final := make_sorted_list (map fst (batch_nodes batch neg) ++ map r_dst m) in
  answered parts count batch neg (match m with [] => None | _ => Some (view final m (assign la final) (assign asc final) batch neg) end).
Proof.
  intros F Hc m final.
  assert (ND : NoDup (map fst (batch_nodes batch neg))) by (rewrite batch_nodes_ids; apply sorted_nodup, make_sorted_sorted).
  assert (INV : forall n, involved batch neg n -> In (n, first_time batch n - 1) (batch_nodes batch neg)).
  { intros n H. rewrite batch_nodes_right. apply in_map_iff. exists n. split; [reflexivity|]. now apply make_sorted_in. }
  assert (KN : forall n, involved batch neg n -> knows parts count n (first_time batch n - 1) (map (fun x => (r_dst x, r_time x)) (filter (fun x => r_src x =? n) m))).
  { intros n H. destruct (all_of_node _ _ ND rows F n _ (INV n H)) as (row & (_ & HL) & E). unfold m. rewrite E. exists (filter real row). split; [exact HL|].
    unfold row_of. rewrite map_map. reflexivity. }
  assert (FI : forall n, involved batch neg n -> In n final).
  { intros n H. unfold final. apply make_sorted_in. apply in_or_app. left. change n with (fst (n, first_time batch n - 1)). apply in_map. now apply INV. }
  assert (MS : incl (map r_src m) final) by (intros n H; apply all_of_src in H; unfold final; apply make_sorted_in, in_or_app; now left).
  assert (MD : incl (map r_dst m) final) by (intros n H; unfold final; apply make_sorted_in, in_or_app; now right).
  assert (POS : forall n, involved batch neg n -> positioned parts count batch (view final m (assign la final) (assign asc final) batch neg) n (assign asc final n)).
  { intros n H. split; [apply node_at_view; now apply FI|]. rewrite sees_view; [now apply KN|now apply FI|assumption|assumption]. }
  destruct m as [|m0 m'] eqn:Em.
  - intros n H. destruct (KN n H) as (kept & (L & _) & E). cbn [filter map] in E. destruct kept; [|discriminate]. unfold unknown.
    destruct (filter (still _) _) as [|e es]; [reflexivity|]. cbn [map length] in L. lia.
  - rewrite <- Em in *. cbn [answered]. unfold view at 2 4 6 7 8. cbn [i_src i_dst i_neg i_fed].
    assert (G : forall (A : Type) (f : A -> Z) (l : list A), (forall a, In a l -> involved batch neg (f a)) ->
      Forall2 (positioned parts count batch (view final m (assign la final) (assign asc final) batch neg)) (map f l) (map (fun a => assign asc final (f a)) l)).
    { intros A f l H. induction l as [|a l IH]; cbn [map]; constructor; [apply POS, H; now left|]. apply IH. intros b Hb. apply H. now right. }
    split; [|split; [|split; [|split]]].
    + apply G. intros r H. unfold involved. apply in_or_app. left. now apply in_map.
    + apply G. intros r H. unfold involved. apply in_or_app. right. apply in_or_app. left. now apply in_map.
    + pose proof (G Z (fun n => n) neg) as G'. rewrite map_id in G'. apply G'. intros n H. unfold involved. apply in_or_app. right. apply in_or_app. now right.
    + intros x Hx. assert (IX : involved batch neg (r_src x)).
      { assert (H : In (r_src x) (map r_src m)) by now apply in_map. unfold m in H. apply all_of_src in H. rewrite batch_nodes_ids in H. now apply (proj1 (make_sorted_in _ _)) in H. }
      split; [exact IX|]. eexists. split; [apply (KN _ IX)|]. apply (in_map (fun x => (r_dst x, r_time x))). apply filter_In. split; [assumption|apply Z.eqb_refl].
    + exact KN.
Qed.
Lemma predict_right fadd fsub wval w parts g count la asc batch neg :
  0 <= w -> (0 < count)%nat -> converted fadd wval (Some w) parts g -> guarded fadd fsub [0] parts ->
  exists o la' asc', predict fsub g count la asc batch neg = Ok (o, la', asc') /\ answered parts count batch neg o.
Proof.
  intros Hw Hc C HG. destruct (predict_view fadd fsub wval w parts g count la asc batch neg Hw Hc C HG) as (rows & F & E). cbv zeta in E.
  pose proof (answered_view parts count la asc batch neg rows F Hc) as A. cbv zeta in A. rewrite E.
  destruct (all_of (map fst (batch_nodes batch neg)) rows) as [|x l]; eauto.
Qed.

(** ** Only the past *)
Lemma knows_in parts count n t l x c : knows parts count n t l -> In (x, c) l -> c <= t /\ exists e, In e (spec_edges parts [0] n) /\ e_dst e = x /\ e_c e = c.
Proof.
  intros (kept & H & ->) I. apply in_map_iff in I as (y & E & Hy). apply (kept_in _ _ _ _ H) in Hy. apply in_map_iff in Hy as (e & <- & He). apply filter_In in He as [He S].
  unfold answer_ts, nbr_id in E. cbn [fst snd] in E. injection E as <- <-. split; [unfold still in S; lia|]. exists e. auto.
Qed.
Lemma first_time_le batch r : in_time batch -> In r batch -> first_time batch (r_src r) <= r_time r.
Proof.
  unfold in_time, first_time. induction 1 as [|a b _ IH F]; intros H; [destruct H|]. cbn [find]. destruct (Z.eqb_spec (r_src a) (r_src r)) as [E|N].
  - destruct H as [->|H]; [lia|]. rewrite Forall_forall in F. now apply F.
  - destruct H as [->|H]; [congruence|]. now apply IH.
Qed.
Lemma first_time_src batch n : In n (map r_src batch) -> exists r, In r batch /\ r_src r = n /\ first_time batch n = r_time r.
Proof.
  intros H. unfold first_time. destruct (find (fun r => r_src r =? n) batch) as [r|] eqn:E.
  - apply find_some in E as [E1 E2]. exists r. repeat split; [assumption|lia].
  - apply in_map_iff in H as (r & <- & H). pose proof (find_none _ _ E r H) as X. cbv beta in X. lia.
Qed.
Lemma Forall2_nth {A B} (R : A -> B -> Prop) l1 : forall l2, Forall2 R l1 l2 -> forall k a b, nth_error l1 k = Some a -> nth_error l2 k = Some b -> R a b.
Proof. intros l2 H. induction H as [|x y l1 l2 Hxy _ IH]; intros [|k] a b Ha Hb; cbn in *; try discriminate; [congruence|]. now apply (IH k). Qed.
Lemma past_right parts count batch neg i : answered parts count batch neg (Some i) -> in_time batch ->
  forall k r p x c, nth_error batch k = Some r -> nth_error (i_src i) k = Some p -> In (x, c) (sees i p) ->
    c < r_time r /\ exists e, In e (spec_edges parts [0] (r_src r)) /\ e_dst e = x /\ e_c e = c.
Proof.
  intros (A & _) HT k r p x c Hr Hp I. pose proof (Forall2_nth _ _ _ A k (r_src r) p (map_nth_error r_src _ _ Hr) Hp) as [_ K].
  apply (knows_in _ _ _ _ _ _ _ K) in I as [L E]. split; [|exact E]. apply nth_error_In in Hr. pose proof (first_time_le batch r HT Hr). lia.
Qed.
Lemma past_dst parts count batch neg i : answered parts count batch neg (Some i) ->
  forall k r p x c, nth_error batch k = Some r -> nth_error (i_dst i) k = Some p -> ~ In (r_dst r) (map r_src batch) -> In (x, c) (sees i p) -> c <= 0.
Proof.
  intros (_ & A & _) k r p x c Hr Hp N I. pose proof (Forall2_nth _ _ _ A k (r_dst r) p (map_nth_error r_dst _ _ Hr) Hp) as [_ K].
  apply (knows_in _ _ _ _ _ _ _ K) in I as [L E]. rewrite first_time_none in L by assumption. lia.
Qed.
Lemma past_fed parts count batch neg i x : answered parts count batch neg (Some i) -> In x (i_fed i) ->
  r_time x <= 0 \/ exists r, In r batch /\ r_time x < r_time r.
Proof.
  intros (_ & _ & _ & A & _) H. destruct (A x H) as (I & l & K & IL). apply (knows_in _ _ _ _ _ _ _ K) in IL as [L _].
  destruct (in_dec Z.eq_dec (r_src x) (map r_src batch)) as [S|S].
  - destruct (first_time_src batch _ S) as (r & Hr & _ & E). right. exists r. split; [assumption|lia].
  - left. rewrite first_time_none in L by assumption. lia.
Qed.

(** ** An epoch *)
Lemma epoch_right fadd fsub wval w parts g count :
  0 <= w -> (0 < count)%nat -> converted fadd wval (Some w) parts g -> guarded fadd fsub [0] parts ->
  forall batches la asc, exists os, epoch fsub g count la asc batches = Ok os /\ Forall2 (fun b o => answered parts count (fst b) (snd b) o) batches os.
Proof.
  intros Hw Hc C HG. induction batches as [|[b neg] rest IH]; intros la asc; cbn [epoch]; [exists []; split; [reflexivity|constructor]|].
  destruct (predict_right fadd fsub wval w parts g count la asc b neg Hw Hc C HG) as (o & la' & asc' & E & A). rewrite E. cbn [bind].
  destruct (IH la' asc') as (os & E' & F). rewrite E'. cbn [bind]. exists (o :: os). split; [reflexivity|]. constructor; assumption.
Qed.
Lemma in_time_app a b : in_time (a ++ b) -> in_time b /\ forall x y, In x a -> In y b -> r_time x <= r_time y.
Proof.
  induction a as [|z a IH]; intros H; [split; [assumption|intros x y []]|]. inversion H as [|? ? HS HF]; subst. destruct (IH HS) as [H1 H2]. split; [assumption|].
  intros x y [->|Hx] Hy; [|now apply H2]. rewrite Forall_forall in HF. apply HF. apply in_or_app. now right.
Qed.
Lemma memory_right fadd fsub wval w parts g count batches la asc os :
  0 <= w -> (0 < count)%nat -> converted fadd wval (Some w) parts g -> guarded fadd fsub [0] parts ->
  epoch fsub g count la asc batches = Ok os -> in_time (concat (map fst batches)) -> Forall (fun r => 1 <= r_time r) (concat (map fst batches)) ->
  forall k b x r, nth_error batches k = Some b -> In x (fed (firstn k os)) -> In r (fst b) -> r_time x < r_time r.
Proof.
  intros Hw Hc C HG E HT HP. destruct (epoch_right fadd fsub wval w parts g count Hw Hc C HG batches la asc) as (os' & E' & F).
  assert (os' = os) by congruence. subst os'. clear E E'. induction F as [|b0 o bs os A F IH]; intros k b x r Hb Hx Hr; [destruct k; discriminate|].
  destruct k as [|k]; [destruct Hx|]. cbn [firstn nth_error map concat] in *. apply in_time_app in HT as [HT HC]. apply Forall_app in HP as [_ HP].
  assert (IR : In r (concat (map fst bs))) by (apply in_concat; exists (fst b); split; [apply in_map; now apply nth_error_In in Hb|assumption]).
  unfold fed in Hx. cbn [flat_map] in Hx. apply in_app_or in Hx as [Hx|Hx].
  - destruct o as [i|]; [|destruct Hx]. destruct (past_fed _ _ _ _ _ _ A Hx) as [L|(r0 & H0 & L)].
    + rewrite Forall_forall in HP. specialize (HP r IR). cbv beta in HP. lia.
    + specialize (HC r0 r H0 IR). lia.
  - now apply (IH HT HP k b).
Qed.

(** ** Loss and evaluation *)
Lemma test_iff {A} (score : inputs -> A) os : (exists l, test_scores score os = Ok l) <-> Forall (fun o => o <> None) os.
Proof.
  unfold test_scores. induction os as [|o os [IH1 IH2]]; [split; [constructor|eexists; reflexivity]|]. cbn [mapM]. destruct o as [i|]; cbn [bind].
  - destruct (mapM _ os) as [l|e] eqn:E; cbn [bind].
    + split; [|eauto]. intros _. constructor; [discriminate|]. apply IH1. eauto.
    + split; [intros [l H]; discriminate|]. intros H. inversion H as [|? ? _ H']; subst. destruct (IH2 H') as [l X]. discriminate.
  - split; [intros [l H]; discriminate|]. intros H. inversion H as [|? ? H' _]; subst. congruence.
Qed.
Lemma loss_total bs (l : list (option Q)) : forall a : Q,
  (fold_left (fun acc l => match l with Some x => acc + x * inject_Z (Z.of_nat bs) | None => acc end) l a == a + inject_Z (Z.of_nat bs) * fold_right Qplus 0 (some_losses l))%Q.
Proof.
  induction l as [|[x|] l IH]; intros a; cbn [fold_left some_losses fold_right]; [ring|rewrite IH; ring|apply IH].
Qed.
Lemma loss_right bs (l : list (option Q)) : (0 < bs)%nat -> l <> [] ->
  (train_loss bs l == fold_right Qplus 0 (some_losses l) / inject_Z (Z.of_nat (length l)))%Q.
Proof.
  intros H N. unfold train_loss. rewrite loss_total, inject_Z_mult. field.
  split; intros E; unfold Qeq, inject_Z in E; cbn [Qnum Qden] in E; [|lia]. destruct l; [congruence|]. cbn [length] in E. lia.
Qed.
Lemma loss_mean bs (l : list Q) : (0 < bs)%nat -> l <> [] -> (train_loss bs (map Some l) == mean l)%Q.
Proof.
  intros H N. rewrite loss_right; [|assumption|destruct l; [congruence|discriminate]]. unfold mean. rewrite map_length.
  assert (E : some_losses (map Some l) = l) by (clear; induction l as [|x l IH]; [reflexivity|cbn; now rewrite IH]). now rewrite E.
Qed.

(** ** The split *)
Lemma insert_time_perm x l : Permutation (insert_time x l) (x :: l).
Proof. induction l as [|y l IH]; [reflexivity|]. cbn [insert_time]. destruct (x <=? y); [reflexivity|]. rewrite IH. apply perm_swap. Qed.
Lemma insert_time_sorted x l : StronglySorted Z.le l -> StronglySorted Z.le (insert_time x l).
Proof.
  induction 1 as [|y l HS IH F]; cbn [insert_time]; [repeat constructor|]. destruct (Z.leb_spec x y) as [L|L].
  - constructor; [now constructor|]. constructor; [assumption|]. eapply Forall_impl; [|exact F]. cbn. intros; lia.
  - constructor; [assumption|]. apply (Permutation_Forall (Permutation_sym (insert_time_perm x l))). constructor; [lia|assumption].
Qed.
Lemma sort_sorted l : StronglySorted Z.le l -> sort_times l = l.
Proof.
  induction 1 as [|y l HS IH F]; [reflexivity|]. cbn [sort_times fold_right]. fold (sort_times l). rewrite IH. destruct l as [|z l]; [reflexivity|].
  cbn [insert_time]. inversion F as [|? ? L _]; subst. now replace (y <=? z) with true by lia.
Qed.
Lemma sorted_nth l : StronglySorted Z.le l -> forall i j, (i <= j < length l)%nat -> nth i l 0 <= nth j l 0.
Proof.
  induction 1 as [|y l HS IH F]; intros i j H; [cbn in H; lia|]. cbn [length] in H. destruct j as [|j], i as [|i]; cbn [nth]; try lia.
  - rewrite Forall_forall in F. apply F, nth_In. lia.
  - apply IH. lia.
Qed.
Lemma quantile_until l q v : StronglySorted Z.le l -> quantile l q = Ok v -> (0 <= q)%Q -> (q <= 1)%Q ->
  (share q (length l) < length l)%nat /\ forall x, In x l -> Qle_bool (inject_Z x) v = (x <=? nth (share q (length l)) l 0).
Proof.
  intros HS HQ H0 H1. unfold quantile in HQ. destruct l as [|h t] eqn:El; [discriminate|]. rewrite <- El in *.
  destruct (Qle_bool 0 q && Qle_bool q 1); [|discriminate]. apply (f_equal (fun r => match r with Ok x => x | Fail _ => 0%Q end)) in HQ. cbv beta iota zeta in HQ.
  rewrite (sort_sorted l HS) in HQ. fold (share q (length l)) in HQ. set (vi := (q * inject_Z (Z.of_nat (length l) - 1))%Q) in *.
  set (k := share q (length l)) in *. assert (LL : (0 < length l)%nat) by (rewrite El; cbn; lia).
  assert (V0 : (0 <= vi)%Q). { unfold vi. apply Qmult_le_0_compat; [assumption|]. change 0%Q with (inject_Z 0). rewrite <- Zle_Qle. lia. }
  assert (V1 : (vi <= inject_Z (Z.of_nat (length l) - 1))%Q).
  { unfold vi. rewrite <- (Qmult_1_l (inject_Z (Z.of_nat (length l) - 1))) at 2. apply Qmult_le_compat_r; [assumption|]. change 0%Q with (inject_Z 0). rewrite <- Zle_Qle. lia. }
  pose proof (Qfloor_le vi) as F1. pose proof (Qlt_floor vi) as F2.
  assert (K0 : 0 <= Qfloor vi). { change 0 with (Qfloor 0). now apply Qfloor_resp_le. }
  assert (K1 : Qfloor vi <= Z.of_nat (length l) - 1). { rewrite <- (Qfloor_Z (Z.of_nat (length l) - 1)). now apply Qfloor_resp_le. }
  assert (EK : k = Z.to_nat (Qfloor vi)) by reflexivity.
  assert (KL : (k < length l)%nat) by lia. split; [assumption|]. intros x Hx.
  set (a := nth k l 0) in *. set (b := nth (Nat.min (S k) (length l - 1)) l 0) in *.
  assert (AB : a <= b) by (apply sorted_nth; [assumption|lia]).
  set (f := (vi - inject_Z (Qfloor vi))%Q) in *. assert (f0 : (0 <= f)%Q) by (unfold f; lra).
  assert (f1 : (f < 1)%Q). { unfold f. rewrite inject_Z_plus in F2. change (inject_Z 1) with 1%Q in F2. lra. }
  assert (AV : (inject_Z a <= v)%Q). { rewrite <- HQ. assert (0 <= inject_Z (b - a) * f)%Q; [|lra]. apply Qmult_le_0_compat; [|assumption]. change 0%Q with (inject_Z 0). rewrite <- Zle_Qle. lia. }
  apply Bool.eq_true_iff_eq. rewrite Qle_bool_iff, Z.leb_le. split.
  - intros XV. destruct (Z.le_gt_cases x a) as [L|G]; [assumption|]. exfalso.
    destruct (In_nth l x 0 Hx) as (j & Hj & Ej). assert (KJ : (k < j)%nat).
    { destruct (Nat.le_gt_cases j k) as [J|J]; [|assumption]. pose proof (sorted_nth l HS j k ltac:(lia)) as X. fold a in X. lia. }
    assert (BX : b <= x). { subst x. unfold b. apply sorted_nth; [assumption|lia]. }
    assert (LB : a < b). { destruct (Z.eq_dec a b) as [E|]; [|lia]. exfalso. rewrite <- HQ in XV. rewrite <- E in XV. rewrite Z.sub_diag in XV. change (inject_Z 0) with 0%Q in XV.
      assert (inject_Z x <= inject_Z a)%Q by lra. rewrite <- Zle_Qle in H. lia. }
    assert (VB : (v < inject_Z b)%Q). { rewrite <- HQ. unfold Z.sub. rewrite inject_Z_plus, inject_Z_opp. assert (P : (0 < inject_Z b - inject_Z a)%Q).
      { rewrite Zlt_Qlt in LB. lra. } assert ((inject_Z b - inject_Z a) * f < inject_Z b - inject_Z a)%Q; [|lra].
      rewrite <- (Qmult_1_r (inject_Z b - inject_Z a)) at 2. apply Qmult_lt_l; assumption. }
    rewrite Zle_Qle in BX. lra.
  - intros L. rewrite Zle_Qle in L. lra.
Qed.
Lemma filter_until_prefix (rows : list row) c : in_time rows ->
  filter (fun r => r_time r <=? c) rows ++ filter (fun r => c <? r_time r) rows = rows.
Proof.
  unfold in_time. induction 1 as [|r rows HS IH F]; [reflexivity|]. cbn [filter]. destruct (Z.leb_spec (r_time r) c) as [L|L].
  - replace (c <? r_time r) with false by lia. cbn [app]. now rewrite IH.
  - replace (c <? r_time r) with true by lia. rewrite (filter_none (fun r => r_time r <=? c)) in * by (intros x Hx; rewrite Forall_forall in F; specialize (F x Hx); cbv beta in F; lia).
    cbn [app] in *. now rewrite IH.
Qed.
Lemma in_time_times rows : in_time rows -> StronglySorted Z.le (map r_time rows).
Proof. unfold in_time. induction 1 as [|r rows HS IH F]; cbn [map]; constructor; [assumption|]. now apply Forall_map. Qed.
Lemma count_until_right rows q v : in_time rows -> quantile (map r_time rows) q = Ok v -> (0 <= q)%Q -> (q <= 1)%Q ->
  (share q (length rows) < length rows)%nat /\ count_until rows v = length (until rows (share q (length rows))).
Proof.
  intros HT HQ H0 H1. destruct (quantile_until _ _ _ (in_time_times _ HT) HQ H0 H1) as [HK HE]. rewrite map_length in HK, HE. split; [assumption|].
  unfold count_until, until. f_equal. apply filter_ext_in. intros r Hr. apply HE. now apply in_map.
Qed.
Lemma quantile_ok l q : l <> [] -> (0 <= q)%Q -> (q <= 1)%Q -> exists v, quantile l q = Ok v.
Proof.
  intros N H0 H1. unfold quantile. destruct l; [congruence|]. apply Qle_bool_iff in H0, H1. rewrite H0, H1. cbn [andb]. eexists. reflexivity.
Qed.
Lemma share_le q1 q2 n : (0 < n)%nat -> (q1 <= q2)%Q -> (share q1 n <= share q2 n)%nat.
Proof.
  intros N H. unfold share. assert (Qfloor (q1 * inject_Z (Z.of_nat n - 1)) <= Qfloor (q2 * inject_Z (Z.of_nat n - 1))); [|lia].
  apply Qfloor_resp_le, Qmult_le_compat_r; [assumption|]. change 0%Q with (inject_Z 0). rewrite <- Zle_Qle. lia.
Qed.
Lemma split_right val test rows : rows <> [] -> in_time rows -> (0 <= val)%Q -> (0 <= test)%Q -> (val + test <= 1)%Q ->
  let k := share (1 - test - val) (length rows) in let j := share (1 - test) (length rows) in
  split_rows val test rows = Ok (until rows k, filter (fun r => r_time r <=? nth j (map r_time rows) 0) (after rows k), after rows j) /\
  until rows k ++ filter (fun r => r_time r <=? nth j (map r_time rows) 0) (after rows k) ++ after rows j = rows /\
  (k < length (until rows k))%nat /\ (j < length (until rows j))%nat.
Proof.
  intros N HT H0 H1 H2 k j. assert (LN : (0 < length rows)%nat) by (destruct rows; [congruence|cbn; lia]).
  assert (NM : map r_time rows <> []) by (destruct rows; [congruence|discriminate]).
  destruct (quantile_ok (map r_time rows) (1 - test - val) NM ltac:(lra) ltac:(lra)) as [v Ev].
  destruct (quantile_ok (map r_time rows) (1 - test) NM ltac:(lra) ltac:(lra)) as [u Eu].
  destruct (count_until_right rows _ _ HT Ev ltac:(lra) ltac:(lra)) as [K1 C1]. destruct (count_until_right rows _ _ HT Eu ltac:(lra) ltac:(lra)) as [K2 C2].
  fold k in K1, C1. fold j in K2, C2. assert (KJ : (k <= j)%nat) by (apply share_le; [assumption|lra]).
  pose proof (sorted_nth _ (in_time_times _ HT) k j ltac:(rewrite map_length; lia)) as LKJ.
  set (ck := nth k (map r_time rows) 0) in *. set (cj := nth j (map r_time rows) 0) in *.
  pose proof (filter_until_prefix rows ck HT) as P1. pose proof (filter_until_prefix rows cj HT) as P2.
  assert (UJ : until rows j = until rows k ++ filter (fun r => r_time r <=? cj) (after rows k)).
  { unfold until, after. fold ck cj. rewrite <- P1 at 1. rewrite filter_app. f_equal. rewrite <- (map_id (filter _ rows)) at 1. rewrite filter_map_all; [now rewrite map_id|].
    intros x Hx. apply filter_In in Hx as [_ Hx]. lia. }
  assert (PK : until rows k ++ after rows k = rows) by exact P1. assert (PJ : until rows j ++ after rows j = rows) by exact P2.
  split; [|split; [|split]].
  - unfold split_rows. rewrite Ev, Eu. cbn [bind]. rewrite C1, C2.
    assert (F1 : firstn (length (until rows k)) rows = until rows k) by (rewrite <- PK at 2; rewrite firstn_app, firstn_all, Nat.sub_diag, firstn_O; apply app_nil_r).
    assert (F2 : firstn (length (until rows j)) rows = until rows j) by (rewrite <- PJ at 2; rewrite firstn_app, firstn_all, Nat.sub_diag, firstn_O; apply app_nil_r).
    assert (F3 : skipn (length (until rows j)) rows = after rows j) by (rewrite <- PJ at 2; rewrite skipn_app, skipn_all, Nat.sub_diag; reflexivity).
    rewrite F1, F2, F3. rewrite UJ at 1. rewrite skipn_app, skipn_all, Nat.sub_diag. reflexivity.
  - fold cj. rewrite app_assoc, <- UJ. exact PJ.
  - assert (G : forall i, (i < length rows)%nat -> (i < length (until rows i))%nat); [|now apply G].
    intros i Hi. destruct (Nat.lt_ge_cases i (length (until rows i))) as [L|L]; [assumption|]. exfalso.
    pose proof (filter_until_prefix rows (nth i (map r_time rows) 0) HT) as P. fold (until rows i) in P. fold (after rows i) in P.
    assert (E : nth i rows (0, 0, 0) = nth (i - length (until rows i)) (after rows i) (0, 0, 0)) by (rewrite <- P at 1; apply app_nth2; lia).
    assert (I : In (nth i rows (0, 0, 0)) (after rows i)). { rewrite E. apply nth_In. apply (f_equal (@length row)) in P. rewrite app_length in P. lia. }
    unfold after in I. apply filter_In in I as [_ I]. change 0 with (r_time (0, 0, 0)) in I at 1. rewrite map_nth in I. lia.
  - assert (G : forall i, (i < length rows)%nat -> (i < length (until rows i))%nat); [|now apply G].
    intros i Hi. destruct (Nat.lt_ge_cases i (length (until rows i))) as [L|L]; [assumption|]. exfalso.
    pose proof (filter_until_prefix rows (nth i (map r_time rows) 0) HT) as P. fold (until rows i) in P. fold (after rows i) in P.
    assert (E : nth i rows (0, 0, 0) = nth (i - length (until rows i)) (after rows i) (0, 0, 0)) by (rewrite <- P at 1; apply app_nth2; lia).
    assert (I : In (nth i rows (0, 0, 0)) (after rows i)). { rewrite E. apply nth_In. apply (f_equal (@length row)) in P. rewrite app_length in P. lia. }
    unfold after in I. apply filter_In in I as [_ I]. change 0 with (r_time (0, 0, 0)) in I at 1. rewrite map_nth in I. lia.
Qed.

(** ** With a converted graph *)
Lemma predict_answered fadd fsub wval w parts g count la asc la' asc' batch neg o :
  0 <= w -> (0 < count)%nat -> converted fadd wval (Some w) parts g -> guarded fadd fsub [0] parts ->
  predict fsub g count la asc batch neg = Ok (o, la', asc') -> answered parts count batch neg o.
Proof.
  intros Hw Hc C HG E. destruct (predict_right fadd fsub wval w parts g count la asc batch neg Hw Hc C HG) as (o' & l' & a' & E' & A).
  rewrite E in E'. now injection E' as -> _ _.
Qed.
Lemma predict_past fadd fsub wval w parts g count la asc la' asc' batch neg i :
  0 <= w -> (0 < count)%nat -> converted fadd wval (Some w) parts g -> guarded fadd fsub [0] parts ->
  predict fsub g count la asc batch neg = Ok (Some i, la', asc') -> in_time batch ->
  forall k r p x c, nth_error batch k = Some r -> nth_error (i_src i) k = Some p -> In (x, c) (sees i p) ->
    c < r_time r /\ exists e, In e (spec_edges parts [0] (r_src r)) /\ e_dst e = x /\ e_c e = c.
Proof.
  intros Hw Hc C HG E. apply past_right with count neg. now apply (predict_answered fadd fsub wval w parts g count la asc la' asc').
Qed.
Lemma predict_dst fadd fsub wval w parts g count la asc la' asc' batch neg i :
  0 <= w -> (0 < count)%nat -> converted fadd wval (Some w) parts g -> guarded fadd fsub [0] parts ->
  predict fsub g count la asc batch neg = Ok (Some i, la', asc') ->
  forall k r p x c, nth_error batch k = Some r -> nth_error (i_dst i) k = Some p -> ~ In (r_dst r) (map r_src batch) -> In (x, c) (sees i p) -> c <= 0.
Proof.
  intros Hw Hc C HG E. apply past_dst with parts count neg. now apply (predict_answered fadd fsub wval w parts g count la asc la' asc').
Qed.
