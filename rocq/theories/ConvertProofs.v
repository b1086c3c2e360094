(** From record streams through files to query answers. *)
From Verif Require Import Base WriterModel LoaderModel GraphModel GraphSpec WriterProofs LoaderProofs QueryProofs GraphProofs.
From Coq Require Import Sorting.Sorted ZifyBool ZifyNat ZifyN.
Local Open Scope Z_scope.

(** ** Rows versus records *)

Definition row_step (acc : list row) (x : record * Z * Z) : list row :=
  let r := fst (fst x) in
  if is_node r then Row (rsrc r) (rtyp r) (rfeats r) [] :: acc
  else match acc with
       | w :: rest => if row_id w =? rsrc r then add_edge_to (edge_of x) w :: rest
                      else Row (rsrc r) (-1) [] [edge_of x] :: acc
       | [] => [Row (rsrc r) (-1) [] [edge_of x]]
       end.

Lemma rows_rev_fold_step xs : forall acc, rows_rev acc xs = fold_left row_step xs acc.
Proof. induction xs as [|x xs IH]; intro acc; [reflexivity|]. cbn [rows_rev fold_left]. now rewrite IH. Qed.

Lemma rows_rev_snoc acc xs x : rows_rev acc (xs ++ [x]) = row_step (rows_rev acc xs) x.
Proof. now rewrite !rows_rev_fold_step, fold_left_app. Qed.

Lemma rows_all_edges xs : all_edges (rev (rows_rev [] xs)) = item_edges xs.
Proof.
  induction xs as [|x xs IH] using rev_ind; [reflexivity|].
  rewrite rows_rev_snoc. unfold item_edges. rewrite filter_app, map_app. fold (item_edges xs).
  rewrite <- IH. cbn [filter]. unfold row_step. destruct (is_node (fst (fst x))); cbn [negb map].
  - cbn [rev]. rewrite all_edges_app. unfold all_edges at 2. cbn. now rewrite !app_nil_r.
  - destruct (rows_rev [] xs) as [|w rest].
    + reflexivity.
    + destruct (row_id w =? _).
      * cbn [rev]. rewrite !all_edges_app, <- app_assoc. f_equal. unfold all_edges. cbn. now rewrite !app_nil_r.
      * cbn [rev]. rewrite (all_edges_app (rev rest ++ [w])). unfold all_edges at 2. cbn. reflexivity.
Qed.

Lemma batch_items_records nc nr rs : map (fun x => fst (fst x)) (batch_items nc nr rs) = rs.
Proof.
  revert nc nr; induction rs as [|r rs IH]; intros nc nr; [reflexivity|]. cbn.
  destruct (is_node r); cbn; now rewrite IH.
Qed.

Lemma items_records bs : map (fun x => fst (fst x)) (items bs) = concat bs.
Proof.
  unfold items. induction bs as [|b bs IH]; [reflexivity|]. cbn. now rewrite map_app, batch_items_records, IH.
Qed.

(** Typed node records and typed rows correspond. *)
Definition typed_rows (rws : list row) : list (Z * Z) :=
  map (fun r => (row_id r, row_typ r)) (filter (fun r => negb (row_typ r =? -1)) rws).
Definition typed_records (rs : list record) : list (Z * Z) :=
  map (fun r => (rsrc r, rtyp r)) (filter (fun r => is_node r && negb (rtyp r =? -1)) rs).

Lemma typed_rows_app a b : typed_rows (a ++ b) = typed_rows a ++ typed_rows b.
Proof. unfold typed_rows. now rewrite filter_app, map_app. Qed.

Lemma rows_typed xs :
  typed_rows (rev (rows_rev [] xs)) = typed_records (map (fun x => fst (fst x)) xs).
Proof.
  induction xs as [|x xs IH] using rev_ind; [reflexivity|].
  rewrite rows_rev_snoc, map_app. unfold typed_records. rewrite filter_app, map_app.
  fold (typed_records (map (fun x => fst (fst x)) xs)). rewrite <- IH.
  unfold row_step. cbn [map filter]. destruct (is_node (fst (fst x))); cbn [andb].
  - cbn [rev]. rewrite typed_rows_app. f_equal. unfold typed_rows. cbn [filter row_typ].
    destruct (negb (rtyp (fst (fst x)) =? -1)); reflexivity.
  - cbn [map]. rewrite app_nil_r. destruct (rows_rev [] xs) as [|w rest]; [reflexivity|].
    destruct (row_id w =? _).
    + cbn [rev]. rewrite !typed_rows_app. f_equal. unfold typed_rows. cbn [filter add_edge_to row_typ].
      destruct (negb (row_typ w =? -1)); reflexivity.
    + cbn [rev]. rewrite (typed_rows_app (rev rest ++ [w])). unfold typed_rows at 2. cbn. now rewrite app_nil_r.
Qed.

Lemma rows_ids xs n :
  In n (map row_id (rows_rev [] xs)) <-> In n (map (fun x => rsrc (fst (fst x))) xs).
Proof.
  induction xs as [|x xs IH] using rev_ind; [tauto|].
  rewrite rows_rev_snoc, map_app, in_app_iff, <- IH. cbn [map In]. unfold row_step.
  destruct (is_node _); cbn [map In row_id]; [tauto|].
  destruct (rows_rev [] xs) as [|w rest]; cbn [map In row_id]; [tauto|].
  destruct (Z.eqb_spec (row_id w) (rsrc (fst (fst x)))) as [E|E]; cbn [map In row_id add_edge_to]; [|tauto].
  rewrite <- E. tauto.
Qed.

Lemma rows_features xs :
  map (fun r => (row_id r, row_feats r)) (filter (fun r => negb (row_typ r =? -1)) (rev (rows_rev [] xs))) =
  map (fun r => (rsrc r, rfeats r)) (filter (fun r => is_node r && negb (rtyp r =? -1)) (map (fun x => fst (fst x)) xs)).
Proof.
  induction xs as [|x xs IH] using rev_ind; [reflexivity|].
  rewrite rows_rev_snoc, map_app. rewrite !filter_app, !map_app. rewrite <- IH.
  unfold row_step. cbn [map filter]. destruct (is_node (fst (fst x))); cbn [andb].
  - cbn [rev]. rewrite filter_app, map_app. f_equal. cbn [filter row_typ].
    destruct (negb (rtyp (fst (fst x)) =? -1)); reflexivity.
  - cbn [map]. rewrite app_nil_r. destruct (rows_rev [] xs) as [|w rest]; [reflexivity|].
    destruct (row_id w =? _).
    + cbn [rev]. rewrite !filter_app, !map_app. f_equal. cbn [filter add_edge_to row_typ].
      destruct (negb (row_typ w =? -1)); reflexivity.
    + cbn [rev]. rewrite (filter_app _ (rev rest ++ [w])), map_app. cbn. now rewrite app_nil_r.
Qed.

(** Record conditions carry over to rows. *)
Definition row_rec_ok (r : row) : Prop := row_id r < 2 ^ 63 /\ erow_ok r.

Lemma rows_rec_ok xs : Forall (fun x => rec_ok (fst (fst x))) xs -> Forall row_rec_ok (rows_rev [] xs).
Proof.
  induction xs as [|x xs IH] using rev_ind; intro H; [constructor|].
  apply Forall_app in H. destruct H as [H Hx]. specialize (IH H). inversion Hx as [|? ? Hr _]; subst.
  rewrite rows_rev_snoc. unfold row_step. destruct Hr as (Hs & Hd & Hw & Ht).
  destruct x as [[r c] d]. cbn [fst snd] in *.
  destruct (is_node r).
  - constructor; [|assumption]. split; [exact Hs|]. constructor.
  - assert (He : e_dst (edge_of (r, c, d)) < 2 ^ 63 /\ 0 <= e_typ (edge_of (r, c, d)) /\ (e_w (edge_of (r, c, d)) < 2 ^ 32)%N).
    { cbn. auto. }
    destruct (rows_rev [] xs) as [|w rest].
    + repeat constructor; try exact Hs; apply He.
    + inversion IH as [|? ? [Hw1 Hw2] Hrest]; subst. destruct (row_id w =? rsrc r).
      * constructor; [|assumption]. split; [exact Hw1|]. unfold erow_ok. cbn [add_edge_to row_edges].
        apply Forall_app. split; [exact Hw2|]. constructor; [exact He|constructor].
      * constructor; [|assumption]. split; [exact Hs|]. constructor; [exact He|constructor].
Qed.

Lemma rows_of_rec_ok bs : Forall rec_ok (concat bs) -> Forall row_rec_ok (rows bs).
Proof.
  intro H. unfold rows. apply Forall_rev. apply rows_rec_ok.
  rewrite <- items_records in H. rewrite Forall_map in H. exact H.
Qed.

(** ** Conversion *)

Definition row_facts (r : row) : Prop :=
  StronglySorted Z.le (map e_typ (row_edges r)) /\ Forall (fun e => e_src e = row_id r) (row_edges r).

Lemma written_rows wval wm bs s :
  write_partition wval wm bs = Ok s -> Forall row_facts (rows bs).
Proof.
  intro H. apply write_partition_enc in H. destruct H as (s0 & _ & E). destruct E.
  rewrite <- (rev_involutive (rows bs)). apply Forall_rev.
  apply Forall_forall. intros r Hr. rewrite Forall_forall in enc_sorted, enc_src.
  split; [now apply enc_sorted|now apply enc_src].
Qed.

Section Convert.
Variables fadd fsub : N -> N -> N.
Notation part_of := (part_of fadd).

Lemma written_loads wval wm bs s m :
  write_partition wval wm bs = Ok s -> fits (files_of s) -> Forall rec_ok (concat bs) ->
  loads fadd m (is_temporal wm) (files_of s) (rows bs).
Proof.
  intros H F R. apply write_partition_enc in H. destruct H as (s0 & -> & E).
  pose proof (rows_of_rec_ok bs R) as Hr. split.
  - apply (load_partition_spec fadd m wm (rows bs) s0 E F).
    eapply Forall_impl; [|exact Hr]. intros r [_ Hx]. exact Hx.
  - destruct F as [Fnm _]. destruct E. rewrite rev_involutive in *.
    unfold files_of, wclose in *. cbn [f_nm nm] in *. rewrite enc_nm in *.
    unfold map_entries, entries. apply entries_of_nm.
    + rewrite <- (rev_involutive (rows bs)). now apply Forall_rev.
    + eapply Forall_impl; [|exact Hr]. intros r [Hx _]. exact Hx.
    + unfold indexed in Fnm.
      assert (L : (length (flat_map enc_nm_entry (combine (seq 0 (length (rows bs))) (rows bs))) = 20 * length (rows bs))%nat).
      { rewrite (flat_map_length_const 20) by (intros; apply enc_nm_length).
        rewrite combine_length, seq_length. lia. }
      rewrite L in Fnm. lia.
Qed.

Lemma mapM_ok_inv {A B} (f : A -> res B) l r : mapM f l = Ok r -> Forall2 (fun a b => f a = Ok b) l r.
Proof.
  revert r; induction l as [|a l IH]; intros r H; cbn in H.
  - inversion H; subst. constructor.
  - destruct (f a) eqn:Ea; cbn in H; [|discriminate]. destruct (mapM f l) eqn:El; cbn in H; [|discriminate].
    inversion H; subst. constructor; [assumption|]. now apply IH.
Qed.

Lemma convert_loads wval wm parts ps m :
  convert wval wm parts = Ok (ps, m) -> Forall fits ps -> Forall rec_ok (concat (concat parts)) ->
  Forall2 (loads fadd m (is_temporal wm)) ps (map rows parts).
Proof.
  unfold convert. intros H F R. apply bind_ok in H. destruct H as (ss & Hss & H). inversion H as [[Hps Hm]]; clear H.
  clear Hm. apply mapM_ok_inv in Hss. subst ps. clear m.
  generalize (LM (fold_left Nat.max (map node_feature_count ss) 0%nat)
         (fold_left Nat.max (map edge_feature_count ss) 0%nat)
         (match wm with Some w => w | None => -1 end)). intro m.
  induction Hss as [|bs s parts ss Hw _ IH]; [constructor|].
  cbn [map] in *. inversion F as [|? ? F1 F2]; subst. cbn [concat] in R. rewrite concat_app in R.
  apply Forall_app in R. destruct R as [R1 R2]. constructor.
  - now apply (written_loads wval).
  - now apply IH.
Qed.

Lemma convert_facts wval wm parts ps m :
  convert wval wm parts = Ok (ps, m) -> Forall (fun rws => Forall row_facts rws) (map rows parts).
Proof.
  unfold convert. intros H. apply bind_ok in H. destruct H as (ss & Hss & _). apply mapM_ok_inv in Hss.
  induction Hss as [|bs s parts ss Hw _ IH]; [constructor|]. constructor; [|exact IH].
  eapply written_rows; eassumption.
Qed.

Lemma convert_wm wval wm parts ps m :
  convert wval wm parts = Ok (ps, m) -> lm_watermark m = match wm with Some w => w | None => -1 end.
Proof.
  unfold convert. intros H. apply bind_ok in H. destruct H as (ss & Hss & H). inversion H. reflexivity.
Qed.

(** ** Sorted type lists *)
Lemma insert_type_in t l x : In x (insert_type t l) <-> x = t \/ In x l.
Proof.
  induction l as [|y l IH]; cbn [insert_type].
  - cbn. intuition.
  - destruct (Z.ltb_spec t y).
    + cbn. intuition.
    + destruct (Z.eqb_spec t y).
      * subst. cbn. intuition.
      * cbn [In]. rewrite IH. intuition.
Qed.

Lemma insert_type_sorted t l : StronglySorted Z.lt l -> StronglySorted Z.lt (insert_type t l).
Proof.
  induction l as [|y l IH]; intro H; cbn [insert_type].
  - repeat constructor.
  - apply StronglySorted_inv in H. destruct H as [Hs Hf].
    destruct (Z.ltb_spec t y).
    + constructor; [now constructor|]. constructor; [assumption|].
      eapply Forall_impl; [|exact Hf]. cbn. intros; lia.
    + destruct (Z.eqb_spec t y); [now constructor|]. constructor; [now apply IH|].
      apply Forall_forall. intros x Hx. apply insert_type_in in Hx. rewrite Forall_forall in Hf.
      destruct Hx as [->|Hx]; [lia|]. now apply Hf.
Qed.

Lemma make_sorted_in T x : In x (make_sorted_list T) <-> In x T.
Proof.
  unfold make_sorted_list. induction T as [|t T IH]; [cbn; tauto|]. cbn [fold_right]. rewrite insert_type_in, IH. cbn. intuition.
Qed.
Lemma make_sorted_sorted T : StronglySorted Z.lt (make_sorted_list T).
Proof. induction T as [|t T IH]; [constructor|]. cbn. now apply insert_type_sorted. Qed.

Lemma sorted_lt_ext l1 : forall l2, StronglySorted Z.lt l1 -> StronglySorted Z.lt l2 ->
  (forall x, In x l1 <-> In x l2) -> l1 = l2.
Proof.
  induction l1 as [|a l1 IH]; intros [|b l2] H1 H2 H.
  - reflexivity.
  - exfalso. destruct (proj2 (H b) (or_introl eq_refl)).
  - exfalso. destruct (proj1 (H a) (or_introl eq_refl)).
  - apply StronglySorted_inv in H1, H2. destruct H1 as [S1 F1], H2 as [S2 F2]. rewrite Forall_forall in F1, F2.
    assert (a = b).
    { destruct (proj1 (H a) (or_introl eq_refl)) as [E|E]; [congruence|].
      destruct (proj2 (H b) (or_introl eq_refl)) as [E'|E']; [congruence|].
      specialize (F1 _ E'). specialize (F2 _ E). lia. }
    subst b. f_equal. apply IH; try assumption. intro x. split; intro Hx.
    + destruct (proj1 (H x) (or_intror Hx)) as [E|E]; [|assumption]. subst x. specialize (F1 _ Hx). lia.
    + destruct (proj2 (H x) (or_intror Hx)) as [E|E]; [|assumption]. subst x. specialize (F2 _ Hx). lia.
Qed.

Lemma make_sorted_ext T1 T2 : (forall x, In x T1 <-> In x T2) -> make_sorted_list T1 = make_sorted_list T2.
Proof.
  intro H. apply sorted_lt_ext; try apply make_sorted_sorted. intro x. now rewrite !make_sorted_in.
Qed.

Lemma mem_sorted T t : mem t (make_sorted_list T) = mem t T.
Proof.
  destruct (mem t T) eqn:E.
  - apply mem_In. apply make_sorted_in. now apply mem_In.
  - apply mem_false. rewrite make_sorted_in. now apply mem_false.
Qed.

Lemma gap_free_ext T1 T2 Gs : (forall x, In x T1 <-> In x T2) -> gap_free T1 Gs -> gap_free T2 Gs.
Proof. intros H Hg g1 t g2. rewrite <- !H. apply Hg. Qed.

(** ** Graph level answers *)

Definition graph_of (m : lmeta) (tmp : bool) (rwss : list (list row)) (g : graph) : Prop :=
  forall n, occurrences g n = Ok (lookup (part_of m tmp) rwss n).

Lemma query_lift {A} m tmp rwss g n (q : partition -> nat -> res A) (h : row -> A) :
  graph_of m tmp rwss g ->
  (forall rws r1 r r2, In rws rwss -> rws = r1 ++ r :: r2 -> row_id r = n -> q (part_of m tmp rws) (length r1) = Ok (h r)) ->
  (do o <- occurrences g n ;;
   match o with None => Ok [] | Some os => mapM (fun x => q (fst x) (snd x)) os end) = Ok (map h (node_rows n rwss)).
Proof.
  intros Hg Hq. rewrite Hg. cbn [bind]. unfold lookup, found.
  pose proof (places_mapM (part_of m tmp) q h n rwss Hq) as Hm.
  pose proof (places_nil (part_of m tmp) n rwss) as Hn.
  destruct (places (part_of m tmp) n rwss) as [|o os].
  - now rewrite (proj1 Hn eq_refl).
  - exact Hm.
Qed.

Lemma g_full_neighbor_lift m tmp rwss g n ts T h :
  graph_of m tmp rwss g ->
  (forall rws r1 r r2, In rws rwss -> rws = r1 ++ r :: r2 -> row_id r = n ->
     full_neighbor fsub (part_of m tmp rws) (length r1) ts T = Ok (h r)) ->
  g_full_neighbor fsub g T n ts = Ok (flat_map h (node_rows n rwss)).
Proof.
  intros Hg Hq. pose proof (query_lift m tmp rwss g n (fun p i => full_neighbor fsub p i ts T) h Hg Hq) as H.
  unfold g_full_neighbor. rewrite Hg in *. cbn [bind] in *. rewrite flat_map_concat_map.
  destruct (lookup (part_of m tmp) rwss n) as [os|].
  - rewrite H. reflexivity.
  - assert (E : map h (node_rows n rwss) = []) by congruence. now rewrite E.
Qed.

Lemma fold_add_sum l : forall c, fold_left Nat.add l c = (c + sum l)%nat.
Proof. induction l as [|x l IH]; intro c; cbn [fold_left]; [change (sum []) with 0%nat; lia|]. rewrite IH, sum_cons. lia. Qed.

Lemma g_count_lift m tmp rwss g n (q : partition -> nat -> res nat) (h : row -> nat) :
  graph_of m tmp rwss g ->
  (forall rws r1 r r2, In rws rwss -> rws = r1 ++ r :: r2 -> row_id r = n -> q (part_of m tmp rws) (length r1) = Ok (h r)) ->
  (do o <- occurrences g n ;;
   match o with
   | None => Ok 0%nat
   | Some os => do ls <- mapM (fun x => q (fst x) (snd x)) os ;; Ok (fold_left Nat.add ls 0%nat)
   end) = Ok (sum (map h (node_rows n rwss))).
Proof.
  intros Hg Hq. pose proof (query_lift m tmp rwss g n q h Hg Hq) as H.
  rewrite Hg in *. cbn [bind] in *. destruct (lookup (part_of m tmp) rwss n) as [os|].
  - rewrite H. cbn [bind]. now rewrite fold_add_sum.
  - inversion H as [E]. reflexivity.
Qed.

(** All rows, flattened, give the edges of the input. *)
Lemma node_rows_edges (f : edge -> bool) parts n :
  Forall (fun rws => Forall row_facts rws) (map rows parts) ->
  filter f (flat_map row_edges (node_rows n (map rows parts))) =
  filter (fun e => (e_src e =? n) && f e) (flat_map edges_of parts).
Proof.
  intro H.
  assert (E : flat_map edges_of parts = flat_map row_edges (concat (map rows parts))).
  { clear. induction parts as [|bs parts IH]; [reflexivity|]. cbn. rewrite flat_map_app', <- IH. f_equal.
    unfold edges_of. rewrite <- rows_all_edges. reflexivity. }
  rewrite E. clear E. unfold node_rows. apply Forall_concat in H.
  induction H as [|r rws [_ Hr] _ IH]; [reflexivity|]. cbn [filter flat_map]. rewrite filter_app.
  assert (Er : filter (fun e => (e_src e =? n) && f e) (row_edges r) = if row_id r =? n then filter f (row_edges r) else []).
  { clear - Hr. induction Hr as [|e l He _ IHl]; cbn; [now destruct (_ =? _)|]. rewrite He, IHl.
    destruct (row_id r =? n); cbn; reflexivity. }
  rewrite Er, <- IH. destruct (row_id r =? n); cbn [flat_map]; [|reflexivity]. now rewrite filter_app.
Qed.

End Convert.
