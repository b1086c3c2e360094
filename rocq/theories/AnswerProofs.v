(** Answers of a converted and loaded graph. *)
From Verif Require Import Base WriterModel LoaderModel GraphModel GraphSpec WriterProofs LoaderProofs QueryProofs GraphProofs ConvertProofs.
From Coq Require Import Sorting.Sorted ZifyBool ZifyNat ZifyN.
Local Open Scope Z_scope.

Section Answers.
Variables fadd fsub : N -> N -> N.
Variable wval : N -> Z.
Notation part_of := (part_of fadd).

(** The entries of a list at some positions, in the order of the positions. *)
Definition pick {A} (l : list A) (sel : list nat) : list A :=
  flat_map (fun i => match nth_error l i with Some x => [x] | None => [] end) sel.

(** [g] is the graph loaded from files of one conversion, where the records fit the file
    format and each file is smaller than 2^64 bytes.  A graph may load any of the
    partitions of the conversion in any order ([sel]); [parts] are the records of those. *)
Definition converted (wm : option Z) (parts : list (list (list record))) (g : graph) : Prop :=
  exists all ps m sel, convert wval wm all = Ok (ps, m) /\ Forall fits ps /\ Forall rec_ok (concat (concat all)) /\
               parts = pick all sel /\ load_graph fadd m (map (fun f => [f]) (pick ps sel)) = Ok g.

(** String features of edges of a source can be read: some edge of the conversion has features,
    or the loaded partitions have no row of the source. *)
Definition readable (wm : option Z) (parts : list (list (list record))) (g : graph) (src : Z) : Prop :=
  exists all ps m sel, convert wval wm all = Ok (ps, m) /\ Forall fits ps /\ Forall rec_ok (concat (concat all)) /\
               parts = pick all sel /\ load_graph fadd m (map (fun f => [f]) (pick ps sel)) = Ok g /\
    ((exists x, In x (flat_map row_edges (flat_map rows all)) /\ e_feats x <> []) \/
     forall r, In r (flat_map rows parts) -> row_id r <> src).

Lemma load_succeeds wm parts ps m :
  convert wval wm parts = Ok (ps, m) -> Forall fits ps -> Forall rec_ok (concat (concat parts)) ->
  exists g, load_graph fadd m (map (fun f => [f]) ps) = Ok g.
Proof.
  intros H F R. pose proof (convert_loads fadd wval wm parts ps m H F R) as HL.
  destruct (load_graph_rows fadd m (is_temporal wm) ps _ HL) as (g & E & _). eauto.
Qed.

Lemma Forall2_len0 {A B} (P : A -> B -> Prop) l m : Forall2 P l m -> length l = length m.
Proof. induction 1; cbn; congruence. Qed.

Lemma pick_all {A} (l : list A) : pick l (seq 0 (length l)) = l.
Proof.
  assert (G : forall k, (k <= length l)%nat -> pick l (seq 0 k) = firstn k l).
  { induction k as [|k IH]; intro Hk; [reflexivity|]. rewrite seq_S. unfold pick in *. rewrite flat_map_app, IH by lia.
    cbn [flat_map Nat.add]. destruct (nth_error l k) as [x|] eqn:E; [|apply nth_error_None in E; lia].
    apply nth_error_split in E. destruct E as (l1 & l2 & -> & <-). clear.
    induction l1 as [|a l1 IH]; [reflexivity|]. cbn [length app firstn] in *. f_equal. exact IH. }
  rewrite G by lia. apply firstn_all.
Qed.

Lemma pick_map {A B} (f : A -> B) l sel : pick (map f l) sel = map f (pick l sel).
Proof.
  induction sel as [|i sel IH]; [reflexivity|]. unfold pick in *. cbn [flat_map]. rewrite IH, map_app. f_equal.
  rewrite nth_error_map. now destruct (nth_error l i).
Qed.

Lemma pick_forall {A} (P : A -> Prop) l sel : Forall P l -> Forall P (pick l sel).
Proof.
  intro H. rewrite Forall_forall in *. intros x Hx. unfold pick in Hx. apply in_flat_map in Hx.
  destruct Hx as (i & _ & Hx). destruct (nth_error l i) eqn:E; [|contradiction]. destruct Hx as [<-|[]].
  apply H. eapply nth_error_In; eassumption.
Qed.

Lemma pick_forall2 {A B} (R : A -> B -> Prop) l l' sel : Forall2 R l l' -> Forall2 R (pick l sel) (pick l' sel).
Proof.
  intro H. induction sel as [|i sel IH]; [constructor|]. unfold pick in *. cbn [flat_map].
  apply Forall2_app; [|exact IH]. clear IH. revert i. induction H as [|a b l l' Hab H IH]; intros [|i]; cbn; auto.
Qed.

Lemma converted_loads wm all ps m sel g :
  convert wval wm all = Ok (ps, m) -> Forall fits ps -> Forall rec_ok (concat (concat all)) ->
  load_graph fadd m (map (fun f => [f]) (pick ps sel)) = Ok g ->
  graph_of fadd m (is_temporal wm) (map rows (pick all sel)) g.
Proof.
  intros H F R L. pose proof (convert_loads fadd wval wm all ps m H F R) as HL.
  apply (pick_forall2 _ _ _ sel) in HL. rewrite pick_map in HL.
  destruct (load_graph_rows fadd m (is_temporal wm) _ _ HL) as (g' & E & _ & Ho).
  rewrite L in E. inversion E; subst g'. exact Ho.
Qed.

Lemma converted_rows wm parts g :
  converted wm parts g ->
  exists m, graph_of fadd m (is_temporal wm) (map rows parts) g /\
            Forall (fun rws => Forall row_facts rws) (map rows parts) /\
            lm_watermark m = match wm with Some w => w | None => -1 end.
Proof.
  intros (all & ps & m & sel & H & F & R & -> & L). exists m. split; [eapply converted_loads; eassumption|]. split.
  - rewrite <- pick_map. apply pick_forall. eapply convert_facts; eassumption.
  - eapply convert_wm; eassumption.
Qed.

Lemma converted_whole wm parts ps m g :
  convert wval wm parts = Ok (ps, m) -> Forall fits ps -> Forall rec_ok (concat (concat parts)) ->
  load_graph fadd m (map (fun f => [f]) ps) = Ok g -> converted wm parts g.
Proof.
  intros H F R L. exists parts, ps, m, (seq 0 (length parts)). repeat split; try assumption.
  - now rewrite pick_all.
  - assert (E : length parts = length ps).
    { pose proof (convert_loads fadd wval wm parts ps m H F R) as HL. apply Forall2_len0 in HL.
      now rewrite map_length in HL. }
    now rewrite E, pick_all.
Qed.

(** Any selection of the partitions loads. *)
Lemma selection_loads wm all ps m sel :
  convert wval wm all = Ok (ps, m) -> Forall fits ps -> Forall rec_ok (concat (concat all)) ->
  exists g, load_graph fadd m (map (fun f => [f]) (pick ps sel)) = Ok g.
Proof.
  intros H F R. pose proof (convert_loads fadd wval wm all ps m H F R) as HL.
  apply (pick_forall2 _ _ _ sel) in HL.
  destruct (load_graph_rows fadd m (is_temporal wm) _ _ HL) as (g & E & _). eauto.
Qed.

Lemma mapM_pure {A B} (f : A -> res B) (h : A -> B) l :
  (forall x, In x l -> f x = Ok (h x)) -> mapM f l = Ok (map h l).
Proof.
  induction l as [|a l IH]; intro H; [reflexivity|]. cbn. rewrite (H a (or_introl eq_refl)). cbn.
  rewrite IH by (intros; apply H; now right). reflexivity.
Qed.

Lemma row_in_part rwss (rws r1 : list row) (r : row) r2 : In rws rwss -> rws = r1 ++ r :: r2 ->
  Forall (fun rws => Forall row_facts rws) rwss -> row_facts r.
Proof.
  intros Hin -> HF. rewrite Forall_forall in HF. specialize (HF _ Hin). apply Forall_app in HF. destruct HF as [_ HF].
  now inversion HF.
Qed.

(** What a caller has to know about the input for exact answers. *)
Definition guarded (types : list Z) (parts : list (list (list record))) : Prop :=
  forall bs r, In bs parts -> In r (rows bs) ->
    gap_free types (map e_typ (row_edges r)) /\
    forall t, exact_sums fadd fsub (weights_of_type r t).

Lemma guard_row types parts rws r1 r r2 : guarded types parts ->
  In rws (map rows parts) -> rws = r1 ++ r :: r2 ->
  row_gap_free (make_sorted_list types) r /\ row_exact fadd fsub r.
Proof.
  intros HG Hin E. apply in_map_iff in Hin. destruct Hin as (bs & Ebs & Hbs).
  destruct (HG bs r Hbs) as [H1 H2].
  { rewrite Ebs, E. apply in_or_app. right. now left. }
  split; [|exact H2]. eapply gap_free_ext; [|exact H1]. intro x. symmetry. apply make_sorted_in.
Qed.

Definition answer (e : edge) : nbr := (e_dst e, e_typ e, e_w e, -1).
Definition answer_ts (e : edge) : nbr := (e_dst e, e_typ e, e_w e, e_c e).

Lemma node_answer wm parts g types n :
  converted wm parts g -> guarded types parts ->
  g_full_neighbor fsub g (make_sorted_list types) n None = Ok (map answer (spec_edges parts types n)).
Proof.
  intros C HG. destruct (converted_rows wm parts g C) as (m & Hg & HF & _).
  rewrite (g_full_neighbor_lift fadd fsub m (is_temporal wm) (map rows parts) g n None (make_sorted_list types)
     (fun r => map answer (filter (fun e => mem (e_typ e) types) (row_edges r))) Hg).
  - f_equal. unfold spec_edges. rewrite <- (node_rows_edges (fun e => mem (e_typ e) types) parts n HF).
    induction (node_rows n (map rows parts)) as [|r l IH]; [reflexivity|]. cbn [flat_map]. rewrite filter_app, map_app.
    now rewrite IH.
  - intros rws r1 r r2 Hin E Hn. destruct (row_in_part _ _ _ _ _ Hin E HF) as [Hs _].
    destruct (guard_row types parts rws r1 r r2 HG Hin E) as [H1 H2]. rewrite E.
    rewrite (row_neighbors fadd fsub m _ r1 r r2 _ Hs (make_sorted_sorted types) H1 H2). f_equal.
    apply (f_equal (map answer)). apply filter_ext. intro e. apply mem_sorted.
Qed.

Lemma node_answer_ts w parts g types n t :
  0 <= w -> converted (Some w) parts g -> guarded types parts ->
  g_full_neighbor fsub g (make_sorted_list types) n (Some t) =
  Ok (map answer_ts (filter (alive t) (spec_edges parts types n))).
Proof.
  intros Hw C HG. destruct (converted_rows _ parts g C) as (m & Hg & HF & Hm).
  rewrite (g_full_neighbor_lift fadd fsub m (is_temporal (Some w)) (map rows parts) g n (Some t) (make_sorted_list types)
     (fun r => map answer_ts (filter (alive t) (filter (fun e => mem (e_typ e) types) (row_edges r)))) Hg).
  - f_equal. unfold spec_edges. rewrite <- (node_rows_edges (fun e => mem (e_typ e) types) parts n HF).
    induction (node_rows n (map rows parts)) as [|r l IH]; [reflexivity|]. cbn [flat_map]. rewrite !filter_app, map_app.
    now rewrite IH.
  - intros rws r1 r r2 Hin E Hn. destruct (row_in_part _ _ _ _ _ Hin E HF) as [Hs _].
    destruct (guard_row types parts rws r1 r r2 HG Hin E) as [H1 H2]. rewrite E.
    rewrite (row_neighbors_ts fadd fsub m (is_temporal (Some w)) r1 r r2 _ t); try assumption.
    + f_equal. apply (f_equal (map answer_ts)). apply (f_equal (filter (alive t))). apply filter_ext. intro e. apply mem_sorted.
    + rewrite Hm. cbn. lia.
    + apply make_sorted_sorted.
Qed.

Lemma node_count_answer wm parts g T n :
  converted wm parts g ->
  exists l, g_full_neighbor fsub g T n None = Ok l /\
            g_full_neighbor_count fsub g T n None = Ok (length l) /\ g_neighbor_count g T n None = Ok (length l).
Proof.
  intros C. destruct (converted_rows wm parts g C) as (m & Hg & HF & _).
  exists (flat_map (fun r => flat_map (fun x => map nbr_of (gedges fadd fsub x)) (visited r T)) (node_rows n (map rows parts))).
  assert (L : sum (map (fun r => sum (map glen (visited r T))) (node_rows n (map rows parts))) =
     length (flat_map (fun r => flat_map (fun x => map nbr_of (gedges fadd fsub x)) (visited r T)) (node_rows n (map rows parts)))).
  { induction (node_rows n (map rows parts)) as [|r l IH]; [reflexivity|]. cbn [map flat_map].
    rewrite sum_cons, app_length, flat_map_nbr_length, IH. reflexivity. }
  rewrite <- L. split; [|split].
  - apply (g_full_neighbor_lift fadd fsub m (is_temporal wm)); [exact Hg|]. intros rws r1 r r2 _ -> _.
    apply full_neighbor_visited.
  - unfold g_full_neighbor_count.
    apply (g_count_lift fadd m (is_temporal wm) (map rows parts) g n (fun p i => full_neighbor_count fsub p i None T)); [exact Hg|].
    intros rws r1 r r2 _ -> _. apply count_visited.
  - unfold g_neighbor_count.
    apply (g_count_lift fadd m (is_temporal wm) (map rows parts) g n (fun p i => neighbor_count p i None T)); [exact Hg|].
    intros rws r1 r r2 _ -> _. apply (count_visited fadd fsub).
Qed.

Theorem converted_neighbors wm parts g types nodes :
  converted wm parts g -> guarded types parts ->
  neighbors fsub g nodes types None =
  Ok (flat_map (fun n => map answer (spec_edges parts types n)) nodes,
      map (fun n => length (spec_edges parts types n)) nodes).
Proof.
  intros C HG. unfold neighbors, per_node.
  rewrite (mapM_pure _ (fun n => map answer (spec_edges parts types n))) by (intros; now apply (node_answer wm)).
  cbn [bind].
  rewrite (mapM_pure _ (fun n => length (spec_edges parts types n))).
  - cbn [bind]. now rewrite flat_map_concat_map.
  - intros n _. destruct (node_count_answer wm parts g (make_sorted_list types) n C) as (l & H1 & H2 & _).
    rewrite (node_answer wm parts g types n C HG) in H1. inversion H1; subst l. rewrite H2. now rewrite map_length.
Qed.

Lemma mapM_combine_pure {A} (f : Z * Z -> res A) (h : Z * Z -> A) l :
  (forall x, In x l -> f x = Ok (h x)) -> mapM f l = Ok (map h l).
Proof. apply mapM_pure. Qed.

Lemma ts_count g T n t l :
  g_full_neighbor fsub g T n (Some t) = Ok l -> g_full_neighbor_count fsub g T n (Some t) = Ok (length l).
Proof.
  unfold g_full_neighbor, g_full_neighbor_count. destruct (occurrences g n) as [o|e]; cbn [bind]; [|discriminate].
  destruct o as [os|]; [|intro H; inversion H; reflexivity].
  unfold full_neighbor_count.
  intro H. apply bind_ok in H. destruct H as (ls & H & E). inversion E; subst l; clear E.
  assert (M : mapM (fun x : partition * nat => do l <- full_neighbor fsub (fst x) (snd x) (Some t) T;; Ok (length l)) os = Ok (map (@length nbr) ls)).
  { revert ls H. induction os as [|o os IH]; intros ls H; cbn [mapM] in *.
    - inversion H. reflexivity.
    - destruct (full_neighbor fsub (fst o) (snd o) (Some t) T) as [x|]; cbn [bind] in *; [|discriminate].
      destruct (mapM _ os) as [xs|] eqn:Ex; cbn [bind] in H; [|discriminate]. inversion H; subst.
      rewrite (IH xs eq_refl). reflexivity. }
  rewrite M. cbn [bind]. f_equal. rewrite fold_add_sum. cbn [Nat.add].
  clear. induction ls as [|x ls IH]; [reflexivity|]. cbn [map concat]. now rewrite sum_cons, app_length, IH.
Qed.

Theorem converted_neighbors_ts w parts g types nodes ts :
  0 <= w -> converted (Some w) parts g -> guarded types parts ->
  neighbors fsub g nodes types (Some ts) =
  Ok (flat_map (fun x => map answer_ts (filter (alive (snd x)) (spec_edges parts types (fst x)))) (combine nodes ts),
      map (fun x => length (filter (alive (snd x)) (spec_edges parts types (fst x)))) (combine nodes ts)).
Proof.
  intros Hw C HG. unfold neighbors, per_node.
  rewrite (mapM_pure _ (fun x => map answer_ts (filter (alive (snd x)) (spec_edges parts types (fst x)))))
    by (intros; now apply (node_answer_ts w)).
  cbn [bind].
  rewrite (mapM_pure _ (fun x => length (filter (alive (snd x)) (spec_edges parts types (fst x))))).
  - cbn [bind]. now rewrite flat_map_concat_map.
  - intros x _. rewrite (ts_count _ _ _ _ _ (node_answer_ts w parts g types (fst x) (snd x) Hw C HG)). now rewrite map_length.
Qed.

Theorem converted_counts wm parts g types nodes :
  converted wm parts g ->
  exists ls, length ls = length nodes /\
    neighbors fsub g nodes types None = Ok (concat ls, map (@length nbr) ls) /\
    neighbor_counts g nodes types None = Ok (map (@length nbr) ls).
Proof.
  intro C. unfold neighbors, neighbor_counts, per_node.
  induction nodes as [|n nodes (ls & L & IH1 & IH2)].
  - exists []. auto.
  - destruct (node_count_answer wm parts g (make_sorted_list types) n C) as (l & H1 & H2 & H3).
    exists (l :: ls). split; [cbn; lia|]. cbn [mapM]. rewrite H1, H2, H3. cbn [bind].
    apply bind_ok in IH1. destruct IH1 as (a & Ea & IH1). apply bind_ok in IH1. destruct IH1 as (b & Eb & IH1).
    rewrite Ea, Eb, IH2. cbn [bind]. inversion IH1 as [[Hc Hb]]. cbn [concat map]. now rewrite Hc.
Qed.

(** ** Node types *)
Lemma first_type_rows m tmp rwss n : forall cur,
  first_type (places (part_of m tmp) n rwss) cur =
  Ok (match filter (fun r => negb (row_typ r =? -1)) (node_rows n rwss) with
      | r :: _ => row_typ r
      | [] => match node_rows n rwss with [] => cur | _ => -1 end
      end).
Proof.
  intro cur.
  pose proof (places_mapM (part_of m tmp) (fun p i => get (p_types p) i) row_typ n rwss) as H.
  assert (Hq : mapM (fun x => get (p_types (fst x)) (snd x)) (places (part_of m tmp) n rwss) = Ok (map row_typ (node_rows n rwss))).
  { apply H. intros rws r1 r r2 _ -> _. cbn [p_types LoaderProofs.part_of]. rewrite map_app, get_app_r0 by (now rewrite map_length). reflexivity. }
  clear H. revert Hq. generalize (places (part_of m tmp) n rwss). generalize (node_rows n rwss). intros rs os.
  revert rs cur; induction os as [|[p i] os IH]; intros rs cur Hq; cbn [mapM first_type] in *.
  - destruct rs; [reflexivity|discriminate].
  - cbn [fst snd] in Hq. destruct (get (p_types p) i) as [ty|]; cbn [bind] in *; [|discriminate].
    destruct (mapM _ os) as [tys|] eqn:Eo; cbn [bind] in Hq; [|discriminate].
    destruct rs as [|r rs]; [discriminate|]. cbn [map] in Hq. inversion Hq; subst.
    cbn [filter]. destruct (Z.eqb_spec (row_typ r) (-1)) as [E|E]; cbn [negb].
    + rewrite (IH rs _ eq_refl). destruct (filter _ rs); [|reflexivity]. destruct rs; [congruence|reflexivity].
    + reflexivity.
Qed.

Lemma filter_filter_comm {A} (f h : A -> bool) l : filter f (filter h l) = filter h (filter f l).
Proof.
  induction l as [|a l IH]; [reflexivity|]. cbn [filter].
  destruct (h a) eqn:Eh, (f a) eqn:Ef; cbn [filter]; rewrite ?Eh, ?Ef, IH; reflexivity.
Qed.

Lemma filter_map_fst {A} (k : A -> Z * Z) n l :
  map k (filter (fun a => fst (k a) =? n) l) = filter (fun x => fst x =? n) (map k l).
Proof. induction l as [|a l IH]; [reflexivity|]. cbn. destruct (fst (k a) =? n); cbn; now rewrite IH. Qed.

Lemma all_typed parts :
  typed_rows (concat (map rows parts)) = typed_records (concat (concat parts)).
Proof.
  induction parts as [|bs parts IH]; [reflexivity|]. cbn [map concat]. rewrite typed_rows_app, concat_app.
  unfold typed_records. rewrite filter_app, map_app. f_equal; [|exact IH].
  unfold rows. rewrite rows_typed, items_records. reflexivity.
Qed.

Lemma node_rows_nil parts n :
  node_rows n (map rows parts) = [] <-> filter (fun r => rsrc r =? n) (concat (concat parts)) = [].
Proof.
  assert (I : In n (map row_id (concat (map rows parts))) <-> In n (map rsrc (concat (concat parts)))).
  { induction parts as [|bs parts IH]; [tauto|]. cbn [map concat]. rewrite concat_app, !map_app, !in_app_iff, IH.
    unfold rows. rewrite map_rev, <- in_rev, rows_ids. rewrite <- (items_records bs), map_map. tauto. }
  unfold node_rows. split; intro H; apply not_iff_compat in I.
  - destruct (filter (fun r => rsrc r =? n) (concat (concat parts))) as [|r l] eqn:E; [reflexivity|]. exfalso.
    assert (Hr : In r (filter (fun r => rsrc r =? n) (concat (concat parts)))) by (rewrite E; now left).
    apply filter_In in Hr. destruct Hr as [Hr Hn]. apply (proj1 I).
    + intro Hin. apply in_map_iff in Hin. destruct Hin as (w & Ew & Hw).
      assert (In w []) by (rewrite <- H; apply filter_In; split; [assumption|lia]). contradiction.
    + apply in_map_iff. exists r. split; [lia|assumption].
  - destruct (filter (fun r => row_id r =? n) (concat (map rows parts))) as [|r l] eqn:E; [reflexivity|]. exfalso.
    assert (Hr : In r (filter (fun r => row_id r =? n) (concat (map rows parts)))) by (rewrite E; now left).
    apply filter_In in Hr. destruct Hr as [Hr Hn]. apply (proj2 I).
    + intro Hin. apply in_map_iff in Hin. destruct Hin as (w & Ew & Hw).
      assert (In w []) by (rewrite <- H; apply filter_In; split; [assumption|lia]). contradiction.
    + apply in_map_iff. exists r. split; [lia|assumption].
Qed.

Theorem converted_node_types wm parts g default nodes :
  converted wm parts g -> node_types g nodes default = Ok (map (spec_node_type parts default) nodes).
Proof.
  intro C. destruct (converted_rows wm parts g C) as (m & Hg & HF & _).
  unfold node_types. apply mapM_pure. intros n _. unfold get_node_type. rewrite Hg. cbn [bind]. unfold lookup, found.
  pose proof (first_type_rows m (is_temporal wm) (map rows parts) n default) as Hf.
  pose proof (places_nil (part_of m (is_temporal wm)) n (map rows parts)) as Hnil.
  assert (G : match filter (fun r => negb (row_typ r =? -1)) (node_rows n (map rows parts)) with
      | r :: _ => row_typ r
      | [] => match node_rows n (map rows parts) with [] => default | _ => -1 end
      end = spec_node_type parts default n).
  { unfold spec_node_type.
    assert (T : map (fun r => (row_id r, row_typ r)) (filter (fun r => negb (row_typ r =? -1)) (node_rows n (map rows parts))) =
                map (fun r => (rsrc r, rtyp r)) (filter (fun r => is_node r && negb (rtyp r =? -1)) (filter (fun r => rsrc r =? n) (concat (concat parts))))).
    { unfold node_rows. rewrite (filter_filter_comm (fun r => negb (row_typ r =? -1))).
      rewrite (filter_filter_comm (fun r => is_node r && negb (rtyp r =? -1))).
      rewrite (filter_map_fst (fun r => (row_id r, row_typ r))), (filter_map_fst (fun r => (rsrc r, rtyp r))).
      f_equal. apply all_typed. }
    pose proof (node_rows_nil parts n) as Hn.
    destruct (filter (fun r => negb (row_typ r =? -1)) (node_rows n (map rows parts))) as [|r l];
    destruct (filter (fun r => is_node r && negb (rtyp r =? -1)) (filter (fun r => rsrc r =? n) (concat (concat parts)))) as [|r' l']; try discriminate.
    - destruct (node_rows n (map rows parts)); destruct (filter (fun r => rsrc r =? n) (concat (concat parts))); try reflexivity.
      + destruct Hn as [Hn _]. specialize (Hn eq_refl). discriminate.
      + destruct Hn as [_ Hn]. specialize (Hn eq_refl). discriminate.
    - cbn [map] in T. inversion T. reflexivity. }
  destruct (places (part_of m (is_temporal wm)) n (map rows parts)) as [|o os].
  - cbn [first_type] in Hf. rewrite G in Hf. rewrite Hf. reflexivity.
  - rewrite Hf, G. reflexivity.
Qed.

End Answers.

Lemma gap_free_single t Gs : gap_free [t] Gs.
Proof. intros g1 t' g2 _ _ [<-|[]] Hn Hg [<-|[]] _. contradiction. Qed.
Lemma gap_free_all T Gs : incl Gs T -> gap_free T Gs.
Proof. intros H g1 t g2 H1 H2. elim H2. now apply H. Qed.
Lemma gap_free_stored T Gs : incl T Gs -> gap_free T Gs.
Proof. intros H g1 t g2 _ _ Ht Hn. elim Hn. now apply H. Qed.

Lemma type_set_neighbors fsub g nodes ts T1 T2 : (forall t, In t T1 <-> In t T2) ->
  neighbors fsub g nodes T1 ts = neighbors fsub g nodes T2 ts /\
  neighbor_counts g nodes T1 ts = neighbor_counts g nodes T2 ts.
Proof. intro H. unfold neighbors, neighbor_counts. now rewrite (make_sorted_ext T1 T2 H). Qed.
