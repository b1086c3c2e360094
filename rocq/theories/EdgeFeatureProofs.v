(** Edge features: position of an edge and dense edge features. *)
From Verif Require Import Base WriterModel LoaderModel GraphModel GraphSpec FeatureModel FeatureSpec
  WriterProofs LoaderProofs QueryProofs GraphProofs ConvertProofs AnswerProofs SearchProofs FeatureProofs.
From Coq Require Import Sorting.Sorted ZifyBool ZifyNat ZifyN.
Local Open Scope Z_scope.

(** ** Searching a destination *)

Lemma find_index_none l x : find_index l x = None -> ~ In x l.
Proof.
  induction l as [|y l IH]; cbn; [tauto|]. destruct (Z.eqb_spec y x); [discriminate|].
  destruct (find_index l x); [discriminate|]. intros _ [H|H]; [congruence|]. now apply IH.
Qed.
Lemma find_index_some l x : forall k, find_index l x = Some k ->
  exists a b, l = a ++ x :: b /\ length a = k /\ ~ In x a.
Proof.
  induction l as [|y l IH]; intro k; cbn; [discriminate|]. destruct (Z.eqb_spec y x) as [->|Hn].
  - intro H. inversion H. exists [], l. auto.
  - destruct (find_index l x) as [j|]; [|discriminate]. intro H. inversion H; subst.
    destruct (IH j eq_refl) as (a & b & -> & Hl & Hi). exists (y :: a), b. cbn. repeat split; [lia|]. intros [E|E]; [congruence|tauto].
Qed.
Lemma find_index_split a x b : ~ In x a -> find_index (a ++ x :: b) x = Some (length a).
Proof.
  induction a as [|y a IH]; intro H; cbn.
  - now rewrite Z.eqb_refl.
  - destruct (Z.eqb_spec y x); [subst; elim H; now left|]. rewrite IH; [reflexivity|]. intro; apply H; now right.
Qed.

Lemma search_dst_find l dst :
  (length l <= 16)%nat \/ StronglySorted Z.le l \/ NoDup l -> search_dst l dst = find_index l dst.
Proof.
  intro H. unfold search_dst. destruct (Nat.ltb_spec 16 (length l)) as [Hlt|]; [|reflexivity].
  destruct H as [H|H]; [lia|].
  destruct (bound_edges (fun x => x <? dst) l) as (B1 & B2 & B3). set (k := bound _ l) in *. clearbody k.
  destruct (nth_error l k) as [x|] eqn:E; [|reflexivity]. destruct (Z.eqb_spec x dst) as [->|]; [|reflexivity].
  apply nth_error_split in E. destruct E as (a & b & -> & Ha). symmetry. subst k. apply find_index_split.
  intro Hi. destruct H as [H|H].
  - destruct a as [|y a _] using rev_ind; [contradiction|].
    assert (Hy : (y <? dst) = true).
    { apply (B3 (length a)); [rewrite app_length; cbn; lia|]. rewrite <- app_assoc. cbn.
      rewrite nth_error_app2, Nat.sub_diag by lia. reflexivity. }
    apply in_app_or in Hi. destruct Hi as [Hi|[Hi|[]]]; [|lia].
    rewrite <- app_assoc in H. apply sorted_app_inv in H. destruct H as (_ & _ & H).
    specialize (H dst y Hi (or_introl eq_refl)). lia.
  - apply NoDup_remove_2 in H. apply H. apply in_or_app. now left.
Qed.

Lemma find_app {A} (f : A -> bool) l1 l2 : (forall x, In x l1 -> f x = false) -> find f (l1 ++ l2) = find f l2.
Proof.
  intro H. induction l1 as [|a l1 IH]; [reflexivity|]. cbn. rewrite (H a) by now left. apply IH. intros; apply H; now right.
Qed.

Lemma find_group_spec fuel : forall pre ts post ty,
  length ts = fuel ->
  find_group fuel (pre ++ ts ++ post) (length pre) (length pre + fuel) ty =
  Ok (option_map (fun k => (length pre + k)%nat) (find_index ts ty)).
Proof.
  induction fuel as [|fuel IH]; intros pre ts post ty Hl.
  - destruct ts; [|discriminate]. cbn [find_group]. rewrite Nat.add_0_r, Nat.ltb_irrefl. reflexivity.
  - destruct ts as [|t ts]; [discriminate|]. cbn [find_group find_index].
    destruct (Nat.ltb_spec (length pre) (length pre + S fuel)); [|lia].
    cbn [app]. rewrite get_app_r0 by reflexivity. unfold get. cbn [nth_error bind].
    destruct (t =? ty); [cbn; now rewrite Nat.add_0_r|].
    specialize (IH (pre ++ [t]) ts post ty ltac:(cbn in Hl; lia)). rewrite app_length, <- app_assoc in IH. cbn [app length] in IH.
    replace (length pre + 1)%nat with (S (length pre)) in IH by lia.
    replace (S (length pre) + fuel)%nat with (length pre + S fuel)%nat in IH by lia. rewrite IH.
    destruct (find_index ts ty); cbn; [|reflexivity]. repeat f_equal. lia.
Qed.

Section Place.
Variable fadd : N -> N -> N.
Notation part_of := (part_of fadd).

Lemma nbi_get m tmp r1 r r2 :
  let p := part_of m tmp (r1 ++ r :: r2) in
  get (p_nbi p) (length r1) = Ok (length (all_runs r1)) /\
  get (p_nbi p) (S (length r1)) = Ok (length (all_runs r1) + length (row_runs r))%nat.
Proof.
  cbn [p_nbi LoaderProofs.part_of]. rewrite map_app, psum_app, sum_runs_length. cbn [map psum]. rewrite <- app_assoc. split.
  - rewrite get_app_r0 by (now rewrite psum_length, map_length). reflexivity.
  - replace (S (length r1)) with (length (psum 0 (map (fun r => length (row_runs r)) r1)) + 1)%nat
      by (rewrite psum_length, map_length; lia).
    rewrite get_app_r. cbn [app]. destruct r2 as [|r' r2]; cbn [map psum app].
    + cbn. rewrite all_runs_app. cbn. rewrite !app_length. cbn. now rewrite Nat.add_0_r.
    + reflexivity.
Qed.

Lemma toff_get m tmp rws G1 g G2 :
  all_runs rws = G1 ++ g :: G2 ->
  let p := part_of m tmp rws in
  get (p_toff p) (length G1) = Ok (length (flat_map snd G1)) /\
  get (p_toff p) (S (length G1)) = Ok (length (flat_map snd G1) + length (snd g))%nat /\
  p_dst p = map e_dst (flat_map snd G1) ++ map e_dst (snd g) ++ (map e_dst (flat_map snd G2) ++ [0]).
Proof.
  intro E. cbn [p_toff p_dst LoaderProofs.part_of].
  assert (Ea : all_edges rws = flat_map snd G1 ++ snd g ++ flat_map snd G2).
  { rewrite <- all_runs_edges, E, flat_map_app'. reflexivity. }
  assert (El : length (all_edges rws) = (0 + sum (map glen (all_runs rws)))%nat).
  { rewrite sum_glen_edges, all_runs_edges. reflexivity. }
  rewrite El, E, map_app, psum_app, sum_app. cbn [map psum]. rewrite <- app_assoc. rewrite sum_glen_edges. cbn [Nat.add app].
  split; [|split].
  - rewrite get_app_r0 by (now rewrite psum_length, map_length). reflexivity.
  - replace (S (length G1)) with (length (psum 0 (map glen G1)) + 1)%nat by (rewrite psum_length, map_length; lia).
    rewrite get_app_r. rewrite sum_cons.
    destruct (psum_snoc_head (length (flat_map snd G1) + glen g) (map glen G2)) as (t & Et).
    replace (length (flat_map snd G1) + (glen g + sum (map glen G2)))%nat
      with (length (flat_map snd G1) + glen g + sum (map glen G2))%nat by lia.
    unfold get. cbn [nth_error]. rewrite Et. reflexivity.
  - rewrite Ea, !map_app, <- !app_assoc. reflexivity.
Qed.

Lemma foff_get m tmp rws l1 x l2 :
  all_edges rws = l1 ++ x :: l2 -> (0 < lm_efc m)%nat ->
  let p := part_of m tmp rws in
  p_foff p <> [] /\
  get (p_foff p) (length l1) = Ok (length (all_efeats l1)) /\
  get (p_foff p) (S (length l1)) = Ok (length (all_efeats l1) + length (e_feats x))%nat.
Proof.
  intros E Hc. cbn [p_foff LoaderProofs.part_of]. rewrite (proj2 (Nat.ltb_lt _ _) Hc). split.
  { intro H. apply app_eq_nil in H. destruct H as [_ H]. discriminate. }
  rewrite E. unfold efeat_counts. rewrite map_app, psum_app, sum_app. cbn [map psum]. rewrite <- app_assoc. cbn [app Nat.add].
  change (map (fun e => length (e_feats e)) l1) with (efeat_counts l1).
  rewrite <- all_efeats_length, sum_cons. split.
  - rewrite get_app_r0; [reflexivity|]. unfold efeat_counts. now rewrite psum_length, map_length.
  - replace (S (length l1)) with (length (psum 0 (efeat_counts l1)) + 1)%nat
      by (unfold efeat_counts; rewrite psum_length, map_length; lia).
    rewrite get_app_r. unfold get. cbn [nth_error].
    destruct (psum_snoc_head (length (all_efeats l1) + length (e_feats x)) (map (fun e => length (e_feats e)) l2)) as (t & Et).
    rewrite Nat.add_assoc, Et. reflexivity.
Qed.

Lemma edge_place m tmp r1 r r2 s dst ty :
  row_facts r -> searchable r ->
  match find (same_edge (s, dst, ty)) (row_edges r) with
  | None => edge_offset (part_of m tmp (r1 ++ r :: r2)) (length r1) dst ty = Ok None
  | Some x => exists l1 l2, all_edges (r1 ++ r :: r2) = l1 ++ x :: l2 /\ In x (row_edges r) /\
      edge_offset (part_of m tmp (r1 ++ r :: r2)) (length r1) dst ty = Ok (Some (length l1))
  end.
Proof.
  intros [Hs _] Hsr. unfold edge_offset.
  destruct (nbi_get m tmp r1 r r2) as [N1 N2]. rewrite N1, N2. cbn [bind].
  destruct (Nat.ltb_spec (length (all_runs r1) + length (row_runs r)) (length (all_runs r1))); [lia|].
  replace (length (all_runs r1) + length (row_runs r) - length (all_runs r1))%nat with (length (row_runs r)) by lia.
  assert (Et : p_etypes (part_of m tmp (r1 ++ r :: r2)) =
               map fst (all_runs r1) ++ map fst (row_runs r) ++ (map fst (all_runs r2) ++ [0])).
  { cbn [p_etypes LoaderProofs.part_of]. rewrite all_runs_app. cbn [all_runs flat_map]. fold (all_runs r2).
    rewrite !map_app, <- !app_assoc. reflexivity. }
  rewrite Et.
  pose proof (find_group_spec (length (row_runs r)) (map fst (all_runs r1)) (map fst (row_runs r)) (map fst (all_runs r2) ++ [0]) ty
     ltac:(now rewrite map_length)) as FG.
  rewrite !map_length in FG. rewrite FG. cbn [bind]. clear FG Et N1 N2.
  pose proof (runs_types (row_edges r)) as RT. fold (row_runs r) in RT.
  destruct (find_index (map fst (row_runs r)) ty) as [k|] eqn:Ek.
  - apply find_index_some in Ek. destruct Ek as (ta & tb & Em & Hk & Hna).
    assert (Eg : exists g1 g g2, row_runs r = g1 ++ g :: g2 /\ map fst g1 = ta /\ fst g = ty).
    { clear -Em. revert ta Em. induction (row_runs r) as [|g gs IH]; intros [|t ta] Em; cbn in Em; try discriminate.
      - inversion Em. exists [], g, gs. auto.
      - inversion Em; subst. destruct (IH ta H1) as (g1 & g' & g2 & -> & <- & Hf). exists (g :: g1), g', g2. auto. }
    destruct Eg as (g1 & g & g2 & Eg & Eta & Ety).
    assert (Ea : all_runs (r1 ++ r :: r2) = (all_runs r1 ++ g1) ++ g :: (g2 ++ all_runs r2)).
    { rewrite all_runs_app. cbn [all_runs flat_map]. fold (all_runs r2). rewrite Eg, <- !app_assoc. reflexivity. }
    cbn [option_map]. replace (length (all_runs r1) + k)%nat with (length (all_runs r1 ++ g1))
      by (rewrite app_length, <- Hk, <- Eta, map_length; reflexivity).
    destruct (toff_get m tmp _ _ _ _ Ea) as (T1 & T2 & T3). rewrite T1, T2, T3. cbn [bind].
    set (G := flat_map snd (all_runs r1 ++ g1)).
    match goal with |- context [if ?c then _ else _] => replace c with false
      by (rewrite !app_length, !map_length; symmetry; apply orb_false_intro; [apply Nat.ltb_ge|apply Nat.ltb_ge]; lia) end.
    assert (Esl : slice (map e_dst G ++ map e_dst (snd g) ++ (map e_dst (flat_map snd (g2 ++ all_runs r2)) ++ [0])) (length G)
                    (length G + length (snd g) - length G) = map e_dst (snd g)).
    { apply slice_app_eq; [now rewrite map_length|]. rewrite map_length. lia. }
    rewrite Esl.
    assert (Efil : map e_dst (snd g) = map e_dst (filter (fun e => e_typ e =? ty) (row_edges r))).
    { f_equal. transitivity (flat_map snd (filter (fun x : Z * list edge => mem (fst x) [ty]) (row_runs r))).
      - rewrite Eg, filter_app. cbn [filter mem existsb]. rewrite Ety, Z.eqb_refl. cbn [orb].
        apply runs_sorted in Hs. fold (row_runs r) in Hs. rewrite Eg, map_app in Hs. apply sorted_app_inv in Hs.
        destruct Hs as (_ & Hs2 & Hs3). cbn [map] in Hs2. apply StronglySorted_inv in Hs2. destruct Hs2 as [_ Hf].
        rewrite Ety in *.
        assert (K1 : filter (fun x : Z * list edge => (fst x =? ty) || false) g1 = []).
        { cbn [map] in Hs3. rewrite Ety in Hs3. clear -Hs3. induction g1 as [|y g1 IH]; [reflexivity|]. cbn.
          assert (fst y < ty) by (apply Hs3; [cbn; now left|now left]).
          destruct (Z.eqb_spec (fst y) ty); [lia|]. apply IH. intros; apply Hs3; [cbn; now right|assumption]. }
        assert (K2 : filter (fun x : Z * list edge => (fst x =? ty) || false) g2 = []).
        { clear -Hf. induction g2 as [|y g2 IH]; [reflexivity|]. cbn in *. inversion Hf; subst.
          destruct (Z.eqb_spec (fst y) ty); [lia|]. now apply IH. }
        unfold mem, existsb. rewrite K1, K2. cbn. now rewrite app_nil_r.
      - unfold row_runs. rewrite runs_filter. apply filter_ext. intro e. cbn. now rewrite orb_false_r. }
    rewrite search_dst_find by (rewrite Efil; apply (Hsr ty)).
    rewrite Eg in RT. apply Forall_app in RT. destruct RT as [RT1 RT2]. inversion RT2 as [|? ? [Hne Hg] RT3]; subst x l.
    assert (Er : row_edges r = flat_map snd g1 ++ snd g ++ flat_map snd g2).
    { rewrite <- (runs_concat (row_edges r)). fold (row_runs r). rewrite Eg, flat_map_app'. reflexivity. }
    assert (EG : all_edges (r1 ++ r :: r2) = G ++ snd g ++ flat_map snd (g2 ++ all_runs r2)).
    { rewrite <- all_runs_edges, Ea, flat_map_app'. reflexivity. }
    rewrite Er. rewrite find_app.
    2:{ intros x Hx. apply in_flat_map in Hx. destruct Hx as (y & Hy & Hx). rewrite Forall_forall in RT1.
        destruct (RT1 y Hy) as [_ HT]. rewrite Forall_forall in HT. cbn. rewrite (HT x Hx).
        destruct (Z.eqb_spec (fst y) ty); [|reflexivity]. elim Hna. rewrite <- Eta. rewrite <- e. now apply in_map. }
    destruct (find_index (map e_dst (snd g)) dst) as [j|] eqn:Ej.
    + apply find_index_some in Ej. destruct Ej as (da & db & Ed & Hj & Hnd).
      assert (Es : exists e1 x e2, snd g = e1 ++ x :: e2 /\ map e_dst e1 = da /\ e_dst x = dst).
      { clear -Ed. revert da Ed. induction (snd g) as [|x l IH]; intros [|d da] Ed; cbn in Ed; try discriminate.
        - inversion Ed. exists [], x, l. auto.
        - inversion Ed; subst. destruct (IH da H1) as (e1 & x' & e2 & -> & <- & Hf). exists (x :: e1), x', e2. auto. }
      destruct Es as (e1 & x & e2 & Es & Eda & Edx).
      assert (Hx : In x (snd g)) by (rewrite Es; apply in_or_app; right; now left).
      assert (Ef : find (same_edge (s, dst, ty)) (snd g ++ flat_map snd g2) = Some x).
      { rewrite Es, <- app_assoc. rewrite find_app.
        - cbn. rewrite Forall_forall in Hg. rewrite (Hg x Hx), Ety, Edx, !Z.eqb_refl. reflexivity.
        - intros y Hy. cbn. destruct (Z.eqb_spec (e_dst y) dst) as [E|]; [|apply andb_false_r].
          elim Hnd. rewrite <- Eda, <- E. now apply in_map. }
      rewrite Ef. exists (G ++ e1), (e2 ++ flat_map snd (g2 ++ all_runs r2)).
      split; [rewrite EG, Es, <- !app_assoc; reflexivity|]. split; [apply in_or_app; right; apply in_or_app; now left|].
      rewrite app_length, <- Hj, <- Eda, map_length. reflexivity.
    + apply find_index_none in Ej.
      destruct (find (same_edge (s, dst, ty)) (snd g ++ flat_map snd g2)) as [x|] eqn:Ef; [|reflexivity].
      apply find_some in Ef. destruct Ef as [Hx Hsx]. cbn in Hsx. apply in_app_or in Hx. destruct Hx as [Hx|Hx].
      * elim Ej. apply in_map_iff. exists x. split; [lia|assumption].
      * apply in_flat_map in Hx. destruct Hx as (y & Hy & Hx). rewrite Forall_forall in RT3.
        destruct (RT3 y Hy) as [_ HT]. rewrite Forall_forall in HT. specialize (HT x Hx).
        apply runs_sorted in Hs. fold (row_runs r) in Hs. rewrite Eg, map_app in Hs. apply sorted_app_inv in Hs.
        destruct Hs as (_ & Hs2 & _). cbn [map] in Hs2. apply StronglySorted_inv in Hs2. destruct Hs2 as [_ Hf].
        rewrite Forall_forall in Hf. specialize (Hf (fst y) ltac:(now apply in_map)). lia.
  - apply find_index_none in Ek. cbn [option_map].
    destruct (find (same_edge (s, dst, ty)) (row_edges r)) as [x|] eqn:Ef; [|reflexivity].
    apply find_some in Ef. destruct Ef as [Hx Hsx]. cbn in Hsx. elim Ek. apply row_types_of.
    apply in_map_iff. exists x. split; [lia|assumption].
Qed.
End Place.

(** ** Dense edge features *)

Definition estep (ts : option Z) (look : option (list N) -> Z * list N) (feats : list (option (list N)))
    (f : Z * nat) (x : Z * list N) : Z * list N :=
  if already ts (fst x) then x
  else match value_at feats (fst f) with
       | None => (fst x, zeros (snd f))
       | Some v => (fst (look v), fixed (snd f) (snd (look v)))
       end.

Lemma estep_sized ts look feats fs segs : sized fs segs -> sized fs (zip_with (estep ts look feats) fs segs).
Proof.
  induction 1 as [|f s fs segs H HF IH]; [constructor|]. cbn. constructor; [|exact IH].
  unfold estep. destruct (already ts (fst s)); [assumption|].
  destruct (value_at feats (fst f)); [apply fixed_length|]. unfold zeros. apply repeat_length.
Qed.

Section EdgeLoop.
Variables (p : partition) (pre feats post : list (option (list N))) (ts : option Z) (look : option (list N) -> Z * list N).
Hypothesis Hidx : p_efidx p = findex (pre ++ feats ++ post).
Hypothesis Hdat : p_efd p = fdata (pre ++ feats ++ post).
Hypothesis Hsz1 : (N.of_nat (8 * length feats) < 2 ^ 64)%N.
Hypothesis Hsz2 : (N.of_nat (sum (map flen (pre ++ feats ++ post))) < 2 ^ 64)%N.

Lemma edge_loop_spec fs : forall segs h,
  (forall f v, In f fs -> value_at feats (fst f) = Some v -> resolves (fdata (pre ++ feats ++ post)) ts look v) ->
  Forall (fun f => int32 (fst f)) fs -> sized fs segs ->
  edge_feature_loop p (length pre) (length pre + length feats) ts fs (map fst segs) (length h) (h ++ concat (map snd segs)) =
  Ok (map fst (zip_with (estep ts look feats) fs segs), h ++ concat (map snd (zip_with (estep ts look feats) fs segs))).
Proof.
  induction fs as [|[f size] fs IH]; intros segs h Hlook Hi HS; inversion HS as [|? [flag seg] ? segs' Hl HS']; subst.
  - reflexivity.
  - cbn [fst snd] in *. inversion Hi as [|? ? Hf Hi']; subst. cbn [fst] in Hf.
    cbn [edge_feature_loop map concat zip_with]. cbn [fst snd].
    assert (Next : forall fl seg', length seg' = length seg ->
      (do r <- edge_feature_loop p (length pre) (length pre + length feats) ts fs (map fst segs') (length h + length seg)
                 (h ++ seg' ++ concat (map snd segs'));; Ok (fl :: fst r, snd r)) =
      Ok (fl :: map fst (zip_with (estep ts look feats) fs segs'),
          h ++ seg' ++ concat (map snd (zip_with (estep ts look feats) fs segs')))).
    { intros fl seg' El. specialize (IH segs' (h ++ seg') (fun f v Hin => Hlook f v (or_intror Hin)) Hi' HS').
      rewrite app_length, El, <- app_assoc in IH. rewrite IH. cbn [bind fst snd]. now rewrite <- app_assoc. }
    set (x' := estep ts look feats (f, length seg) (flag, seg)).
    unfold estep in x'. cbn [fst snd] in x'. subst x'.
    destruct (already ts flag); [now rewrite Next|].
    rewrite Hidx. destruct (value_at feats f) as [v|] eqn:Ev.
    + destruct (slot_some pre feats post f v Hsz2 Hf Ev) as (a & b & Ed & Es). rewrite Es. cbn [bind].
      destruct (Hlook (f, length seg) v (or_introl eq_refl) Ev a b Ed) as (a' & b' & Ed' & Er). rewrite Hdat, Er. cbn [bind].
      rewrite Ed', copy_value_seg by reflexivity. cbn [bind].
      rewrite Next by apply fixed_length. reflexivity.
    + rewrite (slot_none _ _ _ feats) by (reflexivity || assumption). cbn [bind].
      rewrite write_at_seg by (unfold zeros; apply repeat_length). cbn [bind].
      rewrite Next by (unfold zeros; apply repeat_length). reflexivity.
Qed.
End EdgeLoop.

(** One row: nothing happens when the row does not have the edge. *)
Definition erow (ts : option Z) (look : option (list N) -> Z * list N) (e : Z * Z * Z) (r : row)
    (f : Z * nat) (x : Z * list N) : Z * list N :=
  match find (same_edge e) (row_edges r) with
  | Some ed => estep ts look (e_feats ed) f x
  | None => x
  end.

Lemma all_efeats_split l1 x l2 : all_efeats (l1 ++ x :: l2) = all_efeats l1 ++ e_feats x ++ all_efeats l2.
Proof. unfold all_efeats. rewrite flat_map_app'. reflexivity. Qed.

Lemma estep_nil ts look fs segs : sized fs segs ->
  Forall2 (fun f x => snd x = zeros (snd f) \/ already ts (fst x) = true) fs segs ->
  zip_with (estep ts look []) fs segs = segs.
Proof.
  intros HS HZ. induction HZ as [|f x fs segs H HZ IH]; [reflexivity|]. cbn. inversion HS; subst. rewrite IH by assumption. f_equal.
  unfold estep. destruct (already ts (fst x)) eqn:E; [reflexivity|]. destruct H as [H|H]; [|congruence].
  unfold value_at. destruct (fst f <? 0); [destruct x; cbn in *; congruence|].
  rewrite (proj2 (nth_error_None _ _)) by (cbn; lia). destruct x; cbn in *; congruence.
Qed.

Lemma Forall2_imp {A B} (P Q : A -> B -> Prop) l m : (forall a b, P a b -> Q a b) -> Forall2 P l m -> Forall2 Q l m.
Proof. intros H HF. induction HF; constructor; auto. Qed.

Section GraphEdgeFeatures.
Variables (fadd : N -> N -> N) (wval : N -> Z).
Notation part_of := (part_of fadd).
Notation converted := (converted fadd wval).

Lemma part_edge_feature_spec m tmp r1 r r2 s dst ty ts look fs segs :
  small (r1 ++ r :: r2) -> counted m (r1 ++ r :: r2) -> row_facts r -> searchable r ->
  Forall (fun f => int32 (fst f)) fs -> sized fs segs ->
  ((lm_efc m = 0)%nat -> Forall2 (fun f x => snd x = zeros (snd f)) fs segs) ->
  (forall x f v data, find (same_edge (s, dst, ty)) (row_edges r) = Some x -> In f fs -> value_at (e_feats x) (fst f) = Some v ->
     resolves data ts look v) ->
  part_edge_feature (part_of m tmp (r1 ++ r :: r2)) (length r1) dst ty ts fs (map fst segs, concat (map snd segs)) =
  Ok (map fst (zip_with (erow ts look (s, dst, ty) r) fs segs),
      concat (map snd (zip_with (erow ts look (s, dst, ty) r) fs segs))).
Proof.
  intros (_ & _ & S1 & S2) (_ & C1) HR HSr Hi HS HZ Hl. unfold part_edge_feature.
  pose proof (edge_place fadd m tmp r1 r r2 s dst ty HR HSr) as EP.
  unfold erow. destruct (find (same_edge (s, dst, ty)) (row_edges r)) as [x|].
  2:{ rewrite EP. cbn [bind]. assert (Id : zip_with (fun (_ : Z * nat) (x : Z * list N) => x) fs segs = segs).
      { clear -HS. induction HS as [|f y fs segs H HF IH]; [reflexivity|]. cbn. now rewrite IH. }
      rewrite Id. reflexivity. }
  destruct EP as (l1 & l2 & Ea & Hx & ->). cbn [bind].
  assert (Hidx : p_efidx (part_of m tmp (r1 ++ r :: r2)) =
     if (0 <? lm_efc m)%nat then findex (all_efeats l1 ++ e_feats x ++ all_efeats l2) else []).
  { cbn [p_efidx LoaderProofs.part_of]. rewrite Ea, all_efeats_split. reflexivity. }
  assert (Hdat : p_efd (part_of m tmp (r1 ++ r :: r2)) =
     if (0 <? lm_efc m)%nat then fdata (all_efeats l1 ++ e_feats x ++ all_efeats l2) else []).
  { cbn [p_efd LoaderProofs.part_of]. rewrite Ea, all_efeats_split. reflexivity. }
  rewrite Ea, all_efeats_split in *.
  destruct (Nat.ltb_spec 0 (lm_efc m)) as [Hc|Hc].
  - destruct (foff_get fadd m tmp _ _ _ _ Ea Hc) as (F1 & F2 & F3). cbn zeta in *.
    destruct (p_foff (part_of m tmp (r1 ++ r :: r2))) as [|o os]; [congruence|].
    rewrite F2. rewrite Hidx at 1. unfold findex at 1.
    destruct (psum_snoc_head 0 (map flen (all_efeats l1 ++ e_feats x ++ all_efeats l2))) as (t & Et).
    cbn [Nat.add] in Et. rewrite Et. cbn [bind]. rewrite F3. cbn [bind fst snd].
    pose proof (edge_loop_spec (part_of m tmp (r1 ++ r :: r2)) (all_efeats l1) (e_feats x) (all_efeats l2) ts look Hidx Hdat) as NL.
    specialize (NL ltac:(rewrite !app_length in S1; lia) S2 fs segs [] ltac:(intros f v Hf Hv; now apply (Hl x f)) Hi HS).
    exact NL.
  - rewrite Hidx. assert (Hn : lm_efc m = 0%nat) by lia. specialize (HZ Hn). apply C1 in Hn.
    apply app_eq_nil in Hn. destruct Hn as [_ Hn]. apply app_eq_nil in Hn. destruct Hn as [Hn _].
    rewrite Hn. rewrite estep_nil; [|assumption|].
    + destruct (p_foff _); reflexivity.
    + eapply Forall2_imp; [|exact HZ]. intros f y Hy. now left.
Qed.

(** Flag and bytes of one feature of an edge after some partitions. *)
Definition efull (ts : option Z) (look : option (list N) -> Z * list N) (parts : list (list (list record))) (e : Z * Z * Z)
    (f : Z * nat) : Z * list N :=
  fold_left (fun x r => erow ts look e r f x) (node_rows (fst (fst e)) (map rows parts)) (-1, zeros (snd f)).
Definition efold (ts : option Z) (look : option (list N) -> Z * list N) (parts : list (list (list record))) (e : Z * Z * Z)
    (f : Z * nat) : list N := snd (efull ts look parts e f).

Lemma fold_efull wm parts g fs ts e look :
  converted wm parts g -> Forall (fun f => int32 (fst f)) fs ->
  Forall (fun r => row_id r = fst (fst e) -> searchable r) (flat_map rows parts) ->
  (forall r x f v data, In r (node_rows (fst (fst e)) (map rows parts)) -> find (same_edge e) (row_edges r) = Some x ->
     In f fs -> value_at (e_feats x) (fst f) = Some v -> resolves data ts look v) ->
  exists os, occurrences g (fst (fst e)) = Ok (found os) /\
    foldM (fun x st => part_edge_feature (fst x) (snd x) (snd (fst e)) (snd e) ts fs st) os (map (fun _ => -1) fs, zeros (total_size fs)) =
    Ok (map fst (map (efull ts look parts e) fs), concat (map snd (map (efull ts look parts e) fs))).
Proof.
  intros C Hi HSr Hl. destruct (converted_small fadd wval wm parts g C) as (m & Hg & HRF & HF).
  destruct e as [[src dst] ty]. cbn [fst snd] in *.
  exists (places (part_of m (is_temporal wm)) src (map rows parts)). split; [apply Hg|].
  set (start := map (fun f : Z * nat => (-1, zeros (snd f))) fs).
  assert (HS0 : sized fs start).
  { subst start. clear. induction fs; constructor; [|assumption]. cbn. unfold zeros. apply repeat_length. }
  destruct (places_foldM (part_of m (is_temporal wm)) (fun p i st => part_edge_feature p i dst ty ts fs st)
             (fun segs => (map fst segs, concat (map snd segs)))
             (fun segs r => zip_with (erow ts look (src, dst, ty) r) fs segs)
             (fun segs => sized fs segs /\ ((lm_efc m = 0)%nat -> Forall2 (fun f x => snd x = zeros (snd f)) fs segs))
             src (map rows parts)) with (s := start) as [Q1 Q2].
  - intros rws r1 r r2 segs Hin E Hn [HS HZ].
    rewrite Forall_forall in HF, HRF. destruct (HF rws Hin) as [Hs Hc]. specialize (HRF rws Hin). subst rws.
    assert (Hr : In r (concat (map rows parts))).
    { apply in_concat. exists (r1 ++ r :: r2). split; [assumption|]. apply in_or_app. right. now left. }
    split; [|split].
    + apply part_edge_feature_spec; try assumption.
      * apply Forall_app in HRF. destruct HRF as [_ HRF]. now inversion HRF.
      * rewrite Forall_forall in HSr. apply HSr; [|assumption]. now rewrite flat_map_concat_map.
      * intros x f v data Hx Hf Hv. eapply Hl; [|exact Hx|exact Hf|exact Hv]. unfold node_rows. apply filter_In. split; [assumption|lia].
    + unfold erow. destruct (find _ _); [now apply estep_sized|].
      clear -HS. induction HS; cbn; constructor; assumption.
    + intro H0. specialize (HZ H0). destruct Hc as [_ Hc]. specialize (Hc H0).
      unfold erow. destruct (find (same_edge (src, dst, ty)) (row_edges r)) as [x|] eqn:Ex.
      2:{ clear -HZ. induction HZ; cbn; constructor; assumption. }
      assert (Ef : e_feats x = []).
      { apply find_some in Ex. destruct Ex as [Ex _]. destruct (e_feats x) as [|v l] eqn:Ev; [reflexivity|].
        assert (In v (all_efeats (all_edges (r1 ++ r :: r2)))).
        { unfold all_efeats. apply in_flat_map. exists x. split; [|rewrite Ev; now left].
          unfold all_edges. apply in_flat_map. exists r. split; [|assumption]. apply in_or_app. right; now left. }
        rewrite Hc in *. contradiction. }
      rewrite Ef, estep_nil; try assumption. eapply Forall2_imp; [|exact HZ]. intros; now left.
  - split; [exact HS0|]. intros _. subst start. clear. induction fs; constructor; [reflexivity|assumption].
  - rewrite (zip_fold (fun f r x => erow ts look (src, dst, ty) r f x)) in Q1 by (now apply sized_length).
    assert (E1 : map fst start = map (fun _ => -1) fs) by (subst start; rewrite map_map; reflexivity).
    assert (E2 : concat (map snd start) = zeros (total_size fs)).
    { subst start. rewrite map_map. cbn [snd]. apply total_zero. }
    rewrite E1, E2 in Q1.
    assert (R : zip_with
       (fun f x => fold_left (fun x r => erow ts look (src, dst, ty) r f x) (node_rows src (map rows parts)) x) fs start =
       map (efull ts look parts (src, dst, ty)) fs).
    { subst start. clear. induction fs as [|f fs IH]; [reflexivity|]. cbn [map zip_with]. now rewrite IH. }
    rewrite <- R. exact Q1.
Qed.

Lemma g_edge_feature_spec wm parts g fs ts e look :
  converted wm parts g -> Forall (fun f => int32 (fst f)) fs ->
  Forall (fun r => row_id r = fst (fst e) -> searchable r) (flat_map rows parts) ->
  (forall r x f v data, In r (node_rows (fst (fst e)) (map rows parts)) -> find (same_edge e) (row_edges r) = Some x ->
     In f fs -> value_at (e_feats x) (fst f) = Some v -> resolves data ts look v) ->
  g_edge_feature g fs ts e (zeros (total_size fs)) = Ok (concat (map (efold ts look parts e) fs)).
Proof.
  intros C Hi HSr Hl. destruct (fold_efull wm parts g fs ts e look C Hi HSr Hl) as (os & Ho & Hf).
  destruct e as [[src dst] ty]. cbn [fst snd] in *. rewrite map_map in Hf. unfold g_edge_feature. rewrite Ho. cbn [bind].
  destruct os as [|o os]; cbn [found].
  - cbn [foldM] in Hf. apply (f_equal (fun r => match r with Ok v => snd v | Fail _ => [] end)) in Hf. cbn [snd] in Hf.
    unfold efold. rewrite map_map in Hf. rewrite <- Hf.
    pose proof (write_at_seg [] (zeros (total_size fs)) [] (zeros (length (zeros (total_size fs))))
                  ltac:(unfold zeros; now rewrite !repeat_length)) as W.
    cbn [app length] in W. rewrite !app_nil_r in W. rewrite W. f_equal. unfold zeros. now rewrite repeat_length.
  - rewrite Hf. cbn [bind snd]. unfold efold. now rewrite map_map.
Qed.

Lemma erow_plain_done e f rws : forall x, 0 <= fst x -> fold_left (fun x r => erow None plain e r f x) rws x = x.
Proof.
  induction rws as [|r rws IH]; intros x H; [reflexivity|]. cbn [fold_left].
  assert (E : erow None plain e r f x = x).
  { unfold erow, estep, already. destruct (find _ _); [|reflexivity]. destruct (Z.leb_spec 0 (fst x)); [reflexivity|lia]. }
  rewrite E. now apply IH.
Qed.

Lemma efold_plain parts e f : efold None plain parts e f = spec_edge_feature parts e f.
Proof.
  unfold efold, efull, spec_edge_feature, edge_values, node_rows. rewrite flat_map_concat_map with (l := parts).
  induction (concat (map rows parts)) as [|r rws IH]; [cbn; symmetry; apply fixed_nil|].
  cbn [filter flat_map]. destruct (row_id r =? fst (fst e)); [|exact IH].
  cbn [fold_left]. unfold erow at 2. destruct (find (same_edge e) (row_edges r)) as [x|]; [|exact IH].
  unfold estep, already. cbn [fst snd]. change (0 <=? -1) with false. cbv iota.
  destruct (value_at (e_feats x) (fst f)) as [v|]; [|exact IH].
  cbn [opt_list app plain fst snd]. rewrite erow_plain_done by (cbn; lia). reflexivity.
Qed.

Theorem converted_edge_features wm parts g edges fs :
  converted wm parts g -> Forall (fun f => int32 (fst f)) fs ->
  (forall e r, In e edges -> In r (flat_map rows parts) -> row_id r = fst (fst e) -> searchable r) ->
  edge_features g edges fs None = Ok (map (fun e => concat (map (spec_edge_feature parts e) fs)) edges).
Proof.
  intros C Hi HSr. unfold edge_features, per_elem. apply mapM_pure. intros e He.
  rewrite (g_edge_feature_spec wm parts g fs None e plain C Hi).
  - f_equal. f_equal. apply map_ext. intro f. apply efold_plain.
  - apply Forall_forall. intros r Hr Hid. eapply HSr; eassumption.
  - intros. apply plain_resolves.
Qed.
End GraphEdgeFeatures.
