(** Loading the written files yields a partition that is a function of the rows. *)
From Verif Require Import Base WriterModel LoaderModel GraphSpec WriterProofs.
From Coq Require Import Sorting.Sorted ZifyBool ZifyNat ZifyN.
Local Open Scope Z_scope.

(** Maximal runs of equal edge types. *)
Fixpoint runs (es : list edge) : list (Z * list edge) :=
  match es with
  | [] => []
  | e :: t =>
      match runs t with
      | (ty, g) :: gs => if e_typ e =? ty then (ty, e :: g) :: gs else (e_typ e, [e]) :: (ty, g) :: gs
      | [] => [(e_typ e, [e])]
      end
  end.

Definition glen (g : Z * list edge) : nat := length (snd g).
Definition row_runs (r : row) := runs (row_edges r).
Definition all_runs (rws : list row) := flat_map row_runs rws.

Lemma runs_concat es : flat_map snd (runs es) = es.
Proof.
  induction es as [|e es IH]; cbn; [reflexivity|].
  destruct (runs es) as [|[ty g] gs]; cbn in *; [now rewrite <- IH|].
  destruct (e_typ e =? ty); cbn; now rewrite <- IH.
Qed.

Lemma runs_types es : Forall (fun g => snd g <> [] /\ Forall (fun e => e_typ e = fst g) (snd g)) (runs es).
Proof.
  induction es as [|e es IH]; cbn; [constructor|].
  destruct (runs es) as [|[ty g] gs].
  - constructor; [|constructor]. cbn. split; [discriminate|]. repeat constructor.
  - destruct (Z.eqb_spec (e_typ e) ty) as [E|E].
    + inversion IH as [|? ? [_ Hg] Hgs]; subst. constructor; [|assumption]. cbn in *.
      split; [discriminate|]. constructor; [reflexivity|assumption].
    + constructor; [|assumption]. cbn. split; [discriminate|]. repeat constructor.
Qed.

Lemma runs_head es ty g gs : runs es = (ty, g) :: gs -> exists e es', es = e :: es' /\ e_typ e = ty.
Proof.
  destruct es as [|e es]; cbn; [discriminate|]. intro H. exists e, es. split; [reflexivity|].
  destruct (runs es) as [|[ty' g'] gs'].
  - now inversion H.
  - destruct (Z.eqb_spec (e_typ e) ty'); inversion H; congruence.
Qed.

Lemma runs_sorted es :
  StronglySorted Z.le (map e_typ es) -> StronglySorted Z.lt (map fst (runs es)).
Proof.
  induction es as [|e es IH]; cbn; intro Hs; [constructor|].
  inversion Hs as [|? ? Hs' Hf]; subst. specialize (IH Hs').
  assert (Hin : forall ty g, In (ty, g) (runs es) -> e_typ e <= ty).
  { intros ty g Hg. pose proof (runs_types es) as Ht. rewrite Forall_forall in Ht.
    destruct (Ht _ Hg) as [Hne Hgt]. cbn in *. destruct g as [|x g]; [congruence|].
    inversion Hgt; subst. rewrite Forall_forall in Hf. apply Hf. apply in_map.
    rewrite <- (runs_concat es). apply in_flat_map. eexists. split; [exact Hg|]. now left. }
  destruct (runs es) as [|[ty g] gs]; cbn.
  - repeat constructor.
  - destruct (Z.eqb_spec (e_typ e) ty) as [E|E]; cbn.
    + exact IH.
    + cbn in IH. constructor; [exact IH|].
      pose proof (Hin ty g (or_introl eq_refl)). constructor; [lia|].
      inversion IH as [|? ? _ Hf']; subst. eapply Forall_impl; [|exact Hf']. cbn. intros; lia.
Qed.

Section Load.
Variable fadd : N -> N -> N.

Fixpoint cum (acc : N) (ws : list N) : list N :=
  match ws with [] => [] | w :: t => fadd acc w :: cum (fadd acc w) t end.
Definition gcum (g : Z * list edge) : list N := cum 0%N (map e_w (snd g)).

(** What the inner loop appends. *)
Fixpoint rt (curr : Z) (es : list edge) : list Z :=
  match es with
  | [] => []
  | e :: t => if e_typ e =? curr then rt curr t else e_typ e :: rt (e_typ e) t
  end.
Fixpoint ro (curr : Z) (pos : nat) (es : list edge) : list nat :=
  match es with
  | [] => []
  | e :: t => if e_typ e =? curr then ro curr (S pos) t else pos :: ro (e_typ e) (S pos) t
  end.
Fixpoint rw (curr : Z) (acc : N) (es : list edge) : list N :=
  match es with
  | [] => []
  | e :: t => if e_typ e =? curr then fadd acc (e_w e) :: rw curr (fadd acc (e_w e)) t
              else fadd 0%N (e_w e) :: rw (e_typ e) (fadd 0%N (e_w e)) t
  end.

Definition er_of (x : nat * edge) : erec := ER (e_dst (snd x)) (fst x) (e_typ (snd x)) (e_w (snd x)).

Lemma read_row_spec efc es : forall offs curr acc rest x,
  length offs = length es ->
  read_row fadd efc (length es) curr acc (map er_of (combine offs es) ++ rest) x =
  Ok (rest, EI (x_types x ++ rt curr es) (x_toff x ++ ro curr (length (x_dst x)) es)
               (x_dst x ++ map e_dst es) (x_wts x ++ rw curr acc es)
               (if (0 <? efc)%nat then x_foff x ++ offs else x_foff x)).
Proof.
  induction es as [|e es IH]; intros offs curr acc rest x Hl.
  - destruct offs; [|discriminate]. cbn. rewrite !app_nil_r. destruct x; destruct efc; reflexivity.
  - destruct offs as [|o offs]; [discriminate|].
    cbn [length combine map app read_row er_of er_typ er_w er_dst er_foff fst snd].
    rewrite IH by (cbn in Hl; lia). cbn [x_types x_toff x_dst x_wts x_foff rt ro rw map].
    destruct (Z.eqb_spec (e_typ e) curr) as [E|E]; cbn [negb];
      rewrite app_length; cbn [length]; rewrite Nat.add_1_r, <- !app_assoc; cbn [app];
      try rewrite E; destruct (0 <? efc)%nat; rewrite <- ?app_assoc; reflexivity.
Qed.

Lemma runs_loop es : forall curr acc pos,
  match runs es with
  | [] => es = []
  | (ty, g) :: gs =>
      if ty =? curr then
        rt curr es = map fst gs /\ ro curr pos es = psum (pos + length g) (map glen gs) /\
        rw curr acc es = cum acc (map e_w g) ++ flat_map gcum gs
      else
        rt curr es = ty :: map fst gs /\ ro curr pos es = pos :: psum (pos + length g) (map glen gs) /\
        rw curr acc es = cum 0%N (map e_w g) ++ flat_map gcum gs
  end.
Proof.
  induction es as [|e es IH]; intros curr acc pos; [reflexivity|].
  cbn [runs rt ro rw].
  destruct (runs es) as [|[ty g] gs] eqn:Hr.
  - specialize (IH 0 0%N 0%nat). subst es. cbn. destruct (e_typ e =? curr); repeat split.
  - destruct (Z.eqb_spec (e_typ e) ty) as [E|E].
    + subst ty. destruct (Z.eqb_spec (e_typ e) curr) as [E1|E1].
      * subst curr. specialize (IH (e_typ e) (fadd acc (e_w e)) (S pos)). rewrite Z.eqb_refl in IH.
        destruct IH as (-> & -> & ->). cbn. repeat split; try (f_equal; lia); now rewrite Nat.add_succ_r.
      * specialize (IH (e_typ e) (fadd 0%N (e_w e)) (S pos)). rewrite Z.eqb_refl in IH.
        destruct IH as (-> & -> & ->). cbn. repeat split. now rewrite Nat.add_succ_r.
    + destruct (Z.eqb_spec (e_typ e) curr) as [E1|E1].
      * subst curr. specialize (IH (e_typ e) (fadd acc (e_w e)) (S pos)).
        destruct (Z.eqb_spec ty (e_typ e)) as [E2|E2]; [congruence|].
        destruct IH as (-> & -> & ->). cbn. rewrite Nat.add_1_r. repeat split.
      * specialize (IH (e_typ e) (fadd 0%N (e_w e)) (S pos)).
        destruct (Z.eqb_spec ty (e_typ e)) as [E2|E2]; [congruence|].
        destruct IH as (-> & -> & ->). cbn. rewrite Nat.add_1_r. repeat split.
Qed.

Lemma row_loop r acc pos :
  Forall (fun e => 0 <= e_typ e) (row_edges r) ->
  rt (-1) (row_edges r) = map fst (row_runs r) /\
  ro (-1) pos (row_edges r) = psum pos (map glen (row_runs r)) /\
  rw (-1) acc (row_edges r) = flat_map gcum (row_runs r).
Proof.
  intro H. pose proof (runs_loop (row_edges r) (-1) acc pos) as L. unfold row_runs.
  destruct (runs (row_edges r)) as [|[ty g] gs] eqn:Hr.
  - rewrite L. repeat split.
  - destruct (runs_head _ _ _ _ Hr) as (e & es' & He & Ht).
    rewrite He in H. inversion H; subst. destruct (Z.eqb_spec (e_typ e) (-1)); [lia|]. exact L.
Qed.

Lemma psum_snoc_head a l : exists t, psum a l ++ [(a + sum l)%nat] = a :: t.
Proof. destruct l; cbn; [rewrite Nat.add_0_r; eauto|eauto]. Qed.

Lemma glens_sum es : sum (map glen (runs es)) = length es.
Proof.
  rewrite <- (runs_concat es) at 2. induction (runs es) as [|g gs IH]; cbn; [reflexivity|].
  rewrite sum_cons, app_length, IH. reflexivity.
Qed.

Lemma row_glens_sum r : sum (map glen (row_runs r)) = length (row_edges r).
Proof. apply glens_sum. Qed.

Lemma read_rows_spec efc rws : forall a offs rest x,
  Forall (fun r => Forall (fun e => 0 <= e_typ e) (row_edges r)) rws ->
  length offs = length (all_edges rws) ->
  read_rows fadd efc (psum a (edge_counts rws) ++ [(a + sum (edge_counts rws))%nat])
            (map er_of (combine offs (all_edges rws)) ++ rest) x =
  Ok (psum (length (x_types x)) (map (fun r => length (row_runs r)) rws), rest,
      EI (x_types x ++ map fst (all_runs rws))
         (x_toff x ++ psum (length (x_dst x)) (map glen (all_runs rws)))
         (x_dst x ++ map e_dst (all_edges rws)) (x_wts x ++ flat_map gcum (all_runs rws))
         (if (0 <? efc)%nat then x_foff x ++ offs else x_foff x)).
Proof.
  induction rws as [|r rws IH]; intros a offs rest x Ht Hl.
  - destruct offs; [|discriminate]. cbn. rewrite !app_nil_r. destruct x; destruct efc; reflexivity.
  - inversion Ht as [|? ? Hr Hrs]; subst.
    cbn [edge_counts map]. rewrite sum_cons. fold (edge_counts rws).
    cbn [psum app]. rewrite Nat.add_assoc.
    destruct (psum_snoc_head (a + length (row_edges r)) (edge_counts rws)) as (t & Hh).
    cbn [read_rows]. rewrite Hh. rewrite <- Hh.
    replace (a + length (row_edges r) - a)%nat with (length (row_edges r)) by lia.
    cbn [all_edges flat_map] in *. fold (all_edges rws) in *. rewrite app_length in Hl.
    assert (Ho : offs = firstn (length (row_edges r)) offs ++ skipn (length (row_edges r)) offs)
      by (symmetry; apply firstn_skipn).
    set (o1 := firstn (length (row_edges r)) offs) in *. set (o2 := skipn (length (row_edges r)) offs) in *.
    assert (Hl1 : length o1 = length (row_edges r)) by (unfold o1; rewrite firstn_length; lia).
    assert (Hl2 : length o2 = length (all_edges rws)) by (unfold o2; rewrite skipn_length; lia).
    rewrite Ho, combine_app by assumption. rewrite map_app, <- app_assoc.
    rewrite read_row_spec by assumption. cbn [bind].
    rewrite IH by assumption. cbn [bind x_types x_toff x_dst x_wts x_foff].
    destruct (row_loop r 0%N (length (x_dst x)) Hr) as (-> & -> & ->).
    unfold all_runs. cbn [flat_map map psum]. rewrite !map_app, !flat_map_app', !app_length, !map_length.
    rewrite <- !app_assoc. rewrite psum_app. rewrite row_glens_sum.
    destruct (0 <? efc)%nat; rewrite <- ?app_assoc; reflexivity.
Qed.

(** ** Decoding of fields *)
Lemma u64s_flat l :
  Forall (fun n => (N.of_nat n < 2 ^ 64)%N) l -> u64s (flat_map cu64 l) = l.
Proof.
  intro H. unfold u64s. rewrite fields_flat_map by (lia || apply cu64_length).
  rewrite map_map. rewrite <- (map_id l) at 2. apply map_ext_in. intros n Hn.
  rewrite Forall_forall in H. specialize (H n Hn). unfold cu64. rewrite unle_le by exact H. lia.
Qed.

Lemma slice_0 {A} (a b : list A) n : n = length a -> slice (a ++ b) 0 n = a.
Proof. intros ->. unfold slice. cbn. rewrite firstn_app, firstn_all, Nat.sub_diag. cbn. apply app_nil_r. Qed.

Lemma slice_skip {A} (a b : list A) s n m : s = (length a + m)%nat -> slice (a ++ b) s n = slice b m n.
Proof.
  intros ->. unfold slice. rewrite skipn_app. rewrite skipn_all2 by lia. cbn.
  now replace (length a + m - length a)%nat with m by lia.
Qed.

Lemma unzle_idbytes z : 0 <= z < 2 ^ 63 -> unzle 8 (idbytes z) = z.
Proof.
  intro H. unfold idbytes. rewrite <- (unzle_zle 8 z) at 2; [|lia|lia].
  unfold zle. rewrite Z.mod_small by lia. reflexivity.
Qed.

Lemma parse_enc_edge o e :
  0 <= e_dst e < 2 ^ 63 -> - 2 ^ 31 <= e_typ e < 2 ^ 31 -> (e_w e < 2 ^ 32)%N ->
  (N.of_nat o < 2 ^ 64)%N ->
  parse_erec (enc_edge (o, e)) = er_of (o, e).
Proof.
  intros Hd Ht Hw Ho. unfold parse_erec, enc_edge, er_of. cbn [fst snd].
  assert (L1 : length (idbytes (e_dst e)) = 8%nat) by apply le_length.
  rewrite slice_0 by (now rewrite L1).
  rewrite (slice_skip (idbytes (e_dst e)) _ 8 8 0) by (rewrite L1; reflexivity).
  rewrite (slice_skip (idbytes (e_dst e)) _ 16 4 8) by (rewrite L1; reflexivity).
  rewrite (slice_skip (idbytes (e_dst e)) _ 20 4 12) by (rewrite L1; reflexivity).
  rewrite slice_0 by (now rewrite cu64_length).
  rewrite (slice_skip (cu64 o) _ 8 4 0) by (rewrite cu64_length; reflexivity).
  rewrite (slice_skip (cu64 o) _ 12 4 4) by (rewrite cu64_length; reflexivity).
  rewrite slice_0 by (now rewrite zle_length).
  rewrite (slice_skip (zle 4 (e_typ e)) _ 4 4 0) by (rewrite zle_length; reflexivity).
  rewrite <- (app_nil_r (le 4 (e_w e))). rewrite slice_0 by (now rewrite le_length).
  rewrite unzle_idbytes by assumption. unfold cu64. rewrite unle_le by exact Ho.
  rewrite unzle_zle by lia. rewrite unle_le by exact Hw. rewrite Nat2N.id. reflexivity.
Qed.

Lemma types_of_nm rws :
  Forall row_ok rws -> read_node_types (flat_map enc_nm_entry (indexed rws)) = map row_typ rws.
Proof.
  intro H. unfold read_node_types. rewrite fields_flat_map by (lia || apply enc_nm_length).
  rewrite map_map.
  transitivity (map (fun x : nat * row => row_typ (snd x)) (indexed rws)).
  - apply map_ext_in. intros [i r] Hin. cbn [snd].
    assert (Hr : row_ok r).
    { rewrite Forall_forall in H. apply H. unfold indexed in Hin. apply in_combine_r in Hin. exact Hin. }
    unfold enc_nm_entry. cbn [fst snd].
    assert (L1 : length (idbytes (row_id r)) = 8%nat) by apply le_length.
    rewrite (slice_skip (idbytes (row_id r)) _ 16 4 8) by (rewrite L1; reflexivity).
    rewrite (slice_skip (cu64 i) _ 8 4 0) by (rewrite cu64_length; reflexivity).
    rewrite <- (app_nil_r (zle 4 _)). rewrite slice_0 by (now rewrite zle_length).
    destruct Hr. apply unzle_zle; lia.
  - unfold indexed. assert (Hc : forall (a : list nat) (b : list row), length a = length b ->
      map (fun x => row_typ (snd x)) (combine a b) = map row_typ b).
    { clear. induction a as [|x a IH]; intros [|y b] Hl; cbn in *; try discriminate; [reflexivity|].
      rewrite IH by lia. reflexivity. }
    apply Hc. apply seq_length.
Qed.

Lemma ts_pairs_flat es :
  ts_pairs (flat_map (fun e => [e_c e; e_r e]) es) = map (fun e => (e_c e, e_r e)) es.
Proof. induction es as [|e es IH]; cbn; [reflexivity|]. now rewrite IH. Qed.

Lemma timestamps_flat hdr es :
  length hdr = 8%nat ->
  Forall (fun e => - 2 ^ 63 <= e_c e < 2 ^ 63 /\ - 2 ^ 63 <= e_r e < 2 ^ 63) es ->
  read_timestamps (hdr ++ flat_map enc_ts es) = map (fun e => (e_c e, e_r e)) es.
Proof.
  intros Hh H. unfold read_timestamps.
  assert (Hf : fields 8 (hdr ++ flat_map enc_ts es) =
               hdr :: flat_map (fun e => [zle 8 (e_c e); zle 8 (e_r e)]) es).
  { transitivity (fields 8 (concat (hdr :: flat_map (fun e => [zle 8 (e_c e); zle 8 (e_r e)]) es))).
    - f_equal. cbn. f_equal. clear. induction es as [|e es IH]; cbn; [reflexivity|].
      unfold enc_ts at 1. rewrite IH. now rewrite app_assoc.
    - apply fields_concat; [lia|]. constructor; [exact Hh|].
      apply Forall_forall. intros c Hc. apply in_flat_map in Hc. destruct Hc as (e & _ & [<-|[<-|[]]]); apply zle_length. }
  rewrite Hf. cbn [map tl].
  replace (map (unzle 8) (flat_map (fun e => [zle 8 (e_c e); zle 8 (e_r e)]) es))
    with (flat_map (fun e => [e_c e; e_r e]) es); [apply ts_pairs_flat|].
  clear Hf. induction H as [|e es [Hc Hr] _ IH]; [reflexivity|].
  cbn [flat_map map app]. rewrite !unzle_zle by lia. now rewrite IH.
Qed.

Lemma entries_of_nm rws :
  Forall row_ok rws -> Forall (fun r => row_id r < 2 ^ 63) rws -> (N.of_nat (length rws) < 2 ^ 64)%N ->
  map (fun c => (unzle 8 (slice c 0 8), N.to_nat (unle (slice c 8 8))))
      (fields 20 (flat_map enc_nm_entry (indexed rws))) =
  map (fun x => (row_id (snd x), fst x)) (indexed rws).
Proof.
  intros H H63 Hl. rewrite fields_flat_map by (lia || apply enc_nm_length).
  rewrite map_map. apply map_ext_in. intros [i r] Hin. cbn [fst snd].
  assert (Hr : In r rws) by (unfold indexed in Hin; apply in_combine_r in Hin; exact Hin).
  assert (Hi : (i < length rws)%nat) by (unfold indexed in Hin; apply in_combine_l in Hin; apply in_seq in Hin; lia).
  rewrite Forall_forall in H, H63. specialize (H _ Hr). specialize (H63 _ Hr). destruct H as [Hid _].
  unfold enc_nm_entry. cbn [fst snd].
  assert (L1 : length (idbytes (row_id r)) = 8%nat) by apply le_length.
  rewrite slice_0 by (now rewrite L1).
  rewrite (slice_skip (idbytes (row_id r)) _ 8 8 0) by (rewrite L1; reflexivity).
  rewrite slice_0 by (now rewrite cu64_length).
  rewrite unzle_idbytes by lia. unfold cu64. rewrite unle_le by (change (256 ^ N.of_nat 8)%N with (2 ^ 64)%N; lia).
  now rewrite Nat2N.id.
Qed.

(** The partition obtained from the rows. *)
Definition part_of (m : lmeta) (temporal : bool) (rws : list row) : partition :=
  P (map row_typ rws)
    (psum 0 (map (fun r => length (row_runs r)) rws) ++ [length (all_runs rws)])
    (map fst (all_runs rws) ++ [0])
    (psum 0 (map glen (all_runs rws)) ++ [length (all_edges rws)])
    (map e_dst (all_edges rws) ++ [0])
    (flat_map gcum (all_runs rws))
    (if (0 <? lm_efc m)%nat
     then psum 0 (efeat_counts (all_edges rws)) ++ [sum (efeat_counts (all_edges rws))] else [])
    (if (0 <=? lm_watermark m) && temporal then map (fun e => (e_c e, e_r e)) (all_edges rws) else [])
    (psum 0 (nfeat_counts rws) ++ [sum (nfeat_counts rws)])
    (if (0 <? lm_nfc m)%nat
     then psum 0 (map flen (all_nfeats rws)) ++ [sum (map flen (all_nfeats rws))] else [])
    (if (0 <? lm_nfc m)%nat then flat_map fbytes (all_nfeats rws) else [])
    (if (0 <? lm_efc m)%nat
     then psum 0 (map flen (all_efeats (all_edges rws))) ++ [sum (map flen (all_efeats (all_edges rws)))] else [])
    (if (0 <? lm_efc m)%nat then flat_map fbytes (all_efeats (all_edges rws)) else []).

(** Every file is shorter than 2^64 bytes. *)
Definition fits (f : pfiles) : Prop :=
  let ok (l : list N) := (N.of_nat (length l) < 2 ^ 64)%N in
  ok (f_nm f) /\ ok (f_ni f) /\ ok (f_nfi f) /\ ok (f_nfd f) /\ ok (f_nbi f) /\ ok (f_ei f) /\
  ok (f_efi f) /\ ok (f_efd f) /\ ok (f_eti f).

Definition erow_ok (r : row) : Prop :=
  Forall (fun e => e_dst e < 2 ^ 63 /\ 0 <= e_typ e /\ (e_w e < 2 ^ 32)%N) (row_edges r).

Lemma sum_flens fs : sum (map flen fs) = length (flat_map fbytes fs).
Proof. induction fs as [|f fs IH]; cbn; [reflexivity|]. rewrite sum_cons, app_length, IH. reflexivity. Qed.

Lemma psum_fits a l B : (N.of_nat (a + sum l) < B)%N ->
  Forall (fun n => (N.of_nat n < B)%N) (psum a l ++ [(a + sum l)%nat]).
Proof.
  intro H. apply Forall_app. split; [|now constructor].
  apply Forall_forall. intros x Hx. apply psum_le in Hx. lia.
Qed.

Lemma u64s_psum l : (N.of_nat (sum l) < 2 ^ 64)%N ->
  u64s (flat_map cu64 (psum 0 l) ++ cu64 (sum l)) = psum 0 l ++ [sum l].
Proof.
  intro H. replace (flat_map cu64 (psum 0 l) ++ cu64 (sum l))
    with (flat_map cu64 (psum 0 l ++ [sum l])) by (rewrite flat_map_app'; cbn; now rewrite app_nil_r).
  apply u64s_flat. apply (psum_fits 0 l). exact H.
Qed.

Theorem load_partition_spec m wm rws s0 :
  Enc (is_temporal wm) (header wm) (rev rws) s0 -> fits (files_of (wclose s0)) -> Forall erow_ok rws ->
  load_partition fadd m (files_of (wclose s0)) = Ok (part_of m (is_temporal wm) rws).
Proof.
  intros E F He. destruct E. rewrite rev_involutive in *.
  destruct F as (Fnm & Fni & Fnfi & Fnfd & Fnbi & Fei & Fefi & Fefd & Feti).
  unfold files_of, wclose in *.
  cbn [f_nm f_ni f_nfi f_nfd f_nbi f_ei f_efi f_efd f_eti nm ni nfi nfd nbi ei efi efd eti] in *.
  (* sizes *)
  assert (Sedges : (N.of_nat (sum (edge_counts rws)) < 2 ^ 64)%N).
  { rewrite app_length, enc_ei, (flat_map_length_const 24) in Fei by (intro; apply enc_edge_length).
    rewrite combine_length, psum_length in Fei. unfold efeat_counts in Fei. rewrite map_length, Nat.min_id, all_edges_length in Fei. lia. }
  assert (Snf : (N.of_nat (sum (nfeat_counts rws)) < 2 ^ 64)%N).
  { rewrite app_length, enc_nfi, flat_cu64_length, psum_length, map_length, all_nfeats_length in Fnfi. lia. }
  assert (Snfd : (N.of_nat (sum (map flen (all_nfeats rws))) < 2 ^ 64)%N).
  { rewrite enc_nfd, <- sum_flens in Fnfd. exact Fnfd. }
  assert (Sef : (N.of_nat (sum (efeat_counts (all_edges rws))) < 2 ^ 64)%N).
  { rewrite app_length, enc_efi, flat_cu64_length, psum_length, map_length, all_efeats_length in Fefi. lia. }
  assert (Sefd : (N.of_nat (sum (map flen (all_efeats (all_edges rws)))) < 2 ^ 64)%N).
  { rewrite enc_efd, <- sum_flens in Fefd. exact Fefd. }
  (* decoded files *)
  assert (Dnbi : u64s (nbi s0 ++ cu64 (length (ei s0) / 24)) = psum 0 (edge_counts rws) ++ [sum (edge_counts rws)]).
  { rewrite enc_nbi, enc_ei, (flat_map_length_const 24) by (intro; apply enc_edge_length).
    rewrite combine_length, psum_length. unfold efeat_counts. rewrite map_length, Nat.min_id, div24, all_edges_length.
    apply u64s_psum. exact Sedges. }
  assert (Dni : u64s (ni s0 ++ cu64 (length (nfi s0) / 8)) = psum 0 (nfeat_counts rws) ++ [sum (nfeat_counts rws)]).
  { rewrite enc_ni, enc_nfi, flat_cu64_length, psum_length, map_length, all_nfeats_length, div8. now apply u64s_psum. }
  assert (Dnfi : u64s (nfi s0 ++ cu64 (nfd_pos s0)) = psum 0 (map flen (all_nfeats rws)) ++ [sum (map flen (all_nfeats rws))]).
  { rewrite enc_nfi, enc_nfdpos. now apply u64s_psum. }
  assert (Defi : u64s (efi s0 ++ cu64 (efd_pos s0)) =
     psum 0 (map flen (all_efeats (all_edges rws))) ++ [sum (map flen (all_efeats (all_edges rws)))]).
  { rewrite enc_efi, enc_efdpos. now apply u64s_psum. }
  assert (Eok : Forall (fun e => edge_ok (is_temporal wm) e /\ e_dst e < 2 ^ 63 /\ 0 <= e_typ e /\ (e_w e < 2 ^ 32)%N) (all_edges rws)).
  { apply Forall_forall. intros e Hin. unfold all_edges in Hin. apply in_flat_map in Hin. destruct Hin as (r & Hr & Hin).
    rewrite Forall_forall in enc_edges, He. specialize (enc_edges r ltac:(now apply -> in_rev)). specialize (He r Hr).
    unfold erow_ok in He. rewrite Forall_forall in enc_edges, He. split; [now apply enc_edges|now apply He]. }
  assert (Dei : exists pad, er_typ pad = 0 /\ er_dst pad = 0 /\ er_foff pad = sum (efeat_counts (all_edges rws)) /\
     map parse_erec (fields 24 (ei s0 ++ le 8 0 ++ cu64 (efi_pos s0 / 8) ++ zle 4 0 ++ le 4 3212836864%N)) =
     map er_of (combine (psum 0 (efeat_counts (all_edges rws))) (all_edges rws)) ++ [pad]).
  { set (pe := Edge 0 0 0 3212836864%N [] 0 0).
    exists (er_of (sum (efeat_counts (all_edges rws)), pe)). split; [reflexivity|]. split; [reflexivity|]. split; [reflexivity|].
    assert (Hp : le 8 0 ++ cu64 (efi_pos s0 / 8) ++ zle 4 0 ++ le 4 3212836864%N =
                 enc_edge (sum (efeat_counts (all_edges rws)), pe)).
    { rewrite enc_efipos, div8. reflexivity. }
    rewrite Hp, enc_ei.
    set (ces := combine (psum 0 (efeat_counts (all_edges rws))) (all_edges rws)).
    replace (flat_map enc_edge ces ++ enc_edge (sum (efeat_counts (all_edges rws)), pe))
      with (flat_map enc_edge (ces ++ [(sum (efeat_counts (all_edges rws)), pe)]))
      by (rewrite flat_map_app'; cbn; now rewrite app_nil_r).
    rewrite fields_flat_map by (lia || apply enc_edge_length).
    rewrite map_map.
    transitivity (map er_of (ces ++ [(sum (efeat_counts (all_edges rws)), pe)])); [|now rewrite map_app].
    apply map_ext_in. intros [o e] Hin. apply in_app_or in Hin. destruct Hin as [Hin|[Hin|[]]].
    - pose proof (in_combine_r _ _ _ _ Hin) as Hine. pose proof (in_combine_l _ _ _ _ Hin) as Hino.
      rewrite Forall_forall in Eok. destruct (Eok _ Hine) as ((Hd & Ht & _) & Hd63 & Ht0 & Hw).
      apply psum_le in Hino. apply parse_enc_edge; try assumption; lia.
    - inversion Hin; subst o e. apply parse_enc_edge; cbn; try lia. }
  destruct Dei as (pad & Pt & Pd & Pf & Dei).
  unfold load_partition. cbn [f_nm f_ni f_nfi f_nfd f_nbi f_ei f_efi f_efd f_eti].
  rewrite Dnbi, Dni, Dnfi, Defi, Dei, enc_nm, types_of_nm by (rewrite <- (rev_involutive rws); now apply Forall_rev).
  unfold read_edge_index.
  pose proof (read_rows_spec (lm_efc m) rws 0 (psum 0 (efeat_counts (all_edges rws))) [pad] (EI [] [] [] [] [])) as R.
  cbn [Nat.add] in R. rewrite R; clear R.
  - cbn [bind x_types x_toff x_dst x_wts x_foff app length].
    destruct (psum 0 (edge_counts rws) ++ [sum (edge_counts rws)]) eqn:Hnil.
    { apply app_eq_nil in Hnil. destruct Hnil; discriminate. }
    rewrite Pt, Pd, Pf. unfold part_of. rewrite !map_length. rewrite enc_nfd, enc_efd.
    assert (Dts : (if 0 <=? lm_watermark m then read_timestamps (eti s0) else []) =
                  (if (0 <=? lm_watermark m) && is_temporal wm then map (fun e => (e_c e, e_r e)) (all_edges rws) else [])).
    { destruct (0 <=? lm_watermark m); [|reflexivity]. rewrite enc_eti. destruct wm as [w|]; cbn [andb is_temporal header].
      - apply timestamps_flat; [apply le_length|]. eapply Forall_impl; [|exact Eok]. cbn.
        intros e ((_ & _ & H) & _). now apply H.
      - reflexivity. }
    rewrite Dts. destruct (0 <? lm_efc m)%nat; reflexivity.
  - eapply Forall_impl; [|exact He]. unfold erow_ok. intros r Hr. eapply Forall_impl; [|exact Hr]. cbn. tauto.
  - rewrite psum_length. unfold efeat_counts. apply map_length.
Qed.

End Load.
