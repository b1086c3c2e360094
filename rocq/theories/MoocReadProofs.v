(** The MOOC graph of one student, read back. *)
From Coq Require Import Sorting.Sorted Sorting.Permutation ZifyBool ZifyNat ZifyN.
From Verif Require Import Base WriterModel LoaderModel GraphModel GraphSpec FeatureModel FeatureSpec GraphProofs ConvertProofs
  AnswerProofs FeatureProofs TemporalProofs EdgeTemporalProofs MoocModel MoocSpec MoocProofs.
Local Open Scope Z_scope.

Lemma all_edges rs : node_records rs = [] -> edge_records rs = rs.
Proof.
  unfold node_records, edge_records. induction rs as [|r rs IH]; [reflexivity|]. cbn [filter].
  destruct (rdst r =? -1); [discriminate|]. cbn [negb]. intro H. f_equal. now apply IH.
Qed.

(** The records of one student: the node, then edges of distinct units. *)
Lemma one_student_shape file rs s : rows_ok file -> sources file = [s] -> edge_iterator file = Ok rs ->
  exists hs es, rs = student s :: es /\
    Permutation (map fst hs) (pairs file) /\ NoDup (map fst hs) /\
    Forall (fun x => fst (fst x) = s /\ 0 <= snd (fst x) /\ history file s (snd (fst x)) (snd x)) hs /\
    Forall2 (fun x r => edge_with s (snd (fst x)) (snd x) r) hs es.
Proof.
  intros Hok Hs Er. assert (H1 : length (sources file) = 1%nat) by (rewrite Hs; reflexivity).
  destruct (one_student file Hok H1) as (rs' & Er' & Hn & hs & Hp & Hh & H2). assert (rs' = rs) by congruence. subst rs'.
  destruct (iterator_segs file Hok) as (r0 & t & rs' & _ & Er'' & _ & Hn' & Hhd). assert (rs' = rs) by congruence. subst rs'.
  assert (E0 : node_records rs = [student s]).
  { rewrite Hs in Hn. apply Permutation_sym, Permutation_length_1_inv in Hn. exact Hn. }
  destruct rs as [|r es]; [discriminate|]. cbn in Hhd. inversion Hhd; subst r.
  assert (Er0 : m_src r0 = s) by (rewrite E0 in Hn'; cbn [map] in Hn'; inversion Hn'; reflexivity).
  unfold node_records in E0. cbn [filter] in E0. replace (rdst (node_rec (m_src r0)) =? -1) with true in E0 by reflexivity.
  injection E0 as _ E2. fold (node_records es) in E2.
  unfold edge_records in H2. cbn [filter] in H2. replace (rdst (node_rec (m_src r0)) =? -1) with true in H2 by reflexivity.
  cbn [negb] in H2. fold (edge_records es) in H2. rewrite (all_edges es E2) in H2.
  exists hs, es. split; [rewrite Er0; reflexivity|]. split; [exact Hp|]. split.
  { apply (Permutation_NoDup (Permutation_sym Hp)). apply NoDup_nodup. }
  assert (Hsrc : Forall (fun x => fst (fst x) = s /\ 0 <= snd (fst x)) hs).
  { apply Forall_forall. intros x Hx. assert (Hi : In (fst x) (pairs file)) by (apply (Permutation_in _ Hp); now apply in_map).
    unfold pairs in Hi. apply nodup_In, in_map_iff in Hi. destruct Hi as (r & Ex & Hr). rewrite <- Ex. cbn [fst snd].
    destruct (single_source file H1) as (s' & Hs' & Hall). rewrite Forall_forall in Hall. rewrite (Hall r Hr). split; [congruence|].
    destruct Hok as [_ Hf]. rewrite Forall_forall in Hf. now apply Hf. }
  split.
  - apply Forall_forall. intros x Hx. rewrite Forall_forall in Hsrc, Hh. destruct (Hsrc x Hx) as [X1 X2].
    split; [exact X1|]. split; [exact X2|]. rewrite <- X1. now apply Hh.
  - clear -H2 Hsrc. induction H2 as [|x r hs es Hx H2 IH]; [constructor|]. inversion Hsrc as [|? ? [E _] Hs']. constructor; [rewrite <- E; exact Hx|now apply IH].
Qed.

(** ** Blocks of the converted graph *)
Lemma items_edges c n rs : Forall (fun r => rdst r =? -1 = false) rs ->
  batch_items c n rs = map (fun r => (r, inherit (rcreated r) c, inherit (rremoved r) n)) rs.
Proof. induction 1 as [|r rs H Hr IH]; [reflexivity|]. cbn [batch_items map]. unfold is_node. rewrite H, IH. reflexivity. Qed.
Lemma rows_rev_edges s (xs : list (record * Z * Z)) : forall w rest, row_id w = s ->
  Forall (fun x => rsrc (fst (fst x)) = s /\ (rdst (fst (fst x)) =? -1) = false) xs ->
  rows_rev (w :: rest) xs = Row (row_id w) (row_typ w) (row_feats w) (row_edges w ++ map edge_of xs) :: rest.
Proof.
  induction xs as [|x xs IH]; intros w rest Hw H.
  - cbn. rewrite app_nil_r. destruct w; reflexivity.
  - inversion H as [|? ? [H1 H2] Hx]; subst. cbn [rows_rev]. unfold is_node. rewrite H2, H1, Z.eqb_refl.
    rewrite IH; [|reflexivity|exact Hx]. unfold add_edge_to. cbn [row_id row_typ row_feats row_edges map]. rewrite <- app_assoc. reflexivity.
Qed.

Definition stamped (r : record) : edge := edge_of (r, inherit (rcreated r) 0, inherit (rremoved r) (-1)).
Lemma student_rows s es : Forall (fun r => rsrc r = s /\ (rdst r =? -1) = false) es ->
  flat_map rows [[student s :: es]] = [Row s 0 [] (map stamped es)].
Proof.
  intro H. cbn [flat_map]. rewrite app_nil_r. unfold rows, items. cbn [flat_map]. rewrite app_nil_r. cbn [batch_items].
  replace (is_node (student s)) with true by reflexivity. cbn [rcreated rremoved student inherit].
  replace (if 0 =? 0 then 0 else 0) with 0 by reflexivity. replace (if -1 =? 0 then -1 else -1) with (-1) by reflexivity.
  rewrite items_edges by (eapply Forall_impl; [|exact H]; cbn; tauto).
  cbn [rows_rev fst]. replace (is_node (student s)) with true by reflexivity. cbn [rsrc rtyp rfeats student].
  rewrite (rows_rev_edges s); [|reflexivity|].
  - cbn [row_id row_typ row_feats row_edges app rev]. rewrite map_map. reflexivity.
  - apply Forall_forall. intros x Hx. apply in_map_iff in Hx. destruct Hx as (r & <- & Hr). cbn [fst]. rewrite Forall_forall in H. now apply H.
Qed.

Lemma edge_with_fields s d h r : edge_with s d h r -> rsrc r = s /\ rdst r = d + 7046 /\ rtyp r = 0 /\ rfeats r = [Some (temporal_bytes h)].
Proof. intros (ts & v & t & _ & ->). repeat split; reflexivity. Qed.

Lemma find_edge s d h (hs : list (Z * Z * list (Z * list N))) es :
  Forall2 (fun x r => edge_with s (snd (fst x)) (snd x) r) hs es ->
  Forall (fun x => fst (fst x) = s) hs -> NoDup (map fst hs) -> In (s, d, h) hs ->
  exists x, find (same_edge (s, d + 7046, 0)) (map stamped es) = Some x /\ e_feats x = [Some (temporal_bytes h)].
Proof.
  induction 1 as [|x r hs es Hx H IH]; intros Hs Hd Hin; [contradiction|].
  inversion Hs as [|? ? E Hs']. inversion Hd as [|? ? Hn Hd'].
  destruct (edge_with_fields _ _ _ _ Hx) as (F1 & F2 & F3 & F4). cbn [map find].
  unfold same_edge at 1. cbn [e_typ e_dst stamped edge_of]. rewrite F2, F3. replace (0 =? 0) with true by reflexivity. cbn [andb].
  destruct Hin as [->|Hin].
  - cbn [fst snd]. rewrite Z.eqb_refl. eexists. split; [reflexivity|]. cbn [e_feats stamped edge_of]. exact F4.
  - assert (snd (fst x) <> d).
    { intro X. apply Hn. replace (fst x) with (s, d) by (destruct (fst x); cbn in *; congruence).
      apply in_map_iff. exists (s, d, h). split; [reflexivity|exact Hin]. }
    replace (snd (fst x) + 7046 =? d + 7046) with false by lia. apply IH; assumption.
Qed.

Lemma searchable_student s (hs : list (Z * Z * list (Z * list N))) es :
  Forall2 (fun x r => edge_with s (snd (fst x)) (snd x) r) hs es -> Forall (fun x => fst (fst x) = s) hs -> NoDup (map fst hs) ->
  searchable (Row s 0 [] (map stamped es)).
Proof.
  intros H Hs Hd ty. cbv zeta. cbn [row_edges]. right. right.
  assert (X : NoDup (map e_dst (map stamped es))).
  { induction H as [|x r hs es Hx H IH]; [constructor|]. inversion Hs as [|? ? E Hs']. inversion Hd as [|? ? Hn Hd'].
    cbn [map]. constructor; [|now apply IH]. intro Hi. apply Hn. destruct (edge_with_fields _ _ _ _ Hx) as (_ & F2 & _).
    cbn [e_dst stamped edge_of] in Hi. rewrite F2 in Hi. rewrite map_map in Hi. apply in_map_iff in Hi. destruct Hi as (r' & E' & Hr').
    clear IH Hn Hd' Hs Hd Hx. subst. induction H as [|y q hs es Hy H IH]; [contradiction|]. inversion Hs' as [|? ? Ey Hs'']. destruct Hr' as [->|Hr'].
    - destruct (edge_with_fields _ _ _ _ Hy) as (_ & G2 & _). cbn [e_dst stamped edge_of] in E'. left.
      destruct (fst x), (fst y); cbn in *; f_equal; [congruence|lia].
    - right. now apply IH. }
  clear -X. induction (map stamped es) as [|e l IH]; [constructor|]. cbn [map] in X. inversion X as [|? ? Hn Hd]; subst. cbn [filter].
  destruct (e_typ e =? ty); [|now apply IH]. cbn [map]. constructor; [|now apply IH].
  intro Hi. apply Hn. apply in_map_iff in Hi. destruct Hi as (y & E & Hy). apply filter_In in Hy. apply in_map_iff. exists y. tauto.
Qed.

Lemma perm_none t h h' : Permutation h h' -> none_yet t h -> none_yet t h'.
Proof. intros Hp H y Hy. apply H. now apply (Permutation_in _ (Permutation_sym Hp)). Qed.
Lemma perm_latest t h h' x : Permutation h h' -> latest t h x -> latest t h' x.
Proof.
  intros Hp (H1 & H2 & H3). split; [now apply (Permutation_in _ Hp)|]. split; [exact H2|]. intros y Hy. apply H3.
  now apply (Permutation_in _ (Permutation_sym Hp)).
Qed.

Lemma read_back fadd wval wm file rs s d g size ts :
  rows_ok file -> sources file = [s] -> edge_iterator file = Ok rs ->
  converted fadd wval wm [[rs]] g ->
  In (s, d) (pairs file) -> hist_ok (interactions file s d) -> NoDup (map fst (interactions file s d)) ->
  Forall (fun x => 0 <= fst x) (interactions file s d) ->
  exists out, edge_features g (map (fun _ => (s, d + 7046, 0)) ts) [(0, size)] (Some ts) = Ok out /\
    Forall2 (fun t bs => answers size t (interactions file s d) bs) ts out.
Proof.
  intros Hok Hs Er Hc Hin Hhist Hnd Hpos.
  destruct (one_student_shape file rs s Hok Hs Er) as (hs & es & -> & Hp & Hd & Hh & H2).
  assert (Hsrc : Forall (fun x => fst (fst x) = s) hs) by (eapply Forall_impl; [|exact Hh]; cbn; tauto).
  assert (Hes : Forall (fun r => rsrc r = s /\ (rdst r =? -1) = false) es).
  { clear -H2 Hh. induction H2 as [|x r hs es Hx H2 IH]; [constructor|]. inversion Hh as [|? ? (_ & Hz & _) Hh']. constructor; [|now apply IH].
    destruct (edge_with_fields _ _ _ _ Hx) as (F1 & F2 & _). rewrite F2. split; [exact F1|lia]. }
  pose proof (student_rows s es Hes) as Hrows.
  apply (Permutation_in _ (Permutation_sym Hp)) in Hin. apply in_map_iff in Hin. destruct Hin as ([p h] & Ep & Hin). cbn in Ep. subst p.
  rewrite Forall_forall in Hh. destruct (Hh _ Hin) as (_ & _ & Hperm & Hsort). cbn [fst snd] in Hperm, Hsort.
  destruct (find_edge s d h hs es H2 Hsrc Hd Hin) as (x & Ef & Ex).
  assert (Hvals : edge_values [[student s :: es]] (s, d + 7046, 0) 0 = [Some (temporal_bytes h)]).
  { unfold edge_values. rewrite Hrows. cbn [flat_map row_id fst row_edges]. rewrite Z.eqb_refl, Ef, Ex. reflexivity. }
  assert (Hexp : explains (fun _ => h) (Some (temporal_bytes h))).
  { split; [|split; [|split; [|reflexivity]]].
    - destruct Hhist as (K1 & K2 & K3 & K4). split; [|split; [|split]].
      + intros ->. apply Permutation_nil in Hperm. congruence.
      + rewrite (Permutation_length Hperm). exact K2.
      + rewrite temporal_bytes_length in *. clear -K3 Hperm. destruct (sort_hist_spec h) as [_ P1]. destruct (sort_hist_spec (interactions file s d)) as [_ P2].
        assert (P : Permutation (sort_hist h) (sort_hist (interactions file s d))) by (rewrite P1, P2; exact Hperm).
        unfold hist_header in *. rewrite (Permutation_length P). rewrite (Permutation_length (Permutation_flat_map snd P)). exact K3.
      + apply (Permutation_Forall (Permutation_sym Hperm)). exact K4.
    - apply (Permutation_NoDup (Permutation_sym (Permutation_map fst Hperm))). exact Hnd.
    - apply (Permutation_Forall (Permutation_sym Hperm)). exact Hpos. }
  eexists. split.
  - apply (converted_edge_features_ts fadd wval wm _ g _ _ ts (fun _ => h) Hc).
    + constructor; [|constructor]. unfold int32. cbn. lia.
    + intros e r _ Hr _. rewrite Hrows in Hr. destruct Hr as [<-|[]]. now apply (searchable_student s hs).
    + intros e _. unfold holders. rewrite Hrows. cbn [filter]. destruct (_ && _); cbn; lia.
    + intros e f v He [<-|[]] Hv. apply in_map_iff in He. destruct He as (_ & <- & _). cbn [fst] in Hv. rewrite Hvals in Hv.
      destruct Hv as [<-|[]]. exact Hexp.
  - clear -Hvals Hperm. induction ts as [|t ts IH]; [constructor|]. cbn [map combine]. constructor; [|exact IH].
    cbn [fst snd map concat]. rewrite app_nil_r, Hvals. unfold spec_temporal. cbn [flat_map opt_list bytes_of]. rewrite app_nil_r.
    pose proof (entry_at_spec t h) as He. destruct (entry_at t h) as [y|] eqn:Ey.
    + right. exists y. split; [apply (perm_latest t h); [exact Hperm|exact He]|]. reflexivity.
    + left. split; [apply (perm_none t h); [exact Hperm|exact He]|]. cbn [opt_list newest_from]. unfold fixed. cbn [app].
      rewrite <- (repeat_length 0%N size) at 1. apply firstn_all.
Qed.
