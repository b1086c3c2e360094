(** Proofs about string and sparse features of edges through servers. *)
From Coq Require Import Permutation ZifyBool ZifyNat ZifyN.
From Verif Require Import Base WriterModel LoaderModel GraphModel GraphSpec FeatureModel FeatureSpec ServerModel
  WriterProofs LoaderProofs QueryProofs GraphProofs ConvertProofs AnswerProofs FeatureProofs TemporalProofs StringProofs
  TemporalStringProofs SparseProofs ServerProofs ServerFeatureProofs ServerEdgeProofs ServerStringProofs ServerSparseProofs.
Local Open Scope Z_scope.

Section Strings.
Variables (fadd : N -> N -> N) (wval : N -> Z).
Notation converted := (converted fadd wval).
Notation part_of := (part_of fadd).

Lemma edge_values_concat split e f : edge_values (concat split) e f = concat (map (fun parts => edge_values parts e f) split).
Proof.
  unfold edge_values. induction split as [|p sp IH]; [reflexivity|]. cbn [concat map]. now rewrite flat_map_app, flat_map_app, IH.
Qed.
Lemma edge_values_perm parts parts' e f : Permutation parts parts' -> Permutation (edge_values parts e f) (edge_values parts' e f).
Proof. intro H. unfold edge_values. apply Permutation_flat_map, Permutation_flat_map, H. Qed.

(** What reading an edge needs of the partitions. *)
Definition all_searchable (parts : list (list (list record))) (edges : list (Z * Z * Z)) : Prop :=
  forall e r, In e edges -> In r (flat_map rows parts) -> row_id r = fst (fst e) -> searchable r.
Definition edge_explained (hist : list N -> list (Z * list N)) (parts : list (list (list record))) (edges : list (Z * Z * Z)) (fs : list Z) (ts : option (list Z)) : Prop :=
  ts = None \/ forall e f v, In e edges -> In f fs -> In v (edge_values parts e f) -> explains hist v.
Lemma edge_explained_at hist parts edges fs ts n t f v : edge_explained hist parts edges fs ts -> In (n, t) (stamps edges ts) -> In f fs ->
  In v (edge_values parts n f) -> t <> None -> explains hist v.
Proof.
  intros [E|H] Hin Hf Hv Ht; apply ServerFeatureProofs.stamps_in in Hin; destruct Hin as [Hn Hi]; [now apply Hi in E|]. eapply H; eassumption.
Qed.

Definition all_readable wm (edges : list (Z * Z * Z)) (parts : list (list (list record))) (g : graph) : Prop :=
  forall e, In e edges -> readable fadd wval wm parts g (fst (fst e)).

(** Bytes of feature [f] of an edge in the partitions [parts], at the time of the request. *)
Definition edge_string_of (hist : list N -> list (Z * list N)) (parts : list (list (list record))) (x : Z * Z * Z * option Z) (f : Z) : list N :=
  match snd x with
  | None => spec_edge_string parts (fst x) f
  | Some t => entry_bytes hist t (edge_values parts (fst x) f)
  end.

(** At most one row of a requested edge gives a requested feature (or a single feature is
    requested without a timestamp). *)
Definition edge_plain_rows (parts : list (list (list record))) (edges : list (Z * Z * Z)) (fs : list Z) (ts : option (list Z)) : Prop :=
  forall n, In n edges ->
    (ts = None /\ exists f, fs = [f]) \/ (length (filter (fun r => gives fs (edge_row_feats n r)) (node_rows (fst (fst n)) (map rows parts))) <= 1)%nat.

Lemma edge_row_values parts n r f v : In r (node_rows (fst (fst n)) (map rows parts)) -> given (edge_row_feats n r) f = Some v -> In v (edge_values parts n f).
Proof.
  intros Hr Hv. rewrite <- edge_values_offered. unfold offered. apply in_flat_map. exists r. split; [assumption|].
  unfold given in Hv. destruct (value_at (edge_row_feats n r) f) as [w|]; [|discriminate].
  destruct (length (bytes_of w) =? 0)%nat; [discriminate|]. injection Hv as ->. now left.
Qed.

Lemma serve_edge_reads wm parts g fs n t look :
  readable fadd wval wm parts g (fst (fst n)) -> Forall int32 fs ->
  Forall (fun r => row_id r = fst (fst n) -> searchable r) (flat_map rows parts) ->
  unmixed t (edge_row_feats n) fs (node_rows (fst (fst n)) (map rows parts)) ->
  (t = None -> forall v, fst (look v) = 0) ->
  (forall r f v, In r (node_rows (fst (fst n)) (map rows parts)) -> In f fs -> given (edge_row_feats n r) f = Some v ->
     (forall data, resolves data t look v) /\ look_ok look v /\ timely t look v) ->
  reads (fun out => let '(src, dst, ty) := n in do o <- occurrences g src ;;
    match o with
    | None => Ok None
    | Some os => do st <- foldM (fun x st => part_edge_string (fst x) (snd x) dst ty t fs st) os (map (fun _ => -1) fs, map (fun _ => 0) fs, out) ;;
                 Ok (Some st)
    end) (map (fun f => chosen look (edge_values parts n f)) fs).
Proof.
  intros C Hi HSr Hu H0 Hl out. destruct (readable_small fadd wval wm parts g _ C) as (m & Hg & HRF & HF & Hc).
  cbn beta.
  destruct n as [[src dst] ty]. cbn [fst snd] in *. pose proof (edge_values_offered parts (src, dst, ty)) as EV. cbn [fst] in EV.
  assert (Hl' : forall r f v, In r (node_rows src (map rows parts)) -> In f fs -> given (edge_row_feats (src, dst, ty) r) f = Some v -> look_ok look v /\ timely t look v)
    by (intros r f v H1 H2 H3; now apply (Hl r f v)).
  destruct (srows_fold t look (edge_row_feats (src, dst, ty)) fs _ out Hu Hl' H0) as [R1 R2]. cbn zeta in R1, R2.
  rewrite (map_ext _ (fun f => Z.of_nat (length (chosen look (edge_values parts (src, dst, ty) f))))) in R1
    by (intro f; now rewrite EV).
  rewrite (map_ext _ (fun f => chosen look (edge_values parts (src, dst, ty) f))) in R2 by (intro f; now rewrite EV).
  destruct (places (part_of m (is_temporal wm)) src (map rows parts)) as [|o os] eqn:Ep.
  - left. split; [rewrite Hg; unfold lookup, found; now rewrite Ep|]. apply places_nil in Ep. apply Forall_map, Forall_forall. intros f _.
    rewrite <- EV, Ep. reflexivity.
  - right. eexists. rewrite Hg. unfold lookup, found. rewrite Ep. cbn [bind]. rewrite <- Ep. rewrite fresh_enc.
    rewrite (foldM_rows (fun p i st => part_edge_string p i dst ty t fs st) senc (fun st r => srow t look (edge_row_feats (src, dst, ty) r) fs st)
               _ _ _ _ _ (fresh fs, out) (places_rows _ src (map rows parts))).
    + cbn [bind]. unfold senc. destruct (fold_lit t look (edge_row_feats (src, dst, ty)) fs (node_rows src (map rows parts)) (fresh fs, out)) as [L F].
      * intros r f v H1 H2 H3. now apply (Hl' r f v).
      * unfold fresh. cbn [fst]. now rewrite map_length.
      * unfold fresh. cbn [fst]. apply Forall_map, Forall_forall. intros ? _. split; cbn; lia.
      * cbn zeta in L, F. rewrite R1, R2 in *. split; [rewrite map_map; reflexivity|]. rewrite !map_length.
        split; [exact L|]. rewrite map_map. unfold zlen. rewrite <- R1.
        match goal with |- Forall lit (combine (map fst ?l) (map snd ?l)) => replace (combine (map fst l) (map snd l)) with l; [exact F|] end.
        clear. induction (fst _) as [|[a b] l IH]; cbn; [reflexivity|]. now rewrite <- IH.
    + intros d r rest ps r1 r2 E Hin Eps Hn. rewrite Forall_forall in HF, HRF. destruct (HF ps Hin) as [Hs _]. specialize (HRF ps Hin). subst ps.
      assert (Hr : In r (node_rows src (map rows parts))) by (now apply row_in_parts with r1 r2).
      apply part_edge_string_spec; try assumption.
      * apply Hc. intro Q. rewrite Q in Hr. contradiction.
      * apply Forall_app in HRF. destruct HRF as [_ HRF]. now inversion HRF.
      * rewrite Forall_forall in HSr. apply HSr; [|assumption]. rewrite flat_map_concat_map. unfold node_rows in Hr. now apply filter_In in Hr.
      * eapply (unmixed_ready t look (edge_row_feats (src, dst, ty))); [|exact H0]. rewrite <- E. exact Hu.
      * intros f v data Hf Hv. destruct (Hl r f v) as (L1 & L2 & _); auto.
Qed.


Lemma edge_chosen_string hist parts n t fs f : In f fs ->
  (t <> None -> (length (filter (fun r => gives fs (edge_row_feats n r)) (node_rows (fst (fst n)) (map rows parts))) <= 1)%nat) ->
  (t <> None -> forall f v, In f fs -> In v (edge_values parts n f) -> explains hist v) ->
  chosen (looks hist t) (edge_values parts n f) = edge_string_of hist parts (n, t) f.
Proof.
  intros Hf Hu He. unfold edge_string_of. cbn [fst snd]. destruct t as [t|]; cbn [looks].
  - apply chosen_temporal.
    + apply Forall_forall. intros v Hv. eapply He; eauto. discriminate.
    + rewrite <- edge_values_offered. eapply offered_one; [eassumption|apply Hu; discriminate|]. intros v Hv. rewrite edge_values_offered in Hv.
      eapply explains_nonempty, He; eauto. discriminate.
  - apply chosen_plain.
Qed.

Lemma serve_edge_listing wm parts g edges fs ts hist :
  all_readable wm edges parts g -> Forall int32 fs -> all_searchable parts edges ->
  edge_explained hist parts edges fs ts -> edge_plain_rows parts edges fs ts ->
  exists r, serve_edge_strings g fs edges ts = Ok r /\
    listing (concat (map (fun x => map (edge_string_of hist parts x) fs) (stamps edges ts))) r.
Proof.
  intros HR Hi HSr He Hu. unfold serve_edge_strings.
  destruct (serve_listing (length fs) (fun n t out => let '(src, dst, ty) := n in do o <- occurrences g src ;;
    match o with
    | None => Ok None
    | Some os => do st <- foldM (fun x st => part_edge_string (fst x) (snd x) dst ty t fs st) os (map (fun _ => -1) fs, map (fun _ => 0) fs, out) ;;
                 Ok (Some st)
    end) (fun x => map (edge_string_of hist parts x) fs) (stamps edges ts)) with (out := @nil N) as (r & E & R).
  - intros n t Hin. split; [now rewrite map_length|]. destruct (ServerFeatureProofs.stamps_in _ _ _ _ Hin) as [Hn Hts].
    assert (Hrows : t <> None -> (length (filter (fun r => gives fs (edge_row_feats n r)) (node_rows (fst (fst n)) (map rows parts))) <= 1)%nat).
    { intro Ht. destruct (Hu n Hn) as [[H _]|H]; [|assumption]. apply Hts in H. contradiction. }
    assert (Hex : t <> None -> forall f v, In f fs -> In v (edge_values parts n f) -> explains hist v).
    { intros Ht f v Hf Hv. eapply edge_explained_at; eassumption. }
    rewrite <- (map_ext_in (fun f => chosen (looks hist t) (edge_values parts n f))) by (intros f Hf; now apply (edge_chosen_string hist parts n t fs f)).
    apply (serve_edge_reads wm parts g fs n t (looks hist t) (HR n Hn) Hi).
    + apply Forall_forall. intros r Hr Hid. now apply (HSr n r).
    + destruct (Hu n Hn) as [[H Hf]|H]; [left; split; [now apply Hts|assumption]|now right].
    + apply looks_zero.
    + intros r f v H1 H2 H3. destruct t as [t|]; cbn [looks]; [|apply plain_facts].
      apply tlook_facts. apply (Hex ltac:(discriminate) f v H2). now apply (edge_row_values parts n r).
  - exists r. split; [exact E|]. exact R.
Qed.

Definition edge_single_holder (hist : list N -> list (Z * list N)) (split : list (list (list (list record)))) (edges : list (Z * Z * Z)) (fs : list Z) (ts : option (list Z)) : Prop :=
  forall x f i j p p', In x (stamps edges ts) -> In f fs -> i <> j ->
    nth_error split i = Some p -> nth_error split j = Some p' -> edge_string_of hist p x f = [] \/ edge_string_of hist p' x f = [].

Lemma edge_explained_part hist split p edges fs ts : edge_explained hist (concat split) edges fs ts -> In p split -> edge_explained hist p edges fs ts.
Proof.
  intros [E|H] Hp; [now left|right]. intros n f v Hn Hf Hv. apply (H n f v Hn Hf). rewrite edge_values_concat. apply in_concat.
  exists (edge_values p n f). split; [|assumption]. apply in_map_iff. eauto.
Qed.

Lemma searchable_part split p edges : all_searchable (concat split) edges -> In p split -> all_searchable p edges.
Proof.
  intros H Hp e r He Hr. apply (H e r He). apply in_flat_map in Hr. destruct Hr as (b & Hb & Hr). apply in_flat_map. exists b. split; [|assumption].
  apply in_concat. eauto.
Qed.

(** Every string has the bytes of the only server holding it. *)
Theorem d_edge_strings_holder wm split gs edges fs ts hist es :
  Forall2 (all_readable wm edges) split gs -> gs <> [] -> Forall int32 fs -> all_searchable (concat split) edges ->
  edge_explained hist (concat split) edges fs ts -> stamped edges ts ->
  (forall p, In p split -> edge_plain_rows p edges fs ts) -> edge_single_holder hist split edges fs ts ->
  schedule (length gs) es ->
  let val x f := concat (map (fun p => edge_string_of hist p x f) split) in
  d_edge_strings gs edges fs ts es =
  Ok (concat (map (fun x => map (fun f => Z.of_nat (length (val x f))) fs) (stamps edges ts)),
      concat (map (fun x => concat (map (val x) fs)) (stamps edges ts))).
Proof.
  intros HF Hne Hi HSr He Hst Hu Ho Hes val. unfold d_edge_strings.
  assert (ES : exists rs, mapM (fun g => serve_edge_strings g fs edges ts) gs = Ok rs /\
     Forall2 (fun p r => listing (concat (map (fun x => map (edge_string_of hist p x) fs) (stamps edges ts))) r) split rs).
  { assert (He' : forall p, In p split -> edge_explained hist p edges fs ts) by (intros; eapply edge_explained_part; eassumption).
    assert (HS' : forall p, In p split -> all_searchable p edges) by (intros; eapply searchable_part; eassumption).
    clear Ho Hes Hne He HSr val. induction HF as [|p g split gs H HF IH]; [exists []; split; [reflexivity|constructor]|].
    destruct (serve_edge_listing wm p g edges fs ts hist H Hi) as (r & Er & R); [apply HS'; now left|apply He'; now left|apply Hu; now left|].
    destruct IH as (rs & Ers & Rs); [intros; apply Hu; now right|intros; apply He'; now right|intros; apply HS'; now right|].
    exists (r :: rs). cbn [mapM]. rewrite Er. cbn [bind]. rewrite Ers. cbn [bind]. split; [reflexivity|]. now constructor. }
  destruct ES as (rs & Ers & HRs). rewrite Ers. cbn [bind].
  pose proof (Forall2_len0 _ _ _ HF) as L1. pose proof (Forall2_len0 _ _ _ HRs) as L2.
  set (keys := concat (map (fun x => map (fun f => (x, f)) fs) (stamps edges ts))).
  set (cell := fun s (k : (Z * Z * Z * option Z) * Z) => edge_string_of hist (nth s split []) (fst k) (snd k)).
  assert (K : forall (A : Type) (h : (Z * Z * Z * option Z) * Z -> A), map h keys = concat (map (fun x => map (fun f => h (x, f)) fs) (stamps edges ts))).
  { intros A h. subst keys. rewrite concat_map, map_map. f_equal. apply map_ext. intro x. now rewrite map_map. }
  rewrite (client_cells _ keys cell rs).
  - rewrite !K. unfold cell. cbn [fst snd].
    assert (V : forall x f, concat (map (fun s => edge_string_of hist (nth s split []) x f) (seq 0 (length rs))) = val x f).
    { intros x f. subst val. cbn beta. f_equal. rewrite <- L2. clear. induction split as [|p sp IH]; [reflexivity|]. cbn [length seq map nth]. f_equal.
      rewrite <- seq_shift, map_map. exact IH. }
    f_equal. f_equal.
    + f_equal. apply map_ext. intro x. apply map_ext. intro f. unfold zlen. now rewrite V.
    + assert (CC : forall (l : list (list (list N))), concat (concat l) = concat (map (@concat N) l)).
      { clear. induction l as [|a l IH]; [reflexivity|]. cbn. now rewrite concat_app, IH. }
      rewrite CC, map_map. f_equal. apply map_ext. intro x. f_equal. apply map_ext. intro f. apply V.
  - intros s r Hr. rewrite K. unfold cell. cbn [fst snd].
    assert (Hs : exists p, nth_error split s = Some p).
    { destruct (nth_error split s) eqn:E; [eauto|]. apply nth_error_None in E. assert (s < length rs)%nat by (apply nth_error_Some; congruence). lia. }
    destruct Hs as (p & Hp). rewrite (nth_error_nth _ _ _ Hp).
    clear -HRs Hr Hp. revert s Hr Hp. induction HRs as [|p0 r0 sp rs H HRs IH]; intros [|s] Hr Hp; try discriminate.
    + cbn in Hr, Hp. injection Hr as <-. injection Hp as <-. exact H.
    + cbn in Hr, Hp. eapply IH; eassumption.
  - intros [x f] s s' Hk Hs Hs' Hn. unfold cell. cbn [fst snd]. rewrite <- L2 in Hs, Hs'.
    subst keys. apply in_concat in Hk. destruct Hk as (l & Hl & Hk). apply in_map_iff in Hl. destruct Hl as (x' & <- & Hx).
    apply in_map_iff in Hk. destruct Hk as (f' & E & Hf). injection E as -> ->.
    apply (Ho x f s s'); auto; now apply nth_error_nth'.
  - assert (LE : length rs = length gs) by lia. rewrite LE. exact Hes.
  - destruct rs; [cbn in *; destruct gs; [congruence|cbn in *; lia]|discriminate].
  - rewrite <- (stamps_length edges ts Hst). subst keys. clear. induction (stamps edges ts) as [|x l IH]; [reflexivity|].
    cbn [map concat length Nat.mul]. rewrite app_length, map_length, IH. lia.
Qed.

(** ** Comparison with the whole graph *)
Definition edge_giving (fs : list Z) (parts : list (list (list record))) (n : Z * Z * Z) : list row :=
  filter (fun r => gives fs (edge_row_feats n r)) (node_rows (fst (fst n)) (map rows parts)).
Definition edge_row_string (hist : list N -> list (Z * list N)) (n : Z * Z * Z) (t : option Z) (f : Z) (r : row) : list N :=
  match given (edge_row_feats n r) f with Some v => snd (looks hist t v) | None => [] end.

Lemma edge_string_rows hist parts n t fs f : In f fs -> (length (edge_giving fs parts n) <= 1)%nat ->
  (t <> None -> forall f v, In f fs -> In v (edge_values parts n f) -> explains hist v) ->
  edge_string_of hist parts (n, t) f = concat (map (edge_row_string hist n t f) (edge_giving fs parts n)).
Proof.
  intros Hf Hl He. rewrite <- (edge_chosen_string hist parts n t fs f Hf (fun _ => Hl) He). rewrite <- edge_values_offered.
  unfold chosen at 1. rewrite (offered_filter (edge_row_feats n) fs _ f Hf). fold (edge_giving fs parts n).
  pose proof (fun r => chosen_one (looks hist t) (edge_row_feats n) r f) as H1. unfold chosen in H1.
  destruct (edge_giving fs parts n) as [|r [|r' l]]; [reflexivity| |cbn in Hl; lia]. rewrite H1. cbn. now rewrite app_nil_r.
Qed.

Lemma edge_giving_concat fs split n : edge_giving fs (concat split) n = concat (map (fun p => edge_giving fs p n) split).
Proof.
  unfold edge_giving, node_rows. induction split as [|p split IH]; [reflexivity|].
  cbn [map concat]. rewrite map_app, concat_app, !filter_app. now rewrite IH.
Qed.

Lemma edge_giving_perm fs parts parts' n : Permutation parts parts' -> Permutation (edge_giving fs parts n) (edge_giving fs parts' n).
Proof.
  intro H. unfold edge_giving, node_rows.
  assert (F : forall (A : Type) (f : A -> bool) l l', Permutation l l' -> Permutation (filter f l) (filter f l')).
  { clear. intros A f l l'. induction 1 as [|x l l' H IH|x y l|l l1 l2 H1 IH1 H2 IH2]; cbn; [constructor| | |].
    - destruct (f x); [now constructor|assumption].
    - destruct (f x), (f y); try reflexivity. apply perm_swap.
    - now rewrite IH1. }
  apply F, F. apply concat_perm. now apply Permutation_map.
Qed.

(** At most one row of the whole graph gives the requested features of an edge: the answer is
    the local one. *)
Theorem d_edge_strings_local wm split gs all g edges fs ts hist es :
  Forall2 (all_readable wm edges) split gs -> gs <> [] -> all_readable wm edges all g -> Permutation (concat split) all ->
  Forall int32 fs -> all_searchable all edges ->
  edge_explained hist all edges fs ts -> stamped edges ts ->
  (forall n, In n edges -> (length (edge_giving fs all n) <= 1)%nat) ->
  schedule (length gs) es ->
  exists dims vals, edge_string_features g edges fs ts = Ok (dims, vals) /\ d_edge_strings gs edges fs ts es = Ok (concat dims, vals).
Proof.
  intros HF Hne HRa HP Hi HSr He Hst H1 Hes.
  assert (HSs : all_searchable (concat split) edges).
  { intros e r Hin Hr. apply (HSr e r Hin). apply in_flat_map in Hr. destruct Hr as (b & Hb & Hr). apply in_flat_map. exists b. split; [|assumption].
    eapply Permutation_in; eassumption. }
  assert (H1' : forall n, In n edges -> (length (concat (map (fun p => edge_giving fs p n) split)) <= 1)%nat).
  { intros n Hn. rewrite <- edge_giving_concat, (Permutation_length (edge_giving_perm fs _ _ n HP)). now apply H1. }
  assert (He' : edge_explained hist (concat split) edges fs ts).
  { destruct He as [He|He]; [now left|right]. intros n f v Hn Hf Hv. apply (He n f v Hn Hf).
    eapply Permutation_in; [apply edge_values_perm; exact HP|exact Hv]. }
  assert (Hp1 : forall p n, In p split -> In n edges -> (length (edge_giving fs p n) <= 1)%nat).
  { intros p n Hp Hn. etransitivity; [|exact (H1' n Hn)]. apply len_concat_in, in_map_iff. eauto. }
  assert (Hrow : forall p n t f, In p split -> In (n, t) (stamps edges ts) -> In f fs ->
     edge_string_of hist p (n, t) f = concat (map (edge_row_string hist n t f) (edge_giving fs p n))).
  { intros p n t f Hp Hin Hf. destruct (ServerFeatureProofs.stamps_in _ _ _ _ Hin) as [Hn Hts]. apply edge_string_rows; [assumption|now apply Hp1|].
    intros Ht f' v Hf' Hv. eapply edge_explained_at; [eapply edge_explained_part; [exact He'|exact Hp]|eassumption|exact Hf'|eassumption|assumption]. }
  assert (LS : edge_string_features g edges fs ts =
    Ok (map (fun x => map (fun f => Z.of_nat (length (edge_string_of hist all x f))) fs) (stamps edges ts),
        concat (map (fun x => concat (map (edge_string_of hist all x) fs)) (stamps edges ts)))).
  { destruct ts as [l|].
    - destruct He as [He|He]; [discriminate|]. rewrite (converted_edge_strings_ts fadd wval wm all g edges fs l hist Hi HRa HSr H1 He).
      unfold stamps, edge_string_of. rewrite !map_map. reflexivity.
    - rewrite (converted_edge_strings fadd wval wm all g edges fs Hi HRa HSr) by (intros n Hn; right; now apply H1).
      unfold stamps, edge_string_of. rewrite !map_map. reflexivity. }
  rewrite LS. eexists. eexists. split; [reflexivity|].
  rewrite (d_edge_strings_holder wm split gs edges fs ts hist es HF Hne Hi HSs He' Hst); [| |  |assumption].
  - assert (V : forall x f, In x (stamps edges ts) -> In f fs -> concat (map (fun p => edge_string_of hist p x f) split) = edge_string_of hist all x f).
    { intros [n t] f Hx Hf. destruct (ServerFeatureProofs.stamps_in _ _ _ _ Hx) as [Hn Hts].
      rewrite (edge_string_rows hist all n t fs f Hf (H1 n Hn)).
      2:{ intros Ht f' v Hf' Hv. exact (edge_explained_at hist all edges fs ts n t f' v He Hx Hf' Hv Ht). }
      assert (EP : edge_giving fs all n = concat (map (fun p => edge_giving fs p n) split)).
      { rewrite <- edge_giving_concat. pose proof (edge_giving_perm fs _ _ n HP) as P. pose proof (H1 n Hn) as Hl. revert P Hl.
        generalize (edge_giving fs (concat split) n) (edge_giving fs all n). intros a b P Hl. symmetry in P. destruct b as [|r [|r' b]]; [|  |cbn in Hl; lia].
        - now apply Permutation_nil in P.
        - now apply Permutation_length_1_inv in P. }
      rewrite EP, concat_map, map_map.
      rewrite (map_ext_in _ (fun p => concat (map (edge_row_string hist n t f) (edge_giving fs p n)))) by (intros p Hp; now apply Hrow).
      clear. induction split as [|p sp IH]; [reflexivity|]. cbn [map concat]. now rewrite concat_app, IH. }
    f_equal. f_equal.
    + f_equal. apply map_ext_in. intros x Hx. apply map_ext_in. intros f Hf. now rewrite V.
    + f_equal. apply map_ext_in. intros x Hx. f_equal. apply map_ext_in. intros f Hf. now apply V.
  - intros p Hp n Hn. right. now apply Hp1.
  - intros [n t] f i j p p' Hx Hf Hij Hi' Hj'. destruct (ServerFeatureProofs.stamps_in _ _ _ _ Hx) as [Hn _].
    rewrite (Hrow p n t f), (Hrow p' n t f) by (assumption || (eapply nth_error_In; eassumption)).
    destruct (one_concat (map (fun p => edge_giving fs p n) split) i j (edge_giving fs p n) (edge_giving fs p' n) (H1' n Hn) Hij) as [E|E].
    + now rewrite nth_error_map, Hi'.
    + now rewrite nth_error_map, Hj'.
    + left. now rewrite E.
    + right. now rewrite E.
Qed.
End Strings.

Section Sparse.
Variables (fadd : N -> N -> N) (wval : N -> Z).
Notation part_of := (part_of fadd).
Notation converted := (converted fadd wval).

Lemma serve_edge_fold wm parts g fs ts n prefix ss look dec :
  converted wm parts g -> Forall int32 fs -> length fs = length ss ->
  Forall (fun r => row_id r = fst (fst n) -> searchable r) (flat_map rows parts) ->
  (forall f, In f fs -> single ts (edge_values parts n f)) ->
  (ts = None -> forall v, fst (look v) = 0) ->
  (forall f v, In f fs -> In v (edge_values parts n f) -> bytes_of v <> [] ->
     (forall data, resolves data ts look v) /\ look_ok look v /\ timely ts look v /\ (snd (look v) = [] \/ decodes dec (snd (look v)))) ->
  let flags := map (kflag ts look (edge_row_feats n) (node_rows (fst (fst n)) (map rows parts))) fs in
  let news := zip_with (fun f s => add_bytes dec (chosen look (edge_values parts n f)) prefix s) fs ss in
  (let '(src, dst, ty) := n in do o <- occurrences g src ;;
   match o with
   | None => Ok None
   | Some os => do st <- foldM (fun x st => part_edge_sparse (fst x) (snd x) dst ty ts prefix fs st) os (map (fun _ => -1) fs, ss) ;;
                Ok (Some st)
   end) = Ok (Some (flags, news)) \/
  (let '(src, dst, ty) := n in do o <- occurrences g src ;;
   match o with
   | None => Ok None
   | Some os => do st <- foldM (fun x st => part_edge_sparse (fst x) (snd x) dst ty ts prefix fs st) os (map (fun _ => -1) fs, ss) ;;
                Ok (Some st)
   end) = Ok None /\ flags = repeat (-1) (length fs) /\ news = ss.
Proof.
  intros C Hi Hlen HSr Hu H0 Hl flags news. destruct (converted_small fadd wval wm parts g C) as (m & Hg & HRF & HF).
  pose proof (edge_values_offered parts n) as EV.
  destruct n as [[src dst] ty]. cbn [fst snd] in *. set (F := edge_row_feats (src, dst, ty)) in *.
  rewrite Hg. cbn [bind]. unfold lookup, found.
  assert (Hl' : forall f v, In f fs -> In v (offered F (node_rows src (map rows parts)) f) -> bytes_of v <> [] -> look_ok look v /\ timely ts look v)
    by (intros f v H1 H2 H3; rewrite EV in H2; destruct (Hl f v H1 H2 H3) as (_ & A & B & _); auto).
  assert (Hu' : forall f, In f fs -> single ts (offered F (node_rows src (map rows parts)) f))
    by (intros f Hf; rewrite EV; now apply Hu).
  pose proof (kfinish ts look dec prefix F fs _ ss Hlen Hu' Hl' H0) as R.
  assert (E : forall ss', zip_with (fun f s => add_bytes dec (chosen look (offered F (node_rows src (map rows parts)) f)) prefix s) fs ss' =
              zip_with (fun f s => add_bytes dec (chosen look (edge_values parts (src, dst, ty) f)) prefix s) fs ss').
  { clear -EV. induction fs as [|f fs IH]; intros [|s ss']; try reflexivity. cbn. now rewrite EV, IH. }
  rewrite E in R. clear E. fold news in R.
  destruct (places (part_of m (is_temporal wm)) src (map rows parts)) as [|o os] eqn:Ep.
  - right. apply places_nil in Ep. split; [reflexivity|]. subst flags. rewrite Ep in *. cbn [fold_left] in R. split.
    + clear. induction fs as [|f fs IH]; [reflexivity|]. cbn [map length repeat]. now rewrite IH.
    + rewrite <- R. clear -Hlen. revert ss Hlen; induction fs as [|f fs IH]; intros [|s ss] H; cbn in *; try discriminate; [reflexivity|]. f_equal. apply IH. lia.
  - left. rewrite <- Ep. rewrite kstart by assumption.
    rewrite (foldM_rows (fun p i st => part_edge_sparse p i dst ty ts prefix fs st) kenc
               (fun segs r => zip_with (kres ts look dec prefix (F r)) fs segs)
               _ _ _ _ _ _ (places_rows _ src (map rows parts))).
    + cbn [bind]. unfold kenc. rewrite R. do 3 f_equal. subst flags. rewrite kfold_zip by assumption.
      clear -Hlen. revert ss Hlen. induction fs as [|f fs IH]; intros [|s ss] H; cbn in H; try discriminate; [reflexivity|].
      cbn [zip_with map]. rewrite kflag_fold, IH by lia. reflexivity.
    + intros d r rest ps r1 r2 E Hin Eps Hn. rewrite Forall_forall in HF, HRF. destruct (HF ps Hin) as [Hs Hc]. specialize (HRF ps Hin). subst ps.
      assert (Hr : In r (node_rows src (map rows parts))) by (now apply row_in_parts with r1 r2).
      apply (part_edge_sparse_spec fadd); try assumption.
      * apply Forall_app in HRF. destruct HRF as [_ HRF]. now inversion HRF.
      * rewrite Forall_forall in HSr. apply HSr; [|assumption]. rewrite flat_map_concat_map. unfold node_rows in Hr. now apply filter_In in Hr.
      * eapply (kready_all ts look dec prefix F fs d r rest); [assumption| | |assumption].
        -- intros f Hf. rewrite <- E. now apply Hu'.
        -- intros f v Hf Hv Hb. apply (Hl' f); try assumption. rewrite E, offered_app. apply in_or_app. now left.
      * intros f v data Hf Hv. destruct (given_in F (node_rows src (map rows parts)) r f v) as [Hv' Hb]; [now apply row_in_parts with r1 r2|assumption|].
        rewrite EV in Hv'. destruct (Hl f v) as (L1 & L2 & _ & L3); auto.
Qed.

End Sparse.

(** Values of the requested edges and features are sparse and uniform. *)
Definition edge_sparse_values (hist : list N -> list (Z * list N)) dec (D w : Z -> nat) (parts : list (list (list record)))
    (edges : list (Z * Z * Z)) (fs : list Z) (ts : option (list Z)) : Prop :=
  forall n f v, In n edges -> In f fs -> In v (edge_values parts n f) ->
    match ts with
    | None => sparse_at dec D w f (bytes_of v)
    | Some _ => explains hist v /\ forall y, In y (hist (bytes_of v)) -> sparse_at dec D w f (snd y)
    end.
Definition edge_one_value (parts : list (list (list record))) (edges : list (Z * Z * Z)) (fs : list Z) (ts : option (list Z)) : Prop :=
  ts = None \/ forall n f, In n edges -> In f fs -> (length (edge_values parts n f) <= 1)%nat.

Section Edges.
Variables (fadd : N -> N -> N) (wval : N -> Z).
Notation converted := (converted fadd wval).
Variables (hist : list N -> list (Z * list N)) (dec : list N -> coords * list (list N)) (D w : Z -> nat) (edges : list (Z * Z * Z)) (fs : list Z) (ts : option (list Z)).

Lemma edge_looks_facts parts n t f v : edge_sparse_values hist dec D w parts edges fs ts -> In (n, t) (stamps edges ts) -> In f fs -> In v (edge_values parts n f) ->
  (forall data, resolves data t (looks hist t) v) /\ look_ok (looks hist t) v /\ timely t (looks hist t) v /\ sparse_at dec D w f (snd (looks hist t v)).
Proof.
  intros HV Hin Hf Hv. destruct (ServerFeatureProofs.stamps_in _ _ _ _ Hin) as [Hn Hts]. specialize (HV n f v Hn Hf Hv).
  destruct t as [t|]; cbn [looks].
  - destruct ts as [l|]; [|destruct Hts as [Hts _]; discriminate (Hts eq_refl)]. destruct HV as [He Hs].
    destruct (tlook_facts hist t v He) as (P1 & P2 & P3). repeat (split; [assumption|]).
    unfold tlook. pose proof (entry_at_spec t (hist (bytes_of v))) as Hsp. destruct (entry_at t (hist (bytes_of v))) as [y|]; [|now left].
    destruct Hsp as (Hsp & _). now apply Hs.
  - rewrite (proj2 Hts eq_refl) in HV. destruct (plain_facts v) as (P1 & P2 & P3). repeat (split; [assumption|]). cbn [plain snd]. now rewrite fbytes_bytes.
Qed.

Lemma edge_one_single parts n t f : edge_one_value parts edges fs ts -> In (n, t) (stamps edges ts) -> In f fs -> single t (edge_values parts n f).
Proof.
  intros HO Hin Hf. destruct (ServerFeatureProofs.stamps_in _ _ _ _ Hin) as [Hn Hts]. destruct HO as [HO|HO]; [left; now apply Hts|]. right.
  eapply Nat.le_trans; [|apply (HO n f Hn Hf)]. clear. induction (edge_values parts n f) as [|v l IH]; [reflexivity|].
  cbn. destruct (nonempty v); cbn; lia.
Qed.

Lemma edge_chosen_string_of parts n t f : edge_sparse_values hist dec D w parts edges fs ts -> edge_one_value parts edges fs ts ->
  In (n, t) (stamps edges ts) -> In f fs -> chosen (looks hist t) (edge_values parts n f) = edge_string_of hist parts (n, t) f.
Proof.
  intros HV HO Hin Hf. destruct (ServerFeatureProofs.stamps_in _ _ _ _ Hin) as [Hn Hts]. unfold edge_string_of. cbn [fst snd]. destruct t as [t|]; cbn [looks]; [|apply chosen_plain].
  assert (Hne : ts <> None) by (intro Q; apply Hts in Q; discriminate).
  apply chosen_temporal.
  - apply Forall_forall. intros v Hv. specialize (HV n f v Hn Hf Hv). destruct ts; [apply HV|contradiction].
  - destruct HO as [HO|HO]; [contradiction|now apply HO].
Qed.

Lemma edge_string_of_sparse parts x f : edge_sparse_values hist dec D w parts edges fs ts -> edge_one_value parts edges fs ts ->
  In x (stamps edges ts) -> In f fs -> sparse_at dec D w f (edge_string_of hist parts x f).
Proof.
  destruct x as [n t]. intros HV HO Hin Hf. rewrite <- edge_chosen_string_of by assumption.
  destruct (chosen_cases (looks hist t) (edge_values parts n f)) as [E|(v & Hv & _ & E)]; rewrite E; [now left|].
  now apply (edge_looks_facts parts n t f v).
Qed.

Definition edge_flag_of (parts : list (list (list record))) (x : Z * Z * Z * option Z) (f : Z) : Z :=
  kflag (snd x) (looks hist (snd x)) (edge_row_feats (fst x)) (node_rows (fst (fst (fst x))) (map rows parts)) f.

Lemma edge_flag_of_pos parts x f : edge_sparse_values hist dec D w parts edges fs ts -> edge_one_value parts edges fs ts ->
  In x (stamps edges ts) -> In f fs -> edge_string_of hist parts x f <> [] -> 0 <= edge_flag_of parts x f.
Proof.
  destruct x as [n t]. intros HV HO Hin Hf. rewrite <- edge_chosen_string_of by assumption. intro Hne. unfold edge_flag_of. cbn [fst snd].
  apply kflag_pos.
  - rewrite edge_values_offered. now apply edge_one_single.
  - intros v Hv Hb. rewrite edge_values_offered in Hv. destruct (edge_looks_facts parts n t f v HV Hin Hf Hv) as (_ & A & B & _). auto.
  - apply looks_zero.
  - now rewrite edge_values_offered.
Qed.


Lemma serve_edge_sent wm (split : list (list (list (list record)))) s parts g :
  nth_error split s = Some parts -> converted wm parts g -> Forall int32 fs -> all_searchable parts edges ->
  edge_sparse_values hist dec D w parts edges fs ts -> edge_one_value parts edges fs ts ->
  serve_edge_sparse g fs edges ts =
  Ok (sent (stamps edges ts) fs dec (fun s => edge_string_of hist (nth s split [])) (fun s => edge_flag_of (nth s split [])) s).
Proof.
  intros Es C Hi HSr HV HO. unfold serve_edge_sparse.
  rewrite (serve_loop_pure _ (edge_flag_of parts) (fun x k s f => add_bytes dec (edge_string_of hist parts x f) k s) fs).
  - cbn [bind fst snd]. unfold sent. cbn zeta. rewrite (nth_error_nth _ _ [] Es).
    assert (E : zip_with (fun f s0 => fst (fold_left (fun sk x => (add_bytes dec (edge_string_of hist parts x f) (snd sk) (fst sk), snd sk + 1)) (stamps edges ts) (s0, 0)))
                  fs (no_sparse fs) = map (gathered (stamps edges ts) dec (fun s => edge_string_of hist (nth s split [])) s) fs).
    { unfold no_sparse. rewrite zip_same. apply map_ext. intro f. unfold gathered. now rewrite (nth_error_nth _ _ [] Es). }
    rewrite E. reflexivity.
  - unfold no_sparse. now rewrite map_length.
  - intros n t k ss Hin Hlen. pose proof (serve_edge_fold fadd wval wm parts g fs t n k ss (looks hist t) dec C Hi Hlen) as R. cbn zeta in R.
    assert (E : forall ss', zip_with (fun f s => add_bytes dec (chosen (looks hist t) (edge_values parts n f)) k s) fs ss' =
                zip_with (fun f s => add_bytes dec (edge_string_of hist parts (n, t) f) k s) fs ss').
    { assert (Hsub : forall f, In f fs -> chosen (looks hist t) (edge_values parts n f) = edge_string_of hist parts (n, t) f) by (intros; now apply edge_chosen_string_of).
      revert Hsub. clear. induction fs as [|f l IH]; intros H [|s ss']; try reflexivity. cbn [zip_with]. rewrite IH by (intros; apply H; now right).
      now rewrite H by now left. }
    rewrite E in R. unfold edge_flag_of. cbn [fst snd]. apply R.
    + apply Forall_forall. intros r Hr Hid. apply (HSr n r); try assumption. now destruct (ServerFeatureProofs.stamps_in _ _ _ _ Hin).
    + intros f Hf. now apply edge_one_single.
    + apply looks_zero.
    + intros f v Hf Hv Hb. destruct (edge_looks_facts parts n t f v HV Hin Hf Hv) as (P1 & P2 & P3 & P4). repeat split; try assumption.
      destruct P4 as [P4|[P4 _]]; auto.
Qed.

(** What a client shows: for every edge and feature the value of one server that has one. *)
Theorem d_edge_sparse_some wm split gs es :
  Forall2 (converted wm) split gs -> Forall int32 fs -> stamped edges ts ->
  (forall p, In p split -> all_searchable p edges /\ edge_sparse_values hist dec D w p edges fs ts /\ edge_one_value p edges fs ts) ->
  schedule (length gs) es ->
  exists ch, d_edge_sparse gs edges fs ts es = Ok (map (fun f => sparse_triple dec (map (fun x => ch x f) (stamps edges ts))) fs) /\
    forall x f, In x (stamps edges ts) -> In f fs ->
      (exists p, In p split /\ edge_string_of hist p x f <> [] /\ ch x f = edge_string_of hist p x f) \/
      ((forall p, In p split -> edge_string_of hist p x f = []) /\ ch x f = []).
Proof.
  intros HF Hi Hst HP HS. pose proof (Forall2_len0 _ _ _ HF) as HL.
  set (B := fun s => edge_string_of hist (nth s split [])). set (fl := fun s => edge_flag_of (nth s split [])).
  assert (Hnth : forall s, (s < length gs)%nat -> In (nth s split []) split) by (intros s Hs; apply nth_In; lia).
  assert (ES : mapM (fun g => serve_edge_sparse g fs edges ts) gs = Ok (map (sent (stamps edges ts) fs dec B fl) (seq 0 (length gs)))).
  { assert (E : forall pre sp gs', split = pre ++ sp -> Forall2 (converted wm) sp gs' ->
              mapM (fun g => serve_edge_sparse g fs edges ts) gs' = Ok (map (sent (stamps edges ts) fs dec B fl) (seq (length pre) (length gs')))).
    { intros pre sp gs' E H. revert pre E. induction H as [|p g sp gs' H _ IH]; intros pre E; [reflexivity|]. cbn [mapM length seq map].
      rewrite (serve_edge_sent wm split (length pre) p g).
      - cbn [bind]. rewrite (IH (pre ++ [p])) by (rewrite E, <- app_assoc; reflexivity). rewrite app_length, Nat.add_1_r. reflexivity.
      - rewrite E, nth_error_app2, Nat.sub_diag by lia. reflexivity.
      - assumption.
      - assumption.
      - apply HP. rewrite E. apply in_or_app. right. now left.
      - apply HP. rewrite E. apply in_or_app. right. now left.
      - apply HP. rewrite E. apply in_or_app. right. now left. }
    exact (E [] split gs eq_refl HF). }
  unfold d_edge_sparse. rewrite ES. cbn [bind]. rewrite <- (stamps_length edges ts) by assumption.
  exists (first_bytes_of B (calls es)). split.
  - apply (client_assembled (stamps edges ts) fs dec D w (length gs) B fl); [| |assumption].
    + intros s x f Hs Hx Hf. destruct (HP _ (Hnth s Hs)) as (_ & H1 & H2). now apply edge_string_of_sparse.
    + intros s x f Hs Hx Hf Hne. destruct (HP _ (Hnth s Hs)) as (_ & H1 & H2). now apply edge_flag_of_pos.
  - intros x f Hx Hf. pose proof (calls_schedule _ es HS) as HPm. destruct (first_bytes_some B (calls es) x f) as [(s & Hs & Hne & E)|[Hall E]].
    + left. exists (nth s split []). split; [|split; assumption]. apply Hnth. eapply Permutation_in in Hs; [|exact HPm]. apply in_seq in Hs. lia.
    + right. split; [|assumption]. intros p Hp. apply In_nth_error in Hp. destruct Hp as (s & Es).
      assert (Hs : In s (calls es)).
      { eapply Permutation_in; [symmetry; exact HPm|]. apply in_seq. split; [lia|]. rewrite <- HL. apply nth_error_Some. congruence. }
      specialize (Hall s Hs). unfold B in Hall. now rewrite (nth_error_nth _ _ [] Es) in Hall.
Qed.

(** With one value per edge and feature the answer is the local one. *)
Theorem d_edge_sparse_local wm split gs all g es :
  Forall2 (converted wm) split gs -> converted wm all g -> Permutation (concat split) all ->
  Forall int32 fs -> stamped edges ts -> all_searchable all edges -> edge_sparse_values hist dec D w all edges fs ts ->
  (forall n f, In n edges -> In f fs -> (length (edge_values all n f) <= 1)%nat) ->
  schedule (length gs) es ->
  exists ss, edge_sparse_features g edges fs ts = Ok ss /\
    d_edge_sparse gs edges fs ts es = Ok (map (fun s => (sp_dim s, sp_idx s, sp_val s)) ss).
Proof.
  intros HF C HP Hi Hst HSr HV HU HS.
  assert (NV : forall p n f v, In p split -> In v (edge_values p n f) -> In v (edge_values all n f)).
  { intros p n f v Hp Hv. apply (Permutation_in v (l := edge_values (concat split) n f)).
    - apply edge_values_perm, HP.
    - rewrite edge_values_concat. apply in_concat. exists (edge_values p n f). split; [apply in_map_iff; eauto|assumption]. }
  assert (NL : forall n f, length (concat (map (fun p => edge_values p n f) split)) = length (edge_values all n f)).
  { intros n f. rewrite <- edge_values_concat. apply Permutation_length, edge_values_perm, HP. }
  assert (HPa : forall p, In p split -> all_searchable p edges /\ edge_sparse_values hist dec D w p edges fs ts /\ edge_one_value p edges fs ts).
  { intros p Hp. split.
    { intros e r He Hr. apply (HSr e r He). apply in_flat_map in Hr. destruct Hr as (b & Hb & Hr). apply in_flat_map. exists b. split; [|assumption].
      eapply Permutation_in; [exact HP|]. apply in_concat. eauto. }
    split; [intros n f v Hn Hf Hv; apply (HV n f v Hn Hf), (NV p); assumption|]. right. intros n f Hn Hf.
    specialize (HU n f Hn Hf). rewrite <- NL in HU. apply in_split in Hp. destruct Hp as (l1 & l2 & ->).
    rewrite map_app, concat_app, app_length in HU. cbn [map concat] in HU. rewrite app_length in HU. lia. }
  destruct (d_edge_sparse_some wm split gs es HF Hi Hst HPa HS) as (ch & E & Hch).
  assert (Hca : forall x f, In x (stamps edges ts) -> In f fs -> ch x f = edge_string_of hist all x f).
  { intros [n t] f Hx Hf. destruct (ServerFeatureProofs.stamps_in _ _ _ _ Hx) as [Hn _]. specialize (HU n f Hn Hf). pose proof HU as HU'. rewrite <- NL in HU'.
    assert (SE : forall p, In p split -> edge_values p n f <> [] -> edge_values p n f = edge_values all n f).
    { intros p Hp Hne. pose proof (NV p n f) as NVp. specialize (NVp). destruct (edge_values p n f) as [|v [|v' l]] eqn:Ev; [congruence| |].
      - specialize (NVp v Hp (or_introl eq_refl)). destruct (edge_values all n f) as [|u [|u' l]]; [contradiction| |cbn in HU; lia].
        destruct NVp as [->|[]]. reflexivity.
      - exfalso. apply in_split in Hp. destruct Hp as (l1 & l2 & ->).
        rewrite map_app, concat_app, app_length in HU'. cbn [map concat] in HU'. rewrite Ev, app_length in HU'. cbn in HU'. lia. }
    assert (SN : forall p, edge_values p n f = [] -> edge_string_of hist p (n, t) f = []).
    { intros p Ep. unfold edge_string_of. cbn [fst snd]. unfold spec_edge_string. rewrite Ep. destruct t; reflexivity. }
    assert (SA : forall p, edge_values p n f = edge_values all n f -> edge_string_of hist p (n, t) f = edge_string_of hist all (n, t) f).
    { intros p Ep. unfold edge_string_of. cbn [fst snd]. unfold spec_edge_string. now rewrite Ep. }
    destruct (Hch (n, t) f Hx Hf) as [(p & Hp & Hne & ->)|[Hall ->]].
    - apply SA, SE; [assumption|]. intro Q. apply Hne, SN, Q.
    - symmetry. destruct (edge_values all n f) as [|v l] eqn:Ea; [now apply SN|].
      assert (Hex : exists p, In p split /\ edge_values p n f <> []).
      { specialize (NL n f). rewrite Ea in NL. destruct (concat (map (fun p => edge_values p n f) split)) as [|u l'] eqn:Ec; [discriminate|].
        assert (Hu : In u (concat (map (fun p => edge_values p n f) split))) by (rewrite Ec; now left). apply in_concat in Hu.
        destruct Hu as (y & Hy & Hu). apply in_map_iff in Hy. destruct Hy as (p & <- & Hp). exists p. split; [assumption|].
        intro Q. rewrite Q in Hu. contradiction. }
      destruct Hex as (p & Hp & Hne). rewrite <- (SA p); [now apply Hall|]. now apply SE. }
  assert (HA : exists ss, edge_sparse_features g edges fs ts = Ok ss /\ sparse_answer dec (fun f => map (fun x => edge_string_of hist all x f) (stamps edges ts)) fs ss).
  { destruct ts as [l|] eqn:Ets.
    - destruct (converted_edge_sparse_ts fadd wval wm all g edges fs l hist dec C Hi HSr HU) as (ss & E1 & E2).
      + intros n f v Hn Hf Hv. apply (HV n f v Hn Hf Hv).
      + intros n f v y Hn Hf Hv Hy. destruct (HV n f v Hn Hf Hv) as [_ H]. destruct (H y Hy) as [H'|[H' _]]; auto.
      + exists ss. split; [exact E1|]. unfold sparse_answer in *. unfold stamps. destruct E2 as (A1 & A2 & A3). split; [|split].
        * rewrite A1. apply map_ext. intro f. now rewrite !map_map.
        * rewrite A2. apply map_ext. intro f. now rewrite !map_map.
        * rewrite A3. apply map_ext. intro f. now rewrite !map_map.
    - destruct (converted_edge_sparse fadd wval wm all g edges fs dec C Hi HSr) as (ss & E1 & E2).
      + intros n f v Hn Hf Hv Hb. specialize (HV n f v Hn Hf Hv). cbn in HV. destruct HV as [HV|[HV _]]; [contradiction|assumption].
      + exists ss. split; [exact E1|]. unfold sparse_answer in *. unfold stamps. destruct E2 as (A1 & A2 & A3). split; [|split].
        * rewrite A1. apply map_ext. intro f. now rewrite !map_map.
        * rewrite A2. apply map_ext. intro f. now rewrite !map_map.
        * rewrite A3. apply map_ext. intro f. now rewrite !map_map. }
  destruct HA as (ss & E1 & A1 & A2 & A3). exists ss. split; [exact E1|]. rewrite E. f_equal.
  rewrite (map_ext_in _ (fun f => sparse_triple dec (map (fun x => edge_string_of hist all x f) (stamps edges ts)))).
  2:{ intros f Hf. f_equal. apply map_ext_in. intros x Hx. now apply Hca. }
  clear -A1 A2 A3. unfold sparse_triple. revert ss A1 A2 A3. induction fs as [|f l IH]; intros [|s ss] A1 A2 A3; try discriminate; [reflexivity|].
  cbn [map] in *. injection A1 as A1 B1. injection A2 as A2 B2. injection A3 as A3 B3. rewrite (IH ss) by assumption. now rewrite A1, A2, A3.
Qed.
End Edges.
