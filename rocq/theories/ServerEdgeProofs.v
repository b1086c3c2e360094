(** Proofs about edge features through servers. *)
From Coq Require Import Permutation ZifyBool ZifyNat ZifyN.
From Verif Require Import Base WriterModel LoaderModel GraphModel GraphSpec FeatureModel FeatureSpec ServerModel
  WriterProofs LoaderProofs QueryProofs GraphProofs ConvertProofs AnswerProofs FeatureProofs SearchProofs TemporalProofs ServerProofs
  ServerFeatureProofs EdgeFeatureProofs EdgeTemporalProofs.
Local Open Scope Z_scope.

(** ** The client loop *)
Definition shown (o : option (list N)) (segs : list (Z * list N)) : option (list N) :=
  if live segs then Some (concat (map snd segs)) else o.

Lemma sized_total fs segs : sized fs segs -> length (concat (map snd segs)) = total_size fs.
Proof.
  induction 1 as [|f x fs segs H HF IH]; [reflexivity|]. cbn [map concat]. rewrite app_length, IH, H.
  unfold total_size. cbn. reflexivity.
Qed.

Lemma copy_rows_spec fs : forall rows k done out,
  length done = k -> length out = length rows -> Forall (sized fs) rows ->
  copy_rows (total_size fs) (fr_off (mk_reply k rows)) (fr_val (mk_reply k rows)) (done ++ out) = Ok (done ++ zipw shown out rows).
Proof.
  induction rows as [|segs rows IH]; intros k done [|o out] Hd HL HR; cbn in HL; try lia; subst k.
  - cbn. now rewrite !app_nil_r.
  - pose proof (Forall_inv HR) as H1; pose proof (Forall_inv_tail HR) as H2.
    cbn [mk_reply zipw]. unfold add_freply, shown at 1. cbn [fst snd]. fold (live segs).
    replace (done ++ o :: out) with ((done ++ [o]) ++ out) by (now rewrite <- app_assoc).
    destruct (live segs); cbn [fr_off fr_val copy_rows].
    + pose proof (sized_total fs segs H1) as HT. rewrite app_length, HT.
      destruct (Nat.leb_spec (total_size fs) (total_size fs + length (fr_val (mk_reply (S (length done)) rows)))); [|lia].
      rewrite <- HT at 2 3. rewrite firstn_app, firstn_all, Nat.sub_diag, firstn_O, app_nil_r.
      rewrite skipn_app, skipn_all, Nat.sub_diag, skipn_O. cbn [app].
      rewrite <- app_assoc. cbn [app]. rewrite set_nth_mid.
      replace (done ++ Some (concat (map snd segs)) :: out) with ((done ++ [Some (concat (map snd segs))]) ++ out) by (now rewrite <- app_assoc).
      rewrite IH; [now rewrite <- app_assoc|rewrite app_length; cbn; lia|lia|assumption].
    + rewrite IH; [now rewrite <- app_assoc|rewrite app_length; cbn; lia|lia|assumption].
Qed.

Section Table.
Context {X : Type}.
Variables (fs : list (Z * nat)) (xs : list X) (cell : nat -> X -> Z * nat -> Z * list N) (m : nat).
Hypothesis cell_size : forall s x f, length (snd (cell s x f)) = snd f.

Definition final (order : list nat) (x : X) : option (list N) := fold_left (fun o s => shown o (map (cell s x) fs)) order None.

Lemma edge_callbacks order : Forall (fun s => (s < m)%nat) order ->
  fold_left (fun a i => own (fun _ r o => do l <- o ;; copy_rows (total_size fs) (fr_off r) (fr_val r) l) i (cell_replies fs xs cell m) a)
    order (Ok (repeat None (length xs))) = Ok (map (final order) xs).
Proof.
  induction order as [|s order IH] using rev_ind; intro HF.
  - cbn [fold_left]. f_equal. unfold final. cbn. clear. induction xs as [|x l IH]; [reflexivity|]. cbn. now rewrite IH.
  - apply Forall_app in HF. destruct HF as [HF Hs]. inversion Hs as [|? ? Hlt _]; subst.
    rewrite fold_left_app, (IH HF). cbn [fold_left]. unfold own.
    assert (Gr : nth_error (cell_replies fs xs cell m) s = Some (mk_reply 0 (cell_rows fs xs cell s))).
    { unfold cell_replies. rewrite nth_error_map.
      replace (nth_error (seq 0 m) s) with (Some s); [reflexivity|]. symmetry.
      rewrite (nth_error_nth' _ 0%nat) by (rewrite seq_length; lia). now rewrite seq_nth by assumption. }
    rewrite Gr. cbn [bind].
    pose proof (copy_rows_spec fs (cell_rows fs xs cell s) 0 [] (map (final order) xs) eq_refl) as C. cbn [app] in C.
    rewrite C; [|unfold cell_rows; now rewrite !map_length|now apply cell_rows_sized]. f_equal.
    unfold cell_rows. clear. induction xs as [|x l IH]; [reflexivity|]. cbn [map zipw]. rewrite IH. f_equal.
    unfold final. now rewrite fold_left_app.
Qed.

Theorem client_edges es : schedule m es ->
  client_edge_features (length xs) fs (cell_replies fs xs cell m) es =
  Ok (map (fun x => match final (calls es) x with Some bs => bs | None => zeros (total_size fs) end) xs).
Proof.
  intro HS. unfold client_edge_features. rewrite (run_own no_freply _ _ m es _ HS). rewrite edge_callbacks.
  - cbn [bind]. now rewrite map_map.
  - pose proof (calls_schedule m es HS) as HP. apply Forall_forall. intros s Hs.
    eapply Permutation_in in Hs; [|exact HP]. apply in_seq in Hs. lia.
Qed.

(** The answer is the row of a server with a value, if there is one. *)
Lemma final_some order x :
  match final order x with
  | Some bs => exists s, In s order /\ live (map (cell s x) fs) = true /\ bs = concat (map snd (map (cell s x) fs))
  | None => forall s, In s order -> live (map (cell s x) fs) = false
  end.
Proof.
  induction order as [|s order IH] using rev_ind; [now intros|]. unfold final in *. rewrite fold_left_app. cbn [fold_left].
  unfold shown at 1. destruct (live (map (cell s x) fs)) eqn:E.
  - exists s. split; [apply in_or_app; right; now left|]. auto.
  - destruct (fold_left _ order None) as [bs|].
    + destruct IH as (s' & H1 & H2). exists s'. split; [apply in_or_app; now left|assumption].
    + intros s' Hs. apply in_app_or in Hs. destruct Hs as [Hs|[<-|[]]]; [now apply IH|assumption].
Qed.
End Table.

(** ** What a server has for an edge *)
Definition edge_offer (hist : list N -> list (Z * list N)) (parts : list (list (list record))) (x : Z * Z * Z * option Z) (f : Z)
  : option (Z * list N) :=
  match snd x with
  | None => match edge_values parts (fst x) f with v :: _ => Some (0, bytes_of v) | [] => None end
  | Some t => spec_temporal hist t (edge_values parts (fst x) f)
  end.
Definition offers_edge hist parts x (fs : list (Z * nat)) : Prop := exists f, In f fs /\ edge_offer hist parts x (fst f) <> None.
Definition edge_row hist parts x (fs : list (Z * nat)) : list N :=
  concat (map (fun f => fixed (snd f) (bytes_in (edge_offer hist parts x (fst f)))) fs).

Definition cell_of (size : nat) (o : option (Z * list N)) : Z * list N :=
  match o with Some y => (fst y, fixed size (snd y)) | None => (-1, zeros size) end.

Lemma efull_plain parts e f hist : efull None plain parts e f = cell_of (snd f) (edge_offer hist parts (e, None) (fst f)).
Proof.
  unfold efull, edge_offer, edge_values, node_rows. cbn [fst snd]. rewrite flat_map_concat_map with (l := parts).
  induction (concat (map rows parts)) as [|r rws IH]; [reflexivity|].
  cbn [filter flat_map]. destruct (row_id r =? fst (fst e)); [|exact IH].
  cbn [fold_left]. unfold erow at 2. destruct (find (same_edge e) (row_edges r)) as [x|]; [|exact IH].
  unfold estep, already. cbn [fst snd]. change (0 <=? -1) with false. cbv iota.
  destruct (value_at (e_feats x) (fst f)) as [v|]; [|exact IH].
  cbn [opt_list app plain fst snd]. rewrite erow_plain_done by (cbn; lia). reflexivity.
Qed.

Lemma efull_holders ts look parts e f :
  efull ts look parts e f = fold_left (fun x r => erow ts look e r f x) (holders parts e) (-1, zeros (snd f)).
Proof.
  unfold efull, holders, node_rows. rewrite flat_map_concat_map. generalize (-1, zeros (snd f)).
  induction (concat (map rows parts)) as [|r rws IH]; intro x; [reflexivity|]. cbn [filter].
  destruct (row_id r =? fst (fst e)); cbn [andb]; [|apply IH]. rewrite find_existsb. cbn [fold_left].
  unfold erow at 2. destruct (find (same_edge e) (row_edges r)) as [y|] eqn:E; [|apply IH].
  cbn [fold_left]. rewrite IH. unfold erow at 3. rewrite E. reflexivity.
Qed.

Lemma efull_temporal hist t parts e f :
  (length (holders parts e) <= 1)%nat -> (forall v, In v (edge_values parts e (fst f)) -> explains hist v) -> 0 <= t ->
  efull (Some t) (tlook hist t) parts e f = cell_of (snd f) (edge_offer hist parts (e, Some t) (fst f)).
Proof.
  intros H1 He Ht. rewrite efull_holders. unfold edge_offer. cbn [fst snd]. rewrite edge_values_holders in *.
  destruct (holders parts e) as [|r [|r' l]]; [reflexivity| |cbn in H1; lia].
  cbn [fold_left flat_map] in *. rewrite app_nil_r in *. unfold erow.
  destruct (find (same_edge e) (row_edges r)) as [x|]; [|reflexivity].
  unfold estep. cbn [already fst snd]. destruct (Z.eqb_spec (-1) t); [lia|].
  destruct (value_at (e_feats x) (fst f)) as [v|]; cbn [opt_list] in *; [|reflexivity].
  unfold spec_temporal. cbn [flat_map]. rewrite app_nil_r. unfold tlook.
  destruct (entry_at t (hist (bytes_of v))) as [y|]; cbn [opt_list newest_from cell_of fst snd]; [reflexivity|]. now rewrite fixed_nil.
Qed.

Definition explained_edges (hist : list N -> list (Z * list N)) (split : list (list (list (list record)))) (edges : list (Z * Z * Z))
    (fs : list Z) (ts : option (list Z)) : Prop :=
  forall l, ts = Some l -> Forall (fun t => 0 <= t) l /\
  forall parts e, In parts split -> In e edges ->
    (length (holders parts e) <= 1)%nat /\ forall f v, In f fs -> In v (edge_values parts e f) -> explains hist v.

Lemma offer_nonneg hist parts x f y : (forall t v, snd x = Some t -> In v (edge_values parts (fst x) f) -> explains hist v) ->
  edge_offer hist parts x f = Some y -> 0 <= fst y.
Proof.
  intros He. unfold edge_offer. destruct (snd x) as [t|] eqn:Et.
  - unfold spec_temporal. specialize (He t). intro H.
    assert (G : forall l b y, (forall z, b = Some z -> 0 <= fst z) -> Forall (fun z => 0 <= fst z) l -> newest_from b l = Some y -> 0 <= fst y).
    { clear. induction l as [|a l IH]; intros b y Hb Hl; [intro H; now apply Hb|]. inversion Hl; subst. cbn [newest_from].
      intro H. eapply IH; [|assumption|exact H]. intros z. destruct b as [b|]; [|congruence].
      repeat match goal with |- context [if ?c then _ else _] => destruct c end; intro E; inversion E; subst; auto. }
    eapply G; [|clear H|exact H]; [congruence|]. apply Forall_forall. intros z Hz. apply in_flat_map in Hz.
    destruct Hz as (v & Hv & Hz). specialize (He v eq_refl Hv). destruct He as (_ & _ & Hp & _).
    pose proof (entry_at_spec t (hist (bytes_of v))) as Hs. destruct (entry_at t (hist (bytes_of v))) as [w|]; [|contradiction].
    destruct Hz as [<-|[]]. destruct Hs as (Hs & _). rewrite Forall_forall in Hp. now apply Hp.
  - destruct (edge_values parts (fst x) f); [discriminate|]. intro H. inversion H. cbn. lia.
Qed.

Lemma stamps_in {X} (xs : list X) ts x : In x (stamps xs ts) -> In (fst x) xs /\ (forall t, snd x = Some t -> exists l, ts = Some l /\ In t l).
Proof.
  destruct x as [e t]. unfold stamps. destruct ts as [l|]; intro H; apply in_map_iff in H.
  - destruct H as ([e' t'] & E & H). inversion E; subst. cbn [fst snd]. split; [eapply in_combine_l; exact H|].
    intros t Et. inversion Et; subst. apply in_combine_r in H. eauto.
  - destruct H as (e' & E & H). inversion E; subst. split; [assumption|]. cbn. congruence.
Qed.

Section Serve.
Variables (fadd : N -> N -> N) (wval : N -> Z).
Notation converted := (converted fadd wval).

Definition ecell (hist : list N -> list (Z * list N)) (parts : list (list (list record))) (x : Z * Z * Z * option Z) (f : Z * nat)
  : Z * list N := efull (snd x) (looks hist (snd x)) parts (fst x) f.

Lemma erow_size ts look e r f x : length (snd x) = snd f -> length (snd (erow ts look e r f x)) = snd f.
Proof.
  intro H. unfold erow. destruct (find _ _); [|assumption]. unfold estep. destruct (already _ _); [assumption|].
  destruct (value_at _ _); cbn [snd]; [|apply repeat_length].
  unfold fixed. rewrite firstn_length, app_length, repeat_length. lia.
Qed.
Lemma ecell_size hist parts x f : length (snd (ecell hist parts x f)) = snd f.
Proof.
  unfold ecell, efull. generalize (node_rows (fst (fst (fst x))) (map rows parts)).
  assert (H : length (snd (-1, zeros (snd f))) = snd f) by (cbn; apply repeat_length). revert H. generalize (-1, zeros (snd f)).
  intros c Hc l. revert c Hc. induction l as [|r l IH]; intros c Hc; [assumption|]. cbn [fold_left]. apply IH. now apply erow_size.
Qed.

Lemma serve_edges_spec wm parts g fs edges ts hist :
  converted wm parts g -> Forall (fun f => int32 (fst f)) fs ->
  (forall e r, In e edges -> In r (flat_map rows parts) -> row_id r = fst (fst e) -> searchable r) ->
  (ts <> None -> forall e f v, In e edges -> In f (map fst fs) -> In v (edge_values parts e f) -> explains hist v) -> stamped edges ts ->
  serve_edge_features g fs edges ts = Ok (mk_reply 0 (map (fun x => map (ecell hist parts x) fs) (stamps edges ts))).
Proof.
  intros C Hi HSr He HT. unfold serve_edge_features.
  assert (Hx : forall e t, In (e, t) (stamps edges ts) -> In e edges /\ (t <> None -> ts <> None)).
  { intros e t H. apply stamps_in in H. cbn [fst snd] in H. destruct H as [H1 H2]. split; [assumption|].
    intro H. destruct t as [t|]; [|congruence]. destruct (H2 t eq_refl) as (l & -> & _). discriminate. }
  generalize 0%nat. revert Hx. induction (stamps edges ts) as [|[e t] xs IH]; intros Hx k; [reflexivity|]. cbn [serve_rows map mk_reply].
  destruct (Hx e t (or_introl eq_refl)) as [Hin Ht].
  destruct (fold_efull fadd wval wm parts g fs t e (looks hist t) C Hi) as (os & Ho & Hf).
  { apply Forall_forall. intros r Hr Hid. eapply HSr; eassumption. }
  { intros r x f v data Hr Hf Hq Hv. destruct t as [t|]; [|apply plain_resolves]. apply tlook_resolves.
    apply (He (Ht ltac:(discriminate)) e (fst f) v Hin); [now apply in_map|]. unfold edge_values. apply in_flat_map. exists r.
    unfold node_rows in Hr. rewrite flat_map_concat_map. apply filter_In in Hr. destruct Hr as [Hr Hr2]. split; [assumption|].
    rewrite Hr2, Hf, Hv. now left. }
  destruct e as [[src dst] ty]. cbn [fst snd] in Ho, Hf. rewrite Ho. cbn [bind].
  rewrite IH by (intros; eapply Hx; right; eassumption).
  destruct os as [|o os]; cbn [found bind].
  - cbn [foldM] in Hf. apply (f_equal (fun r => match r with Ok v => fst v | Fail _ => [] end)) in Hf. cbn [fst] in Hf.
    assert (Hf' : map fst (map (ecell hist parts (src, dst, ty, t)) fs) = map (fun _ => -1) fs) by (symmetry; exact Hf).
    unfold add_freply. cbn [fst]. rewrite Hf'.
    assert (E : existsb (fun t => 0 <=? t) (map (fun _ : Z * nat => -1) fs) = false).
    { clear. induction fs; [reflexivity|]. cbn. assumption. }
    rewrite E. reflexivity.
  - rewrite Hf. reflexivity.
Qed.

Lemma cell_live hist parts x fs :
  (forall f, In f fs -> ecell hist parts x f = cell_of (snd f) (edge_offer hist parts x (fst f))) ->
  (forall f y, In f fs -> edge_offer hist parts x (fst f) = Some y -> 0 <= fst y) ->
  (live (map (ecell hist parts x) fs) = true <-> offers_edge hist parts x fs) /\
  concat (map snd (map (ecell hist parts x) fs)) = edge_row hist parts x fs.
Proof.
  intros Hc Hp. split.
  - unfold live, offers_edge. rewrite existsb_exists. split.
    + intros (z & Hz & Hz2). rewrite map_map in Hz. apply in_map_iff in Hz. destruct Hz as (f & <- & Hf). exists f. split; [assumption|].
      rewrite (Hc f Hf) in Hz2. destruct (edge_offer hist parts x (fst f)); [congruence|]. cbn in Hz2. discriminate.
    + intros (f & Hf & H). exists (fst (ecell hist parts x f)). rewrite map_map. split; [now apply in_map with (f := fun f => fst (ecell hist parts x f))|].
      rewrite (Hc f Hf). destruct (edge_offer hist parts x (fst f)) as [y|] eqn:E; [|congruence]. cbn [cell_of fst].
      specialize (Hp f y Hf E). lia.
  - unfold edge_row. f_equal. rewrite map_map. apply map_ext_in. intros f Hf. rewrite (Hc f Hf).
    destruct (edge_offer hist parts x (fst f)); cbn; [reflexivity|]. symmetry. apply fixed_nil.
Qed.

Lemma ecell_offer hist split edges fs ts parts x f :
  explained_edges hist split edges (map fst fs) ts -> In f fs -> In parts split -> In x (stamps edges ts) ->
  ecell hist parts x f = cell_of (snd f) (edge_offer hist parts x (fst f)) /\
  (forall y, edge_offer hist parts x (fst f) = Some y -> 0 <= fst y).
Proof.
  intros He Hf Hp Hx. apply (in_map fst) in Hf. apply stamps_in in Hx. destruct x as [e t]. cbn [fst snd] in Hx. destruct Hx as [Hin Ht]. split.
  - unfold ecell. cbn [fst snd]. destruct t as [t|]; cbn [looks]; [|apply efull_plain].
    destruct (Ht t eq_refl) as (l & El & Hl). destruct (He l El) as [H0 H1]. rewrite Forall_forall in H0.
    destruct (H1 parts e Hp Hin) as [H2 H3]. apply efull_temporal; [assumption|intros v Hv; eapply H3; eassumption|now apply H0].
  - intros y. apply offer_nonneg. cbn [fst snd]. intros t' v Et Hv. subst t. destruct (Ht t' eq_refl) as (l & El & Hl).
    destruct (He l El) as [_ H1]. destruct (H1 parts e Hp Hin) as [_ H3]. eapply H3; eassumption.
Qed.

Theorem d_edges_some wm split gs edges fs ts hist es :
  Forall2 (converted wm) split gs -> Forall (fun f => int32 (fst f)) fs ->
  (forall e r, In e edges -> In r (flat_map rows (concat split)) -> row_id r = fst (fst e) -> searchable r) ->
  explained_edges hist split edges (map fst fs) ts -> stamped edges ts -> schedule (length gs) es ->
  exists rows, d_edge_features gs edges fs ts es = Ok rows /\ length rows = length edges /\
    forall k x row, nth_error (stamps edges ts) k = Some x -> nth_error rows k = Some row ->
      (exists parts, In parts split /\ offers_edge hist parts x fs /\ row = edge_row hist parts x fs) \/
      ((forall parts, In parts split -> ~ offers_edge hist parts x fs) /\ row = zeros (total_size fs)).
Proof.
  intros HC Hi HSr He HT HS. unfold d_edge_features.
  set (cell := fun s x f => ecell hist (nth s split []) x f).
  assert (HL : length split = length gs) by (eapply Forall2_len0; exact HC).
  assert (E : mapM (fun g => serve_edge_features g fs edges ts) gs = Ok (cell_replies fs (stamps edges ts) cell (length gs))).
  { apply mapM_ok_iff. unfold cell_replies.
    assert (G : forall gs' split' pre, split = pre ++ split' -> Forall2 (converted wm) split' gs' ->
      Forall2 (fun g r => serve_edge_features g fs edges ts = Ok r) gs'
        (map (fun s => mk_reply 0 (cell_rows fs (stamps edges ts) cell s)) (seq (length pre) (length gs')))).
    { intros gs' split' pre Es HF. revert pre Es. induction HF as [|p g split' gs' Hp HF IH]; intros pre Es; [constructor|].
      cbn [length seq map]. constructor.
      - rewrite (serve_edges_spec wm p g fs edges ts hist Hp Hi).
        + f_equal. unfold cell_rows, cell. rewrite Es, app_nth2, Nat.sub_diag by lia. reflexivity.
        + intros e r H1 H2. apply HSr; [assumption|]. rewrite flat_map_concat_map in *. rewrite Es.
          apply in_concat in H2. destruct H2 as (l & H2 & H3). apply in_concat. exists l. split; [|assumption].
          rewrite concat_app, map_app. apply in_or_app. right. cbn [concat]. rewrite map_app. apply in_or_app. now left.
        + intros H0 e f v H1 Hf. destruct ts as [l|]; [|congruence]. destruct (He l eq_refl) as [_ H2].
          destruct (H2 p e) with (2 := H1) as [_ H3]; [rewrite Es; apply in_or_app; right; now left|]. now apply H3.
        + assumption.
      - specialize (IH (pre ++ [p])). rewrite app_length in IH. cbn [length] in IH. rewrite Nat.add_1_r in IH. apply IH.
        rewrite Es, <- app_assoc. reflexivity. }
    exact (G gs split [] eq_refl HC). }
  rewrite E. cbn [bind]. pose proof (stamps_length edges ts HT) as HSl. rewrite <- HSl.
  rewrite (client_edges fs (stamps edges ts) cell (length gs)); [|intros; apply ecell_size|assumption].
  eexists. split; [reflexivity|]. split; [apply map_length|].
  intros k x row Hx Hrow. rewrite nth_error_map, Hx in Hrow. cbn in Hrow. injection Hrow as <-.
  pose proof (nth_error_In _ _ Hx) as Hin.
  pose proof (final_some fs cell (calls es) x) as Hfin.
  pose proof (calls_schedule _ _ HS) as HP.
  destruct (final fs cell (calls es) x) as [bs|].
  - left. destruct Hfin as (s & Hs & Hl & ->). eapply Permutation_in in Hs; [|exact HP]. apply in_seq in Hs.
    assert (Hn : In (nth s split []) split) by (apply nth_In; lia). exists (nth s split []). split; [assumption|].
    destruct (cell_live hist (nth s split []) x fs) as [L1 L2].
    + intros f Hf. now apply (ecell_offer hist split edges fs ts).
    + intros f y Hf. now apply (ecell_offer hist split edges fs ts _ _ f).
    + split; [now apply L1|exact L2].
  - right. split; [|reflexivity]. intros parts Hp Ho. apply In_nth with (d := []) in Hp. destruct Hp as (s & Hs & Es).
    assert (Hn : In (nth s split []) split) by (now apply nth_In).
    specialize (Hfin s ltac:(eapply Permutation_in; [symmetry; exact HP|]; apply in_seq; lia)).
    destruct (cell_live hist (nth s split []) x fs) as [L1 L2].
    + intros f Hf. now apply (ecell_offer hist split edges fs ts).
    + intros f y Hf. now apply (ecell_offer hist split edges fs ts _ _ f).
    + rewrite <- Es in Ho. apply L1 in Ho. unfold cell in Hfin. change (map (fun f => ecell hist (nth s split []) x f) fs) with (map (ecell hist (nth s split []) x) fs) in Hfin. congruence.
Qed.

(** ** One holder *)
Lemma holders_concat split e : holders (concat split) e = concat (map (fun p => holders p e) split).
Proof.
  unfold holders. rewrite flat_map_concat_map. induction split as [|p split IH]; [reflexivity|]. cbn [concat map].
  rewrite map_app, concat_app, filter_app, IH, <- flat_map_concat_map. reflexivity.
Qed.
Lemma offer_holders hist p q x f : holders p (fst x) = holders q (fst x) -> edge_offer hist p x f = edge_offer hist q x f.
Proof. intro H. unfold edge_offer. now rewrite !edge_values_holders, H. Qed.
Lemma offer_none hist p x f : holders p (fst x) = [] -> edge_offer hist p x f = None.
Proof. intro H. unfold edge_offer. rewrite edge_values_holders, H. destruct (snd x); reflexivity. Qed.
Lemma row_none hist p x fs : ~ offers_edge hist p x fs -> edge_row hist p x fs = zeros (total_size fs).
Proof.
  intro H. unfold edge_row. rewrite <- total_zero. f_equal. apply map_ext_in. intros f Hf.
  destruct (edge_offer hist p x (fst f)) as [y|] eqn:E; [|apply fixed_nil]. elim H. exists f. split; [assumption|]. congruence.
Qed.
Lemma concat_le1 {A} (ls : list (list A)) l : (length (concat ls) <= 1)%nat -> In l ls -> l <> [] -> l = concat ls.
Proof.
  intros H Hin Hne. apply in_split in Hin. destruct Hin as (l1 & l2 & ->). rewrite concat_app in *. cbn [concat] in *.
  rewrite !app_length in H. assert (0 < length l)%nat by (destruct l; cbn; [congruence|lia]).
  destruct (concat l1); [|cbn in H; lia]. destruct (concat l2); [now rewrite app_nil_r|]. cbn in H. lia.
Qed.
Lemma holders_perm a b e : Permutation a b -> Permutation (holders a e) (holders b e).
Proof.
  intro H. unfold holders.
  assert (G : Permutation (flat_map rows a) (flat_map rows b)) by (now apply Permutation_flat_map).
  clear H. induction G.
  - constructor.
  - cbn. destruct (_ && _); [now constructor|assumption].
  - cbn. destruct (_ && _), (_ && _); try reflexivity. apply perm_swap.
  - etransitivity; eassumption.
Qed.

Theorem d_edges_local wm split gs all g edges fs ts hist es :
  Forall2 (converted wm) split gs -> converted wm all g -> Permutation (concat split) all ->
  Forall (fun f => int32 (fst f)) fs ->
  (forall e r, In e edges -> In r (flat_map rows all) -> row_id r = fst (fst e) -> searchable r) ->
  (forall e, In e edges -> (length (holders all e) <= 1)%nat) -> explained_edges hist [all] edges (map fst fs) ts ->
  stamped edges ts -> schedule (length gs) es ->
  d_edge_features gs edges fs ts es = edge_features g edges fs ts.
Proof.
  intros HC HG HP Hi HSr H1 He HT HS.
  assert (Hh : forall e, In e edges -> holders (concat split) e = holders all e).
  { intros e Hin. pose proof (holders_perm _ _ e HP) as Q. specialize (H1 e Hin).
    destruct (holders all e) as [|r [|r' l]]; [now apply Permutation_nil; symmetry|now apply Permutation_length_1_inv; symmetry|cbn in H1; lia]. }
  assert (Hp : forall parts e, In parts split -> In e edges -> holders parts e <> [] -> holders parts e = holders all e).
  { intros parts e Hpin Hin Hne. rewrite <- (Hh e Hin), holders_concat. apply concat_le1; [|now apply in_map with (f := fun p => holders p e)|assumption].
    rewrite <- holders_concat, (Hh e Hin). now apply H1. }
  assert (Hval : forall parts e f v, In parts split -> In e edges -> In v (edge_values parts e f) -> In v (edge_values all e f)).
  { intros parts e f v Hpin Hin. rewrite !edge_values_holders. intro Hv.
    destruct (holders parts e) eqn:Eh; [contradiction|]. rewrite <- (Hp parts e Hpin Hin), Eh; [assumption|congruence]. }
  destruct (d_edges_some wm split gs edges fs ts hist es HC Hi) as (rws & E & Hl & HR); try assumption.
  { intros e r Hin Hr. apply HSr; [assumption|]. eapply Permutation_in; [|exact Hr]. now apply Permutation_flat_map. }
  { intros l El. destruct (He l El) as [He1 He2]. split; [assumption|]. intros parts e Hpin Hin.
    destruct (He2 all e (or_introl eq_refl) Hin) as [_ He3]. split.
    - destruct (holders parts e) eqn:Eh; [cbn; lia|]. rewrite <- Eh, (Hp parts e Hpin Hin) by congruence. now apply H1.
    - intros f v Hf Hv. eapply He3; [exact Hf|]. eapply Hval; eassumption. }
  assert (EL : edge_features g edges fs ts = Ok (map (fun x => edge_row hist all x fs) (stamps edges ts))).
  { assert (D : forall x f, In f fs -> In x (stamps edges ts) -> efold (snd x) (looks hist (snd x)) all (fst x) f = fixed (snd f) (bytes_in (edge_offer hist all x (fst f)))).
    { intros x f Hf Hx. destruct (ecell_offer hist [all] edges fs ts all x f He Hf (or_introl eq_refl) Hx) as [D _].
      unfold efold. fold (ecell hist all x f). rewrite D. destruct (edge_offer hist all x (fst f)); cbn; [reflexivity|]. symmetry. apply fixed_nil. }
    destruct ts as [l|].
    - rewrite (converted_edge_features_ts fadd wval wm all g edges fs l hist HG Hi HSr H1).
      + f_equal. unfold stamps. clear. revert edges. induction l as [|t l IH]; intros [|e edges]; try reflexivity. cbn [combine map]. now rewrite IH.
      + intros e f v Hin Hf. destruct (He l eq_refl) as [_ He2]. apply (He2 all e (or_introl eq_refl) Hin); assumption.
    - rewrite (converted_edge_features fadd wval wm all g edges fs HG Hi HSr). f_equal. unfold stamps. rewrite map_map.
      apply map_ext_in. intros e Hin. unfold edge_row. f_equal. apply map_ext_in. intros f Hf. rewrite <- efold_plain.
      apply (D (e, None) f Hf). unfold stamps. now apply in_map with (f := fun e => (e, None)). }
  rewrite E, EL. f_equal. pose proof (stamps_length edges ts HT) as HSl.
  apply (nth_ext _ _ [] []); [rewrite map_length; congruence|]. intros k Hk.
  destruct (nth_error rws k) as [row|] eqn:Er; [|apply nth_error_None in Er; lia].
  destruct (nth_error (stamps edges ts) k) as [x|] eqn:Ex; [|apply nth_error_None in Ex; unfold stamps in *; lia].
  rewrite (nth_error_nth _ _ _ Er).
  rewrite (nth_error_nth (map (fun x => edge_row hist all x fs) (stamps edges ts)) k [] (x := edge_row hist all x fs)) by (rewrite nth_error_map, Ex; reflexivity).
  pose proof (nth_error_In _ _ Ex) as Hx. apply stamps_in in Hx. destruct Hx as [Hx _].
  destruct (HR k x row Ex Er) as [(parts & Hpin & Ho & ->)|[Hno ->]].
  - assert (Eq : holders parts (fst x) = holders all (fst x)).
    { apply Hp; try assumption. intro Hn. destruct Ho as (f & _ & Hf). apply Hf. now apply offer_none. }
    unfold edge_row. f_equal. apply map_ext. intro f. now rewrite (offer_holders hist parts all x (fst f) Eq).
  - symmetry. apply row_none. intro Ho.
    assert (Hne : holders all (fst x) <> []) by (intro Hn; destruct Ho as (f & _ & Hf); apply Hf; now apply offer_none).
    rewrite <- (Hh _ Hx), holders_concat in Hne.
    assert (Hex : exists parts, In parts split /\ holders parts (fst x) <> []).
    { clear -Hne. induction split as [|p split IH]; [cbn in Hne; congruence|]. cbn [map concat] in Hne.
      destruct (holders p (fst x)) eqn:Ep; [|exists p; split; [now left|congruence]].
      destruct (IH Hne) as (q & Hq & Hq2). exists q. split; [now right|assumption]. }
    destruct Hex as (parts & Hpin & Hpn). apply (Hno parts Hpin). destruct Ho as (f & Hf1 & Hf2). exists f. split; [assumption|].
    now rewrite (offer_holders hist parts all x (fst f) (Hp parts _ Hpin Hx Hpn)).
Qed.
End Serve.
