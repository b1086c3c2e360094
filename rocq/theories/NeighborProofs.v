(** Uniform neighbor sampling draws from the edges FullNeighbor returns. *)
From Verif Require Import Base Dist WriterModel LoaderModel GraphModel GraphSpec WriterProofs LoaderProofs QueryProofs GraphProofs ConvertProofs AnswerProofs SearchProofs CountProofs ReservoirModel ReservoirProofs NeighborModel.
From Coq Require Import Sorting.Sorted ZifyBool ZifyNat ZifyN.
Local Open Scope nat_scope.

Lemma mapM_ok_ext {A B} (f : A -> res B) l : forall ys, Forall2 (fun a b => f a = Ok b) l ys -> mapM f l = Ok ys.
Proof. induction l as [|a l IH]; intros ys H; inversion H as [|? y ? t E H']; subst; cbn [mapM]; [reflexivity|]. rewrite E. cbn [bind]. now rewrite (IH t H'). Qed.
Lemma Forall2_imp {A B} (P R : A -> B -> Prop) l m : (forall a b, In a l -> In b m -> P a b -> R a b) -> Forall2 P l m -> Forall2 R l m.
Proof. intros H F. induction F as [|a b l m H1 _ IH]; constructor; [apply H; cbn; auto|]. apply IH. intros; apply H; cbn; auto. Qed.
Lemma Forall2_map_r {A B C} (P : A -> C -> Prop) (f : B -> C) l m : Forall2 P l (map f m) <-> Forall2 (fun a b => P a (f b)) l m.
Proof. revert l. induction m as [|b m IH]; intros l; cbn [map]; split; intros H; inversion H; subst; constructor; auto; apply IH; auto. Qed.

Lemma nth_error_ext' {A} (l m : list A) : (forall j, nth_error l j = nth_error m j) -> l = m.
Proof.
  revert m. induction l as [|a l IH]; intros m H.
  - destruct m; [reflexivity|]. specialize (H 0). discriminate.
  - destruct m as [|b m]; [specialize (H 0); discriminate|]. pose proof (H 0) as H0. cbn in H0. injection H0 as ->. f_equal. apply IH. intros j. apply (H (S j)).
Qed.
Lemma nth_error_seq_lt a n : forall j, j < n -> nth_error (seq a n) j = Some (a + j).
Proof. revert a. induction n as [|n IH]; intros a j H; [lia|]. destruct j as [|j]; cbn [seq nth_error]; [f_equal; lia|]. rewrite IH by lia. f_equal. lia. Qed.

(** ** Positions of alive edges *)
Lemma streams_spec fuel : forall span t pos,
  length span <= fuel -> int32 t -> StronglySorted not_before span ->
  exists ss, streams fuel span t pos = Ok ss /\
    flat_map (fun x => seq (fst (fst x)) (snd x)) ss = map fst (filter (fun x => lives (snd x) t) (combine (seq pos (length span)) span)) /\
    Forall (fun x => fst (fst x) + snd x <= pos + length span) ss.
Proof.
  induction fuel as [|fuel IH]; intros span t pos Hf Ht Hs.
  - destruct span; [exists []; repeat split; auto; constructor|cbn in Hf; lia].
  - cbn [streams]. destruct (find_start_spec span t Ht Hs) as [Hdead Hleft].
    set (it := find_start span t) in *. clearbody it.
    assert (Hlen : it <= length span \/ length span < it) by lia.
    assert (Pre : filter (fun x => lives (snd x) t) (combine (seq pos (length (firstn it span))) (firstn it span)) = []).
    { assert (G : forall l p, Forall (fun x => lives x t = false) l -> filter (fun x : nat * (Z * Z) => lives (snd x) t) (combine (seq p (length l)) l) = []).
      { induction l as [|a l IHl]; intros p H; [reflexivity|]. inversion H; subst. cbn [length seq combine filter snd]. rewrite H2. now apply IHl. }
      now apply G. }
    assert (Split : forall k, k <= length span ->
       combine (seq pos (length span)) span = combine (seq pos (length (firstn k span))) (firstn k span) ++ combine (seq (pos + k) (length (skipn k span))) (skipn k span)).
    { intros k Hk. rewrite <- (firstn_skipn k span) at 1 2. rewrite app_length, seq_app.
      rewrite firstn_length, Nat.min_l by exact Hk. apply combine_app. now rewrite seq_length, firstn_length, Nat.min_l by exact Hk. }
    destruct (nth_error span it) as [x|] eqn:Ex.
    + assert (Hit : it < length span) by (apply nth_error_Some; congruence).
      destruct ((snd x =? -1)%Z && (t <? fst x)%Z) eqn:Eg.
      * exists []. split; [reflexivity|]. split; [|constructor]. cbn [flat_map].
        rewrite (Split it) by lia. rewrite filter_app, Pre, app_nil_l.
        assert (D : Forall (fun y => lives y t = false) (skipn it span)).
        { pose proof (sorted_from not_before span it x not_before_refl Hs Ex) as H. eapply Forall_impl; [|exact H].
          intros y Hy. apply lives_false. unfold not_before in Hy. lia. }
        revert D. generalize (pos + it) (skipn it span). clear. intros p l. revert p.
        induction l as [|a l IHl]; intros p H; [reflexivity|]. inversion H; subst. cbn [length seq combine filter snd]. rewrite H2. now apply IHl.
      * pose proof (skipn_nth span it x Ex) as Hsk.
        pose proof (skipn_sorted not_before span it Hs) as Hss.
        rewrite Hsk in Hss, Hleft |- *. 
        destruct (find_last_spec x (skipn (S it) span) t Hss Hleft) as [[Hl0 Hlt]|[Hl1 Hl2]].
        -- set (ll := find_last (x :: skipn (S it) span) t) in *. clearbody ll. subst ll. cbn [Nat.eqb].
           destruct (IH (skipn (it + 1) span) t (pos + it + 1)) as (ss & E & F & G); auto.
           ++ rewrite skipn_length. lia.
           ++ now apply skipn_sorted.
           ++ rewrite E. cbn [bind]. exists ((pos + it, it, 0) :: ss). split; [reflexivity|]. cbn [flat_map fst snd seq app]. split.
              ** rewrite F. rewrite (Split it) by lia. rewrite filter_app, Pre, app_nil_l, Hsk. cbn [length seq combine filter snd].
                 replace (lives x t) with false by (symmetry; apply lives_false; lia).
                 replace (it + 1) with (S it) by lia. replace (pos + it + 1) with (S (pos + it)) by lia. reflexivity.
              ** constructor; [cbn [fst snd]; lia|]. eapply Forall_impl; [|exact G]. rewrite skipn_length. intros a. lia.
        -- set (ll := find_last (x :: skipn (S it) span) t) in *. clearbody ll. cbn [length] in Hl1. rewrite skipn_length in Hl1.
           replace (ll =? 0) with false by (symmetry; apply Nat.eqb_neq; lia).
           destruct (IH (skipn (it + ll) span) t (pos + it + ll)) as (ss & E & F & G); auto.
           ++ rewrite skipn_length. lia.
           ++ now apply skipn_sorted.
           ++ rewrite E. cbn [bind]. exists ((pos + it, it, ll) :: ss). split; [reflexivity|]. cbn [flat_map fst snd]. split.
              ** rewrite F. rewrite (Split (it + ll)) by lia. rewrite filter_app, map_app.
                 replace (pos + (it + ll)) with (pos + it + ll) by lia. f_equal.
                 assert (Fi : firstn (it + ll) span = firstn it span ++ firstn ll (skipn it span)).
                 { rewrite <- (firstn_skipn it span) at 1. rewrite firstn_app, firstn_length, Nat.min_l by lia.
                   replace (it + ll - it) with ll by lia. f_equal. apply firstn_all2. rewrite firstn_length. lia. }
                 rewrite Fi, app_length, seq_app. rewrite combine_app by (now rewrite seq_length).
                 rewrite filter_app, Pre, app_nil_l.
                 replace (pos + length (firstn it span)) with (pos + it) by (rewrite firstn_length; lia).
                 rewrite Hsk. assert (Ln : length (firstn ll (x :: skipn (S it) span)) = ll) by (rewrite firstn_length; cbn [length]; rewrite skipn_length; lia).
                 revert Hl2 Ln. generalize (firstn ll (x :: skipn (S it) span)). intros l Hl2 <-. clear - Hl2.
                 generalize (pos + it). induction Hl2 as [|a l H _ IHl]; intros p; [reflexivity|].
                 cbn [length seq combine filter snd]. rewrite H. cbn [map fst]. now rewrite <- IHl.
              ** constructor; [cbn [fst snd]; lia|]. eapply Forall_impl; [|exact G]. rewrite skipn_length. intros a. lia.
    + exists []. split; [reflexivity|]. split; [|constructor]. cbn [flat_map]. apply nth_error_None in Ex.
      rewrite firstn_all2 in Pre by lia. now rewrite Pre.
Qed.

(** ** The groups of a loaded node *)
Definition slot_of (e : edge) : slot := (e_dst e, e_typ e, (-1)%Z).
Definition slot_ts_of (e : edge) : slot := (e_dst e, e_typ e, e_c e).

Section Groups.
Variable fadd : N -> N -> N.
Notation part_of := (part_of fadd).

(** Group [(s, l, i)] of a partition holds the edges [es] of type [ty]. *)
Record group_ok (temporal : bool) (p : partition) (g : nat * nat * nat) (v : Z * list edge) : Prop := GO {
  go_len : snd (fst g) = fst (fst g) + length (snd v);
  go_ne : snd v <> [];
  go_dst : forall j e, nth_error (snd v) j = Some e -> get (p_dst p) (fst (fst g) + j) = Ok (e_dst e);
  go_wts : forall j c, nth_error (cum fadd 0%N (map e_w (snd v))) j = Some c -> get (p_wts p) (fst (fst g) + j) = Ok c;
  go_typ : get (p_etypes p) (snd g) = Ok (fst v);
  go_types : Forall (fun e => e_typ e = fst v) (snd v);
  go_ts : if temporal then snd (fst g) <= length (p_ts p) /\ slice (p_ts p) (fst (fst g)) (length (snd v)) = map life (snd v)
          else p_ts p = []
}.

Lemma row_groups m tmp r1 r r2 T :
  exists gs, nii (part_of m tmp (r1 ++ r :: r2)) (length r1) T = Ok gs /\
    Forall2 (group_ok ((0 <=? lm_watermark m)%Z && tmp) (part_of m tmp (r1 ++ r :: r2))) gs (visited r T).
Proof.
  eexists. split; [apply nii_spec|].
  set (V := visit akey (length (row_runs r)) T (row_ann r1 r)).
  replace (visited r T) with (map snd V) by (unfold V, visited, row_ann; apply visit_ann).
  assert (HV : forall a, In a V -> In a V) by auto. revert HV. generalize V at 1 3 4. intros W.
  induction W as [|a W IH]; intros HV; cbn [map]; constructor.
  2:{ apply IH. intros; apply HV; now right. }
  destruct (visited_pos r1 r r2 T a (HV a (or_introl eq_refl))) as (pre & post & Hr & ->).
  set (g := snd a) in *. clearbody g. clear - Hr.
  set (rws := r1 ++ r :: r2) in *. clearbody rws.
  pose proof (all_runs_ok rws) as Ho. rewrite Hr in Ho. apply Forall_app in Ho. destruct Ho as [_ Ho]. inversion Ho as [|? ? [Hne Hty] _]; subst. clear Ho.
  assert (He : all_edges rws = flat_map snd pre ++ snd g ++ flat_map snd post).
  { rewrite <- all_runs_edges, Hr, flat_map_app'. reflexivity. }
  constructor; cbn [fst snd].
  - reflexivity.
  - exact Hne.
  - intros j e Hj. cbn [p_dst LoaderProofs.part_of]. rewrite He, !map_app, <- !app_assoc.
    rewrite sum_glen_edges, <- (map_length e_dst (flat_map snd pre)). rewrite get_app_r.
    rewrite get_app_l by (rewrite map_length; apply nth_error_Some; congruence). rewrite get_map. unfold get. now rewrite Hj.
  - intros j c Hj. cbn [p_wts LoaderProofs.part_of]. rewrite Hr, flat_map_app'.
    rewrite <- (flat_gcum_length fadd pre). rewrite get_app_r. cbn [flat_map].
    assert (j < length (cum fadd 0%N (map e_w (snd g)))) by (apply nth_error_Some; congruence).
    unfold LoaderProofs.gcum at 1. rewrite get_app_l by assumption. unfold get. now rewrite Hj.
  - apply (group_type fadd m tmp rws pre g post Hr).
  - exact Hty.
  - destruct (0 <=? lm_watermark m)%Z eqn:Ew; cbn [andb].
    + destruct tmp; [|cbn [p_ts LoaderProofs.part_of]; rewrite Ew; reflexivity].
      assert (Hw : (0 <= lm_watermark m)%Z) by lia. apply (group_span fadd m rws pre g post Hw Hr).
    + cbn [p_ts LoaderProofs.part_of]. rewrite Ew. reflexivity.
Qed.

Lemma read_slots_none tmp p s l i v : group_ok tmp p (s, l, i) v -> read_slots p None i s (l - s) = Ok (map slot_of (snd v)).
Proof.
  intros [L Ne D W Ty Tys Ts]. cbn [fst snd] in *. unfold read_slots. rewrite L.
  replace (s + length (snd v) - s) with (length (map slot_of (snd v))) by (rewrite map_length; lia).
  apply mapM_seq. intros j x Hj. rewrite nth_error_map in Hj. destruct (nth_error (snd v) j) as [e|] eqn:Ej; [|discriminate].
  cbn [option_map] in Hj. injection Hj as <-. rewrite (D j e Ej). cbn [bind]. rewrite Ty. cbn [bind].
  rewrite Forall_forall in Tys. rewrite <- (Tys e) by (eapply nth_error_In; eassumption). reflexivity.
Qed.

(** Reading edges at a list of positions of a temporal group. *)
Lemma read_slots_at p s l i v t at_ len : group_ok true p (s, l, i) v -> at_ + len <= length (snd v) ->
  read_slots p (Some t) i (s + at_) len = Ok (map slot_ts_of (slice (snd v) at_ len)).
Proof.
  intros [L Ne D W Ty Tys [Tl Ts]] Hb. cbn [fst snd] in *. unfold read_slots.
  assert (Ln : length (map slot_ts_of (slice (snd v) at_ len)) = len) by (rewrite map_length; apply slice_len; exact Hb).
  rewrite <- Ln at 1. apply mapM_seq. intros j x Hj. rewrite nth_error_map in Hj.
  destruct (nth_error (slice (snd v) at_ len) j) as [e|] eqn:Ej; [|discriminate]. cbn [option_map] in Hj. injection Hj as <-.
  apply nth_slice in Ej. rewrite <- Nat.add_assoc. rewrite (D _ e Ej). cbn [bind]. rewrite Ty. cbn [bind].
  assert (Tj : nth_error (p_ts p) (s + (at_ + j)) = Some (life e)).
  { apply (nth_slice _ s (length (snd v))). rewrite Ts, nth_error_map, Ej. reflexivity. }
  unfold get. rewrite Tj. cbn [bind].
  rewrite Forall_forall in Tys. rewrite <- (Tys e) by (eapply nth_error_In; eassumption). reflexivity.
Qed.

Lemma alive_life t e : lives (life e) t = alive t e.
Proof. unfold lives, alive, life. cbn [fst snd]. f_equal. apply orb_comm. Qed.

(** The chunks of positions of a group read off its alive edges. *)
Lemma chunks_read (es : list edge) t ss :
  flat_map (fun x : nat * nat * nat => seq (fst (fst x)) (snd x)) ss = map fst (filter (fun x => lives (snd x) t) (combine (seq 0 (length (map life es))) (map life es))) ->
  Forall (fun x => fst (fst x) + snd x <= length es) ss ->
  flat_map (fun x => slice es (fst (fst x)) (snd x)) ss = filter (alive t) es.
Proof.
  intros H B.
  assert (R : forall at_ len, at_ + len <= length es -> map Some (slice es at_ len) = map (nth_error es) (seq at_ len)).
  { intros at_ len Hb. apply nth_error_ext'. intros j. rewrite !nth_error_map.
    destruct (Nat.lt_ge_cases j len) as [Hj|Hj].
    - rewrite nth_error_seq_lt by exact Hj. cbn [option_map].
      destruct (nth_error (slice es at_ len) j) as [e|] eqn:Ej.
      + apply nth_slice in Ej. now rewrite Ej.
      + apply nth_error_None in Ej. rewrite slice_len in Ej by exact Hb. lia.
    - replace (nth_error (slice es at_ len) j) with (@None edge) by (symmetry; apply nth_error_None; rewrite slice_len; lia).
      replace (nth_error (seq at_ len) j) with (@None nat) by (symmetry; apply nth_error_None; rewrite seq_length; lia). reflexivity. }
  assert (E : map Some (flat_map (fun x => slice es (fst (fst x)) (snd x)) ss) = map Some (filter (alive t) es)).
  { transitivity (map (nth_error es) (flat_map (fun x : nat * nat * nat => seq (fst (fst x)) (snd x)) ss)).
    - clear H. induction B as [|x ss Hx _ IH]; [reflexivity|]. cbn [flat_map]. rewrite !map_app, IH, R by exact Hx. reflexivity.
    - rewrite H. rewrite map_length.
      assert (G : forall l pre, es = pre ++ l -> map (nth_error es) (map fst (filter (fun x => lives (snd x) t) (combine (seq (length pre) (length l)) (map life l)))) = map Some (filter (alive t) l)).
      { clear. induction l as [|e l IH]; intros pre E; [reflexivity|]. cbn [length seq map combine filter snd]. rewrite alive_life.
        assert (N : map (nth_error es) (map fst (filter (fun x => lives (snd x) t) (combine (seq (S (length pre)) (length l)) (map life l)))) = map Some (filter (alive t) l)).
        { specialize (IH (pre ++ [e])). rewrite app_length in IH. cbn [length] in IH. rewrite Nat.add_1_r in IH. apply IH. now rewrite <- app_assoc. }
        destruct (alive t e); cbn [map fst]; rewrite N; [|reflexivity]. f_equal. rewrite E, nth_error_app2, Nat.sub_diag by lia. reflexivity. }
      apply (G es []). reflexivity. }
  revert E. generalize (flat_map (fun x => slice es (fst (fst x)) (snd x)) ss) (filter (alive t) es). clear.
  induction l as [|a l IH]; intros [|b m] E; cbn in E; try discriminate; [reflexivity|]. injection E as -> E. f_equal. now apply IH.
Qed.

(** One group: the batches together are the edges (at that time). *)
Lemma group_batches_none wor tmp p g v : group_ok tmp p g v ->
  uniform_group wor p None g = Ok [map slot_of (snd v)].
Proof. destruct g as [[s l] i]. intros H. unfold uniform_group. destruct (p_ts p); rewrite (read_slots_none tmp p s l i v H); reflexivity. Qed.
Lemma group_batches_static wor p g v t : group_ok false p g v ->
  uniform_group wor p (Some t) g = Ok [map slot_of (snd v)].
Proof. destruct g as [[s l] i]. intros H. unfold uniform_group. rewrite (go_ts _ _ _ _ H). rewrite (read_slots_none false p s l i v H). reflexivity. Qed.

Lemma group_has_ts p g v : group_ok true p g v -> p_ts p <> [].
Proof.
  intros [L Ne _ _ _ _ [Tl Ts]] E. rewrite E in Ts. destruct (snd v); [congruence|]. unfold slice in Ts. rewrite skipn_nil, firstn_nil in Ts. discriminate.
Qed.

Lemma group_batches_ts p g v t : int32 t -> StronglySorted not_before (map life (snd v)) -> group_ok true p g v ->
  exists bs, uniform_group false p (Some t) g = Ok bs /\ concat bs = map slot_ts_of (filter (alive t) (snd v)).
Proof.
  intros Ht Hs H. pose proof (group_has_ts p g v H) as Hp. destruct g as [[s l] i]. unfold uniform_group, group_streams.
  destruct (p_ts p) as [|t0 tr] eqn:Ep; [congruence|]. rewrite <- Ep. clear Hp.
  pose proof (go_ts _ _ _ _ H) as [Tl Ts]. pose proof (go_len _ _ _ _ H) as L. cbn [fst snd] in *.
  replace (length (p_ts p) <? l) with false by (symmetry; apply Nat.ltb_ge; exact Tl).
  replace (l - s) with (length (snd v)) by lia. rewrite Ts.
  destruct (streams_spec (length (snd v)) (map life (snd v)) t 0) as (ss & E & F & G); [now rewrite map_length|assumption|assumption|].
  rewrite map_length in G. rewrite E. cbn [bind].
  exists (map (fun x => map slot_ts_of (slice (snd v) (fst (fst x)) (snd x))) ss). split.
  - apply mapM_pure. intros [[pos it] ll] Hx. rewrite Forall_forall in G. specialize (G _ Hx). cbn [fst snd] in *.
    apply (read_slots_at p s l i v); assumption.
  - rewrite <- flat_map_concat_map. rewrite <- (chunks_read (snd v) t ss F G).
    clear. induction ss as [|x ss IH]; [reflexivity|]. cbn [flat_map]. now rewrite map_app, IH.
Qed.

(** When all edges of a group have one removal time only its first stream holds edges. *)
Definition same_removal (l : list (Z * Z)) : Prop := exists R, Forall (fun x => snd x = R) l.
Lemma find_start_same span t R x : Forall (fun x => snd x = R) span -> nth_error span (find_start span t) = Some x -> find_start span t = 0.
Proof.
  destruct span as [|y span]; [reflexivity|]. intros H E. unfold find_start in *. destruct (_ && _); [reflexivity|].
  set (go := fun a : Z * Z => negb (snd a =? -1)%Z && (snd a <=? to_int32 (Z.max t (snd y)))%Z) in *. destruct (bound_edges go (y :: span)) as (Hk & Hr & Hl). set (k := bound go (y :: span)) in *. clearbody k.
  destruct k as [|k]; [reflexivity|]. specialize (Hr x E).
  destruct (nth_error (y :: span) k) as [z|] eqn:Ez; [|apply nth_error_None in Ez; lia].
  specialize (Hl k z eq_refl Ez). rewrite Forall_forall in H.
  unfold go in Hr, Hl. rewrite (H x) in Hr by (eapply nth_error_In; eassumption). rewrite (H z) in Hl by (eapply nth_error_In; eassumption). congruence.
Qed.
Lemma streams_late fuel : forall span t pos ss, Forall (fun x => (t < fst x)%Z) span -> streams fuel span t pos = Ok ss -> Forall (fun x => snd x = 0) ss.
Proof.
  induction fuel as [|fuel IH]; intros span t pos ss Hl; cbn [streams]; destruct (nth_error span (find_start span t)) as [x|] eqn:Ex;
    try (intros H; injection H as <-; constructor); destruct ((snd x =? -1)%Z && (t <? fst x)%Z); try (intros H; injection H as <-; constructor); try discriminate.
  assert (E : find_last (skipn (find_start span t) span) t = 0).
  { rewrite (skipn_nth _ _ _ Ex). unfold find_last. rewrite Forall_forall in Hl. pose proof (Hl x (nth_error_In _ _ Ex)).
    replace (t <? fst x)%Z with true by lia. reflexivity. }
  rewrite E. cbn [Nat.eqb]. intros H. apply bind_ok in H as (rest & Hr & H). injection H as <-. constructor; [reflexivity|].
  eapply IH; [|exact Hr]. apply Forall_forall. intros y Hy. rewrite Forall_forall in Hl. apply Hl.
  rewrite <- (firstn_skipn (find_start span t + 1) span). apply in_or_app. now right.
Qed.
Lemma streams_same fuel span t ss : StronglySorted not_before span -> same_removal span -> streams fuel span t 0 = Ok ss ->
  Forall (fun x => snd (fst x) = fst (fst x) \/ snd x = 0) ss.
Proof.
  intros Hs [R HR]. destruct fuel as [|fuel]; cbn [streams]; destruct (nth_error span (find_start span t)) as [x|] eqn:Ex;
    try (intros H; injection H as <-; constructor); destruct ((snd x =? -1)%Z && (t <? fst x)%Z) eqn:Eg; try (intros H; injection H as <-; constructor); try discriminate.
  pose proof (find_start_same span t R x HR Ex) as E0. rewrite E0 in Ex. rewrite E0. clear E0. cbn [Nat.add]. rewrite skipn_O. intros H. apply bind_ok in H as (rest & Hr & H). injection H as <-.
  constructor; [now left|].
  assert (L : Forall (fun x => (t < fst x)%Z) (skipn (if find_last span t =? 0 then 1 else find_last span t) span)).
  { destruct span as [|y span]; [discriminate|]. cbn [nth_error] in Ex. injection Ex as ->.
    assert (Late : forall k z, nth_error (x :: span) k = Some z -> (t < fst z)%Z -> Forall (fun x => (t < fst x)%Z) (skipn k (x :: span))).
    { intros k z Hz Ht. pose proof (sorted_from not_before _ k z not_before_refl Hs Hz) as F. eapply Forall_impl; [|exact F].
      intros a Ha. unfold not_before in Ha. lia. }
    unfold find_last. destruct (Z.ltb_spec t (fst x)) as [Ht|Ht].
    - cbn [Nat.eqb]. change (skipn 1 (x :: span)) with span. pose proof (Late 0 x eq_refl Ht) as F. rewrite skipn_O in F. now inversion F.
    - set (go := fun a : Z * Z => negb ((snd x <? snd a) || (t <? fst a))%Z). destruct (bound_edges go (x :: span)) as (Hk & Hb & Hl). set (k := bound go (x :: span)) in *. clearbody k.
      destruct (nth_error (x :: span) k) as [z|] eqn:Ez.
      + specialize (Hb z eq_refl). unfold go in Hb. rewrite Forall_forall in HR.
        rewrite (HR x), (HR z) in Hb by (first [now left|eapply nth_error_In; eassumption]).
        assert (t < fst z)%Z by lia. destruct k as [|k]; [cbn in Ez; injection Ez as ->; lia|]. cbn [Nat.eqb]. eapply Late; eassumption.
      + apply nth_error_None in Ez. destruct k as [|k]; [cbn in Ez; lia|]. cbn [Nat.eqb]. rewrite skipn_all2 by exact Ez. constructor. }
  pose proof (streams_late _ _ _ _ _ L Hr) as F. eapply Forall_impl; [|exact F]. intros a Ha. now right.
Qed.

Lemma group_batches_wor p g v t : StronglySorted not_before (map life (snd v)) -> same_removal (map life (snd v)) -> group_ok true p g v ->
  uniform_group true p (Some t) g = uniform_group false p (Some t) g.
Proof.
  intros Hs Hr H. pose proof (group_has_ts p g v H) as Hp. destruct g as [[s l] i]. unfold uniform_group, group_streams.
  destruct (p_ts p) as [|t0 tr] eqn:Ep; [congruence|]. rewrite <- Ep. clear Hp.
  pose proof (go_ts _ _ _ _ H) as [Tl Ts]. pose proof (go_len _ _ _ _ H) as L. cbn [fst snd] in *.
  destruct (length (p_ts p) <? l); [reflexivity|]. replace (l - s) with (length (snd v)) by lia. rewrite Ts.
  destruct (streams _ _ _ _) as [ss|] eqn:E; [|reflexivity]. cbn [bind].
  pose proof (streams_same _ _ _ _ Hs Hr E) as F. clear - F. induction F as [|[[pos it] ll] ss H _ IH]; [reflexivity|].
  cbn [mapM fst snd] in *. rewrite IH. f_equal. destruct H as [->| ->]; reflexivity.
Qed.

(** ** Rows and nodes *)
Lemma row_batches m tmp wor ts (S : edge -> slot) (f : edge -> bool) r1 r r2 T :
  (forall p g v, In v (visited r T) -> group_ok ((0 <=? lm_watermark m)%Z && tmp) p g v ->
     exists bs, uniform_group wor p ts g = Ok bs /\ concat bs = map S (filter f (snd v))) ->
  exists bs, uniform_batches wor (part_of m tmp (r1 ++ r :: r2)) (length r1) ts T = Ok bs /\
    concat bs = map S (filter f (flat_map snd (visited r T))).
Proof.
  intros H. destruct (row_groups m tmp r1 r r2 T) as (gs & E & F). unfold uniform_batches. rewrite E. cbn [bind].
  assert (G : exists bss, mapM (uniform_group wor (part_of m tmp (r1 ++ r :: r2)) ts) gs = Ok bss /\
     concat (concat bss) = map S (filter f (flat_map snd (visited r T)))).
  { clear E. induction F as [|g v gs vs Hg _ IH]; [exists []; split; reflexivity|].
    destruct (H _ g v (or_introl eq_refl) Hg) as (bs & E1 & E2).
    destruct IH as (bss & E3 & E4); [intros; eapply H; [right|]; eassumption|].
    cbn [mapM flat_map]. rewrite E1. cbn [bind]. rewrite E3. cbn [bind]. exists (bs :: bss). split; [reflexivity|].
    cbn [concat]. now rewrite concat_app, E2, E4, filter_app, map_app. }
  destruct G as (bss & -> & G). cbn [bind]. exists (concat bss). split; [reflexivity|exact G].
Qed.

Lemma places_mapM_ex {A} P (q : partition -> nat -> res A) (R : row -> A -> Prop) n rwss :
  (forall rws r1 r r2, In rws rwss -> rws = r1 ++ r :: r2 -> row_id r = n -> exists y, q (P rws) (length r1) = Ok y /\ R r y) ->
  exists ys, mapM (fun x => q (fst x) (snd x)) (places P n rwss) = Ok ys /\ Forall2 R (node_rows n rwss) ys.
Proof.
  intro H. induction rwss as [|rws rwss IH]; [exists []; split; [reflexivity|constructor]|].
  destruct IH as (ys2 & E2 & F2); [intros; eapply H; try eassumption; now right|].
  assert (Hin : forall x, In x (filter (fun x : nat * row => (row_id (snd x) =? n)%Z) (indexed rws)) ->
                 exists y, q (P rws) (fst x) = Ok y /\ R (snd x) y).
  { intros [i r] Hx. apply filter_In in Hx. destruct Hx as [Hx Hn]. cbn [fst snd] in *.
    apply indexed_split in Hx. destruct Hx as (l1 & l2 & E & ->). apply (H rws l1 r l2); [now left|assumption|lia]. }
  unfold places, node_rows in *. cbn [flat_map concat]. rewrite filter_app.
  rewrite <- (filter_indexed (fun r => (row_id r =? n)%Z)).
  induction (filter _ (indexed rws)) as [|x l IHl]; [exists ys2; split; assumption|].
  destruct (Hin x (or_introl eq_refl)) as (y & Ey & Ry). destruct IHl as (ys & E & F); [intros; apply Hin; now right|].
  exists (y :: ys). cbn [map app mapM fst snd]. rewrite Ey. cbn [bind]. rewrite E. cbn [bind]. split; [reflexivity|]. now constructor.
Qed.

Definition seen_edges (rwss : list (list row)) (T : list Z) (n : Z) : list edge :=
  flat_map (fun r => flat_map snd (visited r T)) (node_rows n rwss).
Definition batches_of (o : option (list (list slot))) : list (list slot) := match o with Some bs => bs | None => [] end.

Lemma node_batches_spec m tmp rwss g wor ts S f T n :
  graph_of fadd m tmp rwss g ->
  (forall rws r1 r r2 v p gr, In rws rwss -> rws = r1 ++ r :: r2 -> row_id r = n -> In v (visited r T) ->
     group_ok ((0 <=? lm_watermark m)%Z && tmp) p gr v ->
     exists bs, uniform_group wor p ts gr = Ok bs /\ concat bs = map S (filter f (snd v))) ->
  exists o, node_batches wor g T n ts = Ok o /\ concat (batches_of o) = map S (filter f (seen_edges rwss T n)) /\
    (o = None <-> node_rows n rwss = []).
Proof.
  intros Hg H. unfold node_batches. rewrite Hg. cbn [bind]. unfold lookup, found.
  destruct (places_mapM_ex (part_of m tmp) (fun p i => uniform_batches wor p i ts T)
      (fun r bs => concat bs = map S (filter f (flat_map snd (visited r T)))) n rwss) as (ys & E & F).
  { intros rws r1 r r2 Hin -> Hn. apply row_batches. intros; eapply H; try eassumption. reflexivity. }
  assert (C : concat (concat ys) = map S (filter f (seen_edges rwss T n))).
  { unfold seen_edges. clear - F. induction F as [|r bs rs ys H _ IH]; [reflexivity|]. cbn [flat_map concat]. now rewrite concat_app, H, IH, filter_app, map_app. }
  pose proof (places_nil (part_of m tmp) n rwss) as Hn.
  destruct (places (part_of m tmp) n rwss) as [|o os].
  - exists None. split; [reflexivity|]. rewrite (proj1 Hn eq_refl) in *. split; [|tauto]. unfold seen_edges. rewrite (proj1 Hn eq_refl). reflexivity.
  - rewrite E. cbn [bind]. exists (Some (concat ys)). split; [reflexivity|]. split; [exact C|]. split; [discriminate|]. intros X. apply Hn in X. discriminate.
Qed.
End Groups.

Lemma visit_keys {A} (key : A -> Z) fuel : forall T l, Forall (fun a => In (key a) T) (visit key fuel T l).
Proof.
  induction fuel as [|f IH]; intros T l; destruct l as [|a l]; try constructor.
  cbn [visit]. destruct (skip_types T (key a)) as [|t T'] eqn:E; [constructor|].
  destruct (skip_types_split T (key a)) as (d & Hd & _). rewrite E in Hd.
  destruct (dropw key t (a :: l)) as [|b r]; [constructor|].
  assert (G : Forall (fun a => In (key a) T) (visit key f (t :: T') r)).
  { eapply Forall_impl; [|apply IH]. intros x Hx. rewrite Hd. apply in_or_app. now right. }
  destruct (Z.eqb_spec (key b) t) as [Eb|]; [constructor; [rewrite Eb, Hd; apply in_or_app; right; now left|exact G]|exact G].
Qed.

Definition gaps_ok (types : list Z) (parts : list (list (list record))) : Prop :=
  forall r, In r (flat_map rows parts) -> gap_free types (map e_typ (row_edges r)).

Section Seen.
Variable parts : list (list (list record)).
Hypothesis HF : Forall (fun rws => Forall row_facts rws) (map rows parts).

Lemma seen_sub types n e : In e (seen_edges (map rows parts) (make_sorted_list types) n) -> In e (spec_edges parts types n).
Proof.
  unfold seen_edges, spec_edges. rewrite <- (node_rows_edges (fun e => mem (e_typ e) types) parts n HF).
  intros H. apply in_flat_map in H as (r & Hr & H). apply in_flat_map in H as (v & Hv & He).
  apply filter_In. split.
  - apply in_flat_map. exists r. split; [exact Hr|]. apply visited_in in Hv. unfold row_runs in Hv.
    rewrite <- (runs_concat (row_edges r)). apply in_flat_map. exists v. split; assumption.
  - assert (Ht : In (fst v) (make_sorted_list types)).
    { pose proof (visit_keys fst (length (row_runs r)) (make_sorted_list types) (row_runs r)) as K. rewrite Forall_forall in K. apply K. exact Hv. }
    apply visited_in in Hv. pose proof (runs_types (row_edges r)) as K. rewrite Forall_forall in K. destruct (K v Hv) as [_ K2].
    rewrite Forall_forall in K2. rewrite (K2 e He). rewrite <- mem_sorted. now apply mem_In.
Qed.

Lemma seen_all types n : gaps_ok types parts -> seen_edges (map rows parts) (make_sorted_list types) n = spec_edges parts types n.
Proof.
  intros G. unfold seen_edges, spec_edges. rewrite <- (node_rows_edges (fun e => mem (e_typ e) types) parts n HF).
  assert (H : forall r, In r (node_rows n (map rows parts)) -> flat_map snd (visited r (make_sorted_list types)) = filter (fun e => mem (e_typ e) types) (row_edges r)).
  { intros r Hr. unfold node_rows in Hr. apply filter_In in Hr as [Hr _]. apply in_concat in Hr as (rws & Hin & Hr).
    rewrite Forall_forall in HF. pose proof (HF rws Hin) as Hf. rewrite Forall_forall in Hf. destruct (Hf r Hr) as [Hs _].
    rewrite (visited_filter r); [|exact Hs|apply make_sorted_sorted|].
    - unfold row_runs. rewrite runs_filter. apply filter_ext. intros e. apply mem_sorted.
    - unfold row_gap_free. eapply gap_free_ext; [|apply G].
      + intros x. symmetry. apply make_sorted_in.
      + apply in_map_iff in Hin as (bs & <- & Hb). apply in_flat_map. exists bs. split; assumption. }
  induction (node_rows n (map rows parts)) as [|r l IH]; [reflexivity|]. cbn [flat_map]. rewrite filter_app, IH by (intros; apply H; now right).
  f_equal. apply H. now left.
Qed.
End Seen.
