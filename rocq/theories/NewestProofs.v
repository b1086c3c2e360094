(** The newest value of a node that is stored in several partitions: one string feature, sparse
    features of one point. *)
From Verif Require Import Base WriterModel LoaderModel GraphModel GraphSpec FeatureModel FeatureSpec
  WriterProofs LoaderProofs QueryProofs GraphProofs ConvertProofs AnswerProofs FeatureProofs EdgeFeatureProofs TemporalProofs
  StringProofs TemporalStringProofs SparseProofs.
From Coq Require Import Sorting.Sorted ZifyBool ZifyNat ZifyN.
Local Open Scope Z_scope.

(** The value found so far. *)
Definition flag_at (b : option (Z * list N)) : Z := match b with None => -1 | Some y => fst y end.
Definition found_bytes (b : option (Z * list N)) : list N := match b with None => [] | Some y => snd y end.
Definition vmerge (b : option (Z * list N)) (x : Z * list N) : option (Z * list N) := if fst x <=? flag_at b then b else Some x.
Definition vnext (hist : list N -> list (Z * list N)) (t : Z) (feats : list (option (list N))) (f : Z) (b : option (Z * list N)) :=
  match given feats f with Some v => vmerge b (tlook hist t v) | None => b end.
Definition dated (t : Z) (b : option (Z * list N)) : Prop := match b with None => True | Some y => 0 <= fst y <= t end.

Lemma tlook_dated hist t v : explains hist v -> tlook hist t v = (-1, []) \/ 0 <= fst (tlook hist t v) <= t.
Proof.
  intros (_ & _ & Hp & _). unfold tlook. pose proof (entry_at_spec t (hist (bytes_of v))) as Hs.
  destruct (entry_at t (hist (bytes_of v))) as [y|]; [|now left]. right. destruct Hs as (H1 & H2 & _).
  rewrite Forall_forall in Hp. specialize (Hp y H1). lia.
Qed.

Lemma vmerge_dated hist t b v : explains hist v -> dated t b -> dated t (vmerge b (tlook hist t v)).
Proof.
  intros He Hb. unfold vmerge. destruct (Z.leb_spec (fst (tlook hist t v)) (flag_at b)); [assumption|].
  destruct (tlook_dated hist t v He) as [E|E]; [|exact E]. rewrite E in H. cbn [fst] in H. destruct b; cbn in *; lia.
Qed.

Lemma already_merge hist t b v : explains hist v -> dated t b -> flag_at b = t -> vmerge b (tlook hist t v) = b.
Proof.
  intros He Hb E. unfold vmerge. destruct (Z.leb_spec (fst (tlook hist t v)) (flag_at b)); [reflexivity|].
  destruct (tlook_dated hist t v He) as [Q|Q]; [rewrite Q in H; cbn in H; destruct b; cbn in *; lia|lia].
Qed.

Lemma vmerge_entry hist t b v : explains hist v -> dated t b ->
  vmerge b (tlook hist t v) = newest_from b (opt_list (entry_at t (hist (bytes_of v)))).
Proof.
  intros He Hb. destruct (tlook_dated hist t v He) as [E|E]; unfold vmerge.
  - rewrite E. unfold tlook in E. destruct (entry_at t (hist (bytes_of v))) as [y|] eqn:Ey.
    + pose proof (entry_at_spec t (hist (bytes_of v))) as Hs. rewrite Ey in Hs. destruct Hs as (H1 & _).
      destruct He as (_ & _ & Hp & _). rewrite Forall_forall in Hp. specialize (Hp y H1). subst y. cbn in Hp. lia.
    + cbn. destruct b as [y|]; cbn; [destruct (Z.leb_spec (-1) (fst y)); [reflexivity|cbn in Hb; lia]|reflexivity].
  - unfold tlook in *. destruct (entry_at t (hist (bytes_of v))) as [y|] eqn:Ey; [|cbn in E; lia]. cbn [opt_list newest_from].
    destruct b as [z|]; cbn [flag_at].
    + destruct (Z.leb_spec (fst y) (fst z)), (Z.ltb_spec (fst z) (fst y)); try lia; reflexivity.
    + destruct (Z.leb_spec (fst y) (-1)); [lia|reflexivity].
Qed.

Lemma newest_from_app l1 : forall b l2, newest_from b (l1 ++ l2) = newest_from (newest_from b l1) l2.
Proof. induction l1 as [|x l1 IH]; intros b l2; [reflexivity|]. cbn [app newest_from]. apply IH. Qed.

(** Over the rows of the node: the newest entry of all values. *)
Lemma vnext_fold hist t (F : row -> list (option (list N))) f rws : forall b,
  (forall v, In v (offered F rws f) -> explains hist v) -> dated t b ->
  fold_left (fun b r => vnext hist t (F r) f b) rws b =
  newest_from b (flat_map (fun v => opt_list (entry_at t (hist (bytes_of v)))) (offered F rws f)) /\
  dated t (fold_left (fun b r => vnext hist t (F r) f b) rws b).
Proof.
  induction rws as [|r rws IH]; intros b He Hb; [split; [reflexivity|exact Hb]|].
  change (offered F (r :: rws) f) with (opt_list (value_at (F r) f) ++ offered F rws f) in *.
  cbn [fold_left]. rewrite flat_map_app, newest_from_app.
  assert (S : vnext hist t (F r) f b = newest_from b (flat_map (fun v => opt_list (entry_at t (hist (bytes_of v)))) (opt_list (value_at (F r) f)))
              /\ dated t (vnext hist t (F r) f b)).
  { unfold vnext, given. destruct (value_at (F r) f) as [v|] eqn:Ev; [|split; [reflexivity|exact Hb]].
    assert (Hv : explains hist v) by (apply He; apply in_or_app; left; now left).
    rewrite (explains_nonempty _ _ Hv). cbn [opt_list flat_map]. rewrite app_nil_r.
    split; [now apply vmerge_entry|now apply vmerge_dated]. }
  destruct S as [S1 S2]. rewrite <- S1. apply IH; [|exact S2]. intros v Hv. apply He. apply in_or_app. now right.
Qed.

Lemma shrink_app a b : shrink (a ++ b) (Z.of_nat (length b)) = Ok a.
Proof.
  unfold shrink. rewrite app_length. destruct (Z.leb_spec 0 (Z.of_nat (length b))); [|lia].
  destruct (Z.leb_spec (Z.of_nat (length b)) (Z.of_nat (length a + length b))); [|lia]. cbn [andb].
  rewrite Nat2Z.id. replace (length a + length b - length b)%nat with (length a) by lia.
  rewrite firstn_app, firstn_all, Nat.sub_diag. cbn. now rewrite app_nil_r.
Qed.

(** ** One string feature *)

Definition benc (out : list N) (b : option (Z * list N)) : list Z * list Z * list N :=
  ([flag_at b], [Z.of_nat (length (found_bytes b))], out ++ found_bytes b).

Lemma one_string_loop p pre feats post hist t f out b :
  (N.of_nat (8 * length feats) < 2 ^ 64)%N -> (N.of_nat (sum (map flen (pre ++ feats ++ post))) < 2 ^ 64)%N ->
  p_nfidx p = findex (pre ++ feats ++ post) -> p_nfd p = fdata (pre ++ feats ++ post) -> int32 f -> dated t b ->
  (forall v, given feats f = Some v -> explains hist v) ->
  node_string_loop p (length pre) (length pre + length feats) (Some t) [f] [flag_at b] [Z.of_nat (length (found_bytes b))] (out ++ found_bytes b) =
  Ok (benc out (vnext hist t feats f b)).
Proof.
  intros S1 S2 Hidx Hdat Hf Hb He. cbn [node_string_loop bind]. unfold vnext.
  destruct (already (Some t) (flag_at b)) eqn:Eal.
  { cbn in Eal. destruct (given feats f) as [v|]; [rewrite already_merge by (auto; lia)|]; reflexivity. }
  rewrite Hidx. pose proof (slot_given pre feats post f S1 S2 Hf) as Hg. destruct (given feats f) as [v|] eqn:Eg.
  - destruct Hg as (Hv & a & c & Ed & Hne & Es). rewrite Es. cbn [bind snd].
    destruct (Z.eqb_spec (Z.of_nat (length (fbytes v))) 0) as [E0|_].
    { destruct (fbytes v); [congruence|cbn in E0; lia]. }
    destruct (tlook_resolves hist t v (fdata (pre ++ feats ++ post)) (He v eq_refl) a c Ed) as (a' & c' & Ed' & Er).
    rewrite Hdat, Er. cbn [bind]. unfold vmerge.
    destruct (Z.leb_spec (fst (tlook hist t v)) (flag_at b)) as [H|H]; [reflexivity|].
    assert (Hs : (if 0 <=? flag_at b then shrink (out ++ found_bytes b) (Z.of_nat (length (found_bytes b))) else Ok (out ++ found_bytes b)) = Ok out).
    { destruct b as [y|]; cbn [flag_at found_bytes] in *.
      - cbn in Hb. destruct (Z.leb_spec 0 (fst y)); [|lia]. apply shrink_app.
      - change (0 <=? -1) with false. cbv iota. now rewrite app_nil_r. }
    rewrite Hs. cbn [bind]. rewrite (sread_ok _ a' (snd (tlook hist t v)) c') by (assumption || reflexivity). cbn [bind]. reflexivity.
  - destruct Hg as [Hg|(a & Hg)]; rewrite Hg; reflexivity.
Qed.

Section Newest.
Variables (fadd : N -> N -> N) (wval : N -> Z).
Notation part_of := (part_of fadd).
Notation converted := (converted fadd wval).

Lemma one_string_part m tmp r1 r r2 hist t f out b :
  small (r1 ++ r :: r2) -> counted m (r1 ++ r :: r2) -> int32 f -> dated t b ->
  (forall v, given (row_feats r) f = Some v -> explains hist v) ->
  part_node_string (part_of m tmp (r1 ++ r :: r2)) (length r1) (Some t) [f] (benc out b) =
  Ok (benc out (vnext hist t (row_feats r) f b)).
Proof.
  intros (S1 & S2 & _) (C1 & _) Hi Hb He. unfold part_node_string, benc at 1.
  destruct (nidx_get fadd m tmp r1 r r2) as [G1 G2]. rewrite G1, G2. clear G1 G2. cbn [bind].
  assert (Hidx : p_nfidx (part_of m tmp (r1 ++ r :: r2)) =
     if (0 <? lm_nfc m)%nat then findex (all_nfeats r1 ++ row_feats r ++ all_nfeats r2) else []).
  { cbn [p_nfidx LoaderProofs.part_of]. rewrite all_nfeats_split. reflexivity. }
  assert (Hdat : p_nfd (part_of m tmp (r1 ++ r :: r2)) =
     if (0 <? lm_nfc m)%nat then fdata (all_nfeats r1 ++ row_feats r ++ all_nfeats r2) else []).
  { cbn [p_nfd LoaderProofs.part_of]. rewrite all_nfeats_split. reflexivity. }
  rewrite all_nfeats_split in *.
  destruct (Nat.ltb_spec 0 (lm_nfc m)) as [Hc|Hc].
  - rewrite Hidx. unfold findex at 1.
    destruct (psum_snoc_head 0 (map flen (all_nfeats r1 ++ row_feats r ++ all_nfeats r2))) as (l & Et).
    cbn [Nat.add] in Et. rewrite Et.
    apply (one_string_loop _ (all_nfeats r1) (row_feats r) (all_nfeats r2)); try assumption.
    rewrite !app_length in S1. lia.
  - rewrite Hidx. assert (Hn : lm_nfc m = 0%nat) by lia. apply C1 in Hn.
    apply app_eq_nil in Hn. destruct Hn as [_ Hn]. apply app_eq_nil in Hn. destruct Hn as [Hn _]. rewrite Hn.
    unfold vnext. rewrite given_nil. reflexivity.
Qed.

Lemma one_string_node wm parts g hist t f n out :
  converted wm parts g -> int32 f -> (forall v, In v (node_values parts n f) -> explains hist v) ->
  g_node_string g [f] (Some t) n out =
  Ok ([Z.of_nat (length (entry_bytes hist t (node_values parts n f)))], out ++ entry_bytes hist t (node_values parts n f)).
Proof.
  intros C Hf He. destruct (converted_small fadd wval wm parts g C) as (m & Hg & HRF & HF).
  unfold g_node_string. rewrite Hg. cbn [bind map]. unfold lookup, found.
  assert (He' : forall v, In v (offered row_feats (node_rows n (map rows parts)) f) -> explains hist v)
    by (intros v Hv; apply He; now rewrite <- node_values_offered).
  destruct (vnext_fold hist t row_feats f _ None He' I) as [R _]. rewrite node_values_offered in R. fold (spec_temporal hist t (node_values parts n f)) in R.
  assert (EB : forall b, b = spec_temporal hist t (node_values parts n f) -> found_bytes b = entry_bytes hist t (node_values parts n f)).
  { intros b ->. reflexivity. }
  destruct (places (part_of m (is_temporal wm)) n (map rows parts)) as [|o os] eqn:Ep.
  - apply places_nil in Ep. rewrite Ep in R. cbn [fold_left] in R. rewrite <- (EB None R). cbn. now rewrite app_nil_r.
  - rewrite <- Ep. replace ([-1], [0], out) with (benc out None) by (unfold benc; cbn; now rewrite app_nil_r).
    rewrite (foldM_rows (fun p i st => part_node_string p i (Some t) [f] st) (benc out) (fun b r => vnext hist t (row_feats r) f b)
               _ _ _ _ _ None (places_rows _ n (map rows parts))).
    + cbn [bind]. rewrite R. unfold benc. cbn [bind]. rewrite (EB _ eq_refl). reflexivity.
    + intros d r rest ps r1 r2 E Hin Eps Hn. rewrite Forall_forall in HF. destruct (HF ps Hin) as [Hs Hc]. subst ps.
      assert (Hd : forall v, In v (offered row_feats d f) -> explains hist v).
      { intros v Hv. apply He'. rewrite E, offered_app. apply in_or_app. now left. }
      apply one_string_part; try assumption.
      * now apply (vnext_fold hist t row_feats f d None Hd).
      * intros v Hv. destruct (given_in row_feats (node_rows n (map rows parts)) r f v) as [Hv' _]; [now apply row_in_parts with r1 r2|assumption|auto].
Qed.

Theorem newest_node_string wm parts g nodes f ts hist :
  converted wm parts g -> int32 f ->
  (forall n v, In n nodes -> In v (node_values parts n f) -> explains hist v) ->
  node_string_features g nodes [f] (Some ts) =
  Ok (map (fun x => [Z.of_nat (length (entry_bytes hist (snd x) (node_values parts (fst x) f)))]) (combine nodes ts),
      concat (map (fun x => entry_bytes hist (snd x) (node_values parts (fst x) f)) (combine nodes ts))).
Proof.
  intros C Hf He. unfold node_string_features, stamps.
  set (D := fun x : Z * option Z => [match snd x with Some t => entry_bytes hist t (node_values parts (fst x) f) | None => [] end]).
  rewrite (string_loop_pure _ D).
  - rewrite !map_map. unfold D. cbn [fst snd app map concat]. do 3 f_equal. apply map_ext. intro x. now rewrite app_nil_r.
  - intros n t o Hin. apply in_map_iff in Hin. destruct Hin as ([n' t'] & E & Hin). injection E as -> <-. cbn [fst snd] in *.
    apply in_combine_l in Hin. unfold D. cbn [fst snd map concat]. rewrite app_nil_r.
    apply (one_string_node wm parts); try assumption. intros v. now apply He.
Qed.

(** ** Sparse features whose values have one point *)

Definition one_point (dec : list N -> coords * list (list N)) (bs : list N) : Prop :=
  decodes dec bs /\ length (tuples (fst (dec bs))) = 1%nat.

Lemma one_point_nonempty dec bs : one_point dec bs -> bs <> [].
Proof.
  intros [[H1 H2] _] ->. unfold convert_feature in H2. destruct (_ || _); [discriminate|].
  match type of H2 with (if ?f then _ else _) = _ => destruct f; [|discriminate] end.
  apply (f_equal (fun r => match r with Ok (Some (_ :: _)) => true | _ => false end)) in H2. discriminate.
Qed.

Definition now_sparse dec (k : Z) (b : option (Z * list N)) (s : sparse) : sparse :=
  match b with None => s | Some y => add_bytes dec (snd y) k s end.
Definition pointed dec (b : option (Z * list N)) : Prop := match b with None => True | Some y => one_point dec (snd y) end.

Lemma add_bytes_value dec bs k s : one_point dec bs -> add_bytes dec bs k s = add_value (fst (dec bs)) (snd (dec bs)) k s.
Proof. intro H. apply one_point_nonempty in H. destruct bs; [congruence|reflexivity]. Qed.

Lemma drop_point dec bs k s : one_point dec bs ->
  exists d l, drop_sparse (add_bytes dec bs k s) = Ok (SP d (sp_idx s) (sp_val s) l).
Proof.
  intro H. rewrite add_bytes_value by assumption. destruct H as [[(_ & _ & Ht & _) _] H1].
  destruct (tuples (fst (dec bs))) as [|tp [|? ?]] eqn:Et; try discriminate. inversion Ht as [|? ? Hl _]; subst.
  unfold drop_sparse, add_value. rewrite Et. cbn [flat_map sp_idx sp_val sp_dim sp_last]. rewrite app_nil_r, !app_length.
  cbn [length]. rewrite Hl.
  match goal with |- context [if ?c then _ else _] => replace c with true by lia end.
  exists (Z.of_nat (coords_dim (fst (dec bs)))), (Z.of_nat (length (concat (snd (dec bs))))). do 2 f_equal.
  - rewrite firstn_app. replace (Z.to_nat _) with (length (sp_idx s)) by lia. rewrite firstn_all, Nat.sub_diag. cbn. now rewrite app_nil_r.
  - rewrite firstn_app. replace (Z.to_nat _) with (length (sp_val s)) by lia. rewrite firstn_all, Nat.sub_diag. cbn. now rewrite app_nil_r.
Qed.

Lemma add_over dec bs k s d l : one_point dec bs -> add_bytes dec bs k (SP d (sp_idx s) (sp_val s) l) = add_bytes dec bs k s.
Proof. intro H. rewrite !add_bytes_value by assumption. reflexivity. Qed.

Definition penc dec k (l : list (option (Z * list N) * sparse)) : list Z * list sparse :=
  (map (fun x => flag_at (fst x)) l, map (fun x => now_sparse dec k (fst x) (snd x)) l).
Definition pnext hist t (feats : list (option (list N))) (f : Z) (x : option (Z * list N) * sparse) :=
  (vnext hist t feats f (fst x), snd x).

Lemma point_loop p pre feats post hist t dec k fs :
  (N.of_nat (8 * length feats) < 2 ^ 64)%N -> (N.of_nat (sum (map flen (pre ++ feats ++ post))) < 2 ^ 64)%N ->
  p_nfidx p = findex (pre ++ feats ++ post) -> p_nfd p = fdata (pre ++ feats ++ post) ->
  forall l, length fs = length l -> Forall int32 fs -> Forall (fun x => dated t (fst x) /\ pointed dec (fst x)) l ->
  (forall f v, In f fs -> given feats f = Some v -> explains hist v /\ forall x, In x (hist (bytes_of v)) -> one_point dec (snd x)) ->
  node_sparse_loop p (length pre) (length pre + length feats) (Some t) k fs (fst (penc dec k l)) (snd (penc dec k l)) =
  Ok (penc dec k (zip_with (pnext hist t feats) fs l)).
Proof.
  intros S1 S2 Hidx Hdat. induction fs as [|f fs IH]; intros [|[b s] l] Hlen Hi Hb He; try discriminate; [reflexivity|].
  inversion Hi as [|? ? Hf Hi']; subst. inversion Hb as [|? ? [Hd Hp] Hb']; subst. cbn [fst snd] in *.
  unfold penc in *. cbn [node_sparse_loop map fst snd zip_with]. cbn [fst snd] in IH.
  rewrite (IH l (f_equal pred Hlen) Hi' Hb' (fun f v H => He f v (or_intror H))). cbn [bind fst snd].
  change (pnext hist t feats f (b, s)) with (vnext hist t feats f b, s). cbn [fst snd]. unfold vnext at 1 2.
  destruct (already (Some t) (flag_at b)) eqn:Eal.
  { cbn in Eal. destruct (given feats f) as [v|] eqn:Eg; [rewrite already_merge; [reflexivity| |assumption|lia]|reflexivity].
    apply (He f); [now left|assumption]. }
  rewrite Hidx. pose proof (slot_given pre feats post f S1 S2 Hf) as Hg. destruct (given feats f) as [v|] eqn:Eg.
  - destruct Hg as (Hv & a & c & Ed & Hne & Es). rewrite Es. cbn [bind snd].
    destruct (Z.eqb_spec (Z.of_nat (length (fbytes v))) 0) as [E0|_].
    { destruct (fbytes v); [congruence|cbn in E0; lia]. }
    destruct (He f v (or_introl eq_refl) Eg) as [Hx Hone].
    destruct (tlook_resolves hist t v (fdata (pre ++ feats ++ post)) Hx a c Ed) as (a' & c' & Ed' & Er).
    rewrite Hdat, Er. cbn [bind]. unfold vmerge.
    destruct (Z.leb_spec (fst (tlook hist t v)) (flag_at b)) as [H|H]; [reflexivity|].
    assert (Hol : one_point dec (snd (tlook hist t v))).
    { pose proof (entry_at_spec t (hist (bytes_of v))) as Hs. unfold tlook in *. destruct (entry_at t (hist (bytes_of v))) as [y|].
      - apply Hone. apply Hs.
      - cbn [fst] in H. destruct b; cbn in *; lia. }
    assert (Hs : exists s', (if 0 <=? flag_at b then drop_sparse (now_sparse dec k b s) else Ok (now_sparse dec k b s)) = Ok s' /\
                 add_bytes dec (snd (tlook hist t v)) k s' = add_bytes dec (snd (tlook hist t v)) k s).
    { destruct b as [y|]; cbn [flag_at now_sparse] in *.
      - cbn in Hd. destruct (Z.leb_spec 0 (fst y)); [|lia]. destruct (drop_point dec (snd y) k s Hp) as (d & l0 & E).
        exists (SP d (sp_idx s) (sp_val s) l0). split; [exact E|]. now apply add_over.
      - exists s. split; reflexivity. }
    destruct Hs as (s' & Es' & Ea). rewrite Es'. cbn [bind].
    rewrite Ed', (read_bytes dec) by (right; apply Hol). cbn [bind flag_at now_sparse fst snd]. rewrite Ea. reflexivity.
  - destruct Hg as [Hg|(a & Hg)]; rewrite Hg; reflexivity.
Qed.

Lemma pnext_none hist t fs : forall l, length fs = length l -> zip_with (pnext hist t []) fs l = l.
Proof.
  induction fs as [|f fs IH]; intros [|[b s] l] H; cbn in H; try discriminate; [reflexivity|]. cbn [zip_with].
  rewrite IH by lia. unfold pnext, vnext. rewrite given_nil. reflexivity.
Qed.

Lemma point_part m tmp r1 r r2 hist t dec k fs l :
  small (r1 ++ r :: r2) -> counted m (r1 ++ r :: r2) -> length fs = length l -> Forall int32 fs ->
  Forall (fun x => dated t (fst x) /\ pointed dec (fst x)) l ->
  (forall f v, In f fs -> given (row_feats r) f = Some v -> explains hist v /\ forall x, In x (hist (bytes_of v)) -> one_point dec (snd x)) ->
  part_node_sparse (part_of m tmp (r1 ++ r :: r2)) (length r1) (Some t) k fs (penc dec k l) =
  Ok (penc dec k (zip_with (pnext hist t (row_feats r)) fs l)).
Proof.
  intros (S1 & S2 & _) (C1 & _) Hlen Hi Hb He. unfold part_node_sparse.
  destruct (nidx_get fadd m tmp r1 r r2) as [G1 G2]. rewrite G1, G2. clear G1 G2. cbn [bind].
  assert (Hidx : p_nfidx (part_of m tmp (r1 ++ r :: r2)) =
     if (0 <? lm_nfc m)%nat then findex (all_nfeats r1 ++ row_feats r ++ all_nfeats r2) else []).
  { cbn [p_nfidx LoaderProofs.part_of]. rewrite all_nfeats_split. reflexivity. }
  assert (Hdat : p_nfd (part_of m tmp (r1 ++ r :: r2)) =
     if (0 <? lm_nfc m)%nat then fdata (all_nfeats r1 ++ row_feats r ++ all_nfeats r2) else []).
  { cbn [p_nfd LoaderProofs.part_of]. rewrite all_nfeats_split. reflexivity. }
  rewrite all_nfeats_split in *.
  destruct (Nat.ltb_spec 0 (lm_nfc m)) as [Hc|Hc].
  - rewrite Hidx. unfold findex at 1.
    destruct (psum_snoc_head 0 (map flen (all_nfeats r1 ++ row_feats r ++ all_nfeats r2))) as (q & Et).
    cbn [Nat.add] in Et. rewrite Et.
    apply (point_loop _ (all_nfeats r1) (row_feats r) (all_nfeats r2)); try assumption.
    rewrite !app_length in S1. lia.
  - rewrite Hidx. assert (Hn : lm_nfc m = 0%nat) by lia. apply C1 in Hn.
    apply app_eq_nil in Hn. destruct Hn as [_ Hn]. apply app_eq_nil in Hn. destruct Hn as [Hn _]. rewrite Hn.
    rewrite pnext_none by assumption. reflexivity.
Qed.

Lemma newest_in l : forall b y, newest_from b l = Some y -> b = Some y \/ In y l.
Proof.
  induction l as [|x l IH]; intros b y H; [now left|]. cbn [newest_from] in H. apply IH in H.
  destruct H as [H|H]; [|right; now right]. destruct b as [z|]; [destruct (fst z <? fst x)|]; auto.
  - injection H as ->. right; now left.
  - injection H as ->. right; now left.
Qed.

(** The state of the features after some rows. *)
Lemma pfold hist t dec (F : row -> list (option (list N))) fs rws ss : length fs = length ss ->
  (forall f v, In f fs -> In v (offered F rws f) -> explains hist v /\ forall x, In x (hist (bytes_of v)) -> one_point dec (snd x)) ->
  let l := fold_left (fun l r => zip_with (pnext hist t (F r)) fs l) rws (zip_with (fun (_ : Z) s => (None, s)) fs ss) in
  l = zip_with (fun f s => (spec_temporal hist t (offered F rws f), s)) fs ss /\
  Forall (fun x => dated t (fst x) /\ pointed dec (fst x)) l.
Proof.
  intros Hlen He. cbn zeta.
  rewrite (zip_fold (fun f r x => pnext hist t (F r) f x)) by (now rewrite zip_length).
  assert (E : forall f x, fold_left (fun x r => pnext hist t (F r) f x) rws x = (fold_left (fun b r => vnext hist t (F r) f b) rws (fst x), snd x)).
  { intros f. clear. induction rws as [|r rws IH]; intros [b s]; [reflexivity|]. cbn [fold_left]. rewrite IH. reflexivity. }
  revert ss Hlen. induction fs as [|f fs IH]; intros [|s ss] Hlen; cbn in Hlen; try discriminate; [split; [reflexivity|constructor]|].
  destruct (IH (fun f v Hf => He f v (or_intror Hf)) ss) as [I1 I2]; [lia|].
  cbn [zip_with]. rewrite E. cbn [fst snd].
  destruct (vnext_fold hist t F f rws None) as [R1 R2]; [intros v Hv; now apply (He f v (or_introl eq_refl))|exact I|].
  rewrite R1 in *. fold (spec_temporal hist t (offered F rws f)) in *. split; [now rewrite I1|]. constructor; [|assumption]. cbn [fst]. split; [assumption|].
  destruct (spec_temporal hist t (offered F rws f)) as [y|] eqn:Ey; [|exact I]. cbn.
  unfold spec_temporal in Ey. apply newest_in in Ey. destruct Ey as [Ey|Ey]; [discriminate|].
  apply in_flat_map in Ey. destruct Ey as (v & Hv & Hy). destruct (He f v (or_introl eq_refl) Hv) as [_ Ho]. apply Ho.
  pose proof (entry_at_spec t (hist (bytes_of v))) as Hs. destruct (entry_at t (hist (bytes_of v))) as [z|]; [|contradiction].
  destruct Hy as [<-|[]]. apply Hs.
Qed.

Lemma point_node wm parts g hist t dec fs n k ss :
  converted wm parts g -> Forall int32 fs -> length fs = length ss ->
  (forall f v, In f fs -> In v (node_values parts n f) -> explains hist v /\ forall x, In x (hist (bytes_of v)) -> one_point dec (snd x)) ->
  g_node_sparse g fs (Some t) n k ss =
  Ok (zip_with (fun f s => add_bytes dec (entry_bytes hist t (node_values parts n f)) k s) fs ss).
Proof.
  intros C Hi Hlen He. destruct (converted_small fadd wval wm parts g C) as (m & Hg & HRF & HF).
  unfold g_node_sparse. rewrite Hg. cbn [bind]. unfold lookup, found.
  assert (He' : forall f v, In f fs -> In v (offered row_feats (node_rows n (map rows parts)) f) ->
            explains hist v /\ forall x, In x (hist (bytes_of v)) -> one_point dec (snd x)).
  { intros f v Hf Hv. apply (He f); [assumption|]. now rewrite <- node_values_offered. }
  destruct (pfold hist t dec row_feats fs _ ss Hlen He') as [R _]. cbn zeta in R.
  assert (Q : forall ss', map (fun x => now_sparse dec k (fst x) (snd x))
                (zip_with (fun f s => (spec_temporal hist t (offered row_feats (node_rows n (map rows parts)) f), s)) fs ss') =
              zip_with (fun f s => add_bytes dec (entry_bytes hist t (node_values parts n f)) k s) fs ss').
  { clear. induction fs as [|f fs IH]; intros [|s ss']; try reflexivity. cbn [zip_with map fst snd]. rewrite IH. f_equal.
    rewrite node_values_offered. unfold entry_bytes, now_sparse. destruct (spec_temporal hist t (node_values parts n f)); reflexivity. }
  assert (P0 : (map (fun _ => -1) fs, ss) = penc dec k (zip_with (fun (_ : Z) s => (None, s)) fs ss)).
  { unfold penc. clear -Hlen. f_equal; revert ss Hlen; induction fs as [|f fs IH]; intros [|s ss] H; cbn in *; try discriminate; try reflexivity;
    f_equal; apply IH; lia. }
  destruct (places (part_of m (is_temporal wm)) n (map rows parts)) as [|o os] eqn:Ep.
  - apply places_nil in Ep. rewrite Ep in R. cbn [fold_left] in R. rewrite Ep in Q. rewrite <- Q, <- R.
    change (map (fun x => now_sparse dec k (fst x) (snd x)) ?l) with (snd (penc dec k l)). now rewrite <- P0.
  - rewrite <- Ep. rewrite P0.
    rewrite (foldM_rows (fun p i st => part_node_sparse p i (Some t) k fs st) (penc dec k)
               (fun l r => zip_with (pnext hist t (row_feats r)) fs l)
               _ _ _ _ _ _ (places_rows _ n (map rows parts))).
    + cbn [bind]. rewrite R. unfold penc. cbn [snd]. now rewrite Q.
    + intros d r rest ps r1 r2 E Hin Eps Hn. rewrite Forall_forall in HF. destruct (HF ps Hin) as [Hs Hc]. subst ps.
      assert (Hd : forall f v, In f fs -> In v (offered row_feats d f) -> explains hist v /\ forall x, In x (hist (bytes_of v)) -> one_point dec (snd x)).
      { intros f v Hf Hv. apply (He' f); [assumption|]. rewrite E, offered_app. apply in_or_app. now left. }
      destruct (pfold hist t dec row_feats fs d ss Hlen Hd) as [Pd Pf]. cbn zeta in Pd, Pf.
      apply point_part; try assumption.
      * rewrite Pd. rewrite zip_length by assumption. reflexivity.
      * intros f v Hf Hv. destruct (given_in row_feats (node_rows n (map rows parts)) r f v) as [Hv' _]; [now apply row_in_parts with r1 r2|assumption|].
        now apply (He' f).
Qed.

Theorem newest_node_sparse wm parts g nodes fs ts hist dec :
  converted wm parts g -> Forall int32 fs ->
  (forall n f v, In n nodes -> In f fs -> In v (node_values parts n f) -> explains hist v) ->
  (forall n f v x, In n nodes -> In f fs -> In v (node_values parts n f) -> In x (hist (bytes_of v)) -> one_point dec (snd x)) ->
  exists ss, node_sparse_features g nodes fs (Some ts) = Ok ss /\
    sparse_answer dec (fun f => map (fun x => entry_bytes hist (snd x) (node_values parts (fst x) f)) (combine nodes ts)) fs ss.
Proof.
  intros C Hi He Hd. unfold node_sparse_features, stamps.
  destruct (sparse_answers (fun n t k ss => g_node_sparse g fs t n k ss) dec
              (fun x f => match snd x with Some t => entry_bytes hist t (node_values parts (fst x) f) | None => [] end) fs
              (map (fun x : Z * Z => (fst x, Some (snd x))) (combine nodes ts))) as (ss & E & A).
  - intros n t k ss Hin Hlen. apply in_map_iff in Hin. destruct Hin as ([n' t'] & E & Hin). injection E as -> <-. cbn [fst snd] in *.
    apply in_combine_l in Hin. apply (point_node wm parts); try assumption. intros f v Hf Hv.
    split; [eapply He; eassumption|]. intros x Hx. eapply Hd; eassumption.
  - exists ss. split; [exact E|]. unfold sparse_answer in *. destruct A as (A1 & A2 & A3). split; [|split].
    + rewrite A1. apply map_ext. intro f. now rewrite !map_map.
    + rewrite A2. apply map_ext. intro f. now rewrite !map_map.
    + rewrite A3. apply map_ext. intro f. now rewrite !map_map.
Qed.
End Newest.
