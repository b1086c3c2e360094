(** Sparse features of nodes and edges. *)
From Verif Require Import Base WriterModel LoaderModel GraphModel GraphSpec FeatureModel FeatureSpec
  WriterProofs LoaderProofs QueryProofs GraphProofs ConvertProofs AnswerProofs FeatureProofs EdgeFeatureProofs TemporalProofs
  StringProofs TemporalStringProofs.
From Coq Require Import Sorting.Sorted ZifyBool ZifyNat ZifyN.
Local Open Scope Z_scope.

(** ** Reading one value back *)

Definition tuples (c : coords) : list (list Z) := match c with Flat xs => map (fun x => [x]) xs | Grid _ rs => rs end.

(** One coordinate tuple per value, coordinates are 64 bit, counts are 32 bit. *)
Definition coords_ok (c : coords) (vs : list (list N)) : Prop :=
  coords_len c = length vs /\ (0 < coords_dim c)%nat /\ Forall (fun t => length t = coords_dim c) (tuples c) /\
  Forall (fun x => - 2 ^ 63 <= x < 2 ^ 63) (coords_all c) /\
  Z.of_nat (length (coords_all c)) < 2 ^ 32 /\ Z.of_nat (coords_dim c) < 2 ^ 32 /\
  Z.of_nat (length (concat vs)) < 2 ^ 62.

Lemma coords_all_tuples c : coords_all c = concat (tuples c).
Proof. destruct c as [xs|d rs]; [|reflexivity]. cbn. induction xs as [|x xs IH]; [reflexivity|]. cbn. now rewrite <- IH. Qed.
Lemma tuples_length c : length (tuples c) = coords_len c.
Proof. destruct c; cbn; [apply map_length|reflexivity]. Qed.

Lemma concat_const {A} d (l : list (list A)) : Forall (fun t => length t = d) l -> length (concat l) = (length l * d)%nat.
Proof. induction 1 as [|t l Ht _ IH]; [reflexivity|]. cbn. rewrite app_length, IH, Ht. lia. Qed.

Lemma unzle_zles l : Forall (fun x => - 2 ^ 63 <= x < 2 ^ 63) l -> map (unzle 8) (fields 8 (flat_map (zle 8) l)) = l.
Proof.
  intro H. rewrite fields_zle, map_map. induction H as [|x l Hx _ IH]; [reflexivity|]. cbn [map]. rewrite IH. f_equal.
  apply unzle_zle; [lia|]. exact Hx.
Qed.

Lemma read_coords_spec dim prefix ts : forall a b,
  Forall (fun t => length t = dim) ts -> Forall (fun x => - 2 ^ 63 <= x < 2 ^ 63) (concat ts) ->
  read_coords (a ++ flat_map (zle 8) (concat ts) ++ b) (Z.of_nat (length a)) dim prefix (length ts) =
  Ok (flat_map (fun t => prefix :: t) ts).
Proof.
  induction ts as [|t ts IH]; intros a b Hd Hx; [reflexivity|]. inversion Hd as [|? ? Ht Hd']; subst.
  cbn [concat] in Hx. apply Forall_app in Hx. destruct Hx as [Hx1 Hx2].
  cbn [length read_coords concat flat_map]. rewrite flat_map_app', <- app_assoc.
  assert (El : length (flat_map (zle 8) t) = (8 * length t)%nat).
  { rewrite (flat_map_length_const 8); [lia|]. intros; apply zle_length. }
  rewrite (sread_ok _ a (flat_map (zle 8) t) (flat_map (zle 8) (concat ts) ++ b)) by (reflexivity || lia).
  cbn [bind].
  replace (Z.of_nat (length a) + 8 * Z.of_nat (length t)) with (Z.of_nat (length (a ++ flat_map (zle 8) t)))
    by (rewrite app_length; lia).
  rewrite (app_assoc a). rewrite (IH (a ++ flat_map (zle 8) t) b Hd' Hx2). cbn [bind]. now rewrite unzle_zles.
Qed.

Definition add_value (c : coords) (vs : list (list N)) (prefix : Z) (s : sparse) : sparse :=
  SP (Z.of_nat (coords_dim c)) (sp_idx s ++ flat_map (fun t => prefix :: t) (tuples c)) (sp_val s ++ concat vs)
     (Z.of_nat (length (concat vs))).

Lemma unle_cu32 n : Z.of_nat n < 2 ^ 32 -> unle (cu32 n) = N.of_nat n.
Proof. intro H. unfold cu32. apply unle_le. change (256 ^ N.of_nat 4)%N with (2 ^ 32)%N. lia. Qed.

Lemma sparse_round_trip c vs bs a b prefix s :
  coords_ok c vs -> convert_feature (FSparse c vs) = Ok (Some bs) ->
  read_sparse (a ++ bs ++ b) (Z.of_nat (length a)) (Z.of_nat (length bs)) prefix s = Ok (add_value c vs prefix s).
Proof.
  intros (H1 & H2 & H3 & H4 & H5 & H6 & H7) E. unfold convert_feature in E.
  destruct ((coords_len c =? 0)%nat || (length vs =? 0)%nat) eqn:E0; [discriminate|].
  match type of E with (if ?f then _ else _) = _ => destruct f; [|discriminate] end.
  assert (Ebs : bs = cu32 (length (coords_all c)) ++ cu32 (coords_dim c) ++ flat_map (zle 8) (coords_all c) ++ concat vs) by congruence.
  clear E. subst bs.
  assert (Hk : (0 < length (tuples c))%nat).
  { rewrite tuples_length. destruct (coords_len c); [discriminate|lia]. }
  assert (Hn : length (coords_all c) = (length (tuples c) * coords_dim c)%nat).
  { rewrite coords_all_tuples. now apply concat_const. }
  assert (L8 : length (flat_map (zle 8) (coords_all c)) = (8 * length (coords_all c))%nat).
  { rewrite (flat_map_length_const 8); [lia|]. intros; apply zle_length. }
  assert (L4 : forall n, length (cu32 n) = 4%nat) by (intro; apply le_length).
  assert (Hpos : (0 < length (coords_all c))%nat) by (rewrite Hn; nia).
  unfold read_sparse. rewrite !app_length, !L4, L8.
  destruct (Z.leb_spec (Z.of_nat (4 + (4 + (8 * length (coords_all c) + length (concat vs))))) 12); [lia|].
  rewrite <- !app_assoc.
  rewrite (sread_ok _ a (cu32 (length (coords_all c)))
    (cu32 (coords_dim c) ++ flat_map (zle 8) (coords_all c) ++ concat vs ++ b)) by (reflexivity || now rewrite L4).
  cbn [bind].
  rewrite (sread_ok _ (a ++ cu32 (length (coords_all c))) (cu32 (coords_dim c)) (flat_map (zle 8) (coords_all c) ++ concat vs ++ b))
    by (rewrite ?L4, <- ?app_assoc, ?app_length, ?L4; (reflexivity || lia)).
  cbn [bind]. rewrite !unle_cu32 by assumption.
  destruct (N.eqb_spec (N.of_nat (coords_dim c)) 0); [lia|].
  assert (Hdiv : (N.of_nat (length (coords_all c)) / N.of_nat (coords_dim c))%N = N.of_nat (length (tuples c))).
  { rewrite Hn, Nat2N.inj_mul. apply N.div_mul. lia. }
  rewrite Hdiv, !Nat2N.id, !nat_N_Z.
  pose proof (read_coords_spec (coords_dim c) prefix (tuples c) (a ++ cu32 (length (coords_all c)) ++ cu32 (coords_dim c))
                (concat vs ++ b) H3) as RC.
  rewrite <- coords_all_tuples in RC. specialize (RC H4). rewrite <- !app_assoc in RC.
  replace (Z.of_nat (length (a ++ cu32 (length (coords_all c)) ++ cu32 (coords_dim c)))) with (Z.of_nat (length a) + 8) in RC
    by (rewrite !app_length, !L4; lia).
  rewrite RC. cbn [bind].
  assert (Elen : u64 (Z.of_nat (4 + (4 + (8 * length (coords_all c) + length (concat vs)))) -
                      8 * Z.of_nat (length (coords_all c)) - 8) = Z.of_nat (length (concat vs))).
  { rewrite u64_small; lia. }
  rewrite Elen.
  rewrite (sread_ok _ (a ++ cu32 (length (coords_all c)) ++ cu32 (coords_dim c) ++ flat_map (zle 8) (coords_all c)) (concat vs) b);
    [|now rewrite <- !app_assoc|rewrite !app_length, !L4, L8, Hn; nia|reflexivity].
  cbn [bind]. unfold add_value. rewrite Hn. replace (length (tuples c) * coords_dim c - coords_dim c * length (tuples c))%nat with 0%nat by nia.
  cbn [repeat]. now rewrite app_nil_r.
Qed.

(** ** Loops *)

(** Bytes decoded by [dec]; the empty value adds nothing. *)
Definition add_bytes (dec : list N -> coords * list (list N)) (bs : list N) (prefix : Z) (s : sparse) : sparse :=
  match bs with [] => s | _ => add_value (fst (dec bs)) (snd (dec bs)) prefix s end.
Definition decodes (dec : list N -> coords * list (list N)) (bs : list N) : Prop :=
  coords_ok (fst (dec bs)) (snd (dec bs)) /\ convert_feature (FSparse (fst (dec bs)) (snd (dec bs))) = Ok (Some bs).

Lemma read_bytes dec bs a b prefix s : bs = [] \/ decodes dec bs ->
  read_sparse (a ++ bs ++ b) (Z.of_nat (length a)) (Z.of_nat (length bs)) prefix s = Ok (add_bytes dec bs prefix s).
Proof.
  intros [->|[H1 H2]]; [reflexivity|]. rewrite (sparse_round_trip _ _ _ _ _ _ _ H1 H2). f_equal.
  destruct bs; [|reflexivity]. unfold convert_feature in H2. destruct (_ || _); [discriminate|].
  match type of H2 with (if ?f then _ else _) = _ => destruct f; [|discriminate] end.
  exfalso. apply (f_equal (fun r => match r with Ok (Some (_ :: _)) => true | _ => false end)) in H2. discriminate.
Qed.

Definition kres (ts : option Z) (look : option (list N) -> Z * list N) dec prefix (feats : list (option (list N))) (f : Z)
    (x : Z * sparse) : Z * sparse :=
  if already ts (fst x) then x
  else match given feats f with
       | None => x
       | Some v => (fst (look v), add_bytes dec (snd (look v)) prefix (snd x))
       end.

Definition kready (ts : option Z) (feats : list (option (list N))) (f : Z) (x : Z * sparse) : Prop :=
  fst x = -1 \/ already ts (fst x) = true \/ given feats f = None.
Definition kenc (l : list (Z * sparse)) : list Z * list sparse := (map fst l, map snd l).

Section Loops.
Variables (p : partition) (pre feats post : list (option (list N))) (ts : option Z) (look : option (list N) -> Z * list N)
  (dec : list N -> coords * list (list N)) (prefix : Z).
Hypothesis Hsz1 : (N.of_nat (8 * length feats) < 2 ^ 64)%N.
Hypothesis Hsz2 : (N.of_nat (sum (map flen (pre ++ feats ++ post))) < 2 ^ 64)%N.
Definition looked (fs : list Z) : Prop := forall f v, In f fs -> given feats f = Some v ->
  resolves (fdata (pre ++ feats ++ post)) ts look v /\ look_ok look v /\ (snd (look v) = [] \/ decodes dec (snd (look v))).

Lemma node_sparse_spec fs : p_nfidx p = findex (pre ++ feats ++ post) -> p_nfd p = fdata (pre ++ feats ++ post) ->
  forall segs, Forall int32 fs -> looked fs -> Forall2 (kready ts feats) fs segs ->
  node_sparse_loop p (length pre) (length pre + length feats) ts prefix fs (map fst segs) (map snd segs) =
  Ok (kenc (zip_with (kres ts look dec prefix feats) fs segs)).
Proof.
  intros Hidx Hdat.
  induction fs as [|f fs IH]; intros segs Hi Hlook HS; inversion HS as [|? [flag s] ? segs' Hl HS']; subst; [reflexivity|].
  inversion Hi as [|? ? Hf Hi']; subst. cbn [node_sparse_loop map]. cbn [fst snd].
  rewrite (IH segs' Hi' (fun f v H => Hlook f v (or_intror H)) HS'). unfold kenc. cbn [zip_with map bind fst snd].
  set (x' := kres ts look dec prefix feats f (flag, s)). unfold kres in x'. cbn [fst snd] in x'.
  unfold kready in Hl. cbn [fst] in Hl.
  destruct (already ts flag) eqn:Eal; [reflexivity|].
  rewrite Hidx. pose proof (slot_given pre feats post f Hsz1 Hsz2 Hf) as Hg. destruct (given feats f) as [v|] eqn:Eg.
  - destruct Hg as (Hv & a & b & Ed & Hne & Es). rewrite Es. cbn [bind snd].
    destruct (Z.eqb_spec (Z.of_nat (length (fbytes v))) 0) as [E0|_].
    { destruct (fbytes v); [congruence|cbn in E0; lia]. }
    destruct (Hlook f v (or_introl eq_refl) Eg) as (Hr & Hok & Hdec).
    destruct (Hr a b Ed) as (a' & b' & Ed' & Er). rewrite Hdat, Er. cbn [bind].
    destruct Hl as [Hl|[Hl|Hl]]; [|congruence|congruence]. subst flag.
    subst x'. cbn [fst snd]. destruct Hok as [Hok|Hok].
    + destruct (Z.leb_spec (fst (look v)) (-1)); [lia|]. change (0 <=? -1) with false. cbv iota. cbn [bind].
      rewrite Ed', (read_bytes dec) by assumption. reflexivity.
    + rewrite Hok. cbn [fst snd add_bytes]. change (-1 <=? -1) with true. reflexivity.
  - destruct Hg as [Hg|(a & Hg)]; rewrite Hg; reflexivity.
Qed.

Lemma edge_sparse_spec fs : p_efidx p = findex (pre ++ feats ++ post) -> p_efd p = fdata (pre ++ feats ++ post) ->
  forall segs, Forall int32 fs -> looked fs -> Forall2 (kready ts feats) fs segs ->
  edge_sparse_loop p (length pre) (length pre + length feats) ts prefix fs (map fst segs) (map snd segs) =
  Ok (kenc (zip_with (kres ts look dec prefix feats) fs segs)).
Proof.
  intros Hidx Hdat.
  induction fs as [|f fs IH]; intros segs Hi Hlook HS; inversion HS as [|? [flag s] ? segs' Hl HS']; subst; [reflexivity|].
  inversion Hi as [|? ? Hf Hi']; subst. cbn [edge_sparse_loop map]. cbn [fst snd].
  rewrite (IH segs' Hi' (fun f v H => Hlook f v (or_intror H)) HS'). unfold kenc. cbn [zip_with map bind fst snd].
  set (x' := kres ts look dec prefix feats f (flag, s)). unfold kres in x'. cbn [fst snd] in x'.
  destruct (already ts flag) eqn:Eal; [reflexivity|].
  rewrite Hidx. pose proof (slot_given pre feats post f Hsz1 Hsz2 Hf) as Hg. destruct (given feats f) as [v|] eqn:Eg.
  - destruct Hg as (Hv & a & b & Ed & Hne & Es). rewrite Es. cbn [bind snd].
    destruct (Z.eqb_spec (Z.of_nat (length (fbytes v))) 0) as [E0|_].
    { destruct (fbytes v); [congruence|cbn in E0; lia]. }
    destruct (Hlook f v (or_introl eq_refl) Eg) as (Hr & Hok & Hdec).
    destruct (Hr a b Ed) as (a' & b' & Ed' & Er). rewrite Hdat, Er. cbn [bind].
    subst x'. cbn [fst snd]. rewrite Ed', (read_bytes dec) by assumption. reflexivity.
  - destruct Hg as [Hg|(a & Hg)]; rewrite Hg; reflexivity.
Qed.
End Loops.

Lemma kres_none ts look dec prefix feats fs segs : length fs = length segs -> (forall f, In f fs -> given feats f = None) ->
  zip_with (kres ts look dec prefix feats) fs segs = segs.
Proof.
  revert segs. induction fs as [|f fs IH]; intros [|x segs] Hl Hn; cbn in Hl; try discriminate; [reflexivity|].
  cbn [zip_with]. rewrite IH by (try lia; intros; apply Hn; now right). f_equal. unfold kres. rewrite (Hn f) by now left.
  destruct (already ts (fst x)); reflexivity.
Qed.

(** ** Folding over rows: features are independent *)

Definition nonempty (v : option (list N)) : bool := negb (length (bytes_of v) =? 0)%nat.
Definition single (ts : option Z) (vs : list (option (list N))) : Prop := ts = None \/ (length (filter nonempty vs) <= 1)%nat.

Lemma chosen_nonempty look vs : chosen look vs = match filter nonempty vs with v :: _ => snd (look v) | [] => [] end.
Proof. reflexivity. Qed.

Lemma offered_app F a b f : offered F (a ++ b) f = offered F a f ++ offered F b f.
Proof. apply flat_map_app'. Qed.

Lemma given_offered F r f : filter nonempty (offered F [r] f) = opt_list (given (F r) f).
Proof.
  unfold offered, given. cbn [flat_map]. rewrite app_nil_r. destruct (value_at (F r) f) as [v|]; [|reflexivity].
  cbn. unfold nonempty. destruct (length (bytes_of v) =? 0)%nat; reflexivity.
Qed.

(** After any rows the feature is untouched or holds the first value. *)
Lemma krows_fold ts look dec prefix F f rws s :
  single ts (offered F rws f) ->
  (forall v, In v (offered F rws f) -> bytes_of v <> [] -> look_ok look v /\ timely ts look v) ->
  (ts = None -> forall v, fst (look v) = 0) ->
  let x := fold_left (fun x r => kres ts look dec prefix (F r) f x) rws (-1, s) in
  snd x = add_bytes dec (chosen look (offered F rws f)) prefix s /\
  (filter nonempty (offered F rws f) = [] -> x = (-1, s)) /\
  (filter nonempty (offered F rws f) <> [] -> ts = None -> fst x = 0).
Proof.
  intros Hs Hl H0. induction rws as [|r rws IH] using rev_ind; [cbn; repeat split; congruence|].
  cbn zeta in *. rewrite fold_left_app. cbn [fold_left]. rewrite offered_app in *.
  destruct IH as (I1 & I2 & I3).
  { destruct Hs as [Hs|Hs]; [now left|]. right. rewrite filter_app, app_length in Hs. lia. }
  { intros v Hv. apply Hl. apply in_or_app. now left. }
  set (x := fold_left (fun x r => kres ts look dec prefix (F r) f x) rws (-1, s)) in *. clearbody x.
  rewrite !chosen_nonempty in *. rewrite !filter_app, !given_offered.
  assert (Hg : forall v, given (F r) f = Some v -> look_ok look v /\ timely ts look v).
  { intros v Ev. assert (In v (filter nonempty (offered F [r] f))) by (rewrite given_offered, Ev; now left).
    apply filter_In in H. destruct H as [Hv Hb]. apply Hl; [apply in_or_app; now right|]. unfold nonempty in Hb. intro E. rewrite E in Hb. discriminate. }
  destruct (filter nonempty (offered F rws f)) as [|v0 l] eqn:Ef.
  - cbn [app]. rewrite (I2 eq_refl) in *. unfold kres. cbn [fst snd] in *.
    destruct (given (F r) f) as [v|] eqn:Eg; cbn [opt_list].
    + destruct (Hg v eq_refl) as [Hok Htm]. destruct (already ts (-1)) eqn:Ea.
      * unfold timely in Htm. rewrite (Htm Ea). cbn. repeat split; try congruence. intros _ ->. discriminate.
      * cbn [fst snd]. split; [reflexivity|]. split; [congruence|]. intros _ E. now apply H0.
    + destruct (already ts (-1)); cbn; repeat split; congruence.
  - cbn [app]. destruct Hs as [Hs|Hs].
    + subst ts. specialize (I3 ltac:(discriminate) eq_refl). unfold kres. rewrite I3. cbn [already].
      change (0 <=? 0) with true. cbv iota. repeat split; try assumption; congruence.
    + rewrite filter_app, app_length, Ef, given_offered in Hs. cbn in Hs. unfold kres.
      destruct (given (F r) f) as [v|] eqn:Eg; [cbn in Hs; lia|]. cbn [opt_list].
      destruct (already ts (fst x)); repeat split; try assumption; try congruence; intros; apply I3; congruence.
Qed.

Lemma kready_fold ts look dec prefix F f rws1 r rws2 s :
  single ts (offered F (rws1 ++ r :: rws2) f) ->
  (forall v, In v (offered F rws1 f) -> bytes_of v <> [] -> look_ok look v /\ timely ts look v) ->
  (ts = None -> forall v, fst (look v) = 0) ->
  kready ts (F r) f (fold_left (fun x r => kres ts look dec prefix (F r) f x) rws1 (-1, s)).
Proof.
  intros Hs Hl H0. change (r :: rws2) with ([r] ++ rws2) in Hs. rewrite !offered_app in Hs.
  destruct (krows_fold ts look dec prefix F f rws1 s) as (K1 & K2 & K3); try assumption.
  { destruct Hs as [Hs|Hs]; [now left|]. right. rewrite filter_app, app_length in Hs. lia. }
  unfold kready. destruct (filter nonempty (offered F rws1 f)) as [|v l] eqn:E.
  - left. now rewrite (K2 eq_refl).
  - right. destruct Hs as [->|Hs].
    + left. rewrite K3 by (congruence || reflexivity). reflexivity.
    + right. rewrite filter_app, app_length, filter_app, app_length, E, given_offered in Hs. cbn in Hs.
      destruct (given (F r) f); [cbn in Hs; lia|reflexivity].
Qed.

(** ** Queries *)

Lemma sparse_loop_pure {A} (q : A -> option Z -> Z -> list sparse -> res (list sparse))
    (D : A * option Z -> Z -> sparse -> Z -> sparse) (fs : list Z) xs : forall k ss,
  length fs = length ss ->
  (forall x t k ss, In (x, t) xs -> length fs = length ss -> q x t k ss = Ok (zip_with (fun f s => D (x, t) k s f) fs ss)) ->
  sparse_loop q k xs ss =
  Ok (zip_with (fun f s => fst (fold_left (fun sk x => (D x (snd sk) (fst sk) f, snd sk + 1)) xs (s, k))) fs ss).
Proof.
  induction xs as [|[x t] xs IH]; intros k ss Hl H.
  - cbn. f_equal. clear -Hl. revert ss Hl. induction fs as [|f fs IH]; intros [|s ss] H; cbn in *; try discriminate; [reflexivity|].
    f_equal. apply IH. lia.
  - cbn [sparse_loop]. rewrite H by (assumption || now left). cbn [bind]. rewrite IH.
    + f_equal. clear -Hl. revert ss Hl. induction fs as [|f fs IH]; intros [|s ss] H; cbn [zip_with] in *; cbn in H; try discriminate; [reflexivity|].
      f_equal. apply IH. lia.
    + rewrite zip_length by assumption. reflexivity.
    + intros; apply H; [now right|assumption].
Qed.

Section GraphSparse.
Variables (fadd : N -> N -> N) (wval : N -> Z).
Notation part_of := (part_of fadd).
Notation converted := (converted fadd wval).

Lemma Forall2_len {A B} (P : A -> B -> Prop) l m : Forall2 P l m -> length l = length m.
Proof. induction 1; cbn; congruence. Qed.

Lemma part_node_sparse_spec m tmp r1 r r2 ts look dec prefix fs segs :
  small (r1 ++ r :: r2) -> counted m (r1 ++ r :: r2) -> Forall int32 fs ->
  Forall2 (kready ts (row_feats r)) fs segs ->
  (forall f v data, In f fs -> given (row_feats r) f = Some v ->
     resolves data ts look v /\ look_ok look v /\ (snd (look v) = [] \/ decodes dec (snd (look v)))) ->
  part_node_sparse (part_of m tmp (r1 ++ r :: r2)) (length r1) ts prefix fs (kenc segs) =
  Ok (kenc (zip_with (kres ts look dec prefix (row_feats r)) fs segs)).
Proof.
  intros (S1 & S2 & _) (C1 & _) Hi HS Hl. unfold part_node_sparse, kenc at 2 3. cbn [fst snd].
  destruct (nidx_get fadd m tmp r1 r r2) as [G1 G2]. rewrite G1, G2. clear G1 G2. cbn [bind].
  assert (Hidx : p_nfidx (part_of m tmp (r1 ++ r :: r2)) =
     if (0 <? lm_nfc m)%nat then findex (all_nfeats r1 ++ row_feats r ++ all_nfeats r2) else []).
  { cbn [p_nfidx LoaderProofs.part_of]. rewrite all_nfeats_split. reflexivity. }
  assert (Hdat : p_nfd (part_of m tmp (r1 ++ r :: r2)) =
     if (0 <? lm_nfc m)%nat then fdata (all_nfeats r1 ++ row_feats r ++ all_nfeats r2) else []).
  { cbn [p_nfd LoaderProofs.part_of]. rewrite all_nfeats_split. reflexivity. }
  rewrite all_nfeats_split in *.
  destruct (Nat.ltb_spec 0 (lm_nfc m)) as [Hc|Hc].
  - rewrite Hidx. unfold findex at 1.
    destruct (psum_snoc_head 0 (map flen (all_nfeats r1 ++ row_feats r ++ all_nfeats r2))) as (t & Et).
    cbn [Nat.add] in Et. rewrite Et.
    apply (node_sparse_spec _ (all_nfeats r1) (row_feats r) (all_nfeats r2)); try assumption.
    + rewrite !app_length in S1. lia.
    + intros f v Hf Hv. now apply (Hl f).
  - rewrite Hidx. assert (Hn : lm_nfc m = 0%nat) by lia. apply C1 in Hn.
    apply app_eq_nil in Hn. destruct Hn as [_ Hn]. apply app_eq_nil in Hn. destruct Hn as [Hn _]. rewrite Hn.
    rewrite kres_none; [reflexivity| |intros; apply given_nil]. eapply Forall2_len; eassumption.
Qed.

Lemma part_edge_sparse_spec m tmp r1 r r2 s dst ty ts look dec prefix fs segs :
  small (r1 ++ r :: r2) -> counted m (r1 ++ r :: r2) -> row_facts r -> searchable r -> Forall int32 fs ->
  Forall2 (kready ts (edge_row_feats (s, dst, ty) r)) fs segs ->
  (forall f v data, In f fs -> given (edge_row_feats (s, dst, ty) r) f = Some v ->
     resolves data ts look v /\ look_ok look v /\ (snd (look v) = [] \/ decodes dec (snd (look v)))) ->
  part_edge_sparse (part_of m tmp (r1 ++ r :: r2)) (length r1) dst ty ts prefix fs (kenc segs) =
  Ok (kenc (zip_with (kres ts look dec prefix (edge_row_feats (s, dst, ty) r)) fs segs)).
Proof.
  intros (_ & _ & S1 & S2) (_ & C1) HR HSr Hi HS Hl. unfold part_edge_sparse.
  pose proof (edge_place fadd m tmp r1 r r2 s dst ty HR HSr) as EP. unfold edge_row_feats in *.
  destruct (find (same_edge (s, dst, ty)) (row_edges r)) as [x|].
  2:{ rewrite EP. cbn [bind]. rewrite kres_none; [reflexivity| |intros; apply given_nil]. eapply Forall2_len; eassumption. }
  destruct EP as (l1 & l2 & Ea & Hx & ->). cbn [bind].
  assert (Hidx : p_efidx (part_of m tmp (r1 ++ r :: r2)) =
     if (0 <? lm_efc m)%nat then findex (all_efeats l1 ++ e_feats x ++ all_efeats l2) else []).
  { cbn [p_efidx LoaderProofs.part_of]. rewrite Ea, all_efeats_split. reflexivity. }
  assert (Hdat : p_efd (part_of m tmp (r1 ++ r :: r2)) =
     if (0 <? lm_efc m)%nat then fdata (all_efeats l1 ++ e_feats x ++ all_efeats l2) else []).
  { cbn [p_efd LoaderProofs.part_of]. rewrite Ea, all_efeats_split. reflexivity. }
  rewrite Ea, all_efeats_split in *.
  destruct (Nat.ltb_spec 0 (lm_efc m)) as [Hc|Hc].
  - destruct (foff_get fadd m tmp _ _ _ _ Ea Hc) as (F1 & F2 & F3). cbn zeta in *.
    destruct (p_foff (part_of m tmp (r1 ++ r :: r2))) as [|o os]; [congruence|].
    rewrite F2. rewrite Hidx at 1. unfold findex at 1.
    destruct (psum_snoc_head 0 (map flen (all_efeats l1 ++ e_feats x ++ all_efeats l2))) as (t & Et).
    cbn [Nat.add] in Et. rewrite Et. cbn [bind]. rewrite F3. cbn [bind]. unfold kenc at 1 2. cbn [fst snd].
    apply (edge_sparse_spec _ (all_efeats l1) (e_feats x) (all_efeats l2)); try assumption.
    + rewrite !app_length in S1. lia.
    + intros f v Hf Hv. now apply (Hl f).
  - rewrite Hidx. assert (Hn : lm_efc m = 0%nat) by lia. apply C1 in Hn.
    apply app_eq_nil in Hn. destruct Hn as [_ Hn]. apply app_eq_nil in Hn. destruct Hn as [Hn _]. rewrite Hn.
    rewrite kres_none; [destruct (p_foff _); reflexivity| |intros; apply given_nil]. eapply Forall2_len; eassumption.
Qed.

Lemma kstart (fs : list Z) ss : length fs = length ss ->
  (map (fun _ => -1) fs, ss) = kenc (zip_with (fun (_ : Z) s => (-1, s)) fs ss).
Proof.
  intro H. unfold kenc. f_equal; revert ss H; induction fs as [|f fs IH]; intros [|s ss] H; cbn in *; try discriminate; try reflexivity;
  f_equal; apply IH; lia.
Qed.

Lemma kfold_zip ts look dec prefix (F : row -> list (option (list N))) fs rws ss : length fs = length ss ->
  fold_left (fun segs r => zip_with (kres ts look dec prefix (F r)) fs segs) rws (zip_with (fun (_ : Z) s => (-1, s)) fs ss) =
  zip_with (fun f s => fold_left (fun x r => kres ts look dec prefix (F r) f x) rws (-1, s)) fs ss.
Proof.
  intro H. rewrite (zip_fold (fun f r x => kres ts look dec prefix (F r) f x)) by (now rewrite zip_length).
  revert ss H; induction fs as [|f fs IH]; intros [|s ss] H; cbn [zip_with] in *; cbn in H; try discriminate; [reflexivity|].
  f_equal. apply IH. lia.
Qed.

Lemma kready_all ts look dec prefix (F : row -> list (option (list N))) fs rws1 r rws2 ss : length fs = length ss ->
  (forall f, In f fs -> single ts (offered F (rws1 ++ r :: rws2) f)) ->
  (forall f v, In f fs -> In v (offered F rws1 f) -> bytes_of v <> [] -> look_ok look v /\ timely ts look v) ->
  (ts = None -> forall v, fst (look v) = 0) ->
  Forall2 (kready ts (F r)) fs (fold_left (fun segs r => zip_with (kres ts look dec prefix (F r)) fs segs) rws1
                                  (zip_with (fun (_ : Z) s => (-1, s)) fs ss)).
Proof.
  intros H Hs Hl H0. rewrite kfold_zip by assumption. revert ss H. induction fs as [|f fs IH]; intros [|s ss] H; cbn in H; try discriminate; constructor.
  - eapply kready_fold; try eassumption; [apply Hs; now left|]. intros; eapply Hl; try eassumption. now left.
  - apply IH; [intros; apply Hs; now right|intros; eapply Hl; try eassumption; now right|lia].
Qed.

Lemma offered_in F rws f v : In v (offered F rws f) -> exists r, In r rws /\ In v (F r).
Proof.
  unfold offered. intro H. apply in_flat_map in H. destruct H as (r & Hr & Hv). exists r. split; [assumption|].
  destruct (value_at (F r) f) as [w|] eqn:E; [|contradiction]. destruct Hv as [<-|[]]. apply value_at_nth in E. destruct E as [_ E].
  eapply nth_error_In; eassumption.
Qed.

Lemma kfinish ts look dec prefix (F : row -> list (option (list N))) fs rws ss : length fs = length ss ->
  (forall f, In f fs -> single ts (offered F rws f)) ->
  (forall f v, In f fs -> In v (offered F rws f) -> bytes_of v <> [] -> look_ok look v /\ timely ts look v) ->
  (ts = None -> forall v, fst (look v) = 0) ->
  map snd (fold_left (fun segs r => zip_with (kres ts look dec prefix (F r)) fs segs) rws (zip_with (fun (_ : Z) s => (-1, s)) fs ss)) =
  zip_with (fun f s => add_bytes dec (chosen look (offered F rws f)) prefix s) fs ss.
Proof.
  intros H Hs Hl H0. rewrite kfold_zip by assumption. revert ss H. induction fs as [|f fs IH]; intros [|s ss] H; cbn in H; try discriminate; [reflexivity|].
  cbn [zip_with map]. rewrite IH; [|intros; apply Hs; now right|intros f0 v0 Hf0; apply Hl; now right|lia]. f_equal.
  destruct (krows_fold ts look dec prefix F f rws s) as (K & _); try assumption; [apply Hs; now left|].
  intros v Hv Hb. apply (Hl f); [now left|assumption|assumption].
Qed.

Lemma given_in F rws r f v : In r rws -> given (F r) f = Some v -> In v (offered F rws f) /\ bytes_of v <> [].
Proof.
  unfold given, offered. intros Hr H. destruct (value_at (F r) f) as [u|] eqn:E; [|discriminate].
  destruct (Nat.eqb_spec (length (bytes_of u)) 0) as [|Hn]; [discriminate|]. injection H as <-. split.
  - apply in_flat_map. exists r. split; [assumption|]. rewrite E. now left.
  - intro Q. rewrite Q in Hn. now apply Hn.
Qed.

Lemma g_node_sparse_spec wm parts g fs ts n prefix ss look dec :
  converted wm parts g -> Forall int32 fs -> length fs = length ss ->
  (forall f, In f fs -> single ts (node_values parts n f)) ->
  (ts = None -> forall v, fst (look v) = 0) ->
  (forall f v, In f fs -> In v (node_values parts n f) -> bytes_of v <> [] ->
     (forall data, resolves data ts look v) /\ look_ok look v /\ timely ts look v /\ (snd (look v) = [] \/ decodes dec (snd (look v)))) ->
  g_node_sparse g fs ts n prefix ss =
  Ok (zip_with (fun f s => add_bytes dec (chosen look (node_values parts n f)) prefix s) fs ss).
Proof.
  intros C Hi Hlen Hu H0 Hl. destruct (converted_small fadd wval wm parts g C) as (m & Hg & HRF & HF).
  unfold g_node_sparse. rewrite Hg. cbn [bind]. unfold lookup, found.
  assert (Hl' : forall f v, In f fs -> In v (offered row_feats (node_rows n (map rows parts)) f) -> bytes_of v <> [] -> look_ok look v /\ timely ts look v)
    by (intros f v H1 H2 H3; rewrite node_values_offered in H2; destruct (Hl f v H1 H2 H3) as (_ & A & B & _); auto).
  assert (Hu' : forall f, In f fs -> single ts (offered row_feats (node_rows n (map rows parts)) f))
    by (intros f Hf; rewrite node_values_offered; now apply Hu).
  pose proof (kfinish ts look dec prefix row_feats fs _ ss Hlen Hu' Hl' H0) as R.
  assert (E : forall ss', zip_with (fun f s => add_bytes dec (chosen look (offered row_feats (node_rows n (map rows parts)) f)) prefix s) fs ss' =
              zip_with (fun f s => add_bytes dec (chosen look (node_values parts n f)) prefix s) fs ss').
  { clear. induction fs as [|f fs IH]; intros [|s ss']; try reflexivity. cbn. now rewrite node_values_offered, IH. }
  rewrite E in R. clear E.
  destruct (places (part_of m (is_temporal wm)) n (map rows parts)) as [|o os] eqn:Ep.
  - apply places_nil in Ep. rewrite Ep in R. cbn [fold_left] in R. rewrite <- R. f_equal.
    clear -Hlen. revert ss Hlen; induction fs as [|f fs IH]; intros [|s ss] H; cbn in *; try discriminate; [reflexivity|]. f_equal. apply IH. lia.
  - rewrite <- Ep. rewrite kstart by assumption.
    rewrite (foldM_rows (fun p i st => part_node_sparse p i ts prefix fs st) kenc
               (fun segs r => zip_with (kres ts look dec prefix (row_feats r)) fs segs)
               _ _ _ _ _ _ (places_rows _ n (map rows parts))).
    + cbn [bind]. unfold kenc. cbn [snd]. now rewrite R.
    + intros d r rest ps r1 r2 E Hin Eps Hn. rewrite Forall_forall in HF. destruct (HF ps Hin) as [Hs Hc]. subst ps.
      apply part_node_sparse_spec; try assumption.
      * eapply (kready_all ts look dec prefix row_feats fs d r rest); [assumption| | |assumption].
        -- intros f Hf. rewrite <- E. now apply Hu'.
        -- intros f v Hf Hv Hb. apply (Hl' f); try assumption. rewrite E, offered_app. apply in_or_app. now left.
      * intros f v data Hf Hv. destruct (given_in row_feats (node_rows n (map rows parts)) r f v) as [Hv' Hb]; [now apply row_in_parts with r1 r2|assumption|].
        rewrite node_values_offered in Hv'. destruct (Hl f v) as (L1 & L2 & _ & L3); auto.
Qed.

Lemma g_edge_sparse_spec wm parts g fs ts e prefix ss look dec :
  converted wm parts g -> Forall int32 fs -> length fs = length ss ->
  Forall (fun r => row_id r = fst (fst e) -> searchable r) (flat_map rows parts) ->
  (forall f, In f fs -> single ts (edge_values parts e f)) ->
  (ts = None -> forall v, fst (look v) = 0) ->
  (forall f v, In f fs -> In v (edge_values parts e f) -> bytes_of v <> [] ->
     (forall data, resolves data ts look v) /\ look_ok look v /\ timely ts look v /\ (snd (look v) = [] \/ decodes dec (snd (look v)))) ->
  g_edge_sparse g fs ts e prefix ss =
  Ok (zip_with (fun f s => add_bytes dec (chosen look (edge_values parts e f)) prefix s) fs ss).
Proof.
  intros C Hi Hlen HSr Hu H0 Hl. destruct (converted_small fadd wval wm parts g C) as (m & Hg & HRF & HF).
  pose proof (edge_values_offered parts e) as EV.
  destruct e as [[src dst] ty]. cbn [fst snd] in *.
  unfold g_edge_sparse. rewrite Hg. cbn [bind]. unfold lookup, found.
  set (F := edge_row_feats (src, dst, ty)) in *.
  assert (Hl' : forall f v, In f fs -> In v (offered F (node_rows src (map rows parts)) f) -> bytes_of v <> [] -> look_ok look v /\ timely ts look v)
    by (intros f v H1 H2 H3; rewrite EV in H2; destruct (Hl f v H1 H2 H3) as (_ & A & B & _); auto).
  assert (Hu' : forall f, In f fs -> single ts (offered F (node_rows src (map rows parts)) f))
    by (intros f Hf; rewrite EV; now apply Hu).
  pose proof (kfinish ts look dec prefix F fs _ ss Hlen Hu' Hl' H0) as R.
  assert (E : forall ss', zip_with (fun f s => add_bytes dec (chosen look (offered F (node_rows src (map rows parts)) f)) prefix s) fs ss' =
              zip_with (fun f s => add_bytes dec (chosen look (edge_values parts (src, dst, ty) f)) prefix s) fs ss').
  { clear -EV. induction fs as [|f fs IH]; intros [|s ss']; try reflexivity. cbn. now rewrite EV, IH. }
  rewrite E in R. clear E.
  destruct (places (part_of m (is_temporal wm)) src (map rows parts)) as [|o os] eqn:Ep.
  - apply places_nil in Ep. rewrite Ep in R. cbn [fold_left] in R. rewrite <- R. f_equal.
    clear -Hlen. revert ss Hlen; induction fs as [|f fs IH]; intros [|s ss] H; cbn in *; try discriminate; [reflexivity|]. f_equal. apply IH. lia.
  - rewrite <- Ep. rewrite kstart by assumption.
    rewrite (foldM_rows (fun p i st => part_edge_sparse p i dst ty ts prefix fs st) kenc
               (fun segs r => zip_with (kres ts look dec prefix (F r)) fs segs)
               _ _ _ _ _ _ (places_rows _ src (map rows parts))).
    + cbn [bind]. unfold kenc. cbn [snd]. now rewrite R.
    + intros d r rest ps r1 r2 E Hin Eps Hn. rewrite Forall_forall in HF, HRF. destruct (HF ps Hin) as [Hs Hc]. specialize (HRF ps Hin). subst ps.
      assert (Hr : In r (node_rows src (map rows parts))) by (now apply row_in_parts with r1 r2).
      apply part_edge_sparse_spec; try assumption.
      * apply Forall_app in HRF. destruct HRF as [_ HRF]. now inversion HRF.
      * rewrite Forall_forall in HSr. apply HSr; [|assumption]. rewrite flat_map_concat_map. unfold node_rows in Hr. now apply filter_In in Hr.
      * eapply (kready_all ts look dec prefix F fs d r rest); [assumption| | |assumption].
        -- intros f Hf. rewrite <- E. now apply Hu'.
        -- intros f v Hf Hv Hb. apply (Hl' f); try assumption. rewrite E, offered_app. apply in_or_app. now left.
      * intros f v data Hf Hv. destruct (given_in F (node_rows src (map rows parts)) r f v Hr Hv) as [Hv' Hb].
        rewrite EV in Hv'. destruct (Hl f v) as (L1 & L2 & _ & L3); auto.
Qed.
End GraphSparse.

(** ** Answers *)

Definition decoded (dec : list N -> coords * list (list N)) (bs : list N) : option (list (list Z) * list N) :=
  match bs with [] => None | _ => Some (tuples (fst (dec bs)), concat (snd (dec bs))) end.
Definition last_dim (dec : list N -> coords * list (list N)) (bss : list (list N)) : Z :=
  fold_left (fun d bs => match bs with [] => d | _ => Z.of_nat (coords_dim (fst (dec bs))) end) bss 0.

Lemma fold_add dec {A} (ch : A -> list N) xs : forall s k,
  let s' := fst (fold_left (fun sk x => (add_bytes dec (ch x) (snd sk) (fst sk), snd sk + 1)) xs (s, k)) in
  sp_idx s' = sp_idx s ++ concat (flat_map (fun x => match snd x with Some v => map (cons (fst x)) (fst v) | None => [] end)
                                    (numbered k (map (fun x => decoded dec (ch x)) xs))) /\
  sp_val s' = sp_val s ++ spec_sparse_values (map (fun x => decoded dec (ch x)) xs) /\
  sp_dim s' = fold_left (fun d bs => match bs with [] => d | _ => Z.of_nat (coords_dim (fst (dec bs))) end) (map ch xs) (sp_dim s).
Proof.
  induction xs as [|x xs IH]; intros s k; cbn zeta; [cbn; now rewrite !app_nil_r|].
  cbn [fold_left map numbered flat_map]. cbn [fst snd].
  destruct (IH (add_bytes dec (ch x) k s) (k + 1)) as (I1 & I2 & I3). cbn zeta in I1, I2, I3. rewrite I1, I2, I3.
  unfold decoded at 2 4. unfold spec_sparse_values. cbn [flat_map]. unfold add_bytes, decoded at 3.
  destruct (ch x) as [|b bs]; [auto|].
  unfold add_value. cbn [sp_idx sp_val sp_dim fst snd]. rewrite concat_app, <- !app_assoc. repeat split.
  f_equal. f_equal. clear. induction (tuples _) as [|t l IH]; [reflexivity|]. cbn. now rewrite IH.
Qed.

Definition sparse_answer (dec : list N -> coords * list (list N)) (bss : Z -> list (list N)) (fs : list Z) (ss : list sparse) : Prop :=
  map sp_idx ss = map (fun f => concat (spec_sparse_rows (map (decoded dec) (bss f)))) fs /\
  map sp_val ss = map (fun f => spec_sparse_values (map (decoded dec) (bss f))) fs /\
  map sp_dim ss = map (fun f => last_dim dec (bss f)) fs.

Lemma sparse_answers {A} (q : A -> option Z -> Z -> list sparse -> res (list sparse)) dec (ch : A * option Z -> Z -> list N) fs xs :
  (forall x t k ss, In (x, t) xs -> length fs = length ss -> q x t k ss = Ok (zip_with (fun f s => add_bytes dec (ch (x, t) f) k s) fs ss)) ->
  exists ss, sparse_loop q 0 xs (no_sparse fs) = Ok ss /\ sparse_answer dec (fun f => map (fun x => ch x f) xs) fs ss.
Proof.
  intro H. eexists. split.
  - apply (sparse_loop_pure q (fun x k s f => add_bytes dec (ch x f) k s) fs xs 0 (no_sparse fs)); [unfold no_sparse; now rewrite map_length|exact H].
  - unfold sparse_answer, no_sparse, spec_sparse_rows, last_dim. clear H. induction fs as [|f fs (I1 & I2 & I3)]; [auto|].
    cbn [map zip_with]. rewrite I1, I2, I3.
    destruct (fold_add dec (fun x => ch x f) xs (SP 0 [] [] 0) 0) as (E1 & E2 & E3). cbn zeta in *. rewrite E1, E2, E3.
    cbn [sp_idx sp_val sp_dim app]. rewrite !map_map. auto.
Qed.

Section SparseAnswers.
Variables (fadd : N -> N -> N) (wval : N -> Z).
Notation converted := (converted fadd wval).

Theorem converted_node_sparse wm parts g nodes fs dec :
  converted wm parts g -> Forall int32 fs ->
  (forall n f v, In n nodes -> In f fs -> In v (node_values parts n f) -> bytes_of v <> [] -> decodes dec (bytes_of v)) ->
  exists ss, node_sparse_features g nodes fs None = Ok ss /\
    sparse_answer dec (fun f => map (fun n => spec_node_string parts n f) nodes) fs ss.
Proof.
  intros C Hi Hd. unfold node_sparse_features, stamps.
  destruct (sparse_answers (fun n t k ss => g_node_sparse g fs t n k ss) dec (fun x f => spec_node_string parts (fst x) f) fs
              (map (fun x : Z => (x, @None Z)) nodes)) as (ss & E & A).
  - intros n t k ss Hin Hlen. apply in_map_iff in Hin. destruct Hin as (n' & E & Hin). injection E as -> <-. cbn [fst].
    rewrite (g_node_sparse_spec fadd wval wm parts g fs None n k ss plain dec C Hi Hlen).
    + reflexivity.
    + intros; now left.
    + reflexivity.
    + intros f v Hf Hv Hb. destruct (plain_facts v) as (P1 & P2 & P3). repeat split; try assumption. right. cbn [plain snd].
      rewrite fbytes_bytes. eapply Hd; eassumption.
  - exists ss. split; [exact E|]. unfold sparse_answer in *. destruct A as (A1 & A2 & A3). split; [|split].
    + rewrite A1. apply map_ext. intro f. now rewrite !map_map.
    + rewrite A2. apply map_ext. intro f. now rewrite !map_map.
    + rewrite A3. apply map_ext. intro f. now rewrite !map_map.
Qed.

Theorem converted_edge_sparse wm parts g edges fs dec :
  converted wm parts g -> Forall int32 fs ->
  (forall e r, In e edges -> In r (flat_map rows parts) -> row_id r = fst (fst e) -> searchable r) ->
  (forall e f v, In e edges -> In f fs -> In v (edge_values parts e f) -> bytes_of v <> [] -> decodes dec (bytes_of v)) ->
  exists ss, edge_sparse_features g edges fs None = Ok ss /\
    sparse_answer dec (fun f => map (fun e => spec_edge_string parts e f) edges) fs ss.
Proof.
  intros C Hi HSr Hd. unfold edge_sparse_features, stamps.
  destruct (sparse_answers (fun e t k ss => g_edge_sparse g fs t e k ss) dec (fun x f => spec_edge_string parts (fst x) f) fs
              (map (fun x : Z * Z * Z => (x, @None Z)) edges)) as (ss & E & A).
  - intros n t k ss Hin Hlen. apply in_map_iff in Hin. destruct Hin as (n' & E & Hin). injection E as -> <-. cbn [fst].
    rewrite (g_edge_sparse_spec fadd wval wm parts g fs None n k ss plain dec C Hi Hlen).
    + reflexivity.
    + apply Forall_forall. intros r Hr Hid. eapply HSr; eassumption.
    + intros; now left.
    + reflexivity.
    + intros f v Hf Hv Hb. destruct (plain_facts v) as (P1 & P2 & P3). repeat split; try assumption. right. cbn [plain snd].
      rewrite fbytes_bytes. eapply Hd; eassumption.
  - exists ss. split; [exact E|]. unfold sparse_answer in *. destruct A as (A1 & A2 & A3). split; [|split].
    + rewrite A1. apply map_ext. intro f. now rewrite !map_map.
    + rewrite A2. apply map_ext. intro f. now rewrite !map_map.
    + rewrite A3. apply map_ext. intro f. now rewrite !map_map.
Qed.

Theorem converted_node_sparse_ts wm parts g nodes fs ts hist dec :
  converted wm parts g -> Forall int32 fs ->
  (forall n f, In n nodes -> In f fs -> (length (node_values parts n f) <= 1)%nat) ->
  (forall n f v, In n nodes -> In f fs -> In v (node_values parts n f) -> explains hist v) ->
  (forall n f v x, In n nodes -> In f fs -> In v (node_values parts n f) -> In x (hist (bytes_of v)) -> snd x = [] \/ decodes dec (snd x)) ->
  exists ss, node_sparse_features g nodes fs (Some ts) = Ok ss /\
    sparse_answer dec (fun f => map (fun x => entry_bytes hist (snd x) (node_values parts (fst x) f)) (combine nodes ts)) fs ss.
Proof.
  intros C Hi Hu He Hd. unfold node_sparse_features, stamps.
  destruct (sparse_answers (fun n t k ss => g_node_sparse g fs t n k ss) dec
              (fun x f => match snd x with Some t => entry_bytes hist t (node_values parts (fst x) f) | None => [] end) fs
              (map (fun x : Z * Z => (fst x, Some (snd x))) (combine nodes ts))) as (ss & E & A).
  - intros n t k ss Hin Hlen. apply in_map_iff in Hin. destruct Hin as ([n' t'] & E & Hin). injection E as -> <-. cbn [fst snd] in *.
    apply in_combine_l in Hin.
    rewrite (g_node_sparse_spec fadd wval wm parts g fs (Some t') n k ss (tlook hist t') dec C Hi Hlen).
    + f_equal. cbn [fst snd]. assert (Hf : forall f, In f fs -> In f fs) by auto. revert Hf. generalize fs at 1 3 4 as gs. clear -Hu He Hin. intros gs Hf. revert ss.
      induction gs as [|f gs IH]; intros [|s ss]; try reflexivity. cbn [zip_with]. rewrite IH by (intros; apply Hf; now right). f_equal.
      assert (In f fs) by (apply Hf; now left). f_equal. apply chosen_temporal; [|now apply Hu]. apply Forall_forall. intros v Hv. eapply He; eassumption.
    + intros f Hf. right. pose proof (Hu n f Hin Hf). eapply Nat.le_trans; [|exact H]. clear. induction (node_values parts n f) as [|v l IH]; [reflexivity|].
      cbn. destruct (nonempty v); cbn; lia.
    + discriminate.
    + intros f v Hf Hv Hb. destruct (tlook_facts hist t' v (He n f v Hin Hf Hv)) as (P1 & P2 & P3). repeat split; try assumption.
      unfold tlook. pose proof (entry_at_spec t' (hist (bytes_of v))) as Hs. destruct (entry_at t' (hist (bytes_of v))) as [y|]; [|now left].
      destruct Hs as (Hs & _). eapply Hd; eassumption.
  - exists ss. split; [exact E|]. unfold sparse_answer in *. destruct A as (A1 & A2 & A3). split; [|split].
    + rewrite A1. apply map_ext. intro f. now rewrite !map_map.
    + rewrite A2. apply map_ext. intro f. now rewrite !map_map.
    + rewrite A3. apply map_ext. intro f. now rewrite !map_map.
Qed.

Theorem converted_edge_sparse_ts wm parts g edges fs ts hist dec :
  converted wm parts g -> Forall int32 fs ->
  (forall e r, In e edges -> In r (flat_map rows parts) -> row_id r = fst (fst e) -> searchable r) ->
  (forall e f, In e edges -> In f fs -> (length (edge_values parts e f) <= 1)%nat) ->
  (forall e f v, In e edges -> In f fs -> In v (edge_values parts e f) -> explains hist v) ->
  (forall e f v x, In e edges -> In f fs -> In v (edge_values parts e f) -> In x (hist (bytes_of v)) -> snd x = [] \/ decodes dec (snd x)) ->
  exists ss, edge_sparse_features g edges fs (Some ts) = Ok ss /\
    sparse_answer dec (fun f => map (fun x => entry_bytes hist (snd x) (edge_values parts (fst x) f)) (combine edges ts)) fs ss.
Proof.
  intros C Hi HSr Hu He Hd. unfold edge_sparse_features, stamps.
  destruct (sparse_answers (fun n t k ss => g_edge_sparse g fs t n k ss) dec
              (fun x f => match snd x with Some t => entry_bytes hist t (edge_values parts (fst x) f) | None => [] end) fs
              (map (fun x : Z * Z * Z * Z => (fst x, Some (snd x))) (combine edges ts))) as (ss & E & A).
  - intros n t k ss Hin Hlen. apply in_map_iff in Hin. destruct Hin as ([n' t'] & E & Hin). injection E as -> <-. cbn [fst snd] in *.
    apply in_combine_l in Hin.
    rewrite (g_edge_sparse_spec fadd wval wm parts g fs (Some t') n k ss (tlook hist t') dec C Hi Hlen).
    + f_equal. cbn [fst snd]. assert (Hf : forall f, In f fs -> In f fs) by auto. revert Hf. generalize fs at 1 3 4 as gs. clear -Hu He Hin. intros gs Hf. revert ss.
      induction gs as [|f gs IH]; intros [|s ss]; try reflexivity. cbn [zip_with]. rewrite IH by (intros; apply Hf; now right). f_equal.
      assert (In f fs) by (apply Hf; now left). f_equal. apply chosen_temporal; [|now apply Hu]. apply Forall_forall. intros v Hv. eapply He; eassumption.
    + apply Forall_forall. intros r Hr Hid. eapply HSr; eassumption.
    + intros f Hf. right. pose proof (Hu n f Hin Hf). eapply Nat.le_trans; [|exact H]. clear. induction (edge_values parts n f) as [|v l IH]; [reflexivity|].
      cbn. destruct (nonempty v); cbn; lia.
    + discriminate.
    + intros f v Hf Hv Hb. destruct (tlook_facts hist t' v (He n f v Hin Hf Hv)) as (P1 & P2 & P3). repeat split; try assumption.
      unfold tlook. pose proof (entry_at_spec t' (hist (bytes_of v))) as Hs. destruct (entry_at t' (hist (bytes_of v))) as [y|]; [|now left].
      destruct Hs as (Hs & _). eapply Hd; eassumption.
  - exists ss. split; [exact E|]. unfold sparse_answer in *. destruct A as (A1 & A2 & A3). split; [|split].
    + rewrite A1. apply map_ext. intro f. now rewrite !map_map.
    + rewrite A2. apply map_ext. intro f. now rewrite !map_map.
    + rewrite A3. apply map_ext. intro f. now rewrite !map_map.
Qed.
End SparseAnswers.
