(** Facts about the typed arrays of the client. *)
From Verif Require Import Base WriterModel WriterProofs ConvertProofs AnswerProofs LoaderModel GraphModel GraphSpec GraphProofs FeatureModel FeatureSpec FeatureProofs EdgeFeatureProofs
  TemporalProofs EdgeTemporalProofs StringProofs TemporalStringProofs SparseProofs TypedModel TypedSpec.
From Coq Require Import ZifyBool ZifyNat ZifyN.
Local Open Scope Z_scope.

(** ** Items *)
Definition fits (d : dtype) (v : Z) : Prop :=
  match d_kind d with
  | Bits => 0 <= v < 2 ^ (8 * Z.of_nat (d_width d))
  | Signed => - 2 ^ (8 * Z.of_nat (d_width d) - 1) <= v < 2 ^ (8 * Z.of_nat (d_width d) - 1)
  end.

Lemma decode_encode d v : (0 < d_width d)%nat -> fits d v -> decode d (encode d v) = v.
Proof.
  intros Hw H. unfold fits, decode, encode in *. destruct (d_kind d).
  - unfold zle. rewrite Z.mod_small by assumption. rewrite unle_le; [lia|].
    apply N2Z.inj_lt. rewrite N2Z.inj_pow, Z2N.id by lia. change (Z.of_N 256) with (2 ^ 8).
    rewrite <- Z.pow_mul_r by lia. replace (Z.of_N (N.of_nat (d_width d))) with (Z.of_nat (d_width d)) by lia. lia.
  - now apply unzle_zle.
Qed.

Lemma encode_length d v : length (encode d v) = d_width d.
Proof. apply zle_length. Qed.
Lemma tobytes_length d vs : length (tobytes d vs) = (d_width d * length vs)%nat.
Proof. unfold tobytes. induction vs as [|v vs IH]; cbn; [lia|]. rewrite app_length, IH, encode_length. lia. Qed.
Lemma tobytes_app d a b : tobytes d (a ++ b) = tobytes d a ++ tobytes d b.
Proof. apply flat_map_app. Qed.
Lemma tobytes_concat d l : tobytes d (concat l) = concat (map (tobytes d) l).
Proof. induction l as [|a l IH]; [reflexivity|]. cbn [concat map]. now rewrite tobytes_app, IH. Qed.

Lemma view_tobytes d vs : (0 < d_width d)%nat -> Forall (fits d) vs -> view d (tobytes d vs) = Ok vs.
Proof.
  intros Hw H. unfold view. rewrite tobytes_length, Nat.mul_comm, Nat.mod_mul by lia. cbn [Nat.eqb]. f_equal.
  unfold tobytes. rewrite (fields_flat_map _ _ _ Hw (encode_length d)), map_map.
  induction H as [|v vs Hv _ IH]; [reflexivity|]. cbn [map]. now rewrite IH, decode_encode.
Qed.

Lemma zle_zero w : zle w 0 = repeat 0%N w.
Proof.
  unfold zle. rewrite Z.mod_0_l by (apply Z.pow_nonzero; lia). change (Z.to_N 0) with 0%N.
  induction w as [|w IH]; [reflexivity|]. cbn [repeat]. rewrite <- IH. reflexivity.
Qed.
Lemma fits_zero d : (0 < d_width d)%nat -> fits d 0.
Proof.
  intro Hw. unfold fits. destruct (d_kind d).
  - split; [lia|]. apply Z.pow_pos_nonneg; lia.
  - pose proof (Z.pow_pos_nonneg 2 (8 * Z.of_nat (d_width d) - 1)). lia.
Qed.
Lemma tobytes_zeros d k : tobytes d (repeat 0 k) = repeat 0%N (d_width d * k).
Proof.
  induction k as [|k IH]; [now rewrite Nat.mul_0_r|]. cbn [repeat]. unfold tobytes in *. cbn [flat_map]. rewrite IH.
  unfold encode. rewrite zle_zero, <- repeat_app. f_equal. lia.
Qed.
Lemma tobytes_firstn d k vs : firstn (d_width d * k) (tobytes d vs) = tobytes d (firstn k vs).
Proof.
  revert k. induction vs as [|v vs IH]; intro k; [now rewrite !firstn_nil|].
  destruct k as [|k]; [now rewrite Nat.mul_0_r|]. unfold tobytes in *. cbn [firstn flat_map]. rewrite firstn_app, encode_length.
  rewrite firstn_all2 by (rewrite encode_length; lia). f_equal.
  replace (d_width d * S k - d_width d)%nat with (d_width d * k)%nat by lia. apply IH.
Qed.

Lemma fixed_tobytes d k vs : fixed (d_width d * k) (tobytes d vs) = tobytes d (padded k vs).
Proof. unfold fixed, padded. now rewrite <- tobytes_zeros, <- tobytes_app, tobytes_firstn. Qed.
Lemma padded_length k vs : length (padded k vs) = k.
Proof. unfold padded. rewrite firstn_length, app_length, repeat_length. lia. Qed.
Lemma padded_fits d k vs : (0 < d_width d)%nat -> Forall (fits d) vs -> Forall (fits d) (padded k vs).
Proof.
  intros Hw H. unfold padded.
  assert (HF : Forall (fits d) (vs ++ repeat 0 k)); [|rewrite <- (firstn_skipn k) in HF; now apply Forall_app in HF].
  apply Forall_app. split; [assumption|]. apply Forall_forall. intros x Hx.
  apply repeat_spec in Hx. subst. now apply fits_zero.
Qed.

Lemma byte_size_ok d size : 0 <= size * Z.of_nat (d_width d) < 2 ^ 32 -> byte_size d size = size * Z.of_nat (d_width d).
Proof.
  intro H. unfold byte_size, wrap32. rewrite Zminus_mod, Z.mod_mod, <- Zminus_mod by lia.
  replace (size * Z.of_nat (d_width d) + 2 ^ 31 - 2 ^ 31) with (size * Z.of_nat (d_width d)) by lia. now apply Z.mod_small.
Qed.

(** ** Dense answers *)
Definition sized (d : dtype) (fs : list (Z * Z)) : Prop :=
  Forall (fun f => 0 <= snd f /\ snd f * Z.of_nat (d_width d) < 2 ^ 32) fs.
(** [val] are values of type [d] written as [bs]. *)
Definition holds (d : dtype) (bs : list N) (val : list Z) : Prop := bs = tobytes d val /\ Forall (fits d) val.

Lemma zsum_map_mul {A} (f : A -> Z) k l : zsum (map (fun x => f x * k) l) = zsum (map f l) * k.
Proof. induction l as [|a l IH]; cbn [map zsum fold_right]; [lia|]. fold (zsum (map f l)). unfold zsum in IH at 1. rewrite IH. lia. Qed.

Lemma spec_row_length vals fs : Forall (fun f => 0 <= snd f) fs ->
  Z.of_nat (length (spec_row vals fs)) = zsum (map snd fs).
Proof.
  induction 1 as [|f fs Hf _ IH]; [reflexivity|]. unfold spec_row in *. cbn [flat_map map zsum fold_right].
  rewrite app_length, padded_length. fold (zsum (map snd fs)). lia.
Qed.
Lemma spec_row_fits d vals fs : (0 < d_width d)%nat -> (forall f, In f fs -> Forall (fits d) (vals (fst f))) -> Forall (fits d) (spec_row vals fs).
Proof.
  intros Hw H. unfold spec_row. apply Forall_flat_map. apply Forall_forall. intros f Hf. apply padded_fits; auto.
Qed.
Lemma spec_row_bytes d byt vals fs : sized d fs -> (forall f, In f fs -> holds d (byt (fst f)) (vals (fst f))) ->
  concat (map (fun f => fixed (snd f) (byt (fst f))) (map (fun f => (fst f, Z.to_nat (byte_size d (snd f)))) fs)) = tobytes d (spec_row vals fs).
Proof.
  intros Hs H. unfold spec_row. induction Hs as [|f fs (Hf1 & Hf2) _ IH]; [reflexivity|].
  cbn [map concat flat_map fst snd]. rewrite tobytes_app. f_equal.
  - rewrite byte_size_ok by lia. rewrite (proj1 (H f (or_introl eq_refl))). rewrite <- fixed_tobytes. f_equal. nia.
  - apply IH. intros f' Hf'. apply H. now right.
Qed.

Lemma py_dense_ok {A} d (q : list (Z * nat) -> res (list (list N))) (elems : list A) fs (byt : A -> Z -> list N) (vals : A -> Z -> list Z) :
  (0 < d_width d)%nat -> sized d fs ->
  (forall cs, map fst cs = map fst fs -> q cs = Ok (map (fun x => concat (map (fun f => fixed (snd f) (byt x (fst f))) cs)) elems)) ->
  (forall x f, In x elems -> In f fs -> holds d (byt x (fst f)) (vals x (fst f))) ->
  py_dense q (length elems) fs d = Ok (map (fun x => spec_row (vals x) fs) elems).
Proof.
  intros Hw Hs Hq Hh.
  assert (Hpos : Forall (fun f => 0 <= snd f) fs) by (eapply Forall_impl; [|exact Hs]; cbn; tauto).
  pose proof (spec_row_length (fun _ => []) fs Hpos) as HL. pose proof (Nat2Z.is_nonneg (length (spec_row (fun _ => []) fs))) as HP.
  unfold py_dense. destruct (Z.ltb_spec (zsum (map snd fs)) 0) as [|_]; [lia|].
  rewrite !map_map. cbn [fst snd].
  assert (HB : zsum (map (fun f => byte_size d (snd f)) fs) = zsum (map snd fs) * Z.of_nat (d_width d)).
  { rewrite <- zsum_map_mul. f_equal. apply map_ext_in. intros f Hf. unfold sized in Hs. rewrite Forall_forall in Hs.
    specialize (Hs f Hf). apply byte_size_ok. lia. }
  rewrite HB. destruct (Z.ltb_spec (Z.of_nat (length elems) * zsum (map snd fs) * Z.of_nat (d_width d))
    (Z.of_nat (length elems) * (zsum (map snd fs) * Z.of_nat (d_width d)))) as [Hc|_]; [lia|].
  rewrite Hq by (rewrite map_map; apply map_ext; reflexivity). cbn [bind].
  assert (HR : map (fun x => concat (map (fun f => fixed (snd f) (byt x (fst f))) (map (fun f => (fst f, Z.to_nat (byte_size d (snd f)))) fs))) elems
    = map (tobytes d) (map (fun x => spec_row (vals x) fs) elems)).
  { rewrite map_map. apply map_ext_in. intros x Hx. apply spec_row_bytes; [assumption|]. intros f Hf. now apply Hh. }
  rewrite HR, <- tobytes_concat. set (rws := map (fun x => spec_row (vals x) fs) elems).
  assert (HRL : Forall (fun l => length l = Z.to_nat (zsum (map snd fs))) rws).
  { apply Forall_forall. intros l Hl. apply in_map_iff in Hl. destruct Hl as (x & <- & _).
    pose proof (spec_row_length (vals x) fs Hpos). lia. }
  assert (HN : length (concat rws) = (Z.to_nat (zsum (map snd fs)) * length elems)%nat)
    by (rewrite (concat_length_const _ _ HRL); unfold rws; now rewrite map_length).
  replace (Z.to_nat (Z.of_nat (length elems) * zsum (map snd fs) * Z.of_nat (d_width d)) - length (tobytes d (concat rws)))%nat with 0%nat
    by (rewrite tobytes_length, HN; nia).
  unfold zeros. cbn [repeat]. rewrite app_nil_r, view_tobytes; [|assumption|].
  - cbn [bind]. f_equal. rewrite <- (app_nil_r (concat rws)). replace (length elems) with (length rws) by (unfold rws; apply map_length).
    now apply chunks_concat.
  - apply Forall_concat. apply Forall_forall. intros l Hl. apply in_map_iff in Hl. destruct Hl as (x & <- & Hx).
    apply spec_row_fits; [assumption|]. intros f Hf. now apply (Hh x f).
Qed.

(** ** String answers *)
Lemma string_callback_ok d vs : (0 < d_width d)%nat -> Forall (fits d) vs -> string_callback d (tobytes d vs) = vs.
Proof.
  intros Hw H. unfold string_callback. rewrite (view_tobytes d vs Hw H).
  destruct vs as [|v vs]; [reflexivity|]. destruct (tobytes d (v :: vs)) eqn:E; [|reflexivity].
  apply (f_equal (@length N)) in E. rewrite tobytes_length in E. cbn in E. lia.
Qed.

Lemma py_string_ok {A} d (elems : list A) (fs : list Z) (byt : A -> Z -> list N) (vals : A -> Z -> list Z) :
  (0 < d_width d)%nat -> (forall x f, In x elems -> In f fs -> holds d (byt x f) (vals x f)) ->
  py_string d (Ok (map (fun x => map (fun f => Z.of_nat (length (byt x f))) fs) elems, concat (map (fun x => concat (map (byt x) fs)) elems))) =
  Ok (flat_map (fun x => flat_map (vals x) fs) elems, map (fun x => map (fun f => Z.of_nat (length (vals x f))) fs) elems).
Proof.
  intros Hw H. unfold py_string. cbn [bind fst snd]. f_equal. f_equal.
  - replace (concat (map (fun x => concat (map (byt x) fs)) elems)) with (tobytes d (flat_map (fun x => flat_map (vals x) fs) elems)).
    + apply string_callback_ok; [assumption|]. apply Forall_flat_map, Forall_forall. intros x Hx.
      apply Forall_flat_map, Forall_forall. intros f Hf. now apply (H x f).
    + rewrite flat_map_concat_map, tobytes_concat, map_map. f_equal. apply map_ext_in. intros x Hx.
      rewrite flat_map_concat_map, tobytes_concat, map_map. f_equal. apply map_ext_in. intros f Hf. symmetry. now apply (H x f).
  - rewrite map_map. apply map_ext_in. intros x Hx. rewrite map_map. apply map_ext_in. intros f Hf.
    rewrite (proj1 (H x f Hx Hf)), tobytes_length. rewrite Nat2Z.inj_mul, Z.mul_comm. apply Z.div_mul. lia.
Qed.

(** ** Sparse answers *)

(** What was written as the given bytes: coordinates and values of type [d]. *)
Definition untyped (d : dtype) (tdec : list N -> coords * list Z) (bs : list N) : coords * list (list N) :=
  (fst (tdec bs), map (encode d) (snd (tdec bs))).
Definition sparse_typed (d : dtype) (tdec : list N -> coords * list Z) (dim : nat) (bs : list N) : Prop :=
  let c := fst (tdec bs) in let vs := snd (tdec bs) in
  coords_len c = length vs /\ (0 < coords_dim c)%nat /\ Forall (fun t => length t = coords_dim c) (tuples c) /\
  Forall (fun x => - 2 ^ 63 <= x < 2 ^ 63) (coords_all c) /\
  Z.of_nat (length (coords_all c)) < 2 ^ 32 /\ Z.of_nat (coords_dim c) < 2 ^ 32 /\
  Z.of_nat (d_width d * length vs) < 2 ^ 62 /\ Forall (fits d) vs /\ coords_dim c = dim /\
  convert_sparse 8 d c vs = Ok (Some bs).
Definition tdecoded (tdec : list N -> coords * list Z) (bs : list N) : option (list (list Z) * list Z) :=
  match bs with [] => None | _ => Some (tuples (fst (tdec bs)), snd (tdec bs)) end.

Lemma tobytes_map d vs : concat (map (encode d) vs) = tobytes d vs.
Proof. symmetry. apply flat_map_concat_map. Qed.

Lemma convert_sparse_feature d c vs : convert_sparse 8 d c vs = convert_feature (FSparse c (map (encode d) vs)).
Proof. unfold convert_sparse, convert_feature. now rewrite map_length, tobytes_map. Qed.

Lemma sparse_typed_decodes d tdec dim bs : sparse_typed d tdec dim bs -> decodes (untyped d tdec) bs.
Proof.
  intros (H1 & H2 & H3 & H4 & H5 & H6 & H7 & _ & _ & H8). unfold decodes, untyped, coords_ok. cbn [fst snd].
  rewrite map_length, tobytes_map, tobytes_length. split; [|now rewrite <- convert_sparse_feature]. tauto.
Qed.
Lemma sparse_typed_some d tdec dim bs : sparse_typed d tdec dim bs -> tuples (fst (tdec bs)) <> [].
Proof.
  intros (_ & _ & _ & _ & _ & _ & _ & _ & _ & H) E. apply (f_equal (@length _)) in E. rewrite tuples_length in E. cbn in E.
  unfold convert_sparse in H. rewrite E in H. discriminate.
Qed.

Lemma rows_typed d tdec l : forall k,
  flat_map (fun x => match snd x with Some v => map (cons (fst x)) (fst v) | None => [] end) (numbered k (map (decoded (untyped d tdec)) l)) =
  flat_map (fun x => match snd x with Some v => map (cons (fst x)) (fst v) | None => [] end) (numbered k (map (tdecoded tdec) l)).
Proof.
  induction l as [|bs l IH]; intro k; [reflexivity|]. cbn [map numbered flat_map fst snd]. rewrite IH. f_equal. now destruct bs.
Qed.
Lemma values_typed d tdec l : spec_sparse_values (map (decoded (untyped d tdec)) l) = tobytes d (spec_values (map (tdecoded tdec) l)).
Proof.
  unfold spec_sparse_values, spec_values. induction l as [|bs l IH]; [reflexivity|]. cbn [map flat_map]. rewrite IH, tobytes_app. f_equal.
  destruct bs; [reflexivity|]. unfold untyped, tdecoded, decoded. cbn [fst snd]. apply tobytes_map.
Qed.

Section Feature.
Variables (d : dtype) (tdec : list N -> coords * list Z) (dim : nat).

Lemma feature_rows_length l : (forall bs, In bs l -> bs = [] \/ sparse_typed d tdec dim bs) ->
  Forall (fun r => length r = S dim) (spec_coords (map (tdecoded tdec) l)).
Proof.
  unfold spec_coords. generalize 0. induction l as [|bs l IH]; intros k H; [constructor|]. cbn [map numbered flat_map fst snd].
  apply Forall_app. split; [|apply IH; intros; apply H; now right].
  destruct (H bs (or_introl eq_refl)) as [->|(_ & _ & H3 & _ & _ & _ & _ & _ & H9 & _)]; [constructor|].
  destruct bs; [constructor|]. cbn [tdecoded fst]. apply Forall_map. eapply Forall_impl; [|exact H3]. cbn. intros t Ht. now rewrite Ht, H9.
Qed.
Lemma feature_empty l : (forall bs, In bs l -> bs = [] \/ sparse_typed d tdec dim bs) ->
  spec_coords (map (tdecoded tdec) l) = [] -> spec_values (map (tdecoded tdec) l) = [] /\
  last_dim (untyped d tdec) l = 0 /\ spec_dim (map (tdecoded tdec) l) = 0.
Proof.
  unfold spec_coords, last_dim, spec_dim, spec_values. generalize 0 at 1. intros k H E.
  assert (G : Forall (fun bs => bs = []) l).
  { revert k H E. induction l as [|bs l IH]; intros k H E; [constructor|]. cbn [map numbered flat_map fst snd] in E.
    apply app_eq_nil in E. destruct E as [E1 E2]. constructor; [|apply (IH (k + 1)); [intros; apply H; now right|assumption]].
    destruct (H bs (or_introl eq_refl)) as [->|Hb]; [reflexivity|]. apply sparse_typed_some in Hb.
    destruct bs; [reflexivity|]. cbn [tdecoded fst] in E1. now apply map_eq_nil in E1. }
  clear H E. induction G as [|bs l -> _ IH]; [auto|]. cbn. exact IH.
Qed.
Lemma feature_dim l : (forall bs, In bs l -> bs = [] \/ sparse_typed d tdec dim bs) ->
  spec_coords (map (tdecoded tdec) l) <> [] -> last_dim (untyped d tdec) l = Z.of_nat dim /\ spec_dim (map (tdecoded tdec) l) = Z.of_nat dim.
Proof.
  intros H E. assert (G : exists bs, In bs l /\ bs <> []).
  { unfold spec_coords in E. revert E. generalize 0. clear H. induction l as [|bs l IH]; intros k E; [now elim E|].
    destruct bs as [|b bs]; [|eexists; split; [now left|discriminate]]. cbn [map numbered flat_map fst snd tdecoded app] in E.
    destruct (IH _ E) as (bs & H1 & H2). exists bs. split; [now right|assumption]. }
  split.
  - unfold last_dim. clear E. generalize 0. destruct G as (bs0 & Hin & Hne).
    assert (G : forall l z, (forall bs, In bs l -> bs = [] \/ sparse_typed d tdec dim bs) -> z = Z.of_nat dim ->
      fold_left (fun z bs => match bs with [] => z | _ => Z.of_nat (coords_dim (fst (untyped d tdec bs))) end) l z = Z.of_nat dim).
    { clear. induction l as [|bs l IH]; intros z H Hz; [assumption|]. cbn [fold_left]. apply IH; [intros; apply H; now right|].
      destruct (H bs (or_introl eq_refl)) as [->|Hb]; [assumption|]. destruct bs; [assumption|].
      unfold untyped. cbn [fst]. destruct Hb as (_ & _ & _ & _ & _ & _ & _ & _ & Hb & _). now rewrite Hb. }
    revert H Hin. induction l as [|bs l IH]; intros H Hin z; [contradiction|]. cbn [fold_left].
    destruct Hin as [->|Hin]; [|apply IH; [intros; apply H; now right|assumption]].
    apply G; [intros; apply H; now right|]. destruct (H bs0 (or_introl eq_refl)) as [->|Hb]; [now elim Hne|].
    destruct bs0; [now elim Hne|]. unfold untyped. cbn [fst]. destruct Hb as (_ & _ & _ & _ & _ & _ & _ & _ & Hb & _). now rewrite Hb.
  - unfold spec_dim. clear E. destruct G as (bs0 & Hin & Hne). revert H Hin. induction l as [|bs l IH]; intros H Hin; [contradiction|].
    cbn [map flat_map]. destruct (H bs (or_introl eq_refl)) as [->|Hb].
    + cbn [tdecoded app]. apply IH; [intros; apply H; now right|]. destruct Hin as [<-|]; [now elim Hne|assumption].
    + pose proof (sparse_typed_some _ _ _ _ Hb) as Hs. destruct Hb as (_ & _ & H3 & _ & _ & _ & _ & _ & H9 & Hc).
      destruct bs as [|b bs].
      { exfalso. unfold convert_sparse in Hc. destruct (_ || _); [discriminate|].
        match type of Hc with (if ?f then _ else _) = _ => destruct f; [|discriminate] end.
        apply (f_equal (fun r => match r with Ok (Some (_ :: _)) => true | _ => false end)) in Hc. discriminate. }
      cbn [tdecoded fst]. destruct (tuples (fst (tdec (b :: bs)))) as [|t ts]; [now elim Hs|]. cbn [app].
      inversion H3 as [|? ? Ht _]. now rewrite Ht, H9.
Qed.
Lemma feature_fits l : (forall bs, In bs l -> bs = [] \/ sparse_typed d tdec dim bs) -> Forall (fits d) (spec_values (map (tdecoded tdec) l)).
Proof.
  intro H. unfold spec_values. apply Forall_flat_map, Forall_forall. intros v Hv. apply in_map_iff in Hv. destruct Hv as (bs & <- & Hb).
  destruct (H bs Hb) as [->|(_ & _ & _ & _ & _ & _ & _ & Hf & _)]; [constructor|]. destruct bs; [constructor|exact Hf].
Qed.
End Feature.

Lemma py_sparse_ok d tdec (dims : Z -> nat) bss fs ss :
  (0 < d_width d)%nat -> sparse_answer (untyped d tdec) bss fs ss ->
  (forall f bs, In f fs -> In bs (bss f) -> bs = [] \/ sparse_typed d tdec (dims f) bs) ->
  py_sparse d (Ok ss) = Ok (map (fun f => spec_coords (map (tdecoded tdec) (bss f))) fs,
                            map (fun f => spec_values (map (tdecoded tdec) (bss f))) fs,
                            map (fun f => spec_dim (map (tdecoded tdec) (bss f))) fs).
Proof.
  intros Hw (A1 & A2 & A3) H. unfold py_sparse. cbn [bind]. f_equal.
  revert ss A1 A2 A3. induction fs as [|f fs IH]; intros [|s ss] A1 A2 A3; try discriminate; [reflexivity|].
  cbn [map] in A1, A2, A3. injection A1 as E1 A1. injection A2 as E2 A2. injection A3 as E3 A3.
  specialize (IH ltac:(intros f' bs Hf; apply H; now right) ss A1 A2 A3). apply pair_equal_spec in IH. destruct IH as [IHa IHb].
  assert (Hb : forall bs, In bs (bss f) -> bs = [] \/ sparse_typed d tdec (dims f) bs) by (intros bs; apply H; now left).
  cbn [map sparse_callback]. rewrite IHb, E3. unfold spec_sparse_rows in E1. rewrite rows_typed in E1. fold (spec_coords (map (tdecoded tdec) (bss f))) in E1.
  rewrite values_typed in E2. pose proof (feature_rows_length d tdec (dims f) _ Hb) as HL.
  destruct (spec_coords (map (tdecoded tdec) (bss f))) as [|r0 rs] eqn:ER.
  - destruct (feature_empty d tdec (dims f) _ Hb ER) as (V & L1 & L2). cbn [concat] in E1. rewrite E1, V, L1, L2, IHa. reflexivity.
  - destruct (feature_dim d tdec (dims f) _ Hb) as [L1 L2]; [rewrite ER; discriminate|].
    assert (Hne : sp_idx s <> []).
    { rewrite E1. intro E. inversion HL as [|? ? Hr _]; subst. destruct r0; [discriminate Hr|discriminate E]. }
    destruct (sp_idx s) as [|i0 is] eqn:Ei; [now elim Hne|]. rewrite <- Ei in *. cbv zeta.
    rewrite L1, L2. destruct (Z.leb_spec (Z.of_nat (dims f) + 1) 0) as [|_]; [lia|]. cbn [orb].
    rewrite E1 at 1. rewrite (concat_length_const (S (dims f)) _ HL).
    replace (Z.of_nat (S (dims f) * length (r0 :: rs)) mod (Z.of_nat (dims f) + 1)) with 0.
    2:{ rewrite Nat2Z.inj_mul, Nat2Z.inj_succ, Z.mul_comm. symmetry. apply Z.mod_mul. lia. }
    change (0 =? 0) with true. cbn [negb]. rewrite E2, view_tobytes; [|assumption|eapply feature_fits; eassumption].
    rewrite IHa. cbn [fst snd]. rewrite E1.
    replace (Z.to_nat (Z.of_nat (dims f) + 1)) with (S (dims f)) by lia. rewrite fields_concat by (try lia; assumption). reflexivity.
Qed.

(** ** Queries *)
Lemma newest_in l : forall b y, newest_from b l = Some y -> b = Some y \/ In y l.
Proof.
  induction l as [|x l IH]; intros b y H; [now left|]. cbn [newest_from] in H. apply IH in H. destruct H as [H|H]; [|right; now right].
  destruct b as [b|]; [destruct (fst b <? fst x)|]; injection H as <-; auto; right; now left.
Qed.
Lemma spec_temporal_in hist t vs y : spec_temporal hist t vs = Some y -> exists v, In v vs /\ In y (hist (bytes_of v)).
Proof.
  intro H. apply newest_in in H. destruct H as [H|H]; [discriminate|]. apply in_flat_map in H. destruct H as (v & Hv & H).
  exists v. split; [assumption|]. destruct (entry_at t (hist (bytes_of v))) as [z|] eqn:E; [|contradiction]. destruct H as [->|[]].
  apply newest_in in E. destruct E as [E|E]; [discriminate|]. now apply filter_In in E.
Qed.

Lemma first_holds d vals (l : list (option (list N))) : (forall bs, In (Some bs) l -> holds d bs (vals bs)) ->
  holds d (match l with v :: _ => bytes_of v | [] => [] end) (first_values vals l).
Proof. destruct l as [|[bs|] l]; intro H; cbn; [split; [reflexivity|constructor]|apply H; now left|split; [reflexivity|constructor]]. Qed.

Lemma first_bytes_given l : first_bytes l = match filter (fun v : option (list N) => match v with Some (_ :: _) => true | _ => false end) l with v :: _ => bytes_of v | [] => [] end.
Proof. unfold first_bytes. f_equal. now induction l as [|[[|b bs]|] l IH]; cbn; rewrite ?IH. Qed.
Lemma given_holds d vals l : (forall bs, In (Some bs) l -> holds d bs (vals bs)) -> holds d (first_bytes l) (first_given vals l).
Proof.
  intro H. rewrite first_bytes_given. apply first_holds. intros bs Hb. apply filter_In in Hb. now apply H.
Qed.
Lemma entry_holds d vals hist t l : (forall v y, In v l -> In y (hist (bytes_of v)) -> holds d (snd y) (vals (snd y))) ->
  holds d (entry_bytes hist t l) (values_of vals (spec_temporal hist t l)).
Proof.
  intro H. unfold entry_bytes, values_of. destruct (spec_temporal hist t l) as [y|] eqn:E; [|split; [reflexivity|constructor]].
  apply spec_temporal_in in E. destruct E as (v & Hv & Hy). now apply (H v).
Qed.

Lemma py_stamps_ok n ts : ts <> [] -> (n <= length ts)%nat -> py_stamps n (Some ts) = Ok (Some ts).
Proof. intros H L. destruct ts; [now elim H|]. unfold py_stamps. now destruct (Nat.ltb_spec (length (z :: ts)) n); [lia|]. Qed.
Lemma py_edges_ok src dst tp : length dst = length src -> length tp = length src -> py_edges src dst tp = Ok (combine (combine src dst) tp).
Proof. intros H1 H2. unfold py_edges. now rewrite H1, H2, Nat.eqb_refl. Qed.
Lemma combine_in_l {A B} (l : list A) (m : list B) x : In x (combine l m) -> In (fst x) l.
Proof. destruct x as [a b]. apply in_combine_l. Qed.
Lemma combine_len {A B} (l : list A) (m : list B) : (length l <= length m)%nat -> length l = length (combine l m).
Proof. intro H. rewrite combine_length. lia. Qed.
Lemma map_fst_int32 (cs : list (Z * nat)) (fs : list (Z * Z)) :
  map fst cs = map fst fs -> Forall (fun f => int32 (fst f)) fs -> Forall (fun f => int32 (fst f)) cs.
Proof. intros E H. apply Forall_map. rewrite E. now apply Forall_map in H. Qed.

Section Queries.
Variables (fadd : N -> N -> N) (wval : N -> Z).
Notation converted := (converted fadd wval).

Theorem typed_node_features wm parts g nodes fs d vals :
  converted wm parts g -> Forall (fun f => int32 (fst f)) fs -> (0 < d_width d)%nat -> sized d fs ->
  (forall n f bs, In n nodes -> In f (map fst fs) -> In (Some bs) (node_values parts n f) -> holds d bs (vals bs)) ->
  py_node_features g nodes fs d None = Ok (map (fun n => spec_row (fun f => first_values vals (node_values parts n f)) fs) nodes).
Proof.
  intros C Hi Hw Hs H. unfold py_node_features. cbn [py_stamps bind].
  apply (py_dense_ok d _ nodes fs (fun n f => match node_values parts n f with v :: _ => bytes_of v | [] => [] end)); try assumption.
  - intros cs Hc. rewrite (converted_node_features fadd wval wm parts g nodes cs C) by (eapply map_fst_int32; eassumption). reflexivity.
  - intros n f Hn Hf. apply first_holds. intros bs Hb. apply (H n (fst f)); [assumption|now apply in_map|assumption].
Qed.

Theorem typed_node_features_ts wm parts g nodes fs d vals ts hist :
  converted wm parts g -> Forall (fun f => int32 (fst f)) fs -> (0 < d_width d)%nat -> sized d fs ->
  ts <> [] -> (length nodes <= length ts)%nat ->
  (forall n f v, In n nodes -> In f (map fst fs) -> In v (node_values parts n f) ->
     explains hist v /\ forall y, In y (hist (bytes_of v)) -> holds d (snd y) (vals (snd y))) ->
  py_node_features g nodes fs d (Some ts) =
  Ok (map (fun x => spec_row (fun f => values_of vals (spec_temporal hist (snd x) (node_values parts (fst x) f))) fs) (combine nodes ts)).
Proof.
  intros C Hi Hw Hs Ht HL H. unfold py_node_features. rewrite py_stamps_ok by assumption. cbn [bind].
  rewrite (combine_len nodes ts HL).
  apply (py_dense_ok d _ (combine nodes ts) fs (fun x f => entry_bytes hist (snd x) (node_values parts (fst x) f))); try assumption.
  - intros cs Hc. rewrite (converted_node_features_ts fadd wval wm parts g nodes cs ts hist C) by
      (try (eapply map_fst_int32; eassumption); rewrite Hc; intros; now apply (H n f v)). reflexivity.
  - intros x f Hx Hf. apply entry_holds. intros v y Hv. apply (H (fst x) (fst f) v); [eapply combine_in_l; eassumption|now apply in_map|assumption].
Qed.

Theorem typed_edge_features wm parts g src dst tp fs d vals :
  converted wm parts g -> Forall (fun f => int32 (fst f)) fs -> (0 < d_width d)%nat -> sized d fs ->
  length dst = length src -> length tp = length src ->
  let edges := combine (combine src dst) tp in
  (forall e r, In e edges -> In r (flat_map rows parts) -> row_id r = fst (fst e) -> searchable r) ->
  (forall e f bs, In e edges -> In f (map fst fs) -> In (Some bs) (edge_values parts e f) -> holds d bs (vals bs)) ->
  py_edge_features g src dst tp fs d None = Ok (map (fun e => spec_row (fun f => first_values vals (edge_values parts e f)) fs) edges).
Proof.
  intros C Hi Hw Hs L1 L2 edges HS H. unfold py_edge_features. rewrite py_edges_ok by assumption. cbn [py_stamps bind]. fold edges.
  apply (py_dense_ok d _ edges fs (fun n f => match edge_values parts n f with v :: _ => bytes_of v | [] => [] end)); try assumption.
  - intros cs Hc. rewrite (converted_edge_features fadd wval wm parts g edges cs C) by (try (eapply map_fst_int32; eassumption); assumption). reflexivity.
  - intros n f Hn Hf. apply first_holds. intros bs Hb. apply (H n (fst f)); [assumption|now apply in_map|assumption].
Qed.

Theorem typed_edge_features_ts wm parts g src dst tp fs d vals ts hist :
  converted wm parts g -> Forall (fun f => int32 (fst f)) fs -> (0 < d_width d)%nat -> sized d fs ->
  length dst = length src -> length tp = length src ->
  let edges := combine (combine src dst) tp in
  ts <> [] -> (length edges <= length ts)%nat ->
  (forall e r, In e edges -> In r (flat_map rows parts) -> row_id r = fst (fst e) -> searchable r) ->
  (forall e, In e edges -> (length (holders parts e) <= 1)%nat) ->
  (forall e f v, In e edges -> In f (map fst fs) -> In v (edge_values parts e f) ->
     explains hist v /\ forall y, In y (hist (bytes_of v)) -> holds d (snd y) (vals (snd y))) ->
  py_edge_features g src dst tp fs d (Some ts) =
  Ok (map (fun x => spec_row (fun f => values_of vals (spec_temporal hist (snd x) (edge_values parts (fst x) f))) fs) (combine edges ts)).
Proof.
  intros C Hi Hw Hs L1 L2 edges Ht HL HS HH H. unfold py_edge_features. rewrite py_edges_ok by assumption. cbn [bind]. fold edges.
  rewrite py_stamps_ok by assumption. cbn [bind]. rewrite (combine_len edges ts HL).
  apply (py_dense_ok d _ (combine edges ts) fs (fun x f => entry_bytes hist (snd x) (edge_values parts (fst x) f))); try assumption.
  - intros cs Hc. rewrite (converted_edge_features_ts fadd wval wm parts g edges cs ts hist C) by
      (try (eapply map_fst_int32; eassumption); try assumption; rewrite Hc; intros; now apply (H e f v)). reflexivity.
  - intros x f Hx Hf. apply entry_holds. intros v y Hv. apply (H (fst x) (fst f) v); [eapply combine_in_l; eassumption|now apply in_map|assumption].
Qed.

Theorem typed_node_strings wm parts g nodes fs d vals :
  converted wm parts g -> Forall int32 fs -> (0 < d_width d)%nat ->
  (forall n, In n nodes -> unmixed None row_feats fs (node_rows n (map rows parts))) ->
  (forall n f bs, In n nodes -> In f fs -> In (Some bs) (node_values parts n f) -> holds d bs (vals bs)) ->
  py_node_strings g nodes fs d None =
  Ok (flat_map (fun n => flat_map (fun f => first_given vals (node_values parts n f)) fs) nodes,
      map (fun n => map (fun f => Z.of_nat (length (first_given vals (node_values parts n f)))) fs) nodes).
Proof.
  intros C Hi Hw Hu H. unfold py_node_strings. cbn [py_stamps bind]. rewrite (converted_node_strings fadd wval wm parts g nodes fs C Hi Hu).
  apply (py_string_ok d nodes fs (spec_node_string parts) (fun n f => first_given vals (node_values parts n f)) Hw).
  intros n f Hn Hf. apply given_holds. intros bs. now apply H.
Qed.

Theorem typed_node_strings_ts wm parts g nodes fs d vals ts hist :
  converted wm parts g -> Forall int32 fs -> (0 < d_width d)%nat -> ts <> [] -> (length nodes <= length ts)%nat ->
  (forall n, In n nodes -> (length (filter (fun r => gives fs (row_feats r)) (node_rows n (map rows parts))) <= 1)%nat) ->
  (forall n f v, In n nodes -> In f fs -> In v (node_values parts n f) ->
     explains hist v /\ forall y, In y (hist (bytes_of v)) -> holds d (snd y) (vals (snd y))) ->
  let cell x f := values_of vals (spec_temporal hist (snd x) (node_values parts (fst x) f)) in
  py_node_strings g nodes fs d (Some ts) =
  Ok (flat_map (fun x => flat_map (cell x) fs) (combine nodes ts), map (fun x => map (fun f => Z.of_nat (length (cell x f))) fs) (combine nodes ts)).
Proof.
  intros C Hi Hw Ht HL Hu H cell. unfold py_node_strings. rewrite py_stamps_ok by assumption. cbn [bind].
  rewrite (converted_node_strings_ts fadd wval wm parts g nodes fs ts hist C Hi Hu) by (intros; now apply (H n f v)).
  apply (py_string_ok d (combine nodes ts) fs (fun x f => entry_bytes hist (snd x) (node_values parts (fst x) f)) cell Hw).
  intros x f Hx Hf. apply entry_holds. intros v y Hv. apply (H (fst x) f v); [eapply combine_in_l; eassumption|assumption|assumption].
Qed.

Theorem typed_edge_strings wm parts g src dst tp fs d vals :
  Forall int32 fs -> (0 < d_width d)%nat -> length dst = length src -> length tp = length src ->
  let edges := combine (combine src dst) tp in
  (forall e, In e edges -> readable fadd wval wm parts g (fst (fst e))) ->
  (forall e r, In e edges -> In r (flat_map rows parts) -> row_id r = fst (fst e) -> searchable r) ->
  (forall e, In e edges -> unmixed None (edge_row_feats e) fs (node_rows (fst (fst e)) (map rows parts))) ->
  (forall e f bs, In e edges -> In f fs -> In (Some bs) (edge_values parts e f) -> holds d bs (vals bs)) ->
  py_edge_strings g src dst tp fs d None =
  Ok (flat_map (fun e => flat_map (fun f => first_given vals (edge_values parts e f)) fs) edges,
      map (fun e => map (fun f => Z.of_nat (length (first_given vals (edge_values parts e f)))) fs) edges).
Proof.
  intros Hi Hw L1 L2 edges HR HS Hu H. unfold py_edge_strings. rewrite py_edges_ok by assumption. cbn [py_stamps bind]. fold edges.
  rewrite (converted_edge_strings fadd wval wm parts g edges fs Hi HR HS Hu).
  apply (py_string_ok d edges fs (spec_edge_string parts) (fun e f => first_given vals (edge_values parts e f)) Hw).
  intros n f Hn Hf. apply given_holds. intros bs. now apply H.
Qed.

Theorem typed_edge_strings_ts wm parts g src dst tp fs d vals ts hist :
  Forall int32 fs -> (0 < d_width d)%nat -> length dst = length src -> length tp = length src ->
  let edges := combine (combine src dst) tp in
  ts <> [] -> (length edges <= length ts)%nat ->
  (forall e, In e edges -> readable fadd wval wm parts g (fst (fst e))) ->
  (forall e r, In e edges -> In r (flat_map rows parts) -> row_id r = fst (fst e) -> searchable r) ->
  (forall e, In e edges -> (length (filter (fun r => gives fs (edge_row_feats e r)) (node_rows (fst (fst e)) (map rows parts))) <= 1)%nat) ->
  (forall e f v, In e edges -> In f fs -> In v (edge_values parts e f) ->
     explains hist v /\ forall y, In y (hist (bytes_of v)) -> holds d (snd y) (vals (snd y))) ->
  let cell x f := values_of vals (spec_temporal hist (snd x) (edge_values parts (fst x) f)) in
  py_edge_strings g src dst tp fs d (Some ts) =
  Ok (flat_map (fun x => flat_map (cell x) fs) (combine edges ts), map (fun x => map (fun f => Z.of_nat (length (cell x f))) fs) (combine edges ts)).
Proof.
  intros Hi Hw L1 L2 edges Ht HL HR HS Hu H cell. unfold py_edge_strings. rewrite py_edges_ok by assumption. cbn [bind]. fold edges.
  rewrite py_stamps_ok by assumption. cbn [bind].
  rewrite (converted_edge_strings_ts fadd wval wm parts g edges fs ts hist Hi HR HS Hu) by (intros; now apply (H e f v)).
  apply (py_string_ok d (combine edges ts) fs (fun x f => entry_bytes hist (snd x) (edge_values parts (fst x) f)) cell Hw).
  intros x f Hx Hf. apply entry_holds. intros v y Hv. apply (H (fst x) f v); [eapply combine_in_l; eassumption|assumption|assumption].
Qed.

Lemma first_bytes_typed (P : list N -> Prop) l : (forall bs, In (Some bs) l -> bs = [] \/ P bs) -> first_bytes l = [] \/ P (first_bytes l).
Proof.
  intro H. rewrite first_bytes_given. destruct (filter _ l) as [|v t] eqn:E; [now left|].
  assert (Hv : In v (v :: t)) by now left. rewrite <- E in Hv. apply filter_In in Hv. destruct Hv as [Hv Hn]. destruct v as [bs|]; [|discriminate]. now apply H.
Qed.

Theorem typed_node_sparse wm parts g nodes fs d tdec dims :
  converted wm parts g -> Forall int32 fs -> (0 < d_width d)%nat ->
  (forall n f bs, In n nodes -> In f fs -> In (Some bs) (node_values parts n f) -> bs = [] \/ sparse_typed d tdec (dims f) bs) ->
  let cells f := map (fun n => tdecoded tdec (spec_node_string parts n f)) nodes in
  py_node_sparse g nodes fs d None = Ok (map (fun f => spec_coords (cells f)) fs, map (fun f => spec_values (cells f)) fs, map (fun f => spec_dim (cells f)) fs).
Proof.
  intros C Hi Hw H cells. unfold py_node_sparse. cbn [py_stamps bind].
  destruct (converted_node_sparse fadd wval wm parts g nodes fs (untyped d tdec) C Hi) as (ss & E & A).
  { intros n f [bs|] Hn Hf Hv Hb; [|now elim Hb]. destruct (H n f bs Hn Hf Hv) as [->|Ht]; [now elim Hb|]. eapply sparse_typed_decodes; exact Ht. }
  rewrite E. rewrite (py_sparse_ok d tdec dims _ fs ss Hw A); [unfold cells; f_equal; f_equal; [f_equal|]; apply map_ext; intro f; now rewrite map_map|].
  intros f bs Hf Hb. apply in_map_iff in Hb. destruct Hb as (n & <- & Hn). apply first_bytes_typed. intros bs. now apply H.
Qed.

Theorem typed_edge_sparse wm parts g src dst tp fs d tdec dims :
  converted wm parts g -> Forall int32 fs -> (0 < d_width d)%nat -> length dst = length src -> length tp = length src ->
  let edges := combine (combine src dst) tp in
  (forall e r, In e edges -> In r (flat_map rows parts) -> row_id r = fst (fst e) -> searchable r) ->
  (forall e f bs, In e edges -> In f fs -> In (Some bs) (edge_values parts e f) -> bs = [] \/ sparse_typed d tdec (dims f) bs) ->
  let cells f := map (fun e => tdecoded tdec (spec_edge_string parts e f)) edges in
  py_edge_sparse g src dst tp fs d None = Ok (map (fun f => spec_coords (cells f)) fs, map (fun f => spec_values (cells f)) fs, map (fun f => spec_dim (cells f)) fs).
Proof.
  intros C Hi Hw L1 L2 edges HS H cells. unfold py_edge_sparse. rewrite py_edges_ok by assumption. cbn [py_stamps bind]. fold edges.
  destruct (converted_edge_sparse fadd wval wm parts g edges fs (untyped d tdec) C Hi HS) as (ss & E & A).
  { intros n f [bs|] Hn Hf Hv Hb; [|now elim Hb]. destruct (H n f bs Hn Hf Hv) as [->|Ht]; [now elim Hb|]. eapply sparse_typed_decodes; exact Ht. }
  rewrite E. rewrite (py_sparse_ok d tdec dims _ fs ss Hw A); [unfold cells; f_equal; f_equal; [f_equal|]; apply map_ext; intro f; now rewrite map_map|].
  intros f bs Hf Hb. apply in_map_iff in Hb. destruct Hb as (n & <- & Hn). apply first_bytes_typed. intros bs. now apply H.
Qed.

Lemma entry_typed (P : list N -> Prop) hist t l : (forall v y, In v l -> In y (hist (bytes_of v)) -> snd y = [] \/ P (snd y)) ->
  entry_bytes hist t l = [] \/ P (entry_bytes hist t l).
Proof.
  intro H. unfold entry_bytes. destruct (spec_temporal hist t l) as [y|] eqn:E; [|now left].
  apply spec_temporal_in in E. destruct E as (v & Hv & Hy). now apply (H v).
Qed.

Theorem typed_node_sparse_ts wm parts g nodes fs d tdec dims ts hist :
  converted wm parts g -> Forall int32 fs -> (0 < d_width d)%nat -> ts <> [] -> (length nodes <= length ts)%nat ->
  (forall n f, In n nodes -> In f fs -> (length (node_values parts n f) <= 1)%nat) ->
  (forall n f v, In n nodes -> In f fs -> In v (node_values parts n f) ->
     explains hist v /\ forall y, In y (hist (bytes_of v)) -> snd y = [] \/ sparse_typed d tdec (dims f) (snd y)) ->
  let cells f := map (fun x => tdecoded tdec (entry_bytes hist (snd x) (node_values parts (fst x) f))) (combine nodes ts) in
  py_node_sparse g nodes fs d (Some ts) = Ok (map (fun f => spec_coords (cells f)) fs, map (fun f => spec_values (cells f)) fs, map (fun f => spec_dim (cells f)) fs).
Proof.
  intros C Hi Hw Ht HL H1 H cells. unfold py_node_sparse. rewrite py_stamps_ok by assumption. cbn [bind].
  destruct (converted_node_sparse_ts fadd wval wm parts g nodes fs ts hist (untyped d tdec) C Hi H1) as (ss & E & A).
  { intros n f v Hn Hf Hv. now apply (H n f v). }
  { intros n f v y Hn Hf Hv Hy. destruct (H n f v Hn Hf Hv) as [_ Hd]. destruct (Hd y Hy) as [Hd'|Hd']; [now left|]. right. eapply sparse_typed_decodes; exact Hd'. }
  rewrite E. rewrite (py_sparse_ok d tdec dims _ fs ss Hw A); [unfold cells; f_equal; f_equal; [f_equal|]; apply map_ext; intro f; now rewrite map_map|].
  intros f bs Hf Hb. apply in_map_iff in Hb. destruct Hb as (x & <- & Hx). apply entry_typed. intros v y Hv Hy.
  destruct (H (fst x) f v (combine_in_l _ _ _ Hx) Hf Hv) as [_ Hd]. now apply Hd.
Qed.

Theorem typed_edge_sparse_ts wm parts g src dst tp fs d tdec dims ts hist :
  converted wm parts g -> Forall int32 fs -> (0 < d_width d)%nat -> length dst = length src -> length tp = length src ->
  let edges := combine (combine src dst) tp in
  ts <> [] -> (length edges <= length ts)%nat ->
  (forall e r, In e edges -> In r (flat_map rows parts) -> row_id r = fst (fst e) -> searchable r) ->
  (forall e f, In e edges -> In f fs -> (length (edge_values parts e f) <= 1)%nat) ->
  (forall e f v, In e edges -> In f fs -> In v (edge_values parts e f) ->
     explains hist v /\ forall y, In y (hist (bytes_of v)) -> snd y = [] \/ sparse_typed d tdec (dims f) (snd y)) ->
  let cells f := map (fun x => tdecoded tdec (entry_bytes hist (snd x) (edge_values parts (fst x) f))) (combine edges ts) in
  py_edge_sparse g src dst tp fs d (Some ts) = Ok (map (fun f => spec_coords (cells f)) fs, map (fun f => spec_values (cells f)) fs, map (fun f => spec_dim (cells f)) fs).
Proof.
  intros C Hi Hw L1 L2 edges Ht HL HS H1 H cells. unfold py_edge_sparse. rewrite py_edges_ok by assumption. cbn [bind]. fold edges.
  rewrite py_stamps_ok by assumption. cbn [bind].
  destruct (converted_edge_sparse_ts fadd wval wm parts g edges fs ts hist (untyped d tdec) C Hi HS H1) as (ss & E & A).
  { intros n f v Hn Hf Hv. now apply (H n f v). }
  { intros n f v y Hn Hf Hv Hy. destruct (H n f v Hn Hf Hv) as [_ Hd]. destruct (Hd y Hy) as [Hd'|Hd']; [now left|]. right. eapply sparse_typed_decodes; exact Hd'. }
  rewrite E. rewrite (py_sparse_ok d tdec dims _ fs ss Hw A); [unfold cells; f_equal; f_equal; [f_equal|]; apply map_ext; intro f; now rewrite map_map|].
  intros f bs Hf Hb. apply in_map_iff in Hb. destruct Hb as (x & <- & Hx). apply entry_typed. intros v y Hv Hy.
  destruct (H (fst x) f v (combine_in_l _ _ _ Hx) Hf Hv) as [_ Hd]. now apply Hd.
Qed.
End Queries.
