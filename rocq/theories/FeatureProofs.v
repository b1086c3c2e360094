(** Feature reads: slots, dense node features. *)
From Verif Require Import Base WriterModel LoaderModel GraphModel GraphSpec FeatureModel FeatureSpec
  WriterProofs LoaderProofs QueryProofs GraphProofs ConvertProofs AnswerProofs.
From Coq Require Import Sorting.Sorted ZifyBool ZifyNat ZifyN.
Local Open Scope Z_scope.

(** ** Sizes and feature counts of converted graphs *)

Definition small (rws : list row) : Prop :=
  (N.of_nat (8 * length (all_nfeats rws)) < 2 ^ 64)%N /\
  (N.of_nat (sum (map flen (all_nfeats rws))) < 2 ^ 64)%N /\
  (N.of_nat (8 * length (all_efeats (all_edges rws))) < 2 ^ 64)%N /\
  (N.of_nat (sum (map flen (all_efeats (all_edges rws)))) < 2 ^ 64)%N.

Definition counted (m : lmeta) (rws : list row) : Prop :=
  (lm_nfc m = 0%nat -> all_nfeats rws = []) /\ (lm_efc m = 0%nat -> all_efeats (all_edges rws) = []).

Lemma max_zero l : fold_right Nat.max 0%nat l = 0%nat -> sum l = 0%nat.
Proof. induction l as [|x l IH]; [reflexivity|]. cbn. rewrite sum_cons. intro H. rewrite IH by lia. lia. Qed.

Lemma fold_left_max_le l : forall a, (a <= fold_left Nat.max l a)%nat /\ Forall (fun x => (x <= fold_left Nat.max l a)%nat) l.
Proof.
  induction l as [|x l IH]; intro a; cbn; [split; [lia|constructor]|].
  destruct (IH (Nat.max a x)) as [H1 H2]. split; [lia|]. constructor; [lia|assumption].
Qed.

Lemma sum_rev l : sum (rev l) = sum l.
Proof. induction l as [|x l IH]; [reflexivity|]. cbn. rewrite sum_app, !sum_cons, IH. change (sum []) with 0%nat. lia. Qed.

Lemma convert_small wval wm parts ps m :
  convert wval wm parts = Ok (ps, m) -> Forall fits ps -> Forall (fun rws => small rws /\ counted m rws) (map rows parts).
Proof.
  unfold convert. intros H F. apply bind_ok in H. destruct H as (ss & Hss & H). injection H as Hps Hm.
  apply mapM_ok_inv in Hss. subst ps.
  assert (Hn : forall s, In s ss -> (node_feature_count s <= lm_nfc m)%nat /\ (edge_feature_count s <= lm_efc m)%nat).
  { intros s Hs. rewrite <- Hm. cbn [lm_nfc lm_efc]. split.
    - destruct (fold_left_max_le (map node_feature_count ss) 0) as [_ Hx]. rewrite Forall_forall in Hx.
      apply Hx. now apply in_map.
    - destruct (fold_left_max_le (map edge_feature_count ss) 0) as [_ Hx]. rewrite Forall_forall in Hx.
      apply Hx. now apply in_map. }
  clear Hm. revert F Hn. induction Hss as [|bs s parts ss Hw _ IH]; intros F Hn; [constructor|].
  cbn [map] in F. inversion F as [|? ? F1 F2]; subst. constructor.
  2:{ apply IH; [assumption|]. intros; apply Hn; now right. }
  specialize (Hn s (or_introl eq_refl)). clear IH F F2.
  apply write_partition_enc in Hw. destruct Hw as (s0 & -> & E). destruct E. rewrite rev_involutive in *.
  unfold files_of, wclose, fits in *.
  cbn [f_nm f_ni f_nfi f_nfd f_nbi f_ei f_efi f_efd f_eti nm ni nfi nfd nbi ei efi efd eti node_feature_count edge_feature_count] in *.
  destruct F1 as (Fnm & Fni & Fnfi & Fnfd & Fnbi & Fei & Fefi & Fefd & Feti).
  rewrite app_length, enc_nfi, flat_cu64_length, psum_length, map_length in Fnfi.
  rewrite enc_nfd, <- sum_flens in Fnfd.
  rewrite app_length, enc_efi, flat_cu64_length, psum_length, map_length in Fefi.
  rewrite enc_efd, <- sum_flens in Fefd.
  split; [split; [|split; [|split]]; try assumption; lia|].
  rewrite enc_nfc, enc_efc in Hn. split; intro Hz.
  - apply length_zero_iff_nil. rewrite all_nfeats_length. rewrite <- (rev_involutive (rows bs)).
    unfold nfeat_counts in *. rewrite map_rev, sum_rev. apply max_zero. lia.
  - apply length_zero_iff_nil. rewrite all_efeats_length. apply max_zero. lia.
Qed.

(** ** Slots *)

Lemma sread_ok data a b c off n :
  data = a ++ b ++ c -> off = Z.of_nat (length a) -> n = Z.of_nat (length b) -> sread data off n = Ok b.
Proof.
  intros -> -> ->. unfold sread. rewrite !app_length.
  replace ((0 <=? Z.of_nat (length a)) && (0 <=? Z.of_nat (length b)) &&
           (Z.of_nat (length a) + Z.of_nat (length b) <=? Z.of_nat (length a + (length b + length c)))) with true by lia.
  rewrite !Nat2Z.id. now rewrite slice_app.
Qed.

Lemma u64_small z : 0 <= z < 2 ^ 64 -> u64 z = z.
Proof. intro H. unfold u64. now apply Z.mod_small. Qed.
Lemma u64_int32 z : - 2 ^ 31 <= z < 0 -> u64 z = z + 2 ^ 64.
Proof. intro H. unfold u64. rewrite <- (Z.mod_add z 1) by lia. apply Z.mod_small. lia. Qed.

Definition int32 (f : Z) : Prop := - 2 ^ 31 <= f < 2 ^ 31.

(** The index vector and the data of a list of features. *)
Definition findex (FL : list (option (list N))) : list nat := psum 0 (map flen FL) ++ [sum (map flen FL)].
Definition fdata (FL : list (option (list N))) : list N := flat_map fbytes FL.

Lemma firstn_map' {A B} (f : A -> B) n l : firstn n (map f l) = map f (firstn n l).
Proof. revert l; induction n; intros [|a l]; cbn; congruence. Qed.

Lemma findex_get FL i : (i <= length FL)%nat -> get (findex FL) i = Ok (length (fdata (firstn i FL))).
Proof.
  intro H. unfold findex, fdata. rewrite <- sum_flens, <- firstn_map'.
  destruct (Nat.eq_dec i (length FL)) as [->|Hn].
  - rewrite get_app_r0 by (now rewrite psum_length, map_length). rewrite firstn_all2 by (rewrite map_length; lia). reflexivity.
  - rewrite get_app_l by (rewrite psum_length, map_length; lia).
    apply get_ok. rewrite psum_nth by (rewrite map_length; lia). reflexivity.
Qed.

Lemma value_at_nth {A} (fs : list A) f v : value_at fs f = Some v -> 0 <= f /\ nth_error fs (Z.to_nat f) = Some v.
Proof. unfold value_at. destruct (Z.ltb_spec f 0); [discriminate|]. auto. Qed.

Lemma slot_none FL lo hi (fs : list (option (list N))) f :
  hi = (lo + length fs)%nat -> (N.of_nat (8 * length fs) < 2 ^ 64)%N -> int32 f -> value_at fs f = None ->
  feature_slot (findex FL) lo hi f = Ok None.
Proof.
  intros -> Hs Hf Hv. unfold feature_slot.
  replace (Z.of_nat (lo + length fs) - Z.of_nat lo) with (Z.of_nat (length fs)) by lia.
  unfold value_at in Hv. destruct (Z.ltb_spec f 0).
  - rewrite u64_int32 by (unfold int32 in Hf; lia).
    destruct (Z.leb_spec (Z.of_nat (length fs)) (f + 2 ^ 64)); [reflexivity|unfold int32 in Hf; lia].
  - apply nth_error_None in Hv. rewrite u64_small by (unfold int32 in Hf; lia).
    destruct (Z.leb_spec (Z.of_nat (length fs)) f); [reflexivity|lia].
Qed.

Lemma slot_some pre fs post f v :
  (N.of_nat (sum (map flen (pre ++ fs ++ post))) < 2 ^ 64)%N -> int32 f ->
  value_at fs f = Some v ->
  exists a b, fdata (pre ++ fs ++ post) = a ++ fbytes v ++ b /\
    feature_slot (findex (pre ++ fs ++ post)) (length pre) (length pre + length fs) f =
    Ok (Some (Z.of_nat (length a), Z.of_nat (length (fbytes v)))).
Proof.
  intros Hs Hf Hv. apply value_at_nth in Hv. destruct Hv as [H0 Hv].
  apply nth_error_split in Hv. destruct Hv as (l1 & l2 & E & Hl). subst fs.
  exists (fdata (pre ++ l1)), (fdata (l2 ++ post)).
  assert (Ed : fdata (pre ++ (l1 ++ v :: l2) ++ post) = fdata (pre ++ l1) ++ fbytes v ++ fdata (l2 ++ post)).
  { unfold fdata. rewrite <- !app_assoc. cbn [app]. rewrite !flat_map_app'. cbn [flat_map].
    rewrite ?flat_map_app', <- ?app_assoc. reflexivity. }
  split; [exact Ed|].
  unfold feature_slot. rewrite u64_small by (unfold int32 in Hf; lia).
  rewrite app_length. cbn [length].
  match goal with |- context [if ?c then _ else _] => replace c with false by lia end.
  assert (F1 : firstn (length pre + Z.to_nat f) (pre ++ (l1 ++ v :: l2) ++ post) = pre ++ l1).
  { rewrite <- Hl, <- app_length, <- !app_assoc, app_assoc.
    rewrite firstn_app, firstn_all, Nat.sub_diag. cbn. apply app_nil_r. }
  assert (F2 : firstn (length pre + Z.to_nat f + 1) (pre ++ (l1 ++ v :: l2) ++ post) = (pre ++ l1) ++ [v]).
  { rewrite <- Hl. replace (length pre + length l1 + 1)%nat with (length ((pre ++ l1) ++ [v])) by (rewrite !app_length; cbn; lia).
    replace (pre ++ (l1 ++ v :: l2) ++ post) with (((pre ++ l1) ++ [v]) ++ l2 ++ post)
      by (rewrite <- !app_assoc; reflexivity).
    rewrite firstn_app, firstn_all, Nat.sub_diag. cbn. apply app_nil_r. }
  rewrite findex_get by (rewrite !app_length; cbn; lia). cbn [bind].
  rewrite findex_get by (rewrite !app_length; cbn; lia). cbn [bind].
  rewrite F1, F2.
  assert (E2 : length (fdata ((pre ++ l1) ++ [v])) = (length (fdata (pre ++ l1)) + length (fbytes v))%nat).
  { unfold fdata. rewrite flat_map_app'. rewrite app_length. cbn [flat_map]. rewrite app_nil_r. reflexivity. }
  rewrite E2. rewrite sum_flens in Hs. fold (fdata (pre ++ (l1 ++ v :: l2) ++ post)) in Hs. rewrite Ed, !app_length in Hs.
  repeat f_equal. rewrite u64_small; lia.
Qed.

(** ** Dense node features *)

(** What [resolve] finds for a stored value, as (timestamp, bytes). *)
Definition resolves (data : list N) (ts : option Z) (look : option (list N) -> Z * list N) (v : option (list N)) : Prop :=
  forall a b, data = a ++ fbytes v ++ b ->
  exists a' b', data = a' ++ snd (look v) ++ b' /\
    resolve data ts (Z.of_nat (length a), Z.of_nat (length (fbytes v))) =
    Ok (Z.of_nat (length a'), Z.of_nat (length (snd (look v))), fst (look v)).

Definition plain (v : option (list N)) : Z * list N := (0, fbytes v).
Lemma plain_resolves data v : resolves data None plain v.
Proof. intros a b ->. exists a, b. auto. Qed.

Lemma write_at_seg pre seg post bs :
  length bs = length seg -> write_at (pre ++ seg ++ post) (length pre) bs = Ok (pre ++ bs ++ post).
Proof.
  intro H. unfold write_at. rewrite !app_length.
  destruct (Nat.leb_spec (length pre + length bs) (length pre + (length seg + length post))); [|lia].
  rewrite firstn_app, firstn_all, Nat.sub_diag. cbn [firstn]. rewrite app_nil_r.
  rewrite H, <- app_length. rewrite (app_assoc pre seg post). rewrite (skipn_app _ (pre ++ seg)).
  rewrite skipn_all, Nat.sub_diag. reflexivity.
Qed.

Lemma fixed_length size bs : length (fixed size bs) = size.
Proof. unfold fixed. rewrite firstn_length, app_length, repeat_length. lia. Qed.

Lemma copy_value_seg a bs b pre seg post size :
  length seg = size ->
  copy_value (a ++ bs ++ b) (pre ++ seg ++ post) (length pre) size (Z.of_nat (length a)) (Z.of_nat (length bs)) =
  Ok (pre ++ fixed size bs ++ post).
Proof.
  intro H. unfold copy_value.
  destruct (Z.ltb_spec (Z.of_nat (length bs)) (Z.of_nat size)) as [Hlt|Hge].
  - rewrite Z.min_r by lia. rewrite (sread_ok _ a bs b) by reflexivity. cbn [bind].
    rewrite <- (firstn_skipn (length bs) seg) at 1. rewrite <- app_assoc.
    rewrite write_at_seg by (rewrite firstn_length; lia). cbn [bind].
    rewrite <- app_length, app_assoc.
    rewrite write_at_seg by (unfold zeros; rewrite repeat_length, skipn_length; lia).
    unfold fixed, zeros. rewrite firstn_app. rewrite (firstn_all2 bs) by lia. rewrite Nat2Z.id.
    rewrite <- !app_assoc. f_equal. f_equal. f_equal. f_equal.
    replace size with ((size - length bs) + length bs)%nat at 3 by lia.
    rewrite repeat_app, firstn_app, repeat_length, Nat.sub_diag, firstn_all2 by (rewrite repeat_length; lia).
    cbn. now rewrite app_nil_r.
  - rewrite Z.min_l by lia. rewrite <- (firstn_skipn size bs) at 1. rewrite <- app_assoc.
    rewrite (sread_ok _ a (firstn size bs) (skipn size bs ++ b)) by (try reflexivity; rewrite firstn_length; lia).
    cbn [bind]. rewrite write_at_seg by (rewrite firstn_length; lia). cbn [bind]. f_equal. f_equal. f_equal.
    unfold fixed. rewrite firstn_app. replace (size - length bs)%nat with 0%nat by lia. cbn. now rewrite app_nil_r.
Qed.

Definition nstep (ts : option Z) (look : option (list N) -> Z * list N) (feats : list (option (list N)))
    (f : Z * nat) (x : Z * list N) : Z * list N :=
  if already ts (fst x) then x
  else match value_at feats (fst f) with
       | None => x
       | Some v => if fst (look v) <=? fst x then x else (fst (look v), fixed (snd f) (snd (look v)))
       end.

Fixpoint zip_with {A B C} (h : A -> B -> C) (l : list A) (m : list B) : list C :=
  match l, m with a :: l', b :: m' => h a b :: zip_with h l' m' | _, _ => [] end.

Definition sized (fs : list (Z * nat)) (segs : list (Z * list N)) : Prop :=
  Forall2 (fun f s => length (snd s) = snd f) fs segs.

Lemma sized_length fs segs : sized fs segs -> length fs = length segs.
Proof. induction 1; cbn; congruence. Qed.

Lemma nstep_sized ts look feats fs segs : sized fs segs -> sized fs (zip_with (nstep ts look feats) fs segs).
Proof.
  induction 1 as [|f s fs segs H HF IH]; [constructor|]. cbn. constructor; [|exact IH].
  unfold nstep. destruct (already ts (fst s)); [assumption|]. destruct (value_at feats (fst f)); [|assumption].
  destruct (_ <=? _); [assumption|]. apply fixed_length.
Qed.

Section NodeLoop.
Variables (p : partition) (pre feats post : list (option (list N))) (ts : option Z) (look : option (list N) -> Z * list N).
Hypothesis Hidx : p_nfidx p = findex (pre ++ feats ++ post).
Hypothesis Hdat : p_nfd p = fdata (pre ++ feats ++ post).
Hypothesis Hsz1 : (N.of_nat (8 * length feats) < 2 ^ 64)%N.
Hypothesis Hsz2 : (N.of_nat (sum (map flen (pre ++ feats ++ post))) < 2 ^ 64)%N.

Lemma node_loop_spec fs : forall segs h,
  (forall f v, In f fs -> value_at feats (fst f) = Some v -> resolves (fdata (pre ++ feats ++ post)) ts look v) ->
  Forall (fun f => int32 (fst f)) fs -> sized fs segs ->
  node_feature_loop p (length pre) (length pre + length feats) ts fs (map fst segs) (length h) (h ++ concat (map snd segs)) =
  Ok (map fst (zip_with (nstep ts look feats) fs segs), h ++ concat (map snd (zip_with (nstep ts look feats) fs segs))).
Proof.
  induction fs as [|[f size] fs IH]; intros segs h Hlook Hi HS; inversion HS as [|? [flag seg] ? segs' Hl HS']; subst.
  - reflexivity.
  - cbn [fst snd] in *. inversion Hi as [|? ? Hf Hi']; subst. cbn [fst] in Hf.
    cbn [node_feature_loop map concat zip_with]. cbn [fst snd].
    assert (Next : forall fl seg', length seg' = length seg ->
      (do r <- node_feature_loop p (length pre) (length pre + length feats) ts fs (map fst segs') (length h + length seg)
                 (h ++ seg' ++ concat (map snd segs'));; Ok (fl :: fst r, snd r)) =
      Ok (fl :: map fst (zip_with (nstep ts look feats) fs segs'),
          h ++ seg' ++ concat (map snd (zip_with (nstep ts look feats) fs segs')))).
    { intros fl seg' El. specialize (IH segs' (h ++ seg') (fun f v Hin => Hlook f v (or_intror Hin)) Hi' HS').
      rewrite app_length, El, <- app_assoc in IH. rewrite IH. cbn [bind fst snd]. now rewrite <- app_assoc. }
    set (x' := nstep ts look feats (f, length seg) (flag, seg)).
    unfold nstep in x'. cbn [fst snd] in x'. subst x'.
    destruct (already ts flag); [now rewrite Next|].
    rewrite Hidx. destruct (value_at feats f) as [v|] eqn:Ev.
    + destruct (slot_some pre feats post f v Hsz2 Hf Ev) as (a & b & Ed & Es). rewrite Es. cbn [bind].
      destruct (Hlook (f, length seg) v (or_introl eq_refl) Ev a b Ed) as (a' & b' & Ed' & Er). rewrite Hdat, Er. cbn [bind].
      destruct (fst (look v) <=? flag); [now rewrite Next|].
      rewrite Ed', copy_value_seg by reflexivity. cbn [bind].
      rewrite Next by apply fixed_length. reflexivity.
    + rewrite (slot_none _ _ _ feats) by (reflexivity || assumption). cbn [bind]. now rewrite Next.
Qed.
End NodeLoop.

(** Folding over the places of a node. *)
Lemma foldM_app {A S} (f : A -> S -> res S) l1 l2 s : foldM f (l1 ++ l2) s = do s' <- foldM f l1 s ;; foldM f l2 s'.
Proof. revert s; induction l1 as [|a l1 IH]; intro s; [reflexivity|]. cbn. destruct (f a s); cbn; [apply IH|reflexivity]. Qed.

Lemma places_foldM {S T} P (q : partition -> nat -> S -> res S) (enc : T -> S) (h : T -> row -> T) (I : T -> Prop) n rwss :
  (forall rws r1 r r2 s, In rws rwss -> rws = r1 ++ r :: r2 -> row_id r = n -> I s ->
     q (P rws) (length r1) (enc s) = Ok (enc (h s r)) /\ I (h s r)) ->
  forall s, I s -> foldM (fun x s => q (fst x) (snd x) s) (places P n rwss) (enc s) = Ok (enc (fold_left h (node_rows n rwss) s)) /\
                   I (fold_left h (node_rows n rwss) s).
Proof.
  induction rwss as [|rws rwss IH]; intros H s Hs; [split; [reflexivity|assumption]|].
  unfold places, node_rows. cbn [flat_map concat]. rewrite filter_app, fold_left_app, foldM_app.
  assert (Q : foldM (fun x s => q (fst x) (snd x) s)
                (map (fun x => (P rws, fst x)) (filter (fun x => row_id (snd x) =? n) (indexed rws))) (enc s) =
              Ok (enc (fold_left h (filter (fun r => row_id r =? n) rws) s)) /\ I (fold_left h (filter (fun r => row_id r =? n) rws) s)).
  { rewrite <- (filter_indexed (fun r => row_id r =? n)).
    assert (Hin : forall x s, In x (filter (fun x : nat * row => row_id (snd x) =? n) (indexed rws)) -> I s ->
                   q (P rws) (fst x) (enc s) = Ok (enc (h s (snd x))) /\ I (h s (snd x))).
    { intros [i r] s' Hx Hs'. apply filter_In in Hx. destruct Hx as [Hx Hn]. cbn [fst snd] in *.
      apply indexed_split in Hx. destruct Hx as (l1 & l2 & E & ->). apply (H rws l1 r l2); [now left|assumption|lia|assumption]. }
    revert s Hs. induction (filter _ (indexed rws)) as [|x l IHl]; intros s Hs; [split; [reflexivity|assumption]|].
    cbn [map foldM fold_left fst snd]. destruct (Hin x s (or_introl eq_refl) Hs) as [E1 I1]. rewrite E1. cbn [bind].
    apply IHl; [intros; apply Hin; [now right|assumption]|assumption]. }
  destruct Q as [Q1 Q2]. rewrite Q1. cbn [bind]. apply IH; [|assumption].
  intros; eapply H; try eassumption. now right.
Qed.

(** Values of a node in its rows are the values in its records. *)
Definition row_values (f : Z) (rws : list row) : list (option (list N)) :=
  flat_map (fun r => opt_list (value_at (row_feats r) f)) rws.

Lemma row_values_app f a b : row_values f (a ++ b) = row_values f a ++ row_values f b.
Proof. apply flat_map_app'. Qed.

Lemma rows_node_values n f xs :
  row_values f (filter (fun r => row_id r =? n) (rev (rows_rev [] xs))) =
  flat_map (fun x => if is_node (fst (fst x)) && (rsrc (fst (fst x)) =? n) then opt_list (value_at (rfeats (fst (fst x))) f) else []) xs.
Proof.
  induction xs as [|x xs IH] using rev_ind; [reflexivity|].
  rewrite rows_rev_snoc, flat_map_app', <- IH. unfold row_step. cbn [flat_map]. rewrite app_nil_r.
  destruct (is_node (fst (fst x))); cbn [andb].
  - cbn [rev]. rewrite filter_app, row_values_app. f_equal. cbn [filter row_id].
    destruct (rsrc (fst (fst x)) =? n); [|reflexivity]. unfold row_values. cbn [flat_map row_feats]. apply app_nil_r.
  - rewrite app_nil_r. destruct (rows_rev [] xs) as [|w rest].
    + cbn [rev app filter row_id]. destruct (_ =? n); [|reflexivity]. unfold row_values. cbn [flat_map row_feats].
      unfold value_at. destruct (f <? 0); [reflexivity|]. rewrite (proj2 (nth_error_None _ _)) by (cbn; lia). reflexivity.
    + destruct (row_id w =? rsrc (fst (fst x))).
      * cbn [rev]. rewrite !filter_app, !row_values_app. f_equal. cbn [filter add_edge_to row_id].
        destruct (row_id w =? n); reflexivity.
      * cbn [rev]. rewrite (filter_app _ (rev rest ++ [w])), row_values_app. cbn [filter row_id].
        rewrite <- app_nil_r. f_equal. destruct (_ =? n); [|reflexivity]. unfold row_values. cbn [flat_map row_feats].
        unfold value_at. destruct (f <? 0); [reflexivity|]. rewrite (proj2 (nth_error_None _ _)) by (cbn; lia). reflexivity.
Qed.

Lemma node_values_rows parts n f : row_values f (node_rows n (map rows parts)) = node_values parts n f.
Proof.
  unfold node_rows, node_values. induction parts as [|bs parts IH]; [reflexivity|].
  cbn [map concat]. rewrite filter_app, row_values_app, concat_app, flat_map_app', IH. f_equal.
  unfold rows. rewrite rows_node_values, <- (items_records bs).
  rewrite !flat_map_concat_map, map_map. reflexivity.
Qed.

Definition vstep (ts : option Z) (look : option (list N) -> Z * list N) (size : nat) (x : Z * list N) (v : option (list N))
  : Z * list N :=
  if already ts (fst x) then x
  else if fst (look v) <=? fst x then x else (fst (look v), fixed size (snd (look v))).

Lemma nstep_values ts look f rws : forall x,
  fold_left (fun x r => nstep ts look (row_feats r) f x) rws x = fold_left (vstep ts look (snd f)) (row_values (fst f) rws) x.
Proof.
  induction rws as [|r rws IH]; intro x; [reflexivity|]. cbn [fold_left]. rewrite IH.
  unfold row_values at 2. cbn [flat_map]. rewrite fold_left_app. fold (row_values (fst f) rws). f_equal.
  unfold nstep. destruct (value_at (row_feats r) (fst f)) as [v|]; cbn [opt_list fold_left].
  - reflexivity.
  - destruct (already ts (fst x)); reflexivity.
Qed.

Definition filled (f : Z * nat) (x : Z * list N) : list N := if 0 <=? fst x then snd x else zeros (snd f).

Lemma fill_missing_spec fs : forall segs h, sized fs segs ->
  fill_missing fs (map fst segs) (length h) (h ++ concat (map snd segs)) = Ok (h ++ concat (zip_with filled fs segs)).
Proof.
  induction fs as [|[f size] fs IH]; intros segs h HS; inversion HS as [|? [flag seg] ? segs' Hl HS']; subst; [reflexivity|].
  cbn [fst snd] in *. subst size. cbn [fill_missing map concat zip_with fst snd]. unfold filled at 1. cbn [fst snd].
  destruct (0 <=? flag).
  - specialize (IH segs' (h ++ seg) HS'). rewrite app_length, <- !app_assoc in IH. exact IH.
  - rewrite write_at_seg by (unfold zeros; now rewrite repeat_length). cbn [bind].
    specialize (IH segs' (h ++ zeros (length seg)) HS'). rewrite app_length, <- !app_assoc in IH.
    unfold zeros in IH at 1. rewrite repeat_length in IH. exact IH.
Qed.

Fixpoint cut (fs : list (Z * nat)) (buf : list N) : list (Z * list N) :=
  match fs with
  | [] => []
  | f :: fs' => (-1, firstn (snd f) buf) :: cut fs' (skipn (snd f) buf)
  end.
Lemma cut_spec fs : forall buf, length buf = total_size fs ->
  sized fs (cut fs buf) /\ map fst (cut fs buf) = map (fun _ => -1) fs /\ concat (map snd (cut fs buf)) = buf.
Proof.
  induction fs as [|[f size] fs IH]; intros buf H.
  - destruct buf; [|discriminate]. repeat split. constructor.
  - assert (H' : length buf = (size + total_size fs)%nat) by exact H. clear H. cbn [cut map concat fst snd].
    destruct (IH (skipn size buf)) as (H1 & H2 & H3); [rewrite skipn_length; lia|].
    split; [constructor; [cbn; rewrite firstn_length; lia|assumption]|]. split; [now rewrite H2|].
    rewrite H3. apply firstn_skipn.
Qed.

Lemma zip_fold {A B} (h : A -> row -> B -> B) (fs : list A) rws : forall segs,
  length fs = length segs ->
  fold_left (fun s r => zip_with (fun f x => h f r x) fs s) rws segs =
  zip_with (fun f x => fold_left (fun x r => h f r x) rws x) fs segs.
Proof.
  induction rws as [|r rws IH]; intros segs H.
  - cbn. clear -H. revert segs H; induction fs as [|f fs IH]; intros [|s segs] H; cbn in *; try discriminate; [reflexivity|].
    f_equal. apply IH. lia.
  - cbn [fold_left]. rewrite IH.
    + clear -H. revert segs H; induction fs as [|f fs IH]; intros [|s segs] H; cbn in *; try discriminate; [reflexivity|].
      f_equal. apply IH. lia.
    + clear -H. revert segs H; induction fs as [|f fs IH]; intros [|s segs] H; cbn in *; try discriminate; [reflexivity|].
      f_equal. apply IH. lia.
Qed.

Lemma total_zero fs : concat (map (fun f : Z * nat => zeros (snd f)) fs) = zeros (total_size fs).
Proof. induction fs as [|[f s] fs IH]; [reflexivity|]. cbn. rewrite IH. unfold zeros. now rewrite <- repeat_app. Qed.

Lemma all_nfeats_split r1 r r2 : all_nfeats (r1 ++ r :: r2) = all_nfeats r1 ++ row_feats r ++ all_nfeats r2.
Proof. unfold all_nfeats. rewrite flat_map_app'. reflexivity. Qed.

Section GraphFeatures.
Variables (fadd : N -> N -> N) (wval : N -> Z).
Notation part_of := (part_of fadd).
Notation converted := (converted fadd wval).

Lemma converted_small wm parts g :
  converted wm parts g ->
  exists m, graph_of fadd m (is_temporal wm) (map rows parts) g /\
            Forall (fun rws => Forall row_facts rws) (map rows parts) /\
            Forall (fun rws => small rws /\ counted m rws) (map rows parts).
Proof.
  intros (all & ps & m & sel & H & F & R & -> & L). exists m.
  split; [eapply (converted_loads fadd wval); eassumption|]. split.
  - rewrite <- pick_map. apply pick_forall. eapply convert_facts; eassumption.
  - rewrite <- pick_map. apply pick_forall. eapply convert_small; eassumption.
Qed.

Lemma nidx_get m tmp r1 r r2 :
  let p := part_of m tmp (r1 ++ r :: r2) in
  get (p_nidx p) (length r1) = Ok (length (all_nfeats r1)) /\
  get (p_nidx p) (S (length r1)) = Ok (length (all_nfeats r1) + length (row_feats r))%nat.
Proof.
  cbn [p_nidx LoaderProofs.part_of]. unfold nfeat_counts.
  rewrite map_app, psum_app. cbn [map psum]. rewrite <- app_assoc. cbn [app Nat.add].
  change (map (fun r => length (row_feats r)) r1) with (nfeat_counts r1).
  rewrite <- all_nfeats_length. split.
  - rewrite get_app_r0; [reflexivity|]. unfold nfeat_counts. now rewrite psum_length, map_length.
  - replace (S (length r1)) with (length (psum 0 (nfeat_counts r1)) + 1)%nat
      by (unfold nfeat_counts; rewrite psum_length, map_length; lia).
    rewrite get_app_r.
    destruct (psum_snoc_head (length (all_nfeats r1) + length (row_feats r))%nat (nfeat_counts r2)) as (t & Et).
    unfold get. cbn [nth_error].
    rewrite sum_app, sum_cons.
    match goal with |- context [psum ?a ?l ++ [?b]] => replace b with (a + sum l)%nat
      by (rewrite all_nfeats_length; unfold nfeat_counts; lia) end.
    unfold nfeat_counts in Et. rewrite Et. reflexivity.
Qed.

Lemma part_node_feature_spec m tmp r1 r r2 ts look fs segs :
  small (r1 ++ r :: r2) -> counted m (r1 ++ r :: r2) -> Forall (fun f => int32 (fst f)) fs -> sized fs segs ->
  (forall f v data, In f fs -> value_at (row_feats r) (fst f) = Some v -> resolves data ts look v) ->
  part_node_feature (part_of m tmp (r1 ++ r :: r2)) (length r1) ts fs (map fst segs, concat (map snd segs)) =
  Ok (map fst (zip_with (nstep ts look (row_feats r)) fs segs),
      concat (map snd (zip_with (nstep ts look (row_feats r)) fs segs))).
Proof.
  intros (S1 & S2 & _) (C1 & _) Hi HS Hl. unfold part_node_feature.
  destruct (nidx_get m tmp r1 r r2) as [G1 G2]. rewrite G1, G2. clear G1 G2. cbn [bind fst snd].
  assert (Hidx : p_nfidx (part_of m tmp (r1 ++ r :: r2)) =
     if (0 <? lm_nfc m)%nat then findex (all_nfeats r1 ++ row_feats r ++ all_nfeats r2) else []).
  { cbn [p_nfidx LoaderProofs.part_of]. rewrite all_nfeats_split. reflexivity. }
  assert (Hdat : p_nfd (part_of m tmp (r1 ++ r :: r2)) =
     if (0 <? lm_nfc m)%nat then fdata (all_nfeats r1 ++ row_feats r ++ all_nfeats r2) else []).
  { cbn [p_nfd LoaderProofs.part_of]. rewrite all_nfeats_split. reflexivity. }
  rewrite all_nfeats_split in *.
  destruct (Nat.ltb_spec 0 (lm_nfc m)) as [Hc|Hc].
  - rewrite Hidx. unfold findex at 1.
    destruct (psum_snoc_head 0 (map flen (all_nfeats r1 ++ row_feats r ++ all_nfeats r2))) as (t & Et).
    cbn [Nat.add] in Et. rewrite Et.
    pose proof (node_loop_spec (part_of m tmp (r1 ++ r :: r2)) (all_nfeats r1) (row_feats r) (all_nfeats r2) ts look Hidx Hdat) as NL.
    specialize (NL ltac:(rewrite !app_length in S1; lia) S2 fs segs [] ltac:(intros f v Hf Hv; now apply (Hl f)) Hi HS).
    exact NL.
  - rewrite Hidx. assert (Hn : lm_nfc m = 0%nat) by lia. apply C1 in Hn.
    apply app_eq_nil in Hn. destruct Hn as [_ Hn]. apply app_eq_nil in Hn. destruct Hn as [Hn _]. rewrite Hn.
    assert (Id : zip_with (nstep ts look []) fs segs = segs).
    { clear -HS. induction HS as [|f s fs segs H HF IH]; [reflexivity|]. cbn. rewrite IH. f_equal.
      unfold nstep, value_at. destruct (already ts (fst s)); [reflexivity|]. destruct (fst f <? 0); [reflexivity|].
      rewrite (proj2 (nth_error_None _ _)) by (cbn; lia). reflexivity. }
    rewrite Id. reflexivity.
Qed.

(** Any (ts, look): the answer is the fold over the values given for the node. *)
Definition picked (ts : option Z) (look : option (list N) -> Z * list N) (vs : list (option (list N))) (f : Z * nat) : list N :=
  filled f (fold_left (vstep ts look (snd f)) vs (-1, [])).

Lemma vstep_start ts look f vs seg :
  filled f (fold_left (vstep ts look (snd f)) vs (-1, seg)) = picked ts look vs f.
Proof.
  unfold picked.
  assert (H : forall vs x y, fst x = fst y -> (fst x < 0 \/ x = y) ->
     fst (fold_left (vstep ts look (snd f)) vs x) = fst (fold_left (vstep ts look (snd f)) vs y) /\
     (fst (fold_left (vstep ts look (snd f)) vs x) < 0 \/ fold_left (vstep ts look (snd f)) vs x = fold_left (vstep ts look (snd f)) vs y)).
  { clear. induction vs as [|v vs IH]; intros x y E1 E2; [auto|]. cbn [fold_left]. apply IH.
    - unfold vstep. rewrite E1. destruct (already ts (fst y)); [assumption|]. destruct (_ <=? _); [assumption|reflexivity].
    - unfold vstep. rewrite E1. destruct (already ts (fst y)).
      + destruct E2; [left|right]; congruence.
      + destruct (_ <=? _); [|now right]. destruct E2; [left|right]; congruence. }
  destruct (H vs (-1, seg) (-1, []) eq_refl ltac:(left; cbn; lia)) as [H1 H2]. unfold filled. rewrite H1.
  destruct (Z.leb_spec 0 (fst (fold_left (vstep ts look (snd f)) vs (-1, [])))); [|reflexivity].
  destruct H2 as [H2|H2]; [lia|now rewrite H2].
Qed.

Lemma g_node_feature_spec wm parts g fs ts n buf look :
  converted wm parts g -> Forall (fun f => int32 (fst f)) fs -> length buf = total_size fs ->
  (forall f v data, In f fs -> In v (node_values parts n (fst f)) -> resolves data ts look v) ->
  g_node_feature g fs ts n buf = Ok (concat (map (fun f => picked ts look (node_values parts n (fst f)) f) fs)).
Proof.
  intros C Hi Hb Hl. destruct (converted_small wm parts g C) as (m & Hg & _ & HF).
  unfold g_node_feature. rewrite Hg. cbn [bind]. unfold lookup, found.
  destruct (cut_spec fs buf Hb) as (C1 & C2 & C3).
  destruct (places_foldM (part_of m (is_temporal wm)) (fun p i st => part_node_feature p i ts fs st)
             (fun segs => (map fst segs, concat (map snd segs)))
             (fun segs r => zip_with (nstep ts look (row_feats r)) fs segs) (sized fs) n (map rows parts)) with (s := cut fs buf) as [Q1 Q2].
  - intros rws r1 r r2 segs Hin E Hn HS. split; [|now apply nstep_sized].
    rewrite Forall_forall in HF. destruct (HF rws Hin) as [Hs Hc]. subst rws.
    apply part_node_feature_spec; try assumption.
    intros f v data Hf Hv.
    apply (Hl f); [assumption|]. rewrite <- node_values_rows. unfold row_values. apply in_flat_map. exists r. split.
    + unfold node_rows. apply filter_In. split; [|lia]. apply in_concat. exists (r1 ++ r :: r2). split; [assumption|].
      apply in_or_app. right. now left.
    + rewrite Hv. now left.
  - exact C1.
  - rewrite (zip_fold (fun f r x => nstep ts look (row_feats r) f x)) in Q1 by (now apply sized_length).
    rewrite (zip_fold (fun f r x => nstep ts look (row_feats r) f x)) in Q2 by (now apply sized_length).
    rewrite C2, C3 in Q1.
    set (segs := zip_with _ fs (cut fs buf)) in *.
    assert (R : concat (zip_with filled fs segs) = concat (map (fun f => picked ts look (node_values parts n (fst f)) f) fs)).
    { f_equal. subst segs. clear -fs. generalize buf. induction fs as [|f fs IH]; intro b; [reflexivity|].
      cbn [cut zip_with map]. rewrite IH. f_equal.
      rewrite nstep_values, node_values_rows. apply vstep_start. }
    destruct (places (part_of m (is_temporal wm)) n (map rows parts)) as [|o os] eqn:Ep.
    + apply places_nil in Ep.
      pose proof (write_at_seg [] buf [] (zeros (length buf)) ltac:(unfold zeros; now rewrite repeat_length)) as W.
      cbn [app length] in W. rewrite !app_nil_r in W. rewrite W. f_equal.
      rewrite <- R. subst segs. rewrite Ep. cbn [fold_left].
      rewrite Hb, <- total_zero. f_equal. clear -fs. generalize buf. induction fs as [|f fs IH]; intro b; [reflexivity|].
      cbn [map cut zip_with]. now rewrite <- IH.
    + rewrite Q1. cbn [bind fst snd].
      pose proof (fill_missing_spec fs segs [] Q2) as W. cbn [app length] in W. rewrite W. now rewrite R.
Qed.

(** *** Without timestamps: the first value given. *)
Lemma plain_fold size vs : forall x, 0 <= fst x -> fold_left (vstep None plain size) vs x = x.
Proof.
  induction vs as [|v vs IH]; intros x H; [reflexivity|]. cbn [fold_left].
  assert (E : vstep None plain size x v = x) by (unfold vstep, already; destruct (Z.leb_spec 0 (fst x)); [reflexivity|lia]).
  rewrite E. now apply IH.
Qed.

Lemma fixed_nil size : fixed size [] = zeros size.
Proof. unfold fixed, zeros. cbn. apply firstn_all2. now rewrite repeat_length. Qed.

Lemma picked_plain vs f : picked None plain vs f = fixed (snd f) (match vs with v :: _ => bytes_of v | [] => [] end).
Proof.
  unfold picked. destruct vs as [|v vs]; [cbn; unfold filled; cbn; symmetry; apply fixed_nil|].
  cbn [fold_left]. unfold vstep at 2. cbn [already fst plain]. change (0 <=? -1) with false. cbn [snd].
  rewrite plain_fold by (cbn; lia). reflexivity.
Qed.

Theorem converted_node_features wm parts g nodes fs :
  converted wm parts g -> Forall (fun f => int32 (fst f)) fs ->
  node_features g nodes fs None = Ok (map (fun n => concat (map (spec_node_feature parts n) fs)) nodes).
Proof.
  intros C Hi. unfold node_features, per_elem. apply mapM_pure. intros n _.
  rewrite (g_node_feature_spec wm parts g fs None n _ plain C Hi).
  - f_equal. f_equal. apply map_ext. intro f. apply picked_plain.
  - unfold zeros. apply repeat_length.
  - intros. apply plain_resolves.
Qed.
End GraphFeatures.
