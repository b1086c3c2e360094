(** Proofs about sparse features through servers. *)
From Coq Require Import Permutation ZifyBool ZifyNat ZifyN.
From Verif Require Import Base WriterModel LoaderModel GraphModel GraphSpec FeatureModel FeatureSpec ServerModel
  WriterProofs LoaderProofs QueryProofs GraphProofs ConvertProofs AnswerProofs FeatureProofs TemporalProofs StringProofs
  TemporalStringProofs SparseProofs ServerProofs ServerFeatureProofs ServerEdgeProofs ServerStringProofs.
Local Open Scope Z_scope.

(** ** Tables *)
Section Rows.
Variables (n nf : nat).
Definition table {A} (F : nat -> nat -> A) : list A := map (fun j => F (j / nf)%nat (j mod nf)%nat) (seq 0 (n * nf)).
Definition put {A} (F : nat -> nat -> A) (k fi : nat) (v : A) : nat -> nat -> A :=
  fun k' fi' => if (k' =? k)%nat && (fi' =? fi)%nat then v else F k' fi'.

Lemma table_ext {A} (F G : nat -> nat -> A) : (forall k fi, (k < n)%nat -> (fi < nf)%nat -> F k fi = G k fi) -> table F = table G.
Proof.
  intro H. apply map_ext_in. intros j Hj. apply in_seq in Hj. assert (nf <> 0)%nat by (intros ->; lia).
  apply H; [apply Nat.div_lt_upper_bound; lia|now apply Nat.mod_upper_bound].
Qed.
Lemma place (k fi : nat) : (fi < nf)%nat -> ((k * nf + fi) / nf = k /\ (k * nf + fi) mod nf = fi)%nat.
Proof.
  intro H. split.
  - rewrite Nat.div_add_l by lia. rewrite Nat.div_small by lia. lia.
  - rewrite Nat.add_comm, Nat.mod_add by lia. now apply Nat.mod_small.
Qed.
Lemma table_nth {A} (F : nat -> nat -> A) k fi : (k < n)%nat -> (fi < nf)%nat -> nth_error (table F) (k * nf + fi) = Some (F k fi).
Proof.
  intros Hk Hf. unfold table. rewrite nth_error_map.
  assert (H : (k * nf + fi < n * nf)%nat) by nia.
  rewrite (nth_error_nth' _ 0%nat) by (now rewrite seq_length). rewrite seq_nth by assumption. cbn [Nat.add option_map].
  destruct (place k fi Hf) as [-> ->]. reflexivity.
Qed.
Lemma table_get {A} (F : nat -> nat -> A) k fi : (k < n)%nat -> (fi < nf)%nat -> get (table F) (k * nf + fi) = Ok (F k fi).
Proof. intros. apply get_ok. now apply table_nth. Qed.

Lemma set_nth_seq {A} (f : nat -> A) v : forall len start i, (i < len)%nat ->
  set_nth i v (map f (seq start len)) = map (fun j => if (j =? start + i)%nat then v else f j) (seq start len).
Proof.
  induction len as [|len IH]; intros start i H; [lia|]. cbn [seq map]. destruct i as [|i]; cbn [set_nth].
  - rewrite Nat.add_0_r, Nat.eqb_refl. f_equal. apply map_ext_in. intros j Hj. apply in_seq in Hj.
    destruct (Nat.eqb_spec j start); [lia|reflexivity].
  - rewrite IH by lia. destruct (Nat.eqb_spec start (start + S i)); [lia|]. f_equal. apply map_ext. intro j.
    now rewrite <- Nat.add_succ_comm.
Qed.
Lemma table_set {A} (F : nat -> nat -> A) k fi v : (k < n)%nat -> (fi < nf)%nat -> set_nth (k * nf + fi) v (table F) = table (put F k fi v).
Proof.
  intros Hk Hf. unfold table. rewrite set_nth_seq by nia. apply map_ext_in. intros j Hj. cbn [Nat.add]. unfold put.
  assert (nf <> 0)%nat by lia. pose proof (Nat.div_mod j nf H) as E.
  destruct (Nat.eqb_spec j (k * nf + fi)) as [->|Hne].
  - destruct (place k fi Hf) as [-> ->]. now rewrite !Nat.eqb_refl.
  - destruct (Nat.eqb_spec (j / nf) k), (Nat.eqb_spec (j mod nf) fi); cbn; try reflexivity. exfalso. apply Hne. nia.
Qed.
Lemma table_rows {A} (F : nat -> nat -> A) : flat_map (fun k => map (F k) (seq 0 nf)) (seq 0 n) = table F.
Proof.
  unfold table. induction n as [|m IH]; [reflexivity|].
  rewrite seq_S, flat_map_app', IH. cbn [Nat.add flat_map]. rewrite app_nil_r.
  replace (S m * nf)%nat with (m * nf + nf)%nat by lia. rewrite seq_app, map_app. f_equal. cbn [Nat.add].
  assert (E : forall len a, (a + len <= nf)%nat -> map (F m) (seq a len) = map (fun j => F (j / nf)%nat (j mod nf)%nat) (seq (m * nf + a) len)).
  { induction len as [|len IHl]; intros a Ha; [reflexivity|]. cbn [seq map]. destruct (place m a ltac:(lia)) as [-> ->]. f_equal.
    rewrite IHl by lia. now rewrite Nat.add_succ_r. }
  rewrite (E nf 0%nat) by lia. now rewrite Nat.add_0_r.
Qed.
End Rows.

(** ** The client *)

(** Points of a value: coordinates and bytes. *)
Definition point : Type := list Z * list N.
Definition pidx (k : nat) (ps : list point) : list Z := flat_map (fun p => Z.of_nat k :: fst p) ps.
Definition pval (ps : list point) : list N := flat_map snd ps.

Lemma flat_map_const {A B} (f : A -> list B) c l : (forall a, In a l -> length (f a) = c) -> length (flat_map f l) = (length l * c)%nat.
Proof. induction l as [|a l IH]; intro H; [reflexivity|]. cbn. rewrite app_length, IH, (H a) by (intros; apply H; now right) || now left. lia. Qed.

(** One point of an item. *)
Definition one (shard dim inc no vo t : Z) (e : spentry) : spentry :=
  if (t <=? se_ts e) || ((0 <=? se_shard e) && negb (se_shard e =? shard)) then e
  else
    let e := if se_ic e =? 0 then SE shard no (se_ic e) vo (se_vc e) (se_ts e) else e in
    SE (se_shard e) (se_io e) (se_ic e + dim) (se_vo e) (se_vc e + inc) (se_ts e).
Fixpoint many (shard dim inc no vo t : Z) (c : nat) (e : spentry) : spentry :=
  match c with O => e | S c' => many shard dim inc (no + dim) (vo + inc) t c' (one shard dim inc no vo t e) end.

Lemma many_owned shard dim inc t : 0 < dim -> 0 <= t -> 0 <= shard -> forall c no vo io ic vo0 vc, 0 < ic ->
  many shard dim inc no vo t c (SE shard io ic vo0 vc (-1)) =
  SE shard io (ic + Z.of_nat c * dim) vo0 (vc + Z.of_nat c * inc) (-1).
Proof.
  intros Hd Ht Hs. induction c as [|c IH]; intros no vo io ic vo0 vc Hi; [cbn; f_equal; lia|].
  cbn [many]. unfold one at 1. cbn [se_shard se_ts se_ic se_vc se_io se_vo].
  destruct (Z.leb_spec t (-1)); [lia|]. rewrite Z.eqb_refl, andb_false_r. cbn [orb].
  destruct (Z.eqb_spec ic 0); [lia|]. cbn [se_shard se_ts se_ic se_vc se_io se_vo]. rewrite IH by lia. f_equal; lia.
Qed.
Lemma many_fresh shard dim inc t no vo c : 0 < dim -> 0 <= t -> 0 <= shard ->
  many shard dim inc no vo t c no_spentry =
  match c with O => no_spentry | _ => SE shard no (Z.of_nat c * dim) vo (Z.of_nat c * inc) (-1) end.
Proof.
  intros Hd Ht Hs. destruct c as [|c]; [reflexivity|]. cbn [many]. unfold one at 1, no_spentry. cbn [se_shard se_ts se_ic se_vc se_io se_vo].
  destruct (Z.leb_spec t (-1)); [lia|]. change (0 <=? -1) with false. cbn [andb orb]. change (0 =? 0) with true. cbv iota.
  cbn [se_shard se_ts se_ic se_vc se_io se_vo]. rewrite many_owned by lia. f_equal; lia.
Qed.
Lemma many_other shard dim inc t e : 0 <= se_shard e -> se_shard e <> shard -> forall c no vo, many shard dim inc no vo t c e = e.
Proof.
  intros H0 H1. induction c as [|c IH]; intros no vo; [reflexivity|]. cbn [many]. unfold one.
  destruct (Z.leb_spec 0 (se_shard e)); [|lia]. destruct (Z.eqb_spec (se_shard e) shard); [lia|]. cbn [andb negb]. rewrite orb_true_r. apply IH.
Qed.

Section Client.
Variables (n nf : nat) (D w : nat -> nat) (m : nat) (P : nat -> nat -> nat -> list point) (T : nat -> nat -> nat -> Z).
Hypothesis shape : forall s k fi p, In p (P s k fi) -> length (fst p) = D fi /\ length (snd p) = w fi.
Hypothesis D_pos : forall fi, (0 < D fi)%nat.
Hypothesis T_pos : forall s k fi, (s < m)%nat -> (k < n)%nat -> (fi < nf)%nat -> P s k fi <> [] -> 0 <= T s k fi.

Definition fidx (s fi : nat) : list Z := flat_map (fun k => pidx k (P s k fi)) (seq 0 n).
Definition fval (s fi : nat) : list N := flat_map (fun k => pval (P s k fi)) (seq 0 n).
Definition pts (s fi : nat) : list point := flat_map (fun k => P s k fi) (seq 0 n).
Definition fdim (s fi : nat) : Z := match pts s fi with [] => 0 | _ => Z.of_nat (D fi) end.
Definition sreply (s : nat) : spreply :=
  SPR (map (fdim s) (seq 0 nf)) (table n nf (T s)) (flat_map (fidx s) (seq 0 nf)) (flat_map (fval s) (seq 0 nf))
      (map (fun fi => Z.of_nat (length (fidx s fi))) (seq 0 nf)) (map (fun fi => Z.of_nat (length (fval s fi))) (seq 0 nf)).

(** Positions in the reply of server [s]. *)
Definition ioff (s k fi : nat) : nat := (length (flat_map (fidx s) (seq 0 fi)) + length (flat_map (fun k => pidx k (P s k fi)) (seq 0 k)))%nat.
Definition voff (s k fi : nat) : nat := (length (flat_map (fval s) (seq 0 fi)) + length (flat_map (fun k => pval (P s k fi)) (seq 0 k)))%nat.

Lemma pidx_length k s k' fi : length (pidx k (P s k' fi)) = (length (P s k' fi) * S (D fi))%nat.
Proof. apply flat_map_const. intros p Hp. cbn. now rewrite (proj1 (shape s k' fi p Hp)). Qed.
Lemma pval_length s k fi : length (pval (P s k fi)) = (length (P s k fi) * w fi)%nat.
Proof. apply flat_map_const. intros p Hp. apply (shape s k fi p Hp). Qed.
Lemma counts s fi : length (fidx s fi) = (length (pts s fi) * S (D fi))%nat /\ length (fval s fi) = (length (pts s fi) * w fi)%nat.
Proof.
  unfold fidx, fval, pts. induction (seq 0 n) as [|k l [I1 I2]]; [auto|]. cbn [flat_map]. rewrite !app_length, pidx_length, pval_length, I1, I2. lia.
Qed.

(** Points of one item. *)
Lemma coords_item s k fi stop F : forall ps pre post fuel no vo,
  (k < n)%nat -> (fi < nf)%nat -> (forall p, In p ps -> length (fst p) = D fi) ->
  flat_map (fidx s) (seq 0 nf) = pre ++ pidx k ps ++ post -> Z.of_nat (length pre) = no -> no + Z.of_nat (length ps) * (Z.of_nat (D fi) + 1) <= stop ->
  note_coords (length ps + fuel) (sreply s) s nf fi (Z.of_nat (D fi) + 1) (Z.of_nat (w fi)) stop no vo (table n nf F) =
  note_coords fuel (sreply s) s nf fi (Z.of_nat (D fi) + 1) (Z.of_nat (w fi)) stop (no + Z.of_nat (length ps) * (Z.of_nat (D fi) + 1))
    (vo + Z.of_nat (length ps) * Z.of_nat (w fi))
    (table n nf (put F k fi (many (Z.of_nat s) (Z.of_nat (D fi) + 1) (Z.of_nat (w fi)) no vo (T s k fi) (length ps) (F k fi)))).
Proof.
  intros ps. revert F. induction ps as [|p ps IH]; intros F pre post fuel no vo Hk Hf Hp Hi Hno Hs.
  - cbn [length many]. replace (no + Z.of_nat 0 * (Z.of_nat (D fi) + 1)) with no by lia. replace (vo + Z.of_nat 0 * Z.of_nat (w fi)) with vo by lia.
    cbn [Nat.add]. f_equal. apply table_ext. intros k' fi' _ _. unfold put.
    destruct (Nat.eqb_spec k' k) as [->|]; [|reflexivity]. destruct (Nat.eqb_spec fi' fi) as [->|]; reflexivity.
  - cbn [length Nat.add]. cbn [length] in Hs. cbn [note_coords]. destruct (Z.ltb_spec no stop); [|nia]. destruct (Z.ltb_spec no 0); [lia|].
    cbn [pidx flat_map] in Hi. fold (pidx k ps) in Hi.
    assert (G1 : get (spr_idx (sreply s)) (Z.to_nat no) = Ok (Z.of_nat k)).
    { cbn [sreply spr_idx]. rewrite Hi. rewrite get_app_r0 by lia. reflexivity. }
    rewrite G1. cbn [bind]. destruct (Z.ltb_spec (Z.of_nat k) 0); [lia|]. rewrite Nat2Z.id.
    rewrite (table_get n nf F) by assumption. cbn [bind].
    assert (G2 : get (spr_ts (sreply s)) (k * nf + fi) = Ok (T s k fi)) by (cbn [sreply spr_ts]; now apply table_get).
    rewrite G2. cbn [bind].
    cbv zeta.
    match goal with |- note_coords _ _ _ _ _ _ _ _ _ _ ?X = _ => assert (E : X =
                table n nf (put F k fi (one (Z.of_nat s) (Z.of_nat (D fi) + 1) (Z.of_nat (w fi)) no vo (T s k fi) (F k fi)))) end.
    { unfold one. destruct (_ || _).
      - apply table_ext. intros k' fi' _ _. unfold put. destruct (Nat.eqb_spec k' k) as [->|]; [|reflexivity]. destruct (Nat.eqb_spec fi' fi) as [->|]; reflexivity.
      - cbv zeta. now rewrite table_set. }
    rewrite E. clear E.
    assert (L : Z.of_nat (length (pre ++ Z.of_nat k :: fst p)) = no + (Z.of_nat (D fi) + 1)).
    { rewrite app_length. cbn [length]. rewrite (Hp p) by now left. lia. }
    rewrite (IH _ (pre ++ Z.of_nat k :: fst p) post); try assumption.
    + f_equal; try lia. apply table_ext. intros k' fi' _ _. unfold put. rewrite !Nat.eqb_refl. cbn [andb many].
      destruct (_ && _); reflexivity.
    + intros; apply Hp; now right.
    + rewrite Hi, <- app_assoc. cbn [app]. now rewrite <- app_assoc.
    + lia.
Qed.

Definition done (s : nat) (F : nat -> nat -> spentry) (k fi : nat) : spentry :=
  many (Z.of_nat s) (Z.of_nat (D fi) + 1) (Z.of_nat (w fi)) (Z.of_nat (ioff s k fi)) (Z.of_nat (voff s k fi)) (T s k fi) (length (P s k fi)) (F k fi).

Lemma seq_split_at a len : (a < len)%nat -> seq 0 len = seq 0 a ++ a :: seq (S a) (len - S a).
Proof. intro H. replace len with (a + S (len - S a))%nat at 1 by lia. rewrite seq_app. reflexivity. Qed.

Lemma idx_split s k fi : (k < n)%nat -> (fi < nf)%nat ->
  exists pre post, flat_map (fidx s) (seq 0 nf) = pre ++ pidx k (P s k fi) ++ post /\ length pre = ioff s k fi.
Proof.
  intros Hk Hf. rewrite (seq_split_at fi nf Hf), flat_map_app'. cbn [flat_map]. unfold fidx at 2. rewrite (seq_split_at k n Hk), flat_map_app'. cbn [flat_map].
  exists (flat_map (fidx s) (seq 0 fi) ++ flat_map (fun k => pidx k (P s k fi)) (seq 0 k)).
  exists (flat_map (fun k => pidx k (P s k fi)) (seq (S k) (n - S k)) ++ flat_map (fidx s) (seq (S fi) (nf - S fi))).
  split; [now rewrite <- !app_assoc|]. unfold ioff. now rewrite app_length.
Qed.
Lemma val_split s k fi : (k < n)%nat -> (fi < nf)%nat ->
  exists pre post, flat_map (fval s) (seq 0 nf) = pre ++ pval (P s k fi) ++ post /\ length pre = voff s k fi.
Proof.
  intros Hk Hf. rewrite (seq_split_at fi nf Hf), flat_map_app'. cbn [flat_map]. unfold fval at 2. rewrite (seq_split_at k n Hk), flat_map_app'. cbn [flat_map].
  exists (flat_map (fval s) (seq 0 fi) ++ flat_map (fun k => pval (P s k fi)) (seq 0 k)).
  exists (flat_map (fun k => pval (P s k fi)) (seq (S k) (n - S k)) ++ flat_map (fval s) (seq (S fi) (nf - S fi))).
  split; [now rewrite <- !app_assoc|]. unfold voff. now rewrite app_length.
Qed.
Lemma ioff_S s k fi : (ioff s (S k) fi = ioff s k fi + length (P s k fi) * S (D fi))%nat.
Proof. unfold ioff. rewrite seq_S, flat_map_app', app_length. cbn [flat_map Nat.add]. rewrite app_nil_r, pidx_length. lia. Qed.
Lemma voff_S s k fi : (voff s (S k) fi = voff s k fi + length (P s k fi) * w fi)%nat.
Proof. unfold voff. rewrite seq_S, flat_map_app', app_length. cbn [flat_map Nat.add]. rewrite app_nil_r, pval_length. lia. Qed.
Lemma ioff_n s fi : (ioff s n fi = ioff s 0 fi + length (fidx s fi) /\ ioff s 0 (S fi) = ioff s n fi)%nat.
Proof. unfold ioff. rewrite seq_S, flat_map_app', app_length. cbn [seq flat_map length Nat.add]. rewrite app_nil_r. unfold fidx. lia. Qed.
Lemma voff_n s fi : (voff s n fi = voff s 0 fi + length (fval s fi) /\ voff s 0 (S fi) = voff s n fi)%nat.
Proof. unfold voff. rewrite seq_S, flat_map_app', app_length. cbn [seq flat_map length Nat.add]. rewrite app_nil_r. unfold fval. lia. Qed.
Lemma ioff_le s k fi : (k <= n)%nat -> (ioff s k fi <= ioff s n fi)%nat.
Proof.
  intro H. unfold ioff. replace (seq 0 n) with (seq 0 k ++ seq k (n - k)) by (rewrite <- seq_app; f_equal; lia).
  rewrite flat_map_app', app_length. lia.
Qed.

(** The first [k] items of a feature. *)
Lemma coords_items s fi F fuel : (fi < nf)%nat -> forall k, (k <= n)%nat ->
  note_coords (length (flat_map (fun k => P s k fi) (seq 0 k)) + fuel) (sreply s) s nf fi (Z.of_nat (D fi) + 1) (Z.of_nat (w fi))
    (Z.of_nat (ioff s n fi)) (Z.of_nat (ioff s 0 fi)) (Z.of_nat (voff s 0 fi)) (table n nf F) =
  note_coords fuel (sreply s) s nf fi (Z.of_nat (D fi) + 1) (Z.of_nat (w fi))
    (Z.of_nat (ioff s n fi)) (Z.of_nat (ioff s k fi)) (Z.of_nat (voff s k fi))
    (table n nf (fun k' fi' => if (k' <? k)%nat && (fi' =? fi)%nat then done s F k' fi' else F k' fi')).
Proof.
  intros Hf k. revert fuel. induction k as [|k IH]; intros fuel Hk; [reflexivity|].
  rewrite seq_S, flat_map_app', app_length. cbn [flat_map Nat.add]. rewrite app_nil_r.
  rewrite <- Nat.add_assoc. rewrite IH by lia.
  destruct (idx_split s k fi ltac:(lia) Hf) as (pre & post & E & L).
  rewrite (coords_item s k fi _ _ (P s k fi) pre post); try assumption; try lia.
  - assert (Ei : Z.of_nat (ioff s (S k) fi) = Z.of_nat (ioff s k fi) + Z.of_nat (length (P s k fi)) * (Z.of_nat (D fi) + 1))
      by (rewrite ioff_S, Nat2Z.inj_add, Nat2Z.inj_mul, Nat2Z.inj_succ; unfold Z.succ; ring).
    assert (Ev : Z.of_nat (voff s (S k) fi) = Z.of_nat (voff s k fi) + Z.of_nat (length (P s k fi)) * Z.of_nat (w fi))
      by (rewrite voff_S, Nat2Z.inj_add, Nat2Z.inj_mul; ring).
    rewrite Ei, Ev. f_equal. apply table_ext. intros k' fi' _ _. unfold put.
    destruct (Nat.ltb_spec k k); [lia|]. cbn [andb].
    destruct (Nat.eqb_spec k' k) as [->|].
    + destruct (Nat.ltb_spec k (S k)); [|lia]. destruct (Nat.ltb_spec k k); [lia|]. cbn [andb].
      destruct (Nat.eqb_spec fi' fi) as [->|]; [reflexivity|reflexivity].
    + cbn [andb]. destruct (Nat.ltb_spec k' k), (Nat.ltb_spec k' (S k)); try lia; reflexivity.
  - intros p Hp. apply (shape s k fi p Hp).
  - pose proof (ioff_le s (S k) fi Hk) as Q. rewrite ioff_S in Q. apply inj_le in Q. rewrite Nat2Z.inj_add, Nat2Z.inj_mul, Nat2Z.inj_succ in Q. unfold Z.succ in Q. exact Q.
Qed.

Lemma coords_feature s fi F : (fi < nf)%nat ->
  note_coords (length (spr_idx (sreply s))) (sreply s) s nf fi (Z.of_nat (D fi) + 1) (Z.of_nat (w fi))
    (Z.of_nat (ioff s n fi)) (Z.of_nat (ioff s 0 fi)) (Z.of_nat (voff s 0 fi)) (table n nf F) =
  Ok (Z.of_nat (ioff s n fi), Z.of_nat (voff s n fi), table n nf (fun k' fi' => if (fi' =? fi)%nat then done s F k' fi' else F k' fi')).
Proof.
  intro Hf. assert (L : (length (flat_map (fun k => P s k fi) (seq 0 n)) <= length (spr_idx (sreply s)))%nat).
  { cbn [sreply spr_idx]. rewrite (seq_split_at fi nf Hf), flat_map_app'. cbn [flat_map]. rewrite !app_length.
    pose proof (proj1 (counts s fi)) as C. unfold pts in C. nia. }
  replace (length (spr_idx (sreply s))) with
    (length (flat_map (fun k => P s k fi) (seq 0 n)) + (length (spr_idx (sreply s)) - length (flat_map (fun k => P s k fi) (seq 0 n))))%nat by lia.
  rewrite (coords_items s fi F _ Hf n (le_n n)).
  assert (E : table n nf (fun k' fi' => if (k' <? n)%nat && (fi' =? fi)%nat then done s F k' fi' else F k' fi') =
              table n nf (fun k' fi' => if (fi' =? fi)%nat then done s F k' fi' else F k' fi')).
  { apply table_ext. intros k' fi' Hk' _. destruct (Nat.ltb_spec k' n); [reflexivity|lia]. }
  rewrite E. destruct (length (spr_idx (sreply s)) - _)%nat; cbn [note_coords]; rewrite Z.ltb_irrefl; reflexivity.
Qed.

Lemma done_none s F k fi : P s k fi = [] -> done s F k fi = F k fi.
Proof. intro H. unfold done. rewrite H. reflexivity. Qed.
Lemma pts_nil s fi : pts s fi = [] -> forall k, (k < n)%nat -> P s k fi = [].
Proof using n P.
  intros H k Hk. destruct (P s k fi) as [|p l] eqn:E; [reflexivity|]. exfalso.
  assert (In p (pts s fi)) by (unfold pts; apply in_flat_map; exists k; split; [apply in_seq; split; [apply Nat.le_0_l|exact Hk]|rewrite E; now left]).
  rewrite H in *. contradiction.
Qed.

Lemma seq_map_get {A} (f : nat -> A) len i : (i < len)%nat -> get (map f (seq 0 len)) i = Ok (f i).
Proof.
  intro H. apply get_ok. rewrite nth_error_map, (nth_error_nth' _ 0%nat) by (now rewrite seq_length). now rewrite seq_nth by assumption.
Qed.

Lemma note_sparse_spec s : forall rem fi F d, (fi + rem = nf)%nat ->
  (forall fi, d fi = 0 \/ d fi = Z.of_nat (D fi)) ->
  note_sparse (sreply s) s nf fi (map (fdim s) (seq fi rem)) (Z.of_nat (ioff s 0 fi)) (Z.of_nat (voff s 0 fi)) (Z.of_nat (ioff s 0 fi))
    (table n nf F, map d (seq 0 nf)) =
  Ok (table n nf (fun k' fi' => if (fi <=? fi')%nat then done s F k' fi' else F k' fi'),
      map (fun fi' => if (fi <=? fi')%nat && negb (fdim s fi' =? 0) then fdim s fi' else d fi') (seq 0 nf)).
Proof.
  induction rem as [|rem IH]; intros fi F d Hf Hd.
  - cbn [seq map note_sparse]. f_equal. f_equal.
    + apply table_ext. intros k' fi' _ H. destruct (Nat.leb_spec fi fi'); [lia|reflexivity].
    + apply map_ext_in. intros fi' H. apply in_seq in H. destruct (Nat.leb_spec fi fi'); [lia|reflexivity].
  - cbn [seq map note_sparse]. pose proof (counts s fi) as [C1 C2].
    destruct (ioff_n s fi) as [I1 I2]. destruct (voff_n s fi) as [V1 V2].
    destruct (Z.eqb_spec (fdim s fi + 1) 1) as [E1|E1].
    + assert (E0 : fdim s fi = 0) by lia.
      assert (En : pts s fi = []).
      { unfold fdim in E0. destruct (pts s fi); [reflexivity|]. specialize (D_pos fi). lia. }
      rewrite En in C1, C2. cbn in C1, C2.
      replace (ioff s 0 fi) with (ioff s 0 (S fi)) by lia. replace (voff s 0 fi) with (voff s 0 (S fi)) by lia.
      rewrite IH by (assumption || lia). f_equal. f_equal.
      * apply table_ext. intros k' fi' Hk' _. destruct (Nat.leb_spec (S fi) fi'), (Nat.leb_spec fi fi'); try lia; try reflexivity.
        replace fi' with fi by lia. symmetry. apply done_none. now apply pts_nil.
      * apply map_ext. intro fi'. destruct (Nat.leb_spec (S fi) fi'), (Nat.leb_spec fi fi'); try lia; try reflexivity.
        replace fi' with fi by lia. rewrite E0. reflexivity.
    + assert (Ed : fdim s fi = Z.of_nat (D fi)) by (unfold fdim in *; destruct (pts s fi); [lia|reflexivity]).
      assert (Hc : (0 < length (pts s fi))%nat) by (unfold fdim in E1; destruct (pts s fi); [lia|cbn; lia]).
      cbn [fst snd]. rewrite (seq_map_get d nf fi) by lia. cbn [bind].
      assert (Hod : negb (d fi =? 0) && negb (fdim s fi =? 0) && negb (d fi =? fdim s fi) = false).
      { rewrite Ed. destruct (Hd fi) as [-> | ->]; [reflexivity|]. rewrite Z.eqb_refl. now rewrite andb_false_r. }
      rewrite Hod.
      assert (G1 : get (spr_ic (sreply s)) fi = Ok (Z.of_nat (length (fidx s fi)))) by (cbn [sreply spr_ic]; apply (seq_map_get (fun fi => Z.of_nat (length (fidx s fi)))); lia).
      assert (G2 : get (spr_vc (sreply s)) fi = Ok (Z.of_nat (length (fval s fi)))) by (cbn [sreply spr_vc]; apply (seq_map_get (fun fi => Z.of_nat (length (fval s fi)))); lia).
      rewrite G1, G2. cbn [bind]. destruct (Z.eqb_spec (Z.of_nat (length (fidx s fi))) 0); [nia|].
      assert (Ei : Z.of_nat (length (fval s fi)) * (fdim s fi + 1) / Z.of_nat (length (fidx s fi)) = Z.of_nat (w fi)).
      { rewrite C1, C2, Ed. rewrite !Nat2Z.inj_mul, Nat2Z.inj_succ. unfold Z.succ.
        replace (Z.of_nat (length (pts s fi)) * Z.of_nat (w fi) * (Z.of_nat (D fi) + 1)) with (Z.of_nat (w fi) * (Z.of_nat (length (pts s fi)) * (Z.of_nat (D fi) + 1))) by ring.
        apply Z.div_mul. nia. }
      rewrite Ei, Ed.
      replace (Z.of_nat (ioff s 0 fi) + Z.of_nat (length (fidx s fi))) with (Z.of_nat (ioff s n fi)) by lia.
      rewrite coords_feature by lia. cbn [bind].
      rewrite <- I2, <- V2. rewrite (set_nth_seq d) by lia.
      rewrite IH; [|lia|].
      * f_equal. f_equal.
        -- apply table_ext. intros k' fi' Hk' _. unfold done. destruct (Nat.eqb_spec fi' fi) as [->|].
           ++ destruct (Nat.leb_spec (S fi) fi), (Nat.leb_spec fi fi); try lia. reflexivity.
           ++ destruct (Nat.leb_spec (S fi) fi'), (Nat.leb_spec fi fi'); try lia; reflexivity.
        -- apply map_ext. intro fi'. cbn [Nat.add]. destruct (Nat.eqb_spec fi' fi) as [->|].
           ++ destruct (Nat.leb_spec (S fi) fi), (Nat.leb_spec fi fi); try lia. cbn [andb]. rewrite Ed.
              destruct (Z.eqb_spec (Z.of_nat (D fi)) 0); [specialize (D_pos fi); lia|reflexivity].
           ++ destruct (Nat.leb_spec (S fi) fi'), (Nat.leb_spec fi fi'); try lia; reflexivity.
      * intro fi'. cbn [Nat.add]. destruct (Nat.eqb_spec fi' fi) as [->|]; [right; reflexivity|apply Hd].
Qed.

Definition owner (order : list nat) (k fi : nat) : option nat := find (fun s => match P s k fi with [] => false | _ => true end) order.
Definition entry (s k fi : nat) : spentry :=
  SE (Z.of_nat s) (Z.of_nat (ioff s k fi)) (Z.of_nat (length (P s k fi)) * (Z.of_nat (D fi) + 1)) (Z.of_nat (voff s k fi))
     (Z.of_nat (length (P s k fi)) * Z.of_nat (w fi)) (-1).
Definition entries (order : list nat) (k fi : nat) : spentry :=
  match owner order k fi with Some s => entry s k fi | None => no_spentry end.
Definition dims (order : list nat) (fi : nat) : Z := if forallb (fun s => fdim s fi =? 0) order then 0 else Z.of_nat (D fi).

Lemma find_app {A} (f : A -> bool) l l' : find f (l ++ l') = match find f l with Some a => Some a | None => find f l' end.
Proof. induction l as [|a l IH]; [reflexivity|]. cbn. destruct (f a); [reflexivity|exact IH]. Qed.

Lemma entries_step order s k fi : ~ In s order -> (s < m)%nat -> (k < n)%nat -> (fi < nf)%nat ->
  done s (entries order) k fi = entries (order ++ [s]) k fi.
Proof.
  intros Hni Hs Hk Hf. unfold entries, owner. rewrite find_app. unfold done.
  destruct (find _ order) as [h|] eqn:E.
  - apply find_some in E. destruct E as [E _]. apply many_other; cbn [entry se_shard]; [lia|]. intro Q. apply Hni. replace s with h by lia. assumption.
  - cbn [find]. destruct (P s k fi) as [|p l] eqn:Ep; [reflexivity|]. rewrite many_fresh; [|lia|apply T_pos; try assumption; congruence|lia].
    unfold entry. rewrite Ep. reflexivity.
Qed.

Lemma dims_step order s fi : (if negb (fdim s fi =? 0) then fdim s fi else dims order fi) = dims (order ++ [s]) fi.
Proof.
  unfold dims. rewrite forallb_app. cbn [forallb]. rewrite andb_true_r.
  destruct (Z.eqb_spec (fdim s fi) 0) as [E|E]; cbn [negb]; [now rewrite andb_true_r|]. rewrite andb_false_r.
  unfold fdim in *. destruct (pts s fi); [congruence|reflexivity].
Qed.

Lemma reply_spec order s : ~ In s order -> (s < m)%nat ->
  note_sparse_reply nf s (sreply s) (Ok (table n nf (entries order), map (dims order) (seq 0 nf))) =
  Ok (table n nf (entries (order ++ [s])), map (dims (order ++ [s])) (seq 0 nf)).
Proof.
  intros Hni Hs. unfold note_sparse_reply. cbn [bind].
  assert (E : match spr_idx (sreply s) with [] => Ok (table n nf (entries order), map (dims order) (seq 0 nf))
              | _ => note_sparse (sreply s) s nf 0 (spr_dims (sreply s)) 0 0 0 (table n nf (entries order), map (dims order) (seq 0 nf)) end =
              Ok (table n nf (done s (entries order)), map (fun fi => if negb (fdim s fi =? 0) then fdim s fi else dims order fi) (seq 0 nf))).
  { assert (R : note_sparse (sreply s) s nf 0 (spr_dims (sreply s)) 0 0 0 (table n nf (entries order), map (dims order) (seq 0 nf)) =
                Ok (table n nf (done s (entries order)), map (fun fi => if negb (fdim s fi =? 0) then fdim s fi else dims order fi) (seq 0 nf))).
    { pose proof (note_sparse_spec s nf 0 (entries order) (dims order) eq_refl) as R. cbn in R. apply R.
      intro fi. unfold dims. destruct (forallb _ _); auto. }
    destruct (spr_idx (sreply s)) as [|z l] eqn:Ei; [|exact R].
    f_equal. f_equal.
    - apply table_ext. intros k fi Hk Hf. symmetry. apply done_none. apply pts_nil; [|assumption].
      cbn [sreply spr_idx] in Ei. rewrite (seq_split_at fi nf Hf), flat_map_app' in Ei. apply app_eq_nil in Ei. destruct Ei as [_ Ei].
      cbn [flat_map] in Ei. apply app_eq_nil in Ei. destruct Ei as [Ei _]. pose proof (counts s fi) as [C _]. rewrite Ei in C. cbn in C.
      destruct (pts s fi); [reflexivity|cbn in C; lia].
    - apply map_ext_in. intros fi Hf. apply in_seq in Hf.
      assert (En : pts s fi = []).
      { cbn [sreply spr_idx] in Ei. rewrite (seq_split_at fi nf ltac:(lia)), flat_map_app' in Ei. apply app_eq_nil in Ei. destruct Ei as [_ Ei].
        cbn [flat_map] in Ei. apply app_eq_nil in Ei. destruct Ei as [Ei _]. pose proof (counts s fi) as [C _]. rewrite Ei in C. cbn in C.
        destruct (pts s fi); [reflexivity|cbn in C; lia]. }
      unfold fdim. rewrite En. reflexivity. }
  rewrite E. f_equal. f_equal.
  - apply table_ext. intros k fi Hk Hf. now apply entries_step.
  - apply map_ext. intro fi. apply dims_step.
Qed.

(** What the callbacks leave. *)
Definition won (order : list nat) (k fi : nat) : list point := match owner order k fi with Some s => P s k fi | None => [] end.

Lemma sparse_callbacks order : NoDup order -> Forall (fun s => (s < m)%nat) order ->
  fold_left (fun a i => own (note_sparse_reply nf) i (map sreply (seq 0 m)) a) order (Ok (repeat no_spentry (n * nf), repeat 0 nf)) =
  Ok (table n nf (entries order), map (dims order) (seq 0 nf)).
Proof.
  induction order as [|s order IH] using rev_ind; intros HN HF.
  - cbn [fold_left]. f_equal. unfold entries, dims, table. cbn. f_equal; clear.
    + generalize 0%nat. induction (n * nf)%nat as [|x IH]; intro a; [reflexivity|]. cbn. now rewrite <- IH.
    + generalize 0%nat. induction nf as [|x IH]; intro a; [reflexivity|]. cbn. now rewrite <- IH.
  - apply Forall_app in HF. destruct HF as [HF Hs]. inversion Hs as [|? ? Hlt _]; subst.
    assert (HN' : NoDup order /\ ~ In s order).
    { apply NoDup_remove in HN. rewrite app_nil_r in HN. exact HN. }
    rewrite fold_left_app, IH by tauto. cbn [fold_left]. unfold own.
    assert (Gr : nth_error (map sreply (seq 0 m)) s = Some (sreply s)).
    { rewrite nth_error_map, (nth_error_nth' _ 0%nat) by (now rewrite seq_length). now rewrite seq_nth by assumption. }
    rewrite Gr. apply reply_spec; tauto.
Qed.

Theorem client_points es : schedule m es ->
  client_sparse n nf (map sreply (seq 0 m)) es =
  Ok (map (fun fi => (dims (calls es) fi, flat_map (fun k => pidx k (won (calls es) k fi)) (seq 0 n),
                      flat_map (fun k => pval (won (calls es) k fi)) (seq 0 n))) (seq 0 nf)).
Proof.
  intro HS. unfold client_sparse. rewrite (run_own no_spreply _ _ m es _ HS).
  pose proof (calls_schedule m es HS) as HP.
  assert (HF : Forall (fun s => (s < m)%nat) (calls es)).
  { apply Forall_forall. intros s Hs. eapply Permutation_in in Hs; [|exact HP]. apply in_seq in Hs. lia. }
  assert (HN : NoDup (calls es)) by (eapply Permutation_NoDup; [symmetry; exact HP|apply seq_NoDup]).
  rewrite sparse_callbacks by assumption. cbn [bind fst snd]. apply mapM_pure. intros fi Hfi. apply in_seq in Hfi.
  rewrite (seq_map_get (dims (calls es)) nf fi) by lia. cbn [bind].
  unfold extract_sparse.
  rewrite (mapM_pure _ (fun k => (pidx k (won (calls es) k fi), pval (won (calls es) k fi)))).
  - cbn [bind fst snd]. f_equal. f_equal; [f_equal|]; clear; induction (seq 0 n) as [|k l IH]; try reflexivity; cbn; now rewrite <- IH.
  - intros k Hk. apply in_seq in Hk. rewrite table_get by lia. cbn [bind]. unfold entries, won.
    destruct (owner (calls es) k fi) as [s|] eqn:Eo; [|reflexivity].
    unfold owner in Eo. apply find_some in Eo. destruct Eo as [Eo Enn]. rewrite Forall_forall in HF. specialize (HF s Eo).
    cbn [entry se_shard se_io se_ic se_vo se_vc]. destruct (Z.ltb_spec (Z.of_nat s) 0); [lia|]. rewrite Nat2Z.id.
    rewrite (seq_map_get sreply m s) by assumption. cbn [bind].
    destruct (idx_split s k fi ltac:(lia) ltac:(lia)) as (pre & post & E & L).
    destruct (val_split s k fi ltac:(lia) ltac:(lia)) as (vpre & vpost & VE & VL).
    pose proof (pidx_length k s k fi) as LP. pose proof (pval_length s k fi) as LV.
    destruct (spr_idx (sreply s)) as [|z l] eqn:Ei.
    + exfalso. cbn [sreply spr_idx] in Ei. rewrite E in Ei. apply app_eq_nil in Ei. destruct Ei as [_ Ei]. apply app_eq_nil in Ei.
      destruct Ei as [Ei _]. rewrite Ei in LP. cbn in LP. destruct (P s k fi); [discriminate|cbn in LP; lia].
    + rewrite <- Ei. clear Ei z l. cbn [sreply spr_idx spr_val].
      assert (Ic : Z.of_nat (length (P s k fi)) * (Z.of_nat (D fi) + 1) = Z.of_nat (length (pidx k (P s k fi)))) by lia.
      rewrite Ic, Nat2Z.id, Nat2Z.id. rewrite E at 1. rewrite !app_length.
      replace ((0 <=? Z.of_nat (ioff s k fi)) && (0 <=? Z.of_nat (length (pidx k (P s k fi)))) &&
        (Z.of_nat (ioff s k fi) + Z.of_nat (length (pidx k (P s k fi))) <=? Z.of_nat (length pre + (length (pidx k (P s k fi)) + length post)))) with true by lia.
      rewrite (sread_ok _ vpre (pval (P s k fi)) vpost _ _ VE) by lia. cbn [bind]. f_equal. f_equal.
      rewrite E. apply slice_app_eq; lia.
Qed.

(** The points of an item are those of one server that has some, none only if no server has any. *)
Lemma won_some order k fi :
  (exists s, In s order /\ P s k fi <> [] /\ won order k fi = P s k fi) \/ ((forall s, In s order -> P s k fi = []) /\ won order k fi = []).
Proof.
  unfold won. destruct (owner order k fi) as [s|] eqn:E; unfold owner in E.
  - left. apply find_some in E. destruct E as [E1 E2]. exists s. repeat split; [assumption|]. intro Q. rewrite Q in E2. discriminate.
  - right. split; [|reflexivity]. intros s Hs. eapply find_none in E; [|exact Hs]. cbn beta in E. destruct (P s k fi); [reflexivity|discriminate].
Qed.
End Client.

(** ** The server *)

Definition kflag (ts : option Z) (look : option (list N) -> Z * list N) (F : row -> list (option (list N))) (rws : list row) (f : Z) : Z :=
  fst (fold_left (fun x r => kres ts look (fun _ => (Flat [], [])) 0 (F r) f x) rws (-1, SP 0 [] [] 0)).

Lemma kflag_fold ts look dec prefix F rws f s :
  fst (fold_left (fun x r => kres ts look dec prefix (F r) f x) rws (-1, s)) = kflag ts look F rws f.
Proof.
  unfold kflag. assert (H : forall a b, fst a = fst b ->
    fst (fold_left (fun x r => kres ts look dec prefix (F r) f x) rws a) =
    fst (fold_left (fun x r => kres ts look (fun _ => (Flat [], [])) 0 (F r) f x) rws b)).
  { induction rws as [|r rws IH]; intros a b E; [exact E|]. cbn [fold_left]. apply IH. unfold kres. rewrite E.
    destruct (already ts (fst b)); [assumption|]. destruct (given (F r) f); [reflexivity|assumption]. }
  now apply H.
Qed.

Lemma kflag_pos ts look F f rws :
  single ts (offered F rws f) ->
  (forall v, In v (offered F rws f) -> bytes_of v <> [] -> look_ok look v /\ timely ts look v) ->
  (ts = None -> forall v, fst (look v) = 0) ->
  chosen look (offered F rws f) <> [] -> 0 <= kflag ts look F rws f.
Proof.
  intros Hs Hl H0 Hc. unfold kflag. induction rws as [|r rws IH] using rev_ind; [now cbn in Hc|].
  rewrite fold_left_app. cbn [fold_left]. rewrite offered_app in *.
  assert (Hs' : single ts (offered F rws f)) by (destruct Hs as [Hs|Hs]; [now left|]; right; rewrite filter_app, app_length in Hs; lia).
  assert (Hl' : forall v, In v (offered F rws f) -> bytes_of v <> [] -> look_ok look v /\ timely ts look v)
    by (intros v Hv; apply Hl; apply in_or_app; now left).
  destruct (krows_fold ts look (fun _ => (Flat [], [])) 0 F f rws (SP 0 [] [] 0) Hs' Hl' H0) as (_ & K2 & K3).
  specialize (IH Hs' Hl').
  set (x := fold_left _ rws _) in *. clearbody x.
  rewrite !chosen_nonempty in *. rewrite !filter_app, !given_offered in *.
  assert (Hg : forall v, given (F r) f = Some v -> look_ok look v /\ timely ts look v).
  { intros v Ev. assert (In v (filter nonempty (offered F [r] f))) by (rewrite given_offered, Ev; now left).
    apply filter_In in H. destruct H as [Hv Hb]. apply Hl; [apply in_or_app; now right|]. unfold nonempty in Hb. intro E. rewrite E in Hb. discriminate. }
  destruct (filter nonempty (offered F rws f)) as [|v0 l] eqn:Ef.
  - cbn [app] in Hc. rewrite (K2 eq_refl) in *. unfold kres. cbn [fst snd] in *.
    destruct (given (F r) f) as [v|] eqn:Eg; cbn [opt_list] in Hc; [|congruence].
    destruct (Hg v eq_refl) as [Hok Htm]. destruct (already ts (-1)) eqn:Ea; [specialize (Htm Ea); congruence|].
    destruct Hok as [Hok|Hok]; [exact Hok|]. rewrite Hok in Hc. now cbn in Hc.
  - cbn [app] in Hc. specialize (IH Hc). unfold kres. destruct Hs as [Hs|Hs].
    + subst ts. rewrite (K3 ltac:(discriminate) eq_refl). cbn. rewrite (K3 ltac:(discriminate) eq_refl). lia.
    + rewrite filter_app, app_length, Ef, given_offered in Hs. cbn in Hs.
      destruct (given (F r) f) as [v|] eqn:Eg; [cbn in Hs; lia|]. destruct (already ts (fst x)); exact IH.
Qed.

Section Server.
Variables (fadd : N -> N -> N) (wval : N -> Z).
Notation part_of := (part_of fadd).
Notation converted := (converted fadd wval).

Lemma serve_node_fold wm parts g fs ts n prefix ss look dec :
  converted wm parts g -> Forall int32 fs -> length fs = length ss ->
  (forall f, In f fs -> single ts (node_values parts n f)) ->
  (ts = None -> forall v, fst (look v) = 0) ->
  (forall f v, In f fs -> In v (node_values parts n f) -> bytes_of v <> [] ->
     (forall data, resolves data ts look v) /\ look_ok look v /\ timely ts look v /\ (snd (look v) = [] \/ decodes dec (snd (look v)))) ->
  let flags := map (kflag ts look row_feats (node_rows n (map rows parts))) fs in
  let news := zip_with (fun f s => add_bytes dec (chosen look (node_values parts n f)) prefix s) fs ss in
  (do o <- occurrences g n ;;
   match o with
   | None => Ok None
   | Some os => do st <- foldM (fun x st => part_node_sparse (fst x) (snd x) ts prefix fs st) os (map (fun _ => -1) fs, ss) ;;
                Ok (Some st)
   end) = Ok (Some (flags, news)) \/
  (do o <- occurrences g n ;;
   match o with
   | None => Ok None
   | Some os => do st <- foldM (fun x st => part_node_sparse (fst x) (snd x) ts prefix fs st) os (map (fun _ => -1) fs, ss) ;;
                Ok (Some st)
   end) = Ok None /\ flags = repeat (-1) (length fs) /\ news = ss.
Proof.
  intros C Hi Hlen Hu H0 Hl flags news. destruct (converted_small fadd wval wm parts g C) as (m & Hg & HRF & HF).
  rewrite Hg. cbn [bind]. unfold lookup, found.
  assert (Hl' : forall f v, In f fs -> In v (offered row_feats (node_rows n (map rows parts)) f) -> bytes_of v <> [] -> look_ok look v /\ timely ts look v)
    by (intros f v H1 H2 H3; rewrite node_values_offered in H2; destruct (Hl f v H1 H2 H3) as (_ & A & B & _); auto).
  assert (Hu' : forall f, In f fs -> single ts (offered row_feats (node_rows n (map rows parts)) f))
    by (intros f Hf; rewrite node_values_offered; now apply Hu).
  pose proof (kfinish ts look dec prefix row_feats fs _ ss Hlen Hu' Hl' H0) as R.
  assert (E : forall ss', zip_with (fun f s => add_bytes dec (chosen look (offered row_feats (node_rows n (map rows parts)) f)) prefix s) fs ss' =
              zip_with (fun f s => add_bytes dec (chosen look (node_values parts n f)) prefix s) fs ss').
  { clear. induction fs as [|f fs IH]; intros [|s ss']; try reflexivity. cbn. now rewrite node_values_offered, IH. }
  rewrite E in R. clear E. fold news in R.
  destruct (places (part_of m (is_temporal wm)) n (map rows parts)) as [|o os] eqn:Ep.
  - right. apply places_nil in Ep. split; [reflexivity|]. subst flags. rewrite Ep in *. cbn [fold_left] in R. split.
    + clear. induction fs as [|f fs IH]; [reflexivity|]. cbn [map length repeat]. now rewrite IH.
    + rewrite <- R. clear -Hlen. revert ss Hlen; induction fs as [|f fs IH]; intros [|s ss] H; cbn in *; try discriminate; [reflexivity|]. f_equal. apply IH. lia.
  - left. rewrite <- Ep. rewrite kstart by assumption.
    rewrite (foldM_rows (fun p i st => part_node_sparse p i ts prefix fs st) kenc
               (fun segs r => zip_with (kres ts look dec prefix (row_feats r)) fs segs)
               _ _ _ _ _ _ (places_rows _ n (map rows parts))).
    + cbn [bind]. unfold kenc. rewrite R. do 3 f_equal. subst flags. rewrite kfold_zip by assumption.
      clear -Hlen. revert ss Hlen. induction fs as [|f fs IH]; intros [|s ss] H; cbn in H; try discriminate; [reflexivity|].
      cbn [zip_with map]. rewrite kflag_fold, IH by lia. reflexivity.
    + intros d r rest ps r1 r2 E Hin Eps Hn. rewrite Forall_forall in HF. destruct (HF ps Hin) as [Hs Hc]. subst ps.
      apply (part_node_sparse_spec fadd); try assumption.
      * eapply (kready_all ts look dec prefix row_feats fs d r rest); [assumption| | |assumption].
        -- intros f Hf. rewrite <- E. now apply Hu'.
        -- intros f v Hf Hv Hb. apply (Hl' f); try assumption. rewrite E, offered_app. apply in_or_app. now left.
      * intros f v data Hf Hv. destruct (given_in row_feats (node_rows n (map rows parts)) r f v) as [Hv' Hb]; [now apply row_in_parts with r1 r2|assumption|].
        rewrite node_values_offered in Hv'. destruct (Hl f v) as (L1 & L2 & _ & L3); auto.
Qed.

Lemma serve_loop_pure {A} (q : A -> option Z -> Z -> list sparse -> res (option (list Z * list sparse)))
    (fl : A * option Z -> Z -> Z) (D : A * option Z -> Z -> sparse -> Z -> sparse) (fs : list Z) xs : forall k ss,
  length fs = length ss ->
  (forall x t k ss, In (x, t) xs -> length fs = length ss ->
     q x t k ss = Ok (Some (map (fl (x, t)) fs, zip_with (fun f s => D (x, t) k s f) fs ss)) \/
     q x t k ss = Ok None /\ map (fl (x, t)) fs = repeat (-1) (length fs) /\ zip_with (fun f s => D (x, t) k s f) fs ss = ss) ->
  serve_sparse_loop (length fs) q k xs ss =
  Ok (flat_map (fun x => map (fl x) fs) xs,
      zip_with (fun f s => fst (fold_left (fun sk x => (D x (snd sk) (fst sk) f, snd sk + 1)) xs (s, k))) fs ss).
Proof.
  induction xs as [|[x t] xs IH]; intros k ss Hl H.
  - cbn. do 2 f_equal. clear -Hl. revert ss Hl. induction fs as [|f fs IH]; intros [|s ss] H; cbn in *; try discriminate; [reflexivity|].
    f_equal. apply IH. lia.
  - cbn [serve_sparse_loop].
    assert (Z : zip_with (fun f s => fst (fold_left (fun sk x0 => (D x0 (snd sk) (fst sk) f, snd sk + 1)) xs (s, k + 1))) fs
                  (zip_with (fun f s => D (x, t) k s f) fs ss) =
                zip_with (fun f s => fst (fold_left (fun sk x0 => (D x0 (snd sk) (fst sk) f, snd sk + 1)) ((x, t) :: xs) (s, k))) fs ss).
    { clear -Hl. revert ss Hl. induction fs as [|f fs IH]; intros [|s ss] H; cbn [zip_with] in *; cbn in H; try discriminate; [reflexivity|].
      f_equal. apply IH. lia. }
    destruct (H x t k ss (or_introl eq_refl) Hl) as [E|(E & E1 & E2)]; rewrite E; cbn [bind fst snd flat_map].
    + rewrite IH; [|now rewrite zip_length|intros; apply H; [now right|assumption]]. cbn [bind fst snd]. now rewrite Z.
    + rewrite IH; [|assumption|intros; apply H; [now right|assumption]]. cbn [bind fst snd]. now rewrite <- Z, E1, E2.
Qed.
End Server.

(** Points of encoded bytes. *)
Definition points (dec : list N -> coords * list (list N)) (bs : list N) : list point :=
  match bs with [] => [] | _ => combine (tuples (fst (dec bs))) (snd (dec bs)) end.

Lemma points_facts dec bs k : bs = [] \/ decodes dec bs ->
  pidx k (points dec bs) = concat (match decoded dec bs with Some v => map (cons (Z.of_nat k)) (fst v) | None => [] end) /\
  pval (points dec bs) = match decoded dec bs with Some v => snd v | None => [] end /\
  (points dec bs = [] <-> bs = []).
Proof.
  intros [->|[(H1 & _) H2]]; [cbn; tauto|]. unfold points, decoded, pidx, pval. destruct bs as [|b bs]; [cbn; tauto|].
  rewrite <- tuples_length in H1. cbn [fst snd].
  assert (Hne : tuples (fst (dec (b :: bs))) <> []).
  { intro E. unfold convert_feature in H2. rewrite <- tuples_length in H2. rewrite E in H2. discriminate. }
  revert H1 Hne. generalize (tuples (fst (dec (b :: bs)))) (snd (dec (b :: bs))). clear. intros ts vs H Hne. split; [|split].
  - clear Hne. revert vs H. induction ts as [|t ts IH]; intros [|v vs] H; cbn in H; try discriminate; [reflexivity|]. cbn. f_equal. f_equal. apply IH. lia.
  - clear Hne. revert vs H. induction ts as [|t ts IH]; intros [|v vs] H; cbn in H; try discriminate; [reflexivity|]. cbn. f_equal. apply IH. lia.
  - split; [|discriminate]. destruct ts, vs; cbn in *; congruence.
Qed.

Fixpoint nflat {A C} (h : nat -> A -> list C) (a : nat) (l : list A) : list C :=
  match l with [] => [] | x :: t => h a x ++ nflat h (S a) t end.
Lemma spread {A C} (h : nat -> A -> list C) l : forall a,
  flat_map (fun k => match nth_error l k with Some x => h (a + k)%nat x | None => [] end) (seq 0 (length l)) = nflat h a l.
Proof.
  induction l as [|x l IH]; intro a; [reflexivity|]. cbn [length seq flat_map nth_error nflat]. rewrite Nat.add_0_r. f_equal.
  rewrite <- (IH (S a)), <- seq_shift, !flat_map_concat_map, map_map. f_equal. apply map_ext. intro k. cbn [nth_error]. now rewrite Nat.add_succ_r.
Qed.
Lemma nflat_const {A C} (h : A -> list C) l : forall a, nflat (fun _ => h) a l = flat_map h l.
Proof. induction l as [|x l IH]; intro a; [reflexivity|]. cbn. now rewrite IH. Qed.
Lemma nflat_ext {A C} (h h' : nat -> A -> list C) l : (forall k x, In x l -> h k x = h' k x) -> forall a, nflat h a l = nflat h' a l.
Proof. intro H. induction l as [|x l IH]; intro a; [reflexivity|]. cbn. rewrite H by now left. f_equal. apply IH. intros; apply H; now right. Qed.
Lemma map_spread {A C} (h : nat -> C) (g : A -> C) l : (forall k x, nth_error l k = Some x -> h k = g x) -> map h (seq 0 (length l)) = map g l.
Proof.
  revert h. induction l as [|x l IH]; intros h H; [reflexivity|]. cbn [length seq map]. rewrite (H 0%nat x eq_refl). f_equal.
  rewrite <- seq_shift, map_map. apply IH. intros k y Hk. now apply H.
Qed.
Lemma flat_map_spread {A C} (h : nat -> list C) (g : A -> list C) l : (forall k x, nth_error l k = Some x -> h k = g x) ->
  flat_map h (seq 0 (length l)) = flat_map g l.
Proof. intro H. rewrite !flat_map_concat_map. f_equal. now apply map_spread. Qed.

(** ** Together *)

(** Bytes of a sparse value of feature [f]: dimension and bytes per point depend on the feature only. *)
Definition sparse_at (dec : list N -> coords * list (list N)) (D w : Z -> nat) (f : Z) (bs : list N) : Prop :=
  bs = [] \/ decodes dec bs /\ coords_dim (fst (dec bs)) = D f /\ Forall (fun v => length v = w f) (snd (dec bs)).
Definition sparse_triple (dec : list N -> coords * list (list N)) (bss : list (list N)) : Z * list Z * list N :=
  (last_dim dec bss, concat (spec_sparse_rows (map (decoded dec) bss)), spec_sparse_values (map (decoded dec) bss)).

Definition isnil {A} (l : list A) : bool := match l with [] => true | _ => false end.
Lemma last_dim_uniform dec D w f bss : Forall (sparse_at dec D w f) bss -> last_dim dec bss = if forallb isnil bss then 0 else Z.of_nat (D f).
Proof.
  intro H. unfold last_dim. assert (E : forall d, fold_left (fun d bs => match bs with [] => d | _ => Z.of_nat (coords_dim (fst (dec bs))) end) bss d =
    if forallb isnil bss then d else Z.of_nat (D f)); [|apply E].
  induction H as [|bs bss Hb _ IH]; intro d; [reflexivity|]. cbn [fold_left forallb]. rewrite IH.
  destruct bs as [|b bs]; [reflexivity|]. cbn [isnil andb]. destruct Hb as [Hb|(_ & Hb & _)]; [discriminate|]. rewrite Hb. destruct (forallb isnil bss); reflexivity.
Qed.

Section Assemble.
Context {X : Type}.
Variables (xs : list X) (fs : list Z) (dec : list N -> coords * list (list N)) (D w : Z -> nat) (m : nat)
  (B : nat -> X -> Z -> list N) (fl : nat -> X -> Z -> Z).
Hypothesis HB : forall s x f, (s < m)%nat -> In x xs -> In f fs -> sparse_at dec D w f (B s x f).
Hypothesis Hfl : forall s x f, (s < m)%nat -> In x xs -> In f fs -> B s x f <> [] -> 0 <= fl s x f.

Definition gathered (s : nat) (f : Z) : sparse :=
  fst (fold_left (fun sk x => (add_bytes dec (B s x f) (snd sk) (fst sk), snd sk + 1)) xs (SP 0 [] [] 0, 0)).
Definition sent (s : nat) : spreply :=
  let ss := map (gathered s) fs in
  SPR (map sp_dim ss) (flat_map (fun x => map (fl s x) fs) xs) (flat_map sp_idx ss) (flat_map sp_val ss)
      (map (fun s => Z.of_nat (length (sp_idx s))) ss) (map (fun s => Z.of_nat (length (sp_val s))) ss).

Definition cellP (s k fi : nat) : list point :=
  match nth_error xs k, nth_error fs fi with Some x, Some f => if (s <? m)%nat then points dec (B s x f) else [] | _, _ => [] end.
Definition cellT (s k fi : nat) : Z :=
  match nth_error xs k, nth_error fs fi with Some x, Some f => fl s x f | _, _ => 0 end.
Definition cellD (fi : nat) : nat := match nth_error fs fi with Some f => Nat.max 1 (D f) | None => 1%nat end.
Definition cellw (fi : nat) : nat := match nth_error fs fi with Some f => w f | None => 0%nat end.

Lemma cell_decodes s x f : (s < m)%nat -> In x xs -> In f fs -> B s x f = [] \/ decodes dec (B s x f).
Proof. intros H1 H2 H3. destruct (HB s x f H1 H2 H3) as [H|(H & _)]; auto. Qed.
Lemma dim_pos s x f : (s < m)%nat -> In x xs -> In f fs -> B s x f <> [] -> Nat.max 1 (D f) = D f.
Proof. intros H1 H2 H3 H. destruct (HB s x f H1 H2 H3) as [E|(((_ & Hp & _) & _) & Hd & _)]; [contradiction|]. lia. Qed.

Lemma cell_shape s k fi p : In p (cellP s k fi) -> length (fst p) = cellD fi /\ length (snd p) = cellw fi.
Proof.
  unfold cellP, cellD, cellw. destruct (nth_error xs k) as [x|] eqn:Ex; [|contradiction]. destruct (nth_error fs fi) as [f|] eqn:Ef; [|contradiction].
  destruct (Nat.ltb_spec s m) as [Hs|]; [|contradiction]. apply nth_error_In in Ex, Ef. intro Hp.
  pose proof (dim_pos s x f Hs Ex Ef) as Hm. destruct (HB s x f Hs Ex Ef) as [E|(((_ & _ & Ht & _) & _) & Hd & Hw)]; [rewrite E in Hp; contradiction|].
  destruct (B s x f) as [|b bs]; [contradiction|]. cbn [points] in Hp. rewrite Hm by discriminate. destruct p as [t v].
  pose proof (in_combine_l _ _ _ _ Hp) as H1. pose proof (in_combine_r _ _ _ _ Hp) as H2. rewrite Forall_forall in Ht, Hw. cbn [fst snd].
  rewrite (Ht t H1), (Hw v H2). auto.
Qed.
Lemma cellD_pos fi : (0 < cellD fi)%nat.
Proof. unfold cellD. destruct (nth_error fs fi); lia. Qed.
Lemma cell_nil s x f k fi : (s < m)%nat -> nth_error xs k = Some x -> nth_error fs fi = Some f -> (cellP s k fi = [] <-> B s x f = []).
Proof.
  intros Hs Ex Ef. unfold cellP. rewrite Ex, Ef. destruct (Nat.ltb_spec s m); [|lia]. apply nth_error_In in Ex, Ef.
  apply (points_facts dec (B s x f) 0). now apply cell_decodes.
Qed.
Lemma cell_T s k fi : (s < m)%nat -> (k < length xs)%nat -> (fi < length fs)%nat -> cellP s k fi <> [] -> 0 <= cellT s k fi.
Proof.
  intros Hs Hk Hf H. destruct (nth_error xs k) as [x|] eqn:Ex; [|apply nth_error_None in Ex; lia].
  destruct (nth_error fs fi) as [f|] eqn:Ef; [|apply nth_error_None in Ef; lia].
  unfold cellT. rewrite Ex, Ef. apply Hfl; try assumption; try (eapply nth_error_In; eassumption).
  intro E. apply H. now apply (cell_nil s x f).
Qed.

(** The fields of what is gathered, for any choice of bytes. *)
Lemma rows_nflat (ch : X -> list N) l : forall a,
  concat (flat_map (fun x => match snd x with Some v => map (cons (fst x)) (fst v) | None => [] end)
            (numbered (Z.of_nat a) (map (fun x => decoded dec (ch x)) l))) =
  nflat (fun k x => concat (match decoded dec (ch x) with Some v => map (cons (Z.of_nat k)) (fst v) | None => [] end)) a l.
Proof.
  induction l as [|x l IH]; intro a; [reflexivity|]. cbn [map numbered flat_map nflat fst snd]. rewrite concat_app. f_equal.
  replace (Z.of_nat a + 1) with (Z.of_nat (S a)) by lia. apply IH.
Qed.

Lemma pidx_all (Q : nat -> list point) (ch : X -> list N) :
  (forall k x, nth_error xs k = Some x -> Q k = points dec (ch x)) -> (forall x, In x xs -> ch x = [] \/ decodes dec (ch x)) ->
  flat_map (fun k => pidx k (Q k)) (seq 0 (length xs)) = concat (spec_sparse_rows (map (decoded dec) (map ch xs))) /\
  flat_map (fun k => pval (Q k)) (seq 0 (length xs)) = spec_sparse_values (map (decoded dec) (map ch xs)).
Proof.
  intros HQ Hd. split.
  - rewrite map_map. unfold spec_sparse_rows. change 0 with (Z.of_nat 0). rewrite (rows_nflat ch xs 0).
    rewrite <- (spread _ xs 0). rewrite !flat_map_concat_map. f_equal. apply map_ext_in. intros k Hk. apply in_seq in Hk.
    destruct (nth_error xs k) as [x|] eqn:Ex; [|apply nth_error_None in Ex; lia]. rewrite (HQ k x Ex).
    apply points_facts. apply Hd. eapply nth_error_In. exact Ex.
  - unfold spec_sparse_values. rewrite map_map, !flat_map_concat_map, !map_map. f_equal. apply map_spread. intros k x Ex. rewrite (HQ k x Ex).
    apply (points_facts dec (ch x) 0). apply Hd. eapply nth_error_In. exact Ex.
Qed.

Lemma gathered_spec s f : let g := gathered s f in (sp_dim g, sp_idx g, sp_val g) = sparse_triple dec (map (fun x => B s x f) xs).
Proof.
  cbn zeta. unfold gathered. destruct (fold_add dec (fun x => B s x f) xs (SP 0 [] [] 0) 0) as (E1 & E2 & E3). cbn zeta in *.
  rewrite E1, E2, E3. cbn [sp_idx sp_val sp_dim app]. unfold sparse_triple, spec_sparse_rows, last_dim. now rewrite !map_map.
Qed.

Lemma isnil_iff {A} (l : list A) : isnil l = true <-> l = [].
Proof. destruct l; cbn; split; congruence. Qed.

Lemma sent_sreply s : (s < m)%nat -> sent s = sreply (length xs) (length fs) cellD cellP cellT s.
Proof.
  intro Hs.
  assert (Q : forall fi f, nth_error fs fi = Some f ->
     fdim (length xs) cellD cellP s fi = sp_dim (gathered s f) /\ fidx (length xs) cellP s fi = sp_idx (gathered s f) /\
     fval (length xs) cellP s fi = sp_val (gathered s f)).
  { intros fi f Ef. pose proof (gathered_spec s f) as G. cbn zeta in G. unfold sparse_triple in G. injection G as G1 G2 G3.
    assert (Hf : In f fs) by (eapply nth_error_In; exact Ef).
    destruct (pidx_all (fun k => cellP s k fi) (fun x => B s x f)) as [P1 P2].
    { intros k x Ex. unfold cellP. rewrite Ex, Ef. destruct (Nat.ltb_spec s m); [reflexivity|lia]. }
    { intros x Hx. now apply cell_decodes. }
    split; [|split; [unfold fidx; congruence|unfold fval; congruence]].
    rewrite G1. rewrite (last_dim_uniform dec D w f) by (apply Forall_map, Forall_forall; intros; now apply HB).
    unfold fdim. destruct (pts (length xs) cellP s fi) as [|p l] eqn:Ep.
    - assert (Hall : forallb isnil (map (fun x => B s x f) xs) = true); [|now rewrite Hall].
      apply forallb_forall. intros bs Hbs. apply in_map_iff in Hbs. destruct Hbs as (x & <- & Hx). apply isnil_iff.
      apply In_nth_error in Hx. destruct Hx as (k & Ex). apply (cell_nil s x f k fi Hs Ex Ef).
      eapply pts_nil; [exact Ep|]. apply nth_error_Some. congruence.
    - assert (Hp : In p (pts (length xs) cellP s fi)) by (rewrite Ep; now left). unfold pts in Hp. apply in_flat_map in Hp.
      destruct Hp as (k & Hk & Hp). apply in_seq in Hk. destruct (nth_error xs k) as [x|] eqn:Ex; [|apply nth_error_None in Ex; lia].
      assert (Hne : B s x f <> []) by (intro E; apply (cell_nil s x f k fi Hs Ex Ef) in E; rewrite E in Hp; contradiction).
      assert (Hx : In x xs) by (eapply nth_error_In; exact Ex).
      destruct (forallb isnil (map (fun x => B s x f) xs)) eqn:Ea.
      + rewrite forallb_forall in Ea. exfalso. apply Hne, isnil_iff, Ea, in_map_iff. eauto.
      + unfold cellD. rewrite Ef. now rewrite (dim_pos s x f Hs Hx Hf Hne). }
  unfold sent, sreply. cbn zeta. rewrite !map_map, !flat_map_concat_map, !map_map. f_equal.
  - symmetry. apply map_spread. intros fi f Ef. apply (Q fi f Ef).
  - rewrite <- table_rows, flat_map_concat_map. f_equal. symmetry. apply map_spread. intros k x Ex.
    apply map_spread. intros fi f Ef. unfold cellT. now rewrite Ex, Ef.
  - f_equal. symmetry. apply map_spread. intros fi f Ef. apply (Q fi f Ef).
  - f_equal. symmetry. apply map_spread. intros fi f Ef. apply (Q fi f Ef).
  - symmetry. apply map_spread. intros fi f Ef. f_equal. f_equal. apply (Q fi f Ef).
  - symmetry. apply map_spread. intros fi f Ef. f_equal. f_equal. apply (Q fi f Ef).
Qed.

(** The bytes of the first server in the order that has some. *)
Definition first_bytes_of (order : list nat) (x : X) (f : Z) : list N :=
  match find (fun s => negb (isnil (B s x f))) order with Some s => B s x f | None => [] end.

Theorem client_assembled es : schedule m es ->
  client_sparse (length xs) (length fs) (map sent (seq 0 m)) es =
  Ok (map (fun f => sparse_triple dec (map (fun x => first_bytes_of (calls es) x f) xs)) fs).
Proof.
  intro HS. pose proof (calls_schedule m es HS) as HP.
  assert (HF : forall s, In s (calls es) -> (s < m)%nat).
  { intros s Hs. eapply Permutation_in in Hs; [|exact HP]. apply in_seq in Hs. lia. }
  rewrite (map_ext_in sent (sreply (length xs) (length fs) cellD cellP cellT)) by (intros s Hs; apply in_seq in Hs; apply sent_sreply; lia).
  rewrite (client_points (length xs) (length fs) cellD cellw m cellP cellT cell_shape cellD_pos cell_T es HS).
  f_equal. apply map_spread. intros fi f Ef. assert (Hf : In f fs) by (eapply nth_error_In; exact Ef).
  assert (W : forall k x, nth_error xs k = Some x -> won cellP (calls es) k fi = points dec (first_bytes_of (calls es) x f)).
  { intros k x Ex. unfold won, owner, first_bytes_of.
    assert (E : find (fun s => match cellP s k fi with [] => false | _ => true end) (calls es) = find (fun s => negb (isnil (B s x f))) (calls es)).
    { clear HP HS. induction (calls es) as [|s l IH]; [reflexivity|]. cbn [find].
      pose proof (cell_nil s x f k fi (HF s (or_introl eq_refl)) Ex Ef) as C. rewrite IH by (intros; apply HF; now right).
      destruct (cellP s k fi), (B s x f); cbn [isnil negb]; try reflexivity; exfalso.
      - assert (false = true) by (destruct C as [C _]; specialize (C eq_refl); discriminate). discriminate.
      - destruct C as [_ C]. specialize (C eq_refl). discriminate. }
    rewrite E. clear E. destruct (find _ (calls es)) as [s|] eqn:Es; [|reflexivity]. apply find_some in Es. destruct Es as [Es _].
    unfold cellP. rewrite Ex, Ef. destruct (Nat.ltb_spec s m); [reflexivity|]. specialize (HF s Es). lia. }
  assert (FD : forall x, In x xs -> sparse_at dec D w f (first_bytes_of (calls es) x f)).
  { intros x Hx. unfold first_bytes_of. destruct (find _ (calls es)) as [s|] eqn:Es; [|now left]. apply find_some in Es.
    apply HB; [apply HF; tauto|assumption|assumption]. }
  destruct (pidx_all (fun k => won cellP (calls es) k fi) (fun x => first_bytes_of (calls es) x f) W) as [P1 P2].
  { intros x Hx. destruct (FD x Hx) as [H|(H & _)]; auto. }
  unfold sparse_triple. rewrite P1, P2. f_equal. f_equal.
  rewrite (last_dim_uniform dec D w f) by (apply Forall_map, Forall_forall; intros; now apply FD).
  unfold dims. destruct (forallb (fun s => fdim (length xs) cellD cellP s fi =? 0) (calls es)) eqn:E1;
    destruct (forallb isnil (map (fun x => first_bytes_of (calls es) x f) xs)) eqn:E2; try reflexivity.
  - exfalso. assert (Hall : forallb isnil (map (fun x => first_bytes_of (calls es) x f) xs) = true); [|congruence].
    apply forallb_forall. intros bs Hbs. apply in_map_iff in Hbs. destruct Hbs as (x & <- & Hx). apply isnil_iff.
    unfold first_bytes_of. destruct (find _ (calls es)) as [s|] eqn:Es; [|reflexivity]. apply find_some in Es. destruct Es as [Es _].
    rewrite forallb_forall in E1. specialize (E1 s Es). cbn beta in E1. apply In_nth_error in Hx. destruct Hx as (k & Ex).
    apply (cell_nil s x f k fi (HF s Es) Ex Ef).
    assert (Hk : (k < length xs)%nat) by (apply nth_error_Some; congruence).
    eapply pts_nil; [|exact Hk]. unfold fdim in E1. destruct (pts _ _ _ _); [reflexivity|]. pose proof (cellD_pos fi). lia.
  - exfalso. assert (Hall : forallb (fun s => fdim (length xs) cellD cellP s fi =? 0) (calls es) = true); [|congruence].
    apply forallb_forall. intros s Hs. rewrite forallb_forall in E2.
    unfold fdim. destruct (pts (length xs) cellP s fi) as [|p l] eqn:Ep; [reflexivity|]. exfalso.
    assert (Hp : In p (pts (length xs) cellP s fi)) by (rewrite Ep; now left). unfold pts in Hp. apply in_flat_map in Hp.
    destruct Hp as (k & Hk & Hp). apply in_seq in Hk. destruct (nth_error xs k) as [x|] eqn:Ex; [|apply nth_error_None in Ex; lia].
    assert (Hne : B s x f <> []) by (intro E; apply (cell_nil s x f k fi (HF s Hs) Ex Ef) in E; rewrite E in Hp; contradiction).
    assert (Hx : In x xs) by (eapply nth_error_In; exact Ex).
    specialize (E2 (first_bytes_of (calls es) x f) ltac:(apply in_map_iff; eauto)). apply isnil_iff in E2.
    unfold first_bytes_of in E2. destruct (find _ (calls es)) as [s'|] eqn:Es.
    + apply find_some in Es. destruct Es as [_ Es]. rewrite E2 in Es. discriminate.
    + apply (find_none _ _ Es) in Hs. cbn beta in Hs. destruct (B s x f); [contradiction|discriminate].
  - unfold cellD. rewrite Ef. f_equal.
    assert (Hx : exists x s, In x xs /\ In s (calls es) /\ B s x f <> []).
    { clear -E2. induction xs as [|x l IH]; [discriminate|]. cbn [map forallb] in E2. apply andb_false_iff in E2. destruct E2 as [E|E].
      - unfold first_bytes_of in E. destruct (find _ (calls es)) as [s|] eqn:Es; [|discriminate]. apply find_some in Es. exists x, s.
        split; [now left|]. split; [tauto|]. intro Q. rewrite Q in E. discriminate.
      - destruct (IH E) as (y & s & H1 & H2 & H3). exists y, s. split; [now right|]. auto. }
    destruct Hx as (x & s & Hx & Hs & Hne). apply (dim_pos s x f); auto.
Qed.

Lemma first_bytes_some order x f :
  (exists s, In s order /\ B s x f <> [] /\ first_bytes_of order x f = B s x f) \/
  ((forall s, In s order -> B s x f = []) /\ first_bytes_of order x f = []).
Proof.
  unfold first_bytes_of. destruct (find _ order) as [s|] eqn:E.
  - left. apply find_some in E. destruct E as [E1 E2]. exists s. repeat split; [assumption|]. intro Q. rewrite Q in E2. discriminate.
  - right. split; [|reflexivity]. intros s Hs. apply (find_none _ _ E) in Hs. cbn beta in Hs. destruct (B s x f); [reflexivity|discriminate].
Qed.
End Assemble.

(** Values of the requested nodes and features are sparse and uniform. *)
Definition sparse_values (hist : list N -> list (Z * list N)) dec (D w : Z -> nat) (parts : list (list (list record)))
    (nodes fs : list Z) (ts : option (list Z)) : Prop :=
  forall n f v, In n nodes -> In f fs -> In v (node_values parts n f) ->
    match ts with
    | None => sparse_at dec D w f (bytes_of v)
    | Some _ => explains hist v /\ forall y, In y (hist (bytes_of v)) -> sparse_at dec D w f (snd y)
    end.
Definition one_value (parts : list (list (list record))) (nodes fs : list Z) (ts : option (list Z)) : Prop :=
  ts = None \/ forall n f, In n nodes -> In f fs -> (length (node_values parts n f) <= 1)%nat.

Lemma chosen_cases look vs : chosen look vs = [] \/ exists v, In v vs /\ bytes_of v <> [] /\ chosen look vs = snd (look v).
Proof.
  rewrite chosen_nonempty. destruct (filter nonempty vs) as [|v l] eqn:E; [now left|]. right. exists v.
  assert (H : In v (filter nonempty vs)) by (rewrite E; now left). apply filter_In in H. destruct H as [H1 H2]. repeat split; [assumption|].
  unfold nonempty in H2. intro Q. rewrite Q in H2. discriminate.
Qed.

Section Nodes.
Variables (fadd : N -> N -> N) (wval : N -> Z).
Notation converted := (converted fadd wval).
Variables (hist : list N -> list (Z * list N)) (dec : list N -> coords * list (list N)) (D w : Z -> nat) (nodes fs : list Z) (ts : option (list Z)).

Lemma looks_facts parts n t f v : sparse_values hist dec D w parts nodes fs ts -> In (n, t) (stamps nodes ts) -> In f fs -> In v (node_values parts n f) ->
  (forall data, resolves data t (looks hist t) v) /\ look_ok (looks hist t) v /\ timely t (looks hist t) v /\ sparse_at dec D w f (snd (looks hist t v)).
Proof.
  intros HV Hin Hf Hv. destruct (ServerFeatureProofs.stamps_in _ _ _ _ Hin) as [Hn Hts]. specialize (HV n f v Hn Hf Hv).
  destruct t as [t|]; cbn [looks].
  - destruct ts as [l|]; [|destruct Hts as [Hts _]; discriminate (Hts eq_refl)]. destruct HV as [He Hs].
    destruct (tlook_facts hist t v He) as (P1 & P2 & P3). repeat (split; [assumption|]).
    unfold tlook. pose proof (entry_at_spec t (hist (bytes_of v))) as Hsp. destruct (entry_at t (hist (bytes_of v))) as [y|]; [|now left].
    destruct Hsp as (Hsp & _). now apply Hs.
  - rewrite (proj2 Hts eq_refl) in HV. destruct (plain_facts v) as (P1 & P2 & P3). repeat (split; [assumption|]). cbn [plain snd]. now rewrite fbytes_bytes.
Qed.

Lemma one_single parts n t f : one_value parts nodes fs ts -> In (n, t) (stamps nodes ts) -> In f fs -> single t (node_values parts n f).
Proof.
  intros HO Hin Hf. destruct (ServerFeatureProofs.stamps_in _ _ _ _ Hin) as [Hn Hts]. destruct HO as [HO|HO]; [left; now apply Hts|]. right.
  eapply Nat.le_trans; [|apply (HO n f Hn Hf)]. clear. induction (node_values parts n f) as [|v l IH]; [reflexivity|].
  cbn. destruct (nonempty v); cbn; lia.
Qed.

Lemma chosen_string_of parts n t f : sparse_values hist dec D w parts nodes fs ts -> one_value parts nodes fs ts ->
  In (n, t) (stamps nodes ts) -> In f fs -> chosen (looks hist t) (node_values parts n f) = string_of hist parts (n, t) f.
Proof.
  intros HV HO Hin Hf. destruct (ServerFeatureProofs.stamps_in _ _ _ _ Hin) as [Hn Hts]. unfold string_of. cbn [fst snd]. destruct t as [t|]; cbn [looks]; [|apply chosen_plain].
  assert (Hne : ts <> None) by (intro Q; apply Hts in Q; discriminate).
  apply chosen_temporal.
  - apply Forall_forall. intros v Hv. specialize (HV n f v Hn Hf Hv). destruct ts; [apply HV|contradiction].
  - destruct HO as [HO|HO]; [contradiction|now apply HO].
Qed.

Lemma string_of_sparse parts x f : sparse_values hist dec D w parts nodes fs ts -> one_value parts nodes fs ts ->
  In x (stamps nodes ts) -> In f fs -> sparse_at dec D w f (string_of hist parts x f).
Proof.
  destruct x as [n t]. intros HV HO Hin Hf. rewrite <- chosen_string_of by assumption.
  destruct (chosen_cases (looks hist t) (node_values parts n f)) as [E|(v & Hv & _ & E)]; rewrite E; [now left|].
  now apply (looks_facts parts n t f v).
Qed.

Definition flag_of (parts : list (list (list record))) (x : Z * option Z) (f : Z) : Z :=
  kflag (snd x) (looks hist (snd x)) row_feats (node_rows (fst x) (map rows parts)) f.

Lemma flag_of_pos parts x f : sparse_values hist dec D w parts nodes fs ts -> one_value parts nodes fs ts ->
  In x (stamps nodes ts) -> In f fs -> string_of hist parts x f <> [] -> 0 <= flag_of parts x f.
Proof.
  destruct x as [n t]. intros HV HO Hin Hf. rewrite <- chosen_string_of by assumption. intro Hne. unfold flag_of. cbn [fst snd].
  apply kflag_pos.
  - rewrite node_values_offered. now apply one_single.
  - intros v Hv Hb. rewrite node_values_offered in Hv. destruct (looks_facts parts n t f v HV Hin Hf Hv) as (_ & A & B & _). auto.
  - apply looks_zero.
  - now rewrite node_values_offered.
Qed.

Lemma zip_same {A B} (h : Z -> A -> B) (l : list Z) (c : A) : zip_with h l (map (fun _ => c) l) = map (fun f => h f c) l.
Proof. induction l as [|f l IH]; [reflexivity|]. cbn. now rewrite IH. Qed.

Lemma serve_node_sent wm (split : list (list (list (list record)))) s parts g :
  nth_error split s = Some parts -> converted wm parts g -> Forall int32 fs ->
  sparse_values hist dec D w parts nodes fs ts -> one_value parts nodes fs ts ->
  serve_node_sparse g fs nodes ts =
  Ok (sent (stamps nodes ts) fs dec (fun s => string_of hist (nth s split [])) (fun s => flag_of (nth s split [])) s).
Proof.
  intros Es C Hi HV HO. unfold serve_node_sparse.
  rewrite (serve_loop_pure _ (flag_of parts) (fun x k s f => add_bytes dec (string_of hist parts x f) k s) fs).
  - cbn [bind fst snd]. unfold sent. cbn zeta. rewrite (nth_error_nth _ _ [] Es).
    assert (E : zip_with (fun f s0 => fst (fold_left (fun sk x => (add_bytes dec (string_of hist parts x f) (snd sk) (fst sk), snd sk + 1)) (stamps nodes ts) (s0, 0)))
                  fs (no_sparse fs) = map (gathered (stamps nodes ts) dec (fun s => string_of hist (nth s split [])) s) fs).
    { unfold no_sparse. rewrite zip_same. apply map_ext. intro f. unfold gathered. now rewrite (nth_error_nth _ _ [] Es). }
    rewrite E. reflexivity.
  - unfold no_sparse. now rewrite map_length.
  - intros n t k ss Hin Hlen. pose proof (serve_node_fold fadd wval wm parts g fs t n k ss (looks hist t) dec C Hi Hlen) as R. cbn zeta in R.
    assert (E : forall ss', zip_with (fun f s => add_bytes dec (chosen (looks hist t) (node_values parts n f)) k s) fs ss' =
                zip_with (fun f s => add_bytes dec (string_of hist parts (n, t) f) k s) fs ss').
    { assert (Hsub : forall f, In f fs -> chosen (looks hist t) (node_values parts n f) = string_of hist parts (n, t) f) by (intros; now apply chosen_string_of).
      revert Hsub. clear. induction fs as [|f l IH]; intros H [|s ss']; try reflexivity. cbn [zip_with]. rewrite IH by (intros; apply H; now right).
      now rewrite H by now left. }
    rewrite E in R. unfold flag_of. cbn [fst snd]. apply R.
    + intros f Hf. now apply one_single.
    + apply looks_zero.
    + intros f v Hf Hv Hb. destruct (looks_facts parts n t f v HV Hin Hf Hv) as (P1 & P2 & P3 & P4). repeat split; try assumption.
      destruct P4 as [P4|[P4 _]]; auto.
Qed.

(** What a client shows: for every node and feature the value of one server that has one. *)
Theorem d_sparse_some wm split gs es :
  Forall2 (converted wm) split gs -> Forall int32 fs -> stamped nodes ts ->
  (forall p, In p split -> sparse_values hist dec D w p nodes fs ts /\ one_value p nodes fs ts) ->
  schedule (length gs) es ->
  exists ch, d_node_sparse gs nodes fs ts es = Ok (map (fun f => sparse_triple dec (map (fun x => ch x f) (stamps nodes ts))) fs) /\
    forall x f, In x (stamps nodes ts) -> In f fs ->
      (exists p, In p split /\ string_of hist p x f <> [] /\ ch x f = string_of hist p x f) \/
      ((forall p, In p split -> string_of hist p x f = []) /\ ch x f = []).
Proof.
  intros HF Hi Hst HP HS. pose proof (Forall2_len0 _ _ _ HF) as HL.
  set (B := fun s => string_of hist (nth s split [])). set (fl := fun s => flag_of (nth s split [])).
  assert (Hnth : forall s, (s < length gs)%nat -> In (nth s split []) split) by (intros s Hs; apply nth_In; lia).
  assert (ES : mapM (fun g => serve_node_sparse g fs nodes ts) gs = Ok (map (sent (stamps nodes ts) fs dec B fl) (seq 0 (length gs)))).
  { assert (E : forall pre sp gs', split = pre ++ sp -> Forall2 (converted wm) sp gs' ->
              mapM (fun g => serve_node_sparse g fs nodes ts) gs' = Ok (map (sent (stamps nodes ts) fs dec B fl) (seq (length pre) (length gs')))).
    { intros pre sp gs' E H. revert pre E. induction H as [|p g sp gs' H _ IH]; intros pre E; [reflexivity|]. cbn [mapM length seq map].
      rewrite (serve_node_sent wm split (length pre) p g).
      - cbn [bind]. rewrite (IH (pre ++ [p])) by (rewrite E, <- app_assoc; reflexivity). rewrite app_length, Nat.add_1_r. reflexivity.
      - rewrite E, nth_error_app2, Nat.sub_diag by lia. reflexivity.
      - assumption.
      - assumption.
      - apply HP. rewrite E. apply in_or_app. right. now left.
      - apply HP. rewrite E. apply in_or_app. right. now left. }
    exact (E [] split gs eq_refl HF). }
  unfold d_node_sparse. rewrite ES. cbn [bind]. rewrite <- (stamps_length nodes ts) by assumption.
  exists (first_bytes_of B (calls es)). split.
  - apply (client_assembled (stamps nodes ts) fs dec D w (length gs) B fl); [| |assumption].
    + intros s x f Hs Hx Hf. destruct (HP _ (Hnth s Hs)) as [H1 H2]. now apply string_of_sparse.
    + intros s x f Hs Hx Hf Hne. destruct (HP _ (Hnth s Hs)) as [H1 H2]. now apply flag_of_pos.
  - intros x f Hx Hf. pose proof (calls_schedule _ es HS) as HPm. destruct (first_bytes_some B (calls es) x f) as [(s & Hs & Hne & E)|[Hall E]].
    + left. exists (nth s split []). split; [|split; assumption]. apply Hnth. eapply Permutation_in in Hs; [|exact HPm]. apply in_seq in Hs. lia.
    + right. split; [|assumption]. intros p Hp. apply In_nth_error in Hp. destruct Hp as (s & Es).
      assert (Hs : In s (calls es)).
      { eapply Permutation_in; [symmetry; exact HPm|]. apply in_seq. split; [lia|]. rewrite <- HL. apply nth_error_Some. congruence. }
      specialize (Hall s Hs). unfold B in Hall. now rewrite (nth_error_nth _ _ [] Es) in Hall.
Qed.

(** With one value per node and feature the answer is the local one. *)
Theorem d_sparse_local wm split gs all g es :
  Forall2 (converted wm) split gs -> converted wm all g -> Permutation (concat split) all ->
  Forall int32 fs -> stamped nodes ts -> sparse_values hist dec D w all nodes fs ts ->
  (forall n f, In n nodes -> In f fs -> (length (node_values all n f) <= 1)%nat) ->
  schedule (length gs) es ->
  exists ss, node_sparse_features g nodes fs ts = Ok ss /\
    d_node_sparse gs nodes fs ts es = Ok (map (fun s => (sp_dim s, sp_idx s, sp_val s)) ss).
Proof.
  intros HF C HP Hi Hst HV HU HS.
  assert (NV : forall p n f v, In p split -> In v (node_values p n f) -> In v (node_values all n f)).
  { intros p n f v Hp Hv. apply (Permutation_in v (l := node_values (concat split) n f)).
    - unfold node_values. apply Permutation_flat_map, concat_perm, concat_perm, HP.
    - rewrite node_values_concat. apply in_concat. exists (node_values p n f). split; [apply in_map_iff; eauto|assumption]. }
  assert (NL : forall n f, length (concat (map (fun p => node_values p n f) split)) = length (node_values all n f)).
  { intros n f. rewrite <- node_values_concat. apply Permutation_length. unfold node_values. apply Permutation_flat_map, concat_perm, concat_perm, HP. }
  assert (HPa : forall p, In p split -> sparse_values hist dec D w p nodes fs ts /\ one_value p nodes fs ts).
  { intros p Hp. split; [intros n f v Hn Hf Hv; apply (HV n f v Hn Hf), (NV p); assumption|]. right. intros n f Hn Hf.
    specialize (HU n f Hn Hf). rewrite <- NL in HU. apply in_split in Hp. destruct Hp as (l1 & l2 & ->).
    rewrite map_app, concat_app, app_length in HU. cbn [map concat] in HU. rewrite app_length in HU. lia. }
  destruct (d_sparse_some wm split gs es HF Hi Hst HPa HS) as (ch & E & Hch).
  assert (Hca : forall x f, In x (stamps nodes ts) -> In f fs -> ch x f = string_of hist all x f).
  { intros [n t] f Hx Hf. destruct (ServerFeatureProofs.stamps_in _ _ _ _ Hx) as [Hn _]. specialize (HU n f Hn Hf). pose proof HU as HU'. rewrite <- NL in HU'.
    assert (SE : forall p, In p split -> node_values p n f <> [] -> node_values p n f = node_values all n f).
    { intros p Hp Hne. pose proof (NV p n f) as NVp. specialize (NVp). destruct (node_values p n f) as [|v [|v' l]] eqn:Ev; [congruence| |].
      - specialize (NVp v Hp (or_introl eq_refl)). destruct (node_values all n f) as [|u [|u' l]]; [contradiction| |cbn in HU; lia].
        destruct NVp as [->|[]]. reflexivity.
      - exfalso. apply in_split in Hp. destruct Hp as (l1 & l2 & ->).
        rewrite map_app, concat_app, app_length in HU'. cbn [map concat] in HU'. rewrite Ev, app_length in HU'. cbn in HU'. lia. }
    assert (SN : forall p, node_values p n f = [] -> string_of hist p (n, t) f = []).
    { intros p Ep. unfold string_of. cbn [fst snd]. unfold spec_node_string. rewrite Ep. destruct t; reflexivity. }
    assert (SA : forall p, node_values p n f = node_values all n f -> string_of hist p (n, t) f = string_of hist all (n, t) f).
    { intros p Ep. unfold string_of. cbn [fst snd]. unfold spec_node_string. now rewrite Ep. }
    destruct (Hch (n, t) f Hx Hf) as [(p & Hp & Hne & ->)|[Hall ->]].
    - apply SA, SE; [assumption|]. intro Q. apply Hne, SN, Q.
    - symmetry. destruct (node_values all n f) as [|v l] eqn:Ea; [now apply SN|].
      assert (Hex : exists p, In p split /\ node_values p n f <> []).
      { specialize (NL n f). rewrite Ea in NL. destruct (concat (map (fun p => node_values p n f) split)) as [|u l'] eqn:Ec; [discriminate|].
        assert (Hu : In u (concat (map (fun p => node_values p n f) split))) by (rewrite Ec; now left). apply in_concat in Hu.
        destruct Hu as (y & Hy & Hu). apply in_map_iff in Hy. destruct Hy as (p & <- & Hp). exists p. split; [assumption|].
        intro Q. rewrite Q in Hu. contradiction. }
      destruct Hex as (p & Hp & Hne). rewrite <- (SA p); [now apply Hall|]. now apply SE. }
  assert (HA : exists ss, node_sparse_features g nodes fs ts = Ok ss /\ sparse_answer dec (fun f => map (fun x => string_of hist all x f) (stamps nodes ts)) fs ss).
  { destruct ts as [l|] eqn:Ets.
    - destruct (converted_node_sparse_ts fadd wval wm all g nodes fs l hist dec C Hi HU) as (ss & E1 & E2).
      + intros n f v Hn Hf Hv. apply (HV n f v Hn Hf Hv).
      + intros n f v y Hn Hf Hv Hy. destruct (HV n f v Hn Hf Hv) as [_ H]. destruct (H y Hy) as [H'|[H' _]]; auto.
      + exists ss. split; [exact E1|]. unfold sparse_answer in *. unfold stamps. destruct E2 as (A1 & A2 & A3). split; [|split].
        * rewrite A1. apply map_ext. intro f. now rewrite !map_map.
        * rewrite A2. apply map_ext. intro f. now rewrite !map_map.
        * rewrite A3. apply map_ext. intro f. now rewrite !map_map.
    - destruct (converted_node_sparse fadd wval wm all g nodes fs dec C Hi) as (ss & E1 & E2).
      + intros n f v Hn Hf Hv Hb. specialize (HV n f v Hn Hf Hv). cbn in HV. destruct HV as [HV|[HV _]]; [contradiction|assumption].
      + exists ss. split; [exact E1|]. unfold sparse_answer in *. unfold stamps. destruct E2 as (A1 & A2 & A3). split; [|split].
        * rewrite A1. apply map_ext. intro f. now rewrite !map_map.
        * rewrite A2. apply map_ext. intro f. now rewrite !map_map.
        * rewrite A3. apply map_ext. intro f. now rewrite !map_map. }
  destruct HA as (ss & E1 & A1 & A2 & A3). exists ss. split; [exact E1|]. rewrite E. f_equal.
  rewrite (map_ext_in _ (fun f => sparse_triple dec (map (fun x => string_of hist all x f) (stamps nodes ts)))).
  2:{ intros f Hf. f_equal. apply map_ext_in. intros x Hx. now apply Hca. }
  clear -A1 A2 A3. unfold sparse_triple. revert ss A1 A2 A3. induction fs as [|f l IH]; intros [|s ss] A1 A2 A3; try discriminate; [reflexivity|].
  cbn [map] in *. injection A1 as A1 B1. injection A2 as A2 B2. injection A3 as A3 B3. rewrite (IH ss) by assumption. now rewrite A1, A2, A3.
Qed.
End Nodes.
