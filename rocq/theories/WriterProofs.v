(** The bytes produced by the writer model are the encoding of the specification's rows. *)
From Verif Require Import Base WriterModel GraphSpec.
From Coq Require Import Sorting.Sorted ZifyBool ZifyNat ZifyN.
Local Open Scope Z_scope.

(** Exclusive prefix sums. *)
Fixpoint psum (a : nat) (l : list nat) : list nat :=
  match l with [] => [] | x :: t => a :: psum (a + x) t end.
Definition sum (l : list nat) : nat := fold_right Nat.add 0%nat l.

Arguments sum : simpl never.
Arguments Nat.div : simpl never.

Lemma sum_cons x l : sum (x :: l) = (x + sum l)%nat.
Proof. reflexivity. Qed.

Lemma sum_app l1 l2 : sum (l1 ++ l2) = (sum l1 + sum l2)%nat.
Proof. induction l1 as [|x l1 IH]; [reflexivity|]. cbn [app]. rewrite !sum_cons. lia. Qed.

Lemma psum_app a l1 l2 : psum a (l1 ++ l2) = psum a l1 ++ psum (a + sum l1) l2.
Proof.
  revert a; induction l1 as [|x l1 IH]; intro a; cbn.
  - now rewrite Nat.add_0_r.
  - rewrite IH, sum_cons. now rewrite Nat.add_assoc.
Qed.

Lemma psum_length a l : length (psum a l) = length l.
Proof. revert a; induction l as [|x l IH]; intro a; cbn; auto. Qed.

Lemma psum_shift a l : psum a l = map (Nat.add a) (psum 0 l).
Proof.
  revert a. assert (H : forall l a b, psum (a + b) l = map (Nat.add a) (psum b l)).
  { clear. induction l as [|x l IH]; intros a b; cbn; [reflexivity|].
    rewrite <- IH. now rewrite Nat.add_assoc. }
  intro a. rewrite <- H. now rewrite Nat.add_0_r.
Qed.

Lemma psum_nth a l i :
  (i < length l)%nat -> nth_error (psum a l) i = Some (a + sum (firstn i l))%nat.
Proof.
  revert a i; induction l as [|x l IH]; intros a i Hi; cbn in Hi; [lia|].
  destruct i as [|i]; cbn; [f_equal; unfold sum; cbn; lia|].
  rewrite IH by lia. rewrite sum_cons. f_equal. lia.
Qed.

Lemma psum_le a l x : In x (psum a l) -> (x <= a + sum l)%nat.
Proof.
  revert a; induction l as [|y l IH]; intros a H; cbn in H; [contradiction|].
  rewrite sum_cons. destruct H as [H|H]; [lia|]. apply IH in H. lia.
Qed.

(** Feature lengths and bytes. *)
Definition fbytes (f : option (list N)) : list N := match f with Some b => b | None => [] end.
Definition flen (f : option (list N)) : nat := length (fbytes f).

Lemma write_features_spec feats idx data pos :
  write_features feats idx data pos =
  (idx ++ flat_map cu64 (psum pos (map flen feats)), data ++ flat_map fbytes feats,
   (pos + sum (map flen feats))%nat).
Proof.
  revert idx data pos; induction feats as [|f feats IH]; intros idx data pos; cbn [write_features].
  - cbn. now rewrite !app_nil_r, Nat.add_0_r.
  - destruct f as [b|]; rewrite IH; cbn [map psum flat_map]; rewrite sum_cons.
    + change (flen (Some b)) with (length b). change (fbytes (Some b)) with b.
      rewrite <- !app_assoc, Nat.add_assoc. reflexivity.
    + change (flen None) with 0%nat. change (fbytes None) with (@nil N).
      rewrite <- !app_assoc, Nat.add_0_r. reflexivity.
Qed.

(** Encodings of the lists behind the files. *)
Definition idbytes (z : Z) : list N := le 8 (Z.to_N z).
Arguments le : simpl never.
Arguments zle : simpl never.
Arguments cu64 : simpl never.
Arguments idbytes : simpl never.

Definition enc_nm_entry (x : nat * row) : list N :=
  idbytes (row_id (snd x)) ++ cu64 (fst x) ++ zle 4 (row_typ (snd x)).
Definition indexed {A} (l : list A) : list (nat * A) := combine (seq 0 (length l)) l.

Definition enc_edge (x : nat * edge) : list N :=
  idbytes (e_dst (snd x)) ++ cu64 (fst x) ++ zle 4 (e_typ (snd x)) ++ le 4 (e_w (snd x)).
Definition enc_ts (e : edge) : list N := zle 8 (e_c e) ++ zle 8 (e_r e).

Arguments enc_nm_entry : simpl never.
Arguments enc_edge : simpl never.
Arguments enc_ts : simpl never.

Definition all_edges (rws : list row) : list edge := flat_map row_edges rws.
Definition all_nfeats (rws : list row) : list (option (list N)) := flat_map row_feats rws.
Definition all_efeats (es : list edge) : list (option (list N)) := flat_map e_feats es.

Definition nfeat_counts (rws : list row) := map (fun r => length (row_feats r)) rws.
Definition edge_counts (rws : list row) := map (fun r => length (row_edges r)) rws.
Definition efeat_counts (es : list edge) := map (fun e => length (e_feats e)) es.

Definition row_ok (r : row) : Prop :=
  0 <= row_id r < 2 ^ 64 /\ - 2 ^ 31 <= row_typ r < 2 ^ 31.
Definition edge_ok (temporal : bool) (e : edge) : Prop :=
  0 <= e_dst e < 2 ^ 64 /\ - 2 ^ 31 <= e_typ e < 2 ^ 31 /\
  (temporal = true -> - 2 ^ 63 <= e_c e < 2 ^ 63 /\ - 2 ^ 63 <= e_r e < 2 ^ 63).

Definition last_type (r : row) : option Z :=
  match rev (row_edges r) with e :: _ => Some (e_typ e) | [] => None end.

(** The representation invariant; [rr] are the rows newest first. *)
Record Enc (temporal : bool) (hdr : list N) (rr : list row) (s : wstate) : Prop := {
  enc_nm : nm s = flat_map enc_nm_entry (indexed (rev rr));
  enc_count : wcount s = length rr;
  enc_ni : ni s = flat_map cu64 (psum 0 (nfeat_counts (rev rr)));
  enc_nfi : nfi s = flat_map cu64 (psum 0 (map flen (all_nfeats (rev rr))));
  enc_nfd : nfd s = flat_map fbytes (all_nfeats (rev rr));
  enc_nfdpos : nfd_pos s = sum (map flen (all_nfeats (rev rr)));
  enc_nbi : nbi s = flat_map cu64 (psum 0 (edge_counts (rev rr)));
  enc_ei : ei s = flat_map enc_edge
                    (combine (psum 0 (efeat_counts (all_edges (rev rr)))) (all_edges (rev rr)));
  enc_efipos : efi_pos s = (8 * sum (efeat_counts (all_edges (rev rr))))%nat;
  enc_efi : efi s = flat_map cu64 (psum 0 (map flen (all_efeats (all_edges (rev rr)))));
  enc_efd : efd s = flat_map fbytes (all_efeats (all_edges (rev rr)));
  enc_efdpos : efd_pos s = sum (map flen (all_efeats (all_edges (rev rr))));
  enc_eti : eti s = hdr ++ (if temporal then flat_map enc_ts (all_edges (rev rr)) else []);
  enc_prev : prev_node s = match rr with r :: _ => Some (row_id r) | [] => None end;
  enc_ptype : prev_type s = match rr with r :: _ => last_type r | [] => None end;
  enc_nfc : node_feature_count s = fold_right Nat.max 0%nat (nfeat_counts rr);
  enc_efc : edge_feature_count s = fold_right Nat.max 0%nat (efeat_counts (all_edges (rev rr)));
  enc_rows : Forall row_ok rr;
  enc_edges : Forall (fun r => Forall (edge_ok temporal) (row_edges r)) rr;
  enc_sorted : Forall (fun r => StronglySorted Z.le (map e_typ (row_edges r))) rr;
  enc_src : Forall (fun r => Forall (fun e => e_src e = row_id r) (row_edges r)) rr
}.

Lemma indexed_snoc {A} (l : list A) x : indexed (l ++ [x]) = indexed l ++ [(length l, x)].
Proof.
  unfold indexed. rewrite app_length. cbn. rewrite Nat.add_1_r, seq_S. cbn.
  assert (H : forall (a : list nat) (b : list A), length a = length b ->
            forall c d, combine (a ++ [c]) (b ++ [d]) = combine a b ++ [(c, d)]).
  { induction a as [|y a IH]; intros [|z b] Hl c d; cbn in *; try discriminate; [reflexivity|].
    rewrite IH by lia. reflexivity. }
  apply H. apply seq_length.
Qed.

Lemma combine_app {A B} (a1 a2 : list A) (b1 b2 : list B) :
  length a1 = length b1 -> combine (a1 ++ a2) (b1 ++ b2) = combine a1 b1 ++ combine a2 b2.
Proof.
  revert b1; induction a1 as [|x a1 IH]; intros [|y b1] H; cbn in *; try discriminate; [reflexivity|].
  rewrite IH by lia. reflexivity.
Qed.

Lemma flat_map_app' {A B} (f : A -> list B) l1 l2 : flat_map f (l1 ++ l2) = flat_map f l1 ++ flat_map f l2.
Proof. apply flat_map_app. Qed.

Lemma cu64_length n : length (cu64 n) = 8%nat.
Proof. apply le_length. Qed.

Lemma flat_cu64_length l : length (flat_map cu64 l) = (8 * length l)%nat.
Proof. apply flat_map_length_const. intro. apply cu64_length. Qed.

Lemma enc_edge_length x : length (enc_edge x) = 24%nat.
Proof.
  unfold enc_edge, idbytes. rewrite !app_length, !le_length, cu64_length, zle_length. reflexivity.
Qed.

Lemma enc_nm_length x : length (enc_nm_entry x) = 20%nat.
Proof.
  unfold enc_nm_entry, idbytes. rewrite !app_length, le_length, cu64_length, zle_length. reflexivity.
Qed.

Lemma div8 n : (8 * n / 8 = n)%nat.
Proof. rewrite Nat.mul_comm. now apply Nat.div_mul. Qed.
Lemma div24 n : (24 * n / 24 = n)%nat.
Proof. rewrite Nat.mul_comm. now apply Nat.div_mul. Qed.

Lemma packQ_ok v b : packQ v = Ok b -> b = idbytes v /\ 0 <= v < 2 ^ 64.
Proof.
  unfold packQ, idbytes. destruct ((0 <=? v) && (v <? 2 ^ 64)) eqn:E; intro H; [|discriminate].
  inversion H. split; [reflexivity|lia].
Qed.
Lemma packi_ok v b : packi v = Ok b -> b = zle 4 v /\ - 2 ^ 31 <= v < 2 ^ 31.
Proof.
  unfold packi. destruct ((- 2 ^ 31 <=? v) && (v <? 2 ^ 31)) eqn:E; intro H; [|discriminate].
  inversion H. split; [reflexivity|lia].
Qed.
Lemma packq_ok v b : packq v = Ok b -> b = zle 8 v /\ - 2 ^ 63 <= v < 2 ^ 63.
Proof.
  unfold packq. destruct ((- 2 ^ 63 <=? v) && (v <? 2 ^ 63)) eqn:E; intro H; [|discriminate].
  inversion H. split; [reflexivity|lia].
Qed.

Lemma bind_ok {A B} (r : res A) (f : A -> res B) b :
  bind r f = Ok b -> exists a, r = Ok a /\ f a = Ok b.
Proof. destruct r as [a|e]; cbn; intro H; [eauto|discriminate]. Qed.

Lemma all_edges_app a b : all_edges (a ++ b) = all_edges a ++ all_edges b.
Proof. apply flat_map_app. Qed.
Lemma all_nfeats_app a b : all_nfeats (a ++ b) = all_nfeats a ++ all_nfeats b.
Proof. apply flat_map_app. Qed.
Lemma all_efeats_app a b : all_efeats (a ++ b) = all_efeats a ++ all_efeats b.
Proof. apply flat_map_app. Qed.

Lemma all_edges_length rws : length (all_edges rws) = sum (edge_counts rws).
Proof.
  induction rws as [|r rws IH]; cbn; [reflexivity|]. rewrite app_length.
  fold (all_edges rws). rewrite IH. now rewrite sum_cons.
Qed.
Lemma all_nfeats_length rws : length (all_nfeats rws) = sum (nfeat_counts rws).
Proof.
  induction rws as [|r rws IH]; cbn; [reflexivity|]. rewrite app_length.
  fold (all_nfeats rws). rewrite IH. now rewrite sum_cons.
Qed.
Lemma all_efeats_length es : length (all_efeats es) = sum (efeat_counts es).
Proof.
  induction es as [|r rws IH]; cbn; [reflexivity|]. rewrite app_length.
  fold (all_efeats rws). rewrite IH. now rewrite sum_cons.
Qed.

Lemma map_snoc {A B} (f : A -> B) l x : map f (l ++ [x]) = map f l ++ [f x].
Proof. apply map_app. Qed.

Lemma fold_max_app l1 l2 :
  fold_right Nat.max 0%nat (l1 ++ l2) = Nat.max (fold_right Nat.max 0%nat l1) (fold_right Nat.max 0%nat l2).
Proof. induction l1 as [|x l1 IH]; cbn; [reflexivity|]. rewrite IH. lia. Qed.

Lemma set_prev_enc temporal hdr rr s s' pn pt :
  Enc temporal hdr rr s ->
  nm s' = nm s -> ni s' = ni s -> nfi s' = nfi s -> nfd s' = nfd s -> nbi s' = nbi s ->
  ei s' = ei s -> efi s' = efi s -> efd s' = efd s -> eti s' = eti s ->
  wcount s' = wcount s -> nfd_pos s' = nfd_pos s -> efi_pos s' = efi_pos s -> efd_pos s' = efd_pos s ->
  node_feature_count s' = node_feature_count s -> edge_feature_count s' = edge_feature_count s ->
  prev_node s' = pn -> prev_type s' = pt ->
  pn = match rr with r :: _ => Some (row_id r) | [] => None end ->
  pt = match rr with r :: _ => last_type r | [] => None end ->
  Enc temporal hdr rr s'.
Proof.
  intros E. destruct E. intros. constructor; congruence.
Qed.

(** Everything of [Enc] but the two [prev] fields. *)
Definition EncF temporal hdr rr s :=
  forall pn pt,
  pn = match rr with r :: _ => Some (row_id r) | [] => None end ->
  pt = match rr with r :: _ => last_type r | [] => None end ->
  Enc temporal hdr rr
      (WS (nm s) (ni s) (nfi s) (nfd s) (nbi s) (ei s) (efi s) (efd s) (eti s)
          (wcount s) (nfd_pos s) (efi_pos s) (efd_pos s)
          (node_feature_count s) (edge_feature_count s) pn pt
          (node_count s) (edge_count s) (node_type_count s) (edge_type_count s)
          (node_weight s) (edge_weight s)).

Lemma add_node_enc temporal hdr rr s id typ feats s' :
  Enc temporal hdr rr s -> add_node id typ feats s = Ok s' ->
  EncF temporal hdr (Row id typ feats [] :: rr) s'.
Proof.
  intros E H. unfold add_node in H.
  apply bind_ok in H. destruct H as (a & Ha & H).
  apply bind_ok in H. destruct H as (t & Ht & H).
  rewrite write_features_spec in H. cbn zeta iota beta in H.
  apply packQ_ok in Ha. destruct Ha as [-> Hid].
  apply packi_ok in Ht. destruct Ht as [-> Hty].
  inversion H; subst s'; clear H. destruct E.
  intros pn pt Hpn Hpt.
  constructor; cbn [nm ni nfi nfd nbi ei efi efd eti wcount nfd_pos efi_pos efd_pos
    node_feature_count edge_feature_count prev_node prev_type rev].
  - rewrite indexed_snoc, flat_map_app', enc_nm0. cbn. rewrite app_nil_r.
    rewrite rev_length, <- enc_count0. unfold enc_nm_entry. reflexivity.
  - cbn. lia.
  - unfold nfeat_counts. rewrite map_app, psum_app, flat_map_app', enc_ni0. cbn [map psum flat_map row_feats length]. rewrite app_nil_r.
    f_equal. f_equal. rewrite enc_nfi0, flat_cu64_length, psum_length, map_length, all_nfeats_length.
    now rewrite div8.
  - rewrite all_nfeats_app, map_app, psum_app, flat_map_app', enc_nfi0.
    cbn [all_nfeats flat_map row_feats app]. rewrite app_nil_r. now rewrite <- enc_nfdpos0.
  - rewrite all_nfeats_app, flat_map_app', enc_nfd0. cbn. now rewrite app_nil_r.
  - rewrite all_nfeats_app, map_app, sum_app, enc_nfdpos0. cbn. now rewrite app_nil_r.
  - unfold edge_counts. rewrite map_app, psum_app, flat_map_app', enc_nbi0. cbn [map psum flat_map row_edges length]. rewrite app_nil_r.
    f_equal. f_equal. rewrite enc_ei0, (flat_map_length_const 24) by (intro; apply enc_edge_length).
    rewrite combine_length, psum_length. unfold efeat_counts. rewrite map_length, Nat.min_id.
    rewrite div24. apply all_edges_length.
  - rewrite all_edges_app. cbn. now rewrite app_nil_r.
  - rewrite all_edges_app. cbn. now rewrite app_nil_r.
  - rewrite all_edges_app. cbn [all_edges flat_map row_edges]. now rewrite app_nil_r.
  - rewrite all_edges_app. cbn [all_edges flat_map row_edges]. now rewrite app_nil_r.
  - rewrite all_edges_app. cbn [all_edges flat_map row_edges]. now rewrite app_nil_r.
  - rewrite all_edges_app. cbn [all_edges flat_map row_edges]. now rewrite app_nil_r.
  - exact Hpn.
  - exact Hpt.
  - rewrite enc_nfc0. cbn. apply Nat.max_comm.
  - rewrite all_edges_app. cbn [all_edges flat_map row_edges]. now rewrite app_nil_r.
  - constructor; [split; assumption | assumption].
  - constructor; [constructor | assumption].
  - constructor; [constructor | assumption].
  - constructor; [constructor | assumption].
Qed.

Lemma add_edge_enc temporal hdr w rr s e s' :
  Enc temporal hdr (w :: rr) s ->
  add_edge temporal (e_dst e) (e_typ e) (e_w e) (e_feats e) (e_c e) (e_r e) s = Ok s' ->
  e_src e = row_id w ->
  match last_type w with Some p => p <= e_typ e | None => True end ->
  EncF temporal hdr (add_edge_to e w :: rr) s' /\ prev_node s' = prev_node s.
Proof.
  intros E H Hsrc Hlast. unfold add_edge in H.
  apply bind_ok in H. destruct H as (d & Hd & H).
  apply bind_ok in H. destruct H as (t & Ht & H).
  apply bind_ok in H. destruct H as (ts & Hts & H).
  rewrite write_features_spec in H. cbn zeta iota beta in H.
  apply packQ_ok in Hd. destruct Hd as [-> Hd].
  apply packi_ok in Ht. destruct Ht as [-> Hty].
  assert (Htok : ts = (if temporal then enc_ts e else []) /\
                 (temporal = true -> - 2 ^ 63 <= e_c e < 2 ^ 63 /\ - 2 ^ 63 <= e_r e < 2 ^ 63)).
  { destruct temporal.
    - apply bind_ok in Hts. destruct Hts as (c & Hc & Hts).
      apply bind_ok in Hts. destruct Hts as (r & Hr & Hts).
      apply packq_ok in Hc. destruct Hc as [-> Hc]. apply packq_ok in Hr. destruct Hr as [-> Hr].
      inversion Hts. split; [reflexivity|intros _; split; assumption].
    - inversion Hts. split; [reflexivity|discriminate]. }
  destruct Htok as [-> Htr]. clear Hts.
  inversion H; subst s'; clear H. split; [|reflexivity].
  destruct E. intros pn pt Hpn Hpt.
  assert (Hall : all_edges (rev rr ++ [add_edge_to e w]) = all_edges (rev rr ++ [w]) ++ [e]).
  { rewrite !all_edges_app. cbn. rewrite !app_nil_r. now rewrite app_assoc. }
  cbn [rev] in *.
  assert (Hnf : nfeat_counts (rev rr ++ [add_edge_to e w]) = nfeat_counts (rev rr ++ [w])).
  { unfold nfeat_counts. rewrite !map_app. reflexivity. }
  assert (Hanf : all_nfeats (rev rr ++ [add_edge_to e w]) = all_nfeats (rev rr ++ [w])).
  { rewrite !all_nfeats_app. reflexivity. }
  assert (Hnb : psum 0 (edge_counts (rev rr ++ [add_edge_to e w])) = psum 0 (edge_counts (rev rr ++ [w]))).
  { unfold edge_counts. rewrite !map_app, !psum_app. reflexivity. }
  constructor; cbn [nm ni nfi nfd nbi ei efi efd eti wcount nfd_pos efi_pos efd_pos
    node_feature_count edge_feature_count prev_node prev_type rev]; rewrite ?Hall, ?Hnf, ?Hanf, ?Hnb.
  - rewrite indexed_snoc in *. rewrite enc_nm0, !flat_map_app'. cbn. unfold enc_nm_entry. reflexivity.
  - exact enc_count0.
  - assumption.
  - assumption.
  - assumption.
  - assumption.
  - assumption.
  - unfold efeat_counts. rewrite map_app, psum_app. rewrite combine_app by (rewrite psum_length, map_length; reflexivity).
    rewrite flat_map_app', enc_ei0. f_equal. cbn [map psum flat_map combine]. rewrite app_nil_r. unfold enc_edge. cbn [fst snd].
    f_equal. f_equal. f_equal. rewrite enc_efipos0. now rewrite div8.
  - unfold efeat_counts in *. rewrite map_app, sum_app, enc_efipos0. cbn [map]. rewrite sum_cons. change (sum []) with 0%nat. lia.
  - rewrite all_efeats_app, map_app, psum_app, flat_map_app', enc_efi0. cbn [all_efeats flat_map].
    rewrite app_nil_r. now rewrite <- enc_efdpos0.
  - rewrite all_efeats_app, flat_map_app', enc_efd0. cbn [all_efeats flat_map]. now rewrite app_nil_r.
  - rewrite all_efeats_app, map_app, sum_app, enc_efdpos0. cbn [all_efeats flat_map]. now rewrite app_nil_r.
  - rewrite enc_eti0. destruct temporal.
    + rewrite flat_map_app'. cbn [flat_map]. rewrite app_nil_r. now rewrite app_assoc.
    + now rewrite !app_nil_r.
  - exact Hpn.
  - exact Hpt.
  - rewrite enc_nfc0. reflexivity.
  - unfold efeat_counts. rewrite map_app, fold_max_app. rewrite enc_efc0. cbn. now rewrite Nat.max_0_r.
  - inversion enc_rows0; subst. constructor; assumption.
  - inversion enc_edges0 as [|? ? Hw Hr]; subst. constructor; [|assumption].
    cbn. apply Forall_app. split; [assumption|]. constructor; [|constructor]. repeat split; try assumption; try tauto.
  - inversion enc_sorted0 as [|? ? Hw Hr]; subst. constructor; [|assumption].
    cbn. rewrite map_app. cbn. clear - Hw Hlast.
    unfold last_type in Hlast. revert Hw Hlast.
    induction (row_edges w) as [|x l IH] using rev_ind; cbn; intros Hw Hl.
    + repeat constructor.
    + clear IH. rewrite rev_app_distr in Hl. cbn in Hl. rewrite map_app in *. cbn in *.
      assert (Hsn : forall l a b, StronglySorted Z.le (l ++ [a]) -> a <= b -> StronglySorted Z.le ((l ++ [a]) ++ [b])).
      { clear. induction l as [|y l IH]; cbn; intros a b Hs Hab.
        - constructor; [repeat constructor|]. constructor; [assumption|constructor].
        - inversion Hs as [|? ? Hs' Hf]; subst. constructor; [apply IH; assumption|].
          apply Forall_app. split; [assumption|]. constructor; [|constructor].
          rewrite Forall_forall in Hf. specialize (Hf a ltac:(apply in_or_app; right; now left)). lia. }
      apply Hsn; assumption.
  - inversion enc_src0 as [|? ? Hw Hr]; subst. constructor; [|assumption].
    cbn. apply Forall_app. split; [assumption|]. constructor; [assumption|constructor].
Qed.

Section W.
Variable wval : N -> Z.
Variable temporal : bool.
Variable hdr : list N.

(** One record extends the rows as the specification says. *)
Definition step_rows (rr : list row) (x : record * Z * Z) : list row :=
  let r := fst (fst x) in
  if is_node r then Row (rsrc r) (rtyp r) (rfeats r) [] :: rr
  else match rr with
       | w :: rest => if row_id w =? rsrc r then add_edge_to (edge_of x) w :: rest
                      else Row (rsrc r) (-1) [] [edge_of x] :: rr
       | [] => [Row (rsrc r) (-1) [] [edge_of x]]
       end.

Lemma rows_rev_fold rr xs : rows_rev rr xs = fold_left step_rows xs rr.
Proof. revert rr; induction xs as [|x xs IH]; intro rr; cbn; [reflexivity|]. apply IH. Qed.

Lemma py_or_inherit x d : py_or x d = inherit x d.
Proof. destruct x as [[| |]|]; reflexivity. Qed.

Definition item_of (nc nr : Z) (r : record) : record * Z * Z :=
  if is_node r then (r, 0, 0) else (r, inherit (rcreated r) nc, inherit (rremoved r) nr).

Lemma encF_enc rr s :
  EncF temporal hdr rr s ->
  prev_node s = match rr with r :: _ => Some (row_id r) | [] => None end ->
  prev_type s = match rr with r :: _ => last_type r | [] => None end ->
  Enc temporal hdr rr s.
Proof. intros H H1 H2. specialize (H _ _ H1 H2). destruct s; exact H. Qed.

Lemma add_record_enc rr s r nc nr nc' nr' s' :
  Enc temporal hdr rr s -> add_record wval temporal r nc nr s = Ok (nc', nr', s') ->
  Enc temporal hdr (step_rows rr (item_of nc nr r)) s' /\
  nc' = (if is_node r then inherit (rcreated r) 0 else nc) /\
  nr' = (if is_node r then inherit (rremoved r) (-1) else nr).
Proof.
  intros E H. unfold add_record in H. rewrite !py_or_inherit in H. unfold step_rows, item_of, is_node in *.
  destruct (rdst r =? -1) eqn:Hnode; cbn [fst snd]; rewrite ?Hnode.
  - apply bind_ok in H. destruct H as (s1 & H1 & H).
    apply bind_ok in H. destruct H as (nw' & H2 & H).
    apply bind_ok in H. destruct H as (ntc' & H3 & H).
    inversion H; subst; clear H. split; [|split; reflexivity].
    pose proof (add_node_enc _ _ _ _ _ _ _ _ E H1) as E1.
    specialize (E1 (Some (rsrc r)) None eq_refl eq_refl).
    eapply set_prev_enc; [exact E1|reflexivity ..].
  - apply bind_ok in H. destruct H as (s1 & H1 & H).
    set (x := (r, inherit (rcreated r) nc, inherit (rremoved r) nr)) in *.
    (* the state before the edge is written *)
    assert (Hpre : exists w rr0, Enc temporal hdr (w :: rr0) s1 /\ row_id w = rsrc r /\
              match rr with
               | w :: rest => if row_id w =? rsrc r then add_edge_to (edge_of x) w :: rest
                              else Row (rsrc r) (-1) [] [edge_of x] :: rr
               | [] => [Row (rsrc r) (-1) [] [edge_of x]]
              end = add_edge_to (edge_of x) w :: rr0).
    { rewrite (enc_prev _ _ _ _ E) in H1.
      assert (Hnew : forall s1, (do s' <- add_node (rsrc r) (-1) [] s ;;
                   Ok (WS (nm s') (ni s') (nfi s') (nfd s') (nbi s') (ei s') (efi s') (efd s') (eti s')
                          (wcount s') (nfd_pos s') (efi_pos s') (efd_pos s')
                          (node_feature_count s') (edge_feature_count s')
                          (Some (rsrc r)) None (node_count s') (edge_count s')
                          (node_type_count s') (edge_type_count s') (node_weight s') (edge_weight s'))) = Ok s1 ->
                 Enc temporal hdr (Row (rsrc r) (-1) [] [] :: rr) s1).
      { intros s2 Hs2. apply bind_ok in Hs2. destruct Hs2 as (s3 & Hs3 & Hs2). inversion Hs2; subst; clear Hs2.
        apply (add_node_enc _ _ _ _ _ _ _ _ E Hs3); reflexivity. }
      destruct rr as [|w rr0].
      - exists (Row (rsrc r) (-1) [] []), []. split; [apply Hnew; exact H1|]. split; reflexivity.
      - rewrite (Z.eqb_sym (row_id w)). destruct (rsrc r =? row_id w) eqn:Ew.
        + inversion H1; subst s1. exists w, rr0. split; [exact E|]. split; [lia|reflexivity].
        + exists (Row (rsrc r) (-1) [] []), (w :: rr0). split; [apply Hnew; exact H1|]. split; reflexivity. }
    destruct Hpre as (w & rr0 & E1 & Hw & ->).
    destruct (match prev_type s1 with Some p => rtyp r <? p | None => false end) eqn:Hpt; [discriminate|].
    destruct (match rcreated r with Some c => c <? nc | None => false end); [discriminate|].
    destruct (match rremoved r with Some d => negb (nr =? -1) && (nr <? d) | None => false end); [discriminate|].
    apply bind_ok in H. destruct H as (s2 & H2 & H).
    apply bind_ok in H. destruct H as (ew' & H3 & H).
    apply bind_ok in H. destruct H as (etc' & H4 & H).
    inversion H; subst; clear H. split; [|split; reflexivity].
    pose proof (enc_ptype _ _ _ _ E1) as Hp. cbn in Hp.
    destruct (add_edge_enc temporal hdr w rr0 s1 (edge_of x) s2 E1 H2) as [E2 Hprev].
    + cbn. now rewrite Hw.
    + rewrite Hp in Hpt. destruct (last_type w); [cbn; lia|exact I].
    + assert (Hlt : last_type (add_edge_to (edge_of x) w) = Some (rtyp r)).
      { unfold last_type, add_edge_to. cbn. rewrite rev_app_distr. reflexivity. }
      specialize (E2 (Some (row_id (add_edge_to (edge_of x) w))) (last_type (add_edge_to (edge_of x) w))
                     eq_refl eq_refl).
      eapply set_prev_enc; [exact E2|reflexivity ..| |]; cbn [prev_node prev_type].
      * rewrite Hprev, (enc_prev _ _ _ _ E1). reflexivity.
      * now rewrite Hlt.
Qed.

Lemma batch_items_cons nc nr r t :
  batch_items nc nr (r :: t) =
  item_of nc nr r :: batch_items (if is_node r then inherit (rcreated r) 0 else nc)
                                 (if is_node r then inherit (rremoved r) (-1) else nr) t.
Proof. cbn. unfold item_of. destruct (is_node r); reflexivity. Qed.

Lemma add_records_enc rs : forall rr s nc nr s',
  Enc temporal hdr rr s -> add_records wval temporal rs nc nr s = Ok s' ->
  Enc temporal hdr (fold_left step_rows (batch_items nc nr rs) rr) s'.
Proof.
  induction rs as [|r rs IH]; intros rr s nc nr s' E H.
  - cbn in H. inversion H; subst. exact E.
  - cbn [add_records] in H. apply bind_ok in H. destruct H as (((nc', nr'), s1) & H1 & H).
    destruct (add_record_enc _ _ _ _ _ _ _ _ E H1) as (E1 & -> & ->).
    rewrite batch_items_cons. cbn [fold_left]. eapply IH; eassumption.
Qed.

Lemma add_batches_enc bs : forall rr s s',
  Enc temporal hdr rr s -> add_batches wval temporal bs s = Ok s' ->
  Enc temporal hdr (fold_left step_rows (items bs) rr) s'.
Proof.
  induction bs as [|b bs IH]; intros rr s s' E H.
  - cbn in H. inversion H; subst. exact E.
  - cbn [add_batches] in H. apply bind_ok in H. destruct H as (s1 & H1 & H).
    unfold items. cbn [flat_map]. rewrite fold_left_app.
    eapply IH; [|exact H]. eapply add_records_enc; eassumption.
Qed.

End W.

Definition header (watermark : option Z) : list N :=
  match watermark with Some w => le 8 (Z.to_N (w mod 2 ^ 64)) | None => [] end.

Lemma winit_enc temporal watermark : Enc temporal (header watermark) [] (winit watermark).
Proof.
  constructor; try reflexivity; try constructor.
  cbn. destruct temporal; now rewrite app_nil_r.
Qed.

(** The files of a written partition before the closing records. *)
Theorem write_partition_enc wval watermark bs s :
  write_partition wval watermark bs = Ok s ->
  exists s0, s = wclose s0 /\ Enc (is_temporal watermark) (header watermark) (rev (rows bs)) s0.
Proof.
  unfold write_partition. intro H. apply bind_ok in H. destruct H as (s0 & H & Hs).
  inversion Hs; subst. exists s0. split; [reflexivity|].
  unfold rows. rewrite rev_involutive, rows_rev_fold.
  eapply add_batches_enc; [apply winit_enc|exact H].
Qed.
