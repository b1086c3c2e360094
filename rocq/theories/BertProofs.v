From Coq Require Import QArith Lqa.
From Verif Require Import Base Dist AttModel AttSpec AttProofs BertModel BertSpec.

(** ** Rows *)
Lemma same_nth a b k : same_row a b -> nth k a 0 == nth k b 0.
Proof. intros H. revert k. induction H; intros [|k]; cbn [nth]; try reflexivity; auto. Qed.
Lemma same_refl a : same_row a a.
Proof. induction a; constructor; auto. reflexivity. Qed.
Lemma same_length a b : same_row a b -> length a = length b.
Proof. induction 1; cbn [length]; congruence. Qed.
Lemma same_of_nth a b : length a = length b -> (forall k, (k < length a)%nat -> nth k a 0 == nth k b 0) -> same_row a b.
Proof.
  revert b. induction a as [|x a IH]; intros [|y b] L H; try discriminate; constructor.
  - exact (H 0%nat ltac:(cbn; lia)).
  - apply IH; [cbn in L; lia|]. intros k Hk. exact (H (S k) ltac:(cbn; lia)).
Qed.
Lemma add_length a b : length a = length b -> length (add_row a b) = length a.
Proof. intros H. unfold add_row, zip_with. rewrite map_length, combine_length. lia. Qed.
Lemma add_same a b a' b' : same_row a a' -> same_row b b' -> same_row (add_row a b) (add_row a' b').
Proof.
  unfold add_row, zip_with. intros H. revert b b'. induction H; intros b b' Hb; [constructor|].
  destruct Hb as [|u v tu tv Huv Ht]; [constructor|]. cbn [combine map fst snd]. constructor; [now rewrite H, Huv|]. now apply IHForall2.
Qed.
Lemma nth_part d m (r : list Q) e : (e < d)%nat -> nth e (firstn d (skipn m r)) 0 = nth (m + e) r 0.
Proof.
  intros H. rewrite <- (firstn_skipn m r) at 2.
  destruct (Nat.le_gt_cases m (length r)) as [L|L].
  - rewrite (app_nth2 (firstn m r)) by (rewrite firstn_length; lia). rewrite firstn_length, Nat.min_l by exact L. replace (m + e - m)%nat with e by lia.
    set (l := skipn m r). clearbody l. clear L. revert l e H. induction d as [|d IH]; intros [|x l] e He; try (destruct e; lia || reflexivity).
    destruct e as [|e]; [reflexivity|]. cbn [firstn nth]. apply IH. lia.
  - rewrite (skipn_all2 r) by lia. rewrite firstn_nil, app_nil_r, nth_overflow by (cbn; lia). rewrite nth_overflow; [reflexivity|]. rewrite firstn_length. lia.
Qed.
Lemma part_seq d m (r : list Q) : (m + d <= length r)%nat -> firstn d (skipn m r) = map (fun e => nth (m + e) r 0) (seq 0 d).
Proof.
  intros H. rewrite <- (map_seq_nth 0 (firstn d (skipn m r))) at 1. rewrite firstn_length, skipn_length, Nat.min_l by lia.
  apply map_ext_in. intros e He. apply in_seq in He. apply nth_part. lia.
Qed.
Lemma qsum_flip {A B} (f : A -> B -> Q) a : forall b, qsum (fun p => f (fst p) (snd p)) (combine a b) = qsum (fun p => f (snd p) (fst p)) (combine b a).
Proof. induction a as [|x a IH]; intros [|y b]; try reflexivity. cbn [combine qsum fst snd]. now rewrite IH. Qed.
Lemma map_by_seq {A B} (f : A -> B) (d : A) l : map f l = map (fun t => f (nth t l d)) (seq 0 (length l)).
Proof. rewrite <- (map_seq_nth d l) at 1. now rewrite map_map. Qed.

(** ** One head *)
Section Att.
Variables (ex : Q -> Q) (l : layer) (x : mat) (mask : list Z) (H : nat).
Hypothesis G : good_exp ex.
Hypothesis F : sound H l.
Hypothesis X : Forall (fun r => length r = H) x.
Hypothesis LM : length mask = length x.
Local Notation n := (l_heads l).
Local Notation d := (l_size l).
Local Notation sz := (length x).
Definition sc' (h s t : nat) : Q :=
  qsum (fun e => nth (h * d + e) (l_q l (nth s x [])) 0 * nth (h * d + e) (l_k l (nth t x [])) 0) (seq 0 d) / l_rt l + nth t (extended_mask mask) 0.
Definition ctx (h s : nat) : list Q :=
  map (fun k => qsum (fun p => snd p * nth k (fst p) 0) (combine (map (fun t => firstn d (skipn (h * d) (l_v l (nth t x [])))) (seq 0 sz)) (softmax ex (map (sc' h s) (seq 0 sz))))) (seq 0 d).
Lemma row_len t : (t < sz)%nat -> length (nth t x []) = H.
Proof. intros Ht. rewrite Forall_forall in X. apply X. now apply nth_In. Qed.
Lemma part_fits h : (h < n)%nat -> (h * d + d <= H)%nat.
Proof. intros Hh. destruct F as [<- _]. nia. Qed.
Lemma attention_ctx : self_attention ex l x (extended_mask mask) = map (fun s => concat (map (fun h => ctx h s) (seq 0 n))) (seq 0 sz).
Proof.
  unfold self_attention. unfold for_scores, key_for_scores. rewrite (combine_maps _ _ (seq 0 n)), !map_map. cbn [fst snd].
  rewrite (combine_maps _ _ (seq 0 n)). rewrite map_map. cbn [fst snd]. apply map_ext_in. intros s Hs. apply in_seq in Hs.
  rewrite map_map. f_equal. apply map_ext_in. intros h Hh. apply in_seq in Hh.
  set (P := map (softmax ex) _). set (V := map (fun r => nth h (view_heads n d r) []) (map (l_v l) x)).
  assert (LP : length P = sz) by (unfold P, matmul; rewrite !map_length; reflexivity).
  unfold matmul. rewrite (nth_map_in _ P s [] []) by lia. unfold ctx. apply map_ext_in. intros k Hk. apply in_seq in Hk.
  rewrite (qsum_flip (fun a b => a * nth k b 0)). f_equal. f_equal.
  - unfold V. rewrite map_map, (map_by_seq _ []). apply map_ext_in. intros t Ht. unfold view_heads. rewrite nth_map_seq by lia. reflexivity.
  - unfold P. unfold matmul.
    rewrite (nth_map_in _ _ s [] []) by (rewrite !map_length; lia). f_equal.
    rewrite (nth_map_in _ _ s [] []) by (rewrite !map_length; lia).
    rewrite (nth_map_in _ _ s [] []) by (rewrite !map_length; lia).
    rewrite (nth_map_in _ _ s [] []) by (rewrite !map_length; lia).
    rewrite (nth_map_in _ _ s [] []) by (rewrite map_length; lia).
    rewrite map_map. rewrite (zip_with_seq _ _ _ 0 0) by (unfold extended_mask; rewrite !map_length, seq_length; lia).
    rewrite map_length, seq_length. apply map_ext_in. intros t Ht. apply in_seq in Ht.
    rewrite nth_map_seq by lia. unfold sc'. f_equal. f_equal.
    rewrite (nth_map_in _ x s [] []) by lia.
    unfold view_heads at 1. rewrite nth_map_seq by lia.
    rewrite part_seq by (destruct F as (_ & Kq & _); rewrite Kq by (apply row_len; lia); apply part_fits; lia).
    rewrite (combine_maps _ _ (seq 0 d)), qsum_map. cbn [fst snd].
    assert (E : forall e, In e (seq 0 d) -> nth t (map (fun r => nth e (nth h (view_heads n d r) []) 0) (map (l_k l) x)) 0 = nth (h * d + e) (l_k l (nth t x [])) 0).
    { intros e He. apply in_seq in He. rewrite map_map. rewrite (nth_map_in _ x t 0 []) by lia. unfold view_heads. rewrite nth_map_seq by lia. apply nth_part. lia. }
    clear -E. induction (seq 0 d) as [|e t' IH]; [reflexivity|]. cbn [qsum]. rewrite E by now left. f_equal. apply IH. intros e' He'. apply E. now right.
Qed.
Lemma ctx_length h s : length (ctx h s) = d.
Proof. unfold ctx. now rewrite map_length, seq_length. Qed.
Lemma attention_length : length (self_attention ex l x (extended_mask mask)) = sz.
Proof. rewrite attention_ctx, map_length, seq_length. reflexivity. Qed.
Lemma attention_row s : (s < sz)%nat -> length (nth s (self_attention ex l x (extended_mask mask)) []) = H.
Proof.
  intros Hs. rewrite attention_ctx, nth_map_seq by exact Hs. destruct F as [<- _]. clear. generalize (l_heads l). intros n.
  assert (E : forall l0, length (concat (map (fun h => ctx h s) l0)) = (length l0 * l_size l)%nat).
  { induction l0 as [|h l0 IH]; [reflexivity|]. cbn [map concat length]. rewrite app_length, ctx_length, IH. lia. }
  rewrite E, seq_length. reflexivity.
Qed.
Lemma nth_visible t : In t (visible mask) <-> (t < sz)%nat /\ nth t mask 0%Z = 1%Z.
Proof. unfold visible. rewrite filter_In, in_seq, LM, Z.eqb_eq. intuition lia. Qed.
Lemma attention_cell s h e : zero_one mask -> calm_layer l x -> visible mask <> [] -> (s < sz)%nat -> (h < n)%nat -> (e < d)%nat ->
  attends ex (visible mask) (head_score l x h s) (fun t => nth (h * d + e) (l_v l (nth t x [])) 0) (cell (self_attention ex l x (extended_mask mask)) s (h * d + e)).
Proof.
  intros Z1 C V Hs Hh He. unfold cell. rewrite attention_ctx, nth_map_seq by exact Hs.
  rewrite (concat_cell d _ h e).
  2:{ apply Forall_forall. intros r Hr. apply in_map_iff in Hr. destruct Hr as (h' & <- & _). apply ctx_length. }
  2:{ rewrite map_length, seq_length. exact Hh. }
  2:{ exact He. }
  rewrite nth_map_seq by exact Hh. unfold ctx. rewrite nth_map_seq by exact He.
  unfold visible. rewrite LM.
  assert (Em : forall t, (t < sz)%nat -> nth t (extended_mask mask) 0 == (1 - inject_Z (nth t mask 0%Z)) * - (10000)).
  { intros t Ht. unfold extended_mask. rewrite (nth_map_in _ mask t 0 0%Z) by lia. reflexivity. }
  assert (Zt : forall t, (t < sz)%nat -> nth t mask 0%Z = 0%Z \/ nth t mask 0%Z = 1%Z).
  { intros t Ht. unfold zero_one in Z1. rewrite Forall_forall in Z1. apply Z1. apply nth_In. lia. }
  apply (attends_filter ex G (seq 0 sz) _ (head_score l x h s) (sc' h s)).
  - unfold visible in V. now rewrite LM in V.
  - intros t Ht E. apply in_seq in Ht. apply Z.eqb_eq in E. unfold sc'. rewrite Em, E by lia. unfold head_score. change (inject_Z 1) with 1. ring.
  - intros t t' Ht Ht' E E'. apply in_seq in Ht, Ht'. apply Z.eqb_eq in E. apply Z.eqb_neq in E'. destruct (Zt t') as [E0|E0]; [lia| |congruence].
    unfold sc'. rewrite !Em, E, E0 by lia. change (inject_Z 1) with 1. change (inject_Z 0) with 0.
    pose proof (C h s t ltac:(lia) ltac:(lia) ltac:(lia)) as [A1 A2]. pose proof (C h s t' ltac:(lia) ltac:(lia) ltac:(lia)) as [B1 B2]. unfold head_score in *. lra.
  - eapply attends_ext; [exact G|reflexivity| |reflexivity|apply (soft_attends ex G)].
    + intros t Ht. cbn beta. rewrite nth_part by exact He. reflexivity.
    + destruct x; [cbn in Hs; lia|discriminate].
Qed.
Lemma layer_length : length (bert_layer ex l x (extended_mask mask)) = sz.
Proof. unfold bert_layer, bert_attention, zip_with. repeat rewrite ?map_length, ?combine_length. rewrite attention_length. lia. Qed.
Definition att_row (s : nat) : list Q := l_ln1 l (add_row (l_o l (nth s (self_attention ex l x (extended_mask mask)) [])) (nth s x [])).
Lemma layer_row s : (s < sz)%nat -> nth s (bert_layer ex l x (extended_mask mask)) [] = l_ln2 l (add_row (l_out l (l_inter l (att_row s))) (att_row s)).
Proof.
  intros Hs. unfold bert_layer. assert (La : length (bert_attention ex l x (extended_mask mask)) = sz) by (unfold bert_attention, zip_with; rewrite map_length, combine_length, attention_length; lia).
  rewrite (zip_with_seq _ _ _ [] []) by (rewrite map_length; reflexivity). rewrite map_length, La, nth_map_seq by exact Hs.
  rewrite (nth_map_in _ _ s [] []) by lia.
  assert (Ea : nth s (bert_attention ex l x (extended_mask mask)) [] = att_row s).
  { unfold bert_attention. rewrite (zip_with_seq _ _ _ [] []) by apply attention_length. rewrite attention_length, nth_map_seq by exact Hs. reflexivity. }
  now rewrite Ea.
Qed.
Lemma att_row_len s : (s < sz)%nat -> length (att_row s) = H.
Proof.
  intros Hs. destruct F as (_ & _ & _ & _ & Ko & K1 & _). unfold att_row. apply K1. rewrite add_length; rewrite Ko by (now apply attention_row); [reflexivity|]. symmetry. now apply row_len.
Qed.
Lemma layer_rows : Forall (fun r => length r = H) (bert_layer ex l x (extended_mask mask)).
Proof.
  apply Forall_forall. intros r Hr. apply In_nth with (d := []) in Hr. destruct Hr as (s & Hs & <-). rewrite layer_length in Hs. rewrite layer_row by exact Hs.
  pose proof (att_row_len s Hs) as La. destruct F as (_ & _ & _ & _ & _ & _ & Kx & K2 & _). apply K2. rewrite add_length; rewrite Kx by exact La; [reflexivity|]. now symmetry.
Qed.
End Att.

(** ** Padding *)
Lemma visible_pad mask k : visible (mask ++ repeat 0%Z k) = visible mask.
Proof.
  unfold visible. rewrite app_length, repeat_length, seq_app, filter_app.
  assert (E : filter (fun j => (nth j (mask ++ repeat 0 k) 0 =? 1)%Z) (seq (0 + length mask) k) = []).
  { assert (A : forall l, (forall j, In j l -> (length mask <= j)%nat) -> filter (fun j => (nth j (mask ++ repeat 0 k) 0 =? 1)%Z) l = []).
    { induction l as [|j l IH]; intros A; [reflexivity|]. cbn [filter]. rewrite app_nth2 by (apply A; now left).
      assert (R : forall m i, nth i (repeat 0%Z m) 0%Z = 0%Z) by (induction m; intros [|i]; cbn; auto). rewrite R. cbn [Z.eqb]. apply IH. intros j' H'. apply A. now right. }
    apply A. intros j Hj. apply in_seq in Hj. lia. }
  rewrite E, app_nil_r.
  assert (A : forall l, (forall j, In j l -> (j < length mask)%nat) -> filter (fun j => (nth j (mask ++ repeat 0 k) 0 =? 1)%Z) l = filter (fun j => (nth j mask 0 =? 1)%Z) l).
  { induction l as [|j l IH]; intros A; [reflexivity|]. cbn [filter]. rewrite app_nth1 by (apply A; now left). rewrite IH; [reflexivity|]. intros j' H'. apply A. now right. }
  apply A. intros j Hj. apply in_seq in Hj. lia.
Qed.
Section Pad.
Variables (ex : Q -> Q) (H : nat) (mask : list Z) (k : nat).
Hypothesis G : good_exp ex.
Hypothesis Z1 : zero_one mask.
Hypothesis V : visible mask <> [].
Local Notation mask' := (mask ++ repeat 0%Z k).
Lemma zero_one_pad : zero_one mask'.
Proof. apply Forall_app. split; [exact Z1|]. apply Forall_forall. intros m Hm. apply repeat_spec in Hm. now left. Qed.
Lemma pad_layer l x x' : sound H l -> Forall (fun r => length r = H) x -> Forall (fun r => length r = H) x' ->
  length mask = length x -> length mask' = length x' -> calm_layer l x -> calm_layer l x' -> begins x x' ->
  begins (bert_layer ex l x (extended_mask mask)) (bert_layer ex l x' (extended_mask mask')).
Proof.
  intros F X X' L L' C C' [Ls B]. split; [rewrite (layer_length ex l x mask H F X L), (layer_length ex l x' mask' H F X' L'); exact Ls|].
  rewrite (layer_length ex l x mask H F X L). intros s Hs. rewrite (layer_row ex l x mask H F X L s Hs), (layer_row ex l x' mask' H F X' L' s ltac:(lia)).
  pose proof F as (Fd & Kq & Kk & Kv & Ko & K1 & Kx & K2 & Pq & Pk & Pv & Po & P1 & Pi & Px & P2).
  assert (A : same_row (att_row ex l x mask s) (att_row ex l x' mask' s)).
  { unfold att_row. apply P1. apply add_same; [|apply B; exact Hs]. apply Po. apply same_of_nth.
    - rewrite (attention_row ex l x mask H F X L) by exact Hs. symmetry. apply (attention_row ex l x' mask' H F X' L'). lia.
    - rewrite (attention_row ex l x mask H F X L) by exact Hs. intros c Hc. rewrite <- Fd in Hc.
      assert (Dp : (0 < l_size l)%nat) by nia. set (h := (c / l_size l)%nat). set (e := (c mod l_size l)%nat).
      assert (Ec : c = (h * l_size l + e)%nat) by (unfold h, e; rewrite Nat.mul_comm; apply Nat.div_mod; lia).
      assert (Hh : (h < l_heads l)%nat) by (apply Nat.div_lt_upper_bound; lia). assert (He : (e < l_size l)%nat) by (apply Nat.mod_upper_bound; lia).
      rewrite Ec. pose proof (attention_cell ex l x mask H G F X L s h e Z1 C V Hs Hh He) as T.
      assert (V' : visible mask' <> []) by now rewrite visible_pad.
      pose proof (attention_cell ex l x' mask' H G F X' L' s h e zero_one_pad C' V' ltac:(lia) Hh He) as T'. rewrite visible_pad in T'.
      eapply (attends_unique ex G); [apply Permutation.Permutation_refl| | |exact T|exact T'].
      + intros t Ht. apply (nth_visible x mask L) in Ht. destruct Ht as [Ht _]. unfold head_score. unfold Qdiv. apply Qmult_comp; [|reflexivity]. apply qsum_ext. intros e' _.
        apply Qmult_comp; apply same_nth; [apply Pq|apply Pk]; apply B; assumption.
      + intros t Ht. apply (nth_visible x mask L) in Ht. destruct Ht as [Ht _]. apply same_nth. apply Pv. now apply B. }
  apply P2. apply add_same; [|exact A]. apply Px, Pi, A.
Qed.
Lemma pad_run layers : forall x x', Forall (sound H) layers -> Forall (fun r => length r = H) x -> Forall (fun r => length r = H) x' ->
  length mask = length x -> length mask' = length x' -> calm ex (extended_mask mask) layers x -> calm ex (extended_mask mask') layers x' -> begins x x' ->
  begins (run (extended_mask mask) (map (bert_layer ex) layers) x) (run (extended_mask mask') (map (bert_layer ex) layers) x').
Proof.
  induction layers as [|l layers IH]; intros x x' F X X' L L' C C' B; [exact B|]. inversion F as [|? ? F1 F2]; subst. destruct C as [C1 C2], C' as [C1' C2']. cbn [map run].
  apply IH; auto.
  - exact (layer_rows ex l x mask H F1 X L).
  - exact (layer_rows ex l x' mask' H F1 X' L').
  - now rewrite (layer_length ex l x mask H F1 X L).
  - now rewrite (layer_length ex l x' mask' H F1 X' L').
  - now apply pad_layer.
Qed.
End Pad.

(** ** The encoder *)
Section Enc.
Context {X M : Type}.
Variable mask : M.
Lemma run_app (a b : list (X -> M -> X)) x : run mask (a ++ b) x = run mask b (run mask a x).
Proof. revert x. induction a as [|f a IH]; intros x; [reflexivity|]. cbn [app run]. apply IH. Qed.
Lemma chunked_right (layers : list (X -> M -> X)) c : (0 < c)%nat -> forall fuel l x, (length layers - l < fuel)%nat ->
  chunked mask fuel l c layers x = Ok (run mask (skipn l layers) x).
Proof.
  intros Hc. induction fuel as [|f IH]; intros l x Hf.
  - lia.
  - cbn [chunked]. destruct (Nat.ltb_spec l (length layers)) as [Hl|Hl].
    + rewrite IH by lia. f_equal. rewrite <- run_app. f_equal.
      rewrite <- (firstn_skipn (l + c) layers) at 3. rewrite skipn_app. rewrite firstn_length.
      destruct (Nat.le_gt_cases (l + c) (length layers)).
      * rewrite Nat.min_l by lia. replace (l - (l + c))%nat with 0%nat by lia. reflexivity.
      * rewrite (skipn_all2 layers (n := l + c)) by lia. now rewrite skipn_nil.
    + rewrite skipn_all2 by exact Hl. reflexivity.
Qed.
Lemma run_all_last (layers : list (X -> M -> X)) x d : layers <> [] -> last (run_all mask layers x) d = run mask layers x.
Proof.
  revert x. induction layers as [|f t IH]; intros x N; [congruence|]. cbn [run_all run]. destruct t as [|g t]; [reflexivity|].
  change (last (run_all mask (g :: t) (f x mask)) d = run mask (g :: t) (f x mask)). apply IH. discriminate.
Qed.
Lemma run_all_nth (layers : list (X -> M -> X)) x i : (i < length layers)%nat -> nth_error (run_all mask layers x) i = Some (run mask (firstn (S i) layers) x).
Proof.
  revert x i. induction layers as [|f t IH]; intros x i Hi; [cbn in Hi; lia|]. destruct i as [|i]; [reflexivity|]. cbn [run_all nth_error]. rewrite IH by (cbn in Hi; lia). reflexivity.
Qed.
Lemma run_all_length (layers : list (X -> M -> X)) x : length (run_all mask layers x) = length layers.
Proof. revert x. induction layers as [|f t IH]; intros x; [reflexivity|]. cbn [run_all length]. now rewrite IH. Qed.
Lemma last_of_app {A} (l : list A) x : last_of (l ++ [x]) = Ok x.
Proof. unfold last_of. rewrite rev_app_distr. reflexivity. Qed.
Lemma encode_right all ckpt (layers : list (X -> M -> X)) x :
  exists enc, encode mask all ckpt layers x = Ok enc /\
    (layers <> [] \/ all = false \/ ckpt = true -> last_of enc = Ok (run mask layers x)) /\
    enc = if all && negb ckpt then run_all mask layers x else [run mask layers x].
Proof.
  unfold encode. destruct ckpt.
  - rewrite Bool.andb_false_r. assert (E : chunked mask (S (length layers)) 0 (Nat.sqrt_up (length layers)) layers x = Ok (run mask layers x)).
    { destruct layers as [|f t]; [reflexivity|]. rewrite chunked_right; [reflexivity| |lia]. apply Nat.sqrt_up_pos. cbn. lia. }
    rewrite E. cbn [bind]. eexists. split; [reflexivity|]. split; reflexivity.
  - rewrite Bool.andb_true_r. eexists. split; [reflexivity|]. destruct all; cbn [app].
    + rewrite app_nil_r. split; [|reflexivity]. intros [N|[N|N]]; [|discriminate|discriminate].
      assert (Ne : run_all mask layers x <> []) by (destruct layers; [congruence|discriminate]).
      rewrite (app_removelast_last x Ne), last_of_app, run_all_last by exact N. reflexivity.
    + split; reflexivity.
Qed.
End Enc.

(** ** Embeddings *)
Lemma embed_row ln word pos typ ids types x s : embed ln word pos typ ids types = Ok x -> (s < length ids)%nat ->
  let tt := match types with Some t => t | None => repeat 0%nat (length ids) end in
  exists w q t, nth_error word (nth s ids 0%nat) = Some w /\ nth_error pos s = Some q /\ nth_error typ (nth s tt 0%nat) = Some t /\
    nth s x [] = ln (add_row (add_row w q) t).
Proof.
  intros E Hs tt. unfold embed in E. fold tt in E. destruct (Nat.eqb_spec (length tt) (length ids)) as [Lt|]; [|discriminate]. cbn [negb] in E.
  set (f := fun p => _) in E. set (l := combine (combine ids (seq 0 (length ids))) tt) in E.
  assert (M : forall l r i p, mapM f l = Ok r -> nth_error l i = Some p -> exists y, nth_error r i = Some y /\ f p = Ok y).
  { clear. induction l as [|a l IH]; intros r i p Er Ei; [destruct i; discriminate|]. cbn [mapM] in Er. destruct (f a) as [y|] eqn:Ey; [|discriminate]. cbn [bind] in Er.
    destruct (mapM f l) as [r'|] eqn:Em; [|discriminate]. cbn [bind] in Er. injection Er as <-. destruct i as [|i]; cbn [nth_error] in *.
    - injection Ei as <-. eauto.
    - eauto. }
  assert (El : nth_error l s = Some (nth s ids 0%nat, s, nth s tt 0%nat)).
  { unfold l. rewrite (nth_error_nth' _ (0%nat, 0%nat, 0%nat)) by (rewrite !combine_length, seq_length; lia). f_equal.
    rewrite combine_nth by (rewrite combine_length, seq_length; lia). rewrite combine_nth by (rewrite seq_length; lia). rewrite seq_nth by exact Hs. reflexivity. }
  destruct (M _ _ _ _ E El) as (y & Ey & Fy). unfold f in Fy. cbn [fst snd] in Fy. unfold item in Fy.
  destruct (nth_error word (nth s ids 0%nat)) as [w|] eqn:E1; [|discriminate]. cbn [bind] in Fy.
  destruct (nth_error pos s) as [q|] eqn:E2; [|discriminate]. cbn [bind] in Fy.
  destruct (nth_error typ (nth s tt 0%nat)) as [t|] eqn:E3; [|discriminate]. cbn [bind] in Fy. injection Fy as <-.
  exists w, q, t. do 3 (split; [reflexivity|]). now rewrite (nth_error_nth _ _ _ Ey).
Qed.
Lemma mapM_length {A B} (f : A -> res B) l r : mapM f l = Ok r -> length r = length l.
Proof.
  revert r. induction l as [|a l IH]; intros r E; cbn [mapM] in E; [injection E as <-; reflexivity|]. destruct (f a); [|discriminate]. cbn [bind] in E.
  destruct (mapM f l); [|discriminate]. cbn [bind] in E. injection E as <-. cbn [length]. f_equal. now apply IH.
Qed.
Lemma embed_length ln word pos typ ids types x : embed ln word pos typ ids types = Ok x -> length x = length ids.
Proof.
  unfold embed. intros E. destruct (Nat.eqb_spec (length match types with Some t => t | None => repeat 0%nat (length ids) end) (length ids)) as [Lt|]; [|discriminate].
  cbn [negb] in E. apply mapM_length in E. rewrite E, !combine_length, seq_length, Lt. lia.
Qed.
Lemma embed_ok ln word pos typ ids : (exists x, embed ln word pos typ ids None = Ok x) <->
  Forall (fun i => i < length word)%nat ids /\ (length ids <= length pos)%nat /\ (ids <> [] -> typ <> []).
Proof.
  split.
  - intros [x E]. pose proof (fun s Hs => embed_row ln word pos typ ids None x s E Hs) as R. cbv zeta in R. split; [|split].
    + apply Forall_forall. intros i Hi. apply In_nth with (d := 0%nat) in Hi. destruct Hi as (s & Hs & <-). destruct (R s Hs) as (w & _ & _ & E1 & _). apply nth_error_Some. congruence.
    + destruct (Nat.eq_dec (length ids) 0); [lia|]. destruct (R (length ids - 1)%nat ltac:(lia)) as (_ & q & _ & _ & E2 & _).
      assert (length ids - 1 < length pos)%nat by (apply nth_error_Some; congruence). lia.
    + intros N T. subst typ. destruct ids as [|i ids]; [congruence|]. destruct (R 0%nat ltac:(cbn; lia)) as (_ & _ & t & _ & _ & E3 & _). destruct (nth 0 _ _); discriminate.
  - intros (A & B & C). unfold embed. rewrite repeat_length, Nat.eqb_refl. cbn [negb].
    assert (Ok1 : forall l, (forall p, In p l -> (fst (fst p) < length word)%nat /\ (snd (fst p) < length pos)%nat /\ snd p = 0%nat /\ typ <> []) ->
      exists x, mapM (fun p => do w <- item word (fst (fst p)) ;; do q <- item pos (snd (fst p)) ;; do t <- item typ (snd p) ;; Ok (ln (add_row (add_row w q) t))) l = Ok x).
    { induction l as [|p l IH]; intros Hl; [eexists; reflexivity|]. destruct (Hl p (or_introl eq_refl)) as (H1 & H2 & H3 & H4). cbn [mapM].
      rewrite (item_ok word _ [] H1), (item_ok pos _ [] H2), H3. cbn [bind]. destruct typ as [|t typ]; [congruence|]. unfold item at 1. cbn [nth_error bind].
      destruct IH as [r ->]; [intros p' Hp'; apply Hl; now right|]. cbn [bind]. eexists. reflexivity. }
    apply Ok1. intros [[i s] t] Hp. cbn [fst snd].
    pose proof (in_combine_l _ _ _ _ Hp) as Hl. pose proof (in_combine_r _ _ _ _ Hp) as Hr. apply repeat_spec in Hr.
    pose proof (in_combine_l _ _ _ _ Hl) as Hi. pose proof (in_combine_r _ _ _ _ Hl) as Hs. apply in_seq in Hs.
    rewrite Forall_forall in A. split; [now apply A|]. split; [lia|]. split; [exact Hr|]. apply C. intros ->. destruct Hi.
Qed.

(** ** The model *)
Definition types_of (ids : list nat) (types : option (list nat)) : list nat := match types with Some t => t | None => repeat 0%nat (length ids) end.
Lemma types_pad ids types pids pt s : (length (types_of ids types) = length ids) -> (s < length ids)%nat ->
  nth s (types_of (ids ++ pids) (option_map (fun t => t ++ pt) types)) 0%nat = nth s (types_of ids types) 0%nat.
Proof.
  intros L Hs. destruct types as [t|]; cbn [option_map types_of] in *; [rewrite app_nth1 by lia; reflexivity|].
  assert (R : forall m i, nth i (repeat 0%nat m) 0%nat = 0%nat) by (induction m; intros [|i]; cbn; auto). now rewrite !R.
Qed.
Lemma embed_begins ln word pos typ ids types pids pt x x' :
  embed ln word pos typ ids types = Ok x -> embed ln word pos typ (ids ++ pids) (option_map (fun t => t ++ pt) types) = Ok x' -> begins x x'.
Proof.
  intros E E'. pose proof (embed_length _ _ _ _ _ _ _ E) as L. pose proof (embed_length _ _ _ _ _ _ _ E') as L'. rewrite app_length in L'. split; [lia|].
  intros s Hs. rewrite L in Hs. destruct (embed_row _ _ _ _ _ _ _ _ E Hs) as (w & q & t & E1 & E2 & E3 & ->). cbv zeta in *.
  destruct (embed_row _ _ _ _ _ _ _ s E' ltac:(rewrite app_length; lia)) as (w' & q' & t' & E1' & E2' & E3' & ->). cbv zeta in *.
  fold (types_of ids types) in E3. fold (types_of (ids ++ pids) (option_map (fun t => t ++ pt) types)) in E3'.
  rewrite app_nth1 in E1' by exact Hs. rewrite types_pad in E3'; [|unfold embed in E; fold (types_of ids types) in E; destruct (Nat.eqb_spec (length (types_of ids types)) (length ids)); [assumption|discriminate]|exact Hs].
  assert (w = w') by congruence. assert (q = q') by congruence. assert (t = t') by congruence. subst. apply same_refl.
Qed.
Lemma embed_rows H ln word pos typ ids types x : keeps H ln -> Forall (fun r => length r = H) word -> Forall (fun r => length r = H) pos -> Forall (fun r => length r = H) typ ->
  embed ln word pos typ ids types = Ok x -> Forall (fun r => length r = H) x.
Proof.
  intros K Fw Fp Ft E. apply Forall_forall. intros r Hr. apply In_nth with (d := []) in Hr. destruct Hr as (s & Hs & <-). rewrite (embed_length _ _ _ _ _ _ _ E) in Hs.
  destruct (embed_row _ _ _ _ _ _ _ _ E Hs) as (w & q & t & E1 & E2 & E3 & ->). apply nth_error_In in E1, E2, E3. rewrite Forall_forall in *.
  apply K. rewrite !add_length; rewrite ?add_length; rewrite ?(Fw _ E1), ?(Fp _ E2), ?(Ft _ E3); reflexivity.
Qed.
Lemma model_run ex ln word pos typ layers pool ids types mask all ckpt e s p :
  bert_model ex ln word pos typ layers pool ids types (Some mask) all ckpt = Ok (e, s, p) ->
  exists x first, embed ln word pos typ ids types = Ok x /\ length mask = length ids /\ s = run (extended_mask mask) (map (bert_layer ex) layers) x /\ nth_error s 0 = Some first /\ p = pool first.
Proof.
  unfold bert_model. intros E. destruct (embed ln word pos typ ids types) as [x|]; [|discriminate]. cbn [bind] in E. destruct (Nat.eqb_spec (length mask) (length ids)) as [L|]; [|discriminate]. cbn [negb] in E.
  destruct (encode_right (extended_mask mask) all ckpt (map (bert_layer ex) layers) x) as (enc & Ee & El & Eq). rewrite Ee in E. cbn [bind] in E.
  destruct (last_of enc) as [s'|] eqn:Es; [|discriminate]. cbn [bind] in E. unfold item in E. destruct (nth_error s' 0) as [first|] eqn:E0; [|discriminate]. cbn [bind] in E. injection E as <- <- <-.
  exists x, first. split; [reflexivity|]. split; [exact L|]. split; [|auto].
  destruct layers as [|l layers].
  - destruct all, ckpt; cbn [andb negb] in Eq; subst enc; cbn in Es; try discriminate; now injection Es as <-.
  - assert (N' : map (bert_layer ex) (l :: layers) <> []) by discriminate. specialize (El (or_introl N')). injection El as El. exact El.
Qed.
Lemma model_pad ex H ln word pos typ layers pool ids types pids pt mask all ckpt all' ckpt' e s p e' s' p' :
  good_exp ex -> zero_one mask -> In 1%Z mask -> keeps H ln -> proper pool ->
  Forall (fun r => length r = H) word -> Forall (fun r => length r = H) pos -> Forall (fun r => length r = H) typ -> Forall (sound H) layers ->
  let types' := option_map (fun t => t ++ pt) types in
  let mask' := mask ++ repeat 0%Z (length pids) in
  bert_model ex ln word pos typ layers pool ids types (Some mask) all ckpt = Ok (e, s, p) ->
  bert_model ex ln word pos typ layers pool (ids ++ pids) types' (Some mask') all' ckpt' = Ok (e', s', p') ->
  (forall x, embed ln word pos typ ids types = Ok x -> calm ex (extended_mask mask) layers x) ->
  (forall x, embed ln word pos typ (ids ++ pids) types' = Ok x -> calm ex (extended_mask mask') layers x) ->
  begins s s' /\ same_row p p'.
Proof.
  intros G Z1 V K Pp Fw Fp Ft Fl types' mask' E E' C C'.
  destruct (model_run _ _ _ _ _ _ _ _ _ _ _ _ _ _ _ E) as (x & f & Ex & L & -> & E0 & ->). destruct (model_run _ _ _ _ _ _ _ _ _ _ _ _ _ _ _ E') as (x' & f' & Ex' & L' & -> & E0' & ->).
  pose proof (embed_length _ _ _ _ _ _ _ Ex) as Lx. pose proof (embed_length _ _ _ _ _ _ _ Ex') as Lx'.
  assert (B : begins (run (extended_mask mask) (map (bert_layer ex) layers) x) (run (extended_mask mask') (map (bert_layer ex) layers) x')).
  { apply (pad_run ex H mask (length pids) G Z1).
    - apply In_nth with (d := 0%Z) in V. destruct V as (i & Hi & Ei). intros N. assert (I : In i (visible mask)) by (apply filter_In; split; [apply in_seq; lia|now apply Z.eqb_eq]). rewrite N in I. destruct I.
    - exact Fl.
    - exact (embed_rows H ln word pos typ _ _ x K Fw Fp Ft Ex).
    - exact (embed_rows H ln word pos typ _ _ x' K Fw Fp Ft Ex').
    - congruence.
    - fold mask'. congruence.
    - now apply C.
    - now apply C'.
    - exact (embed_begins _ _ _ _ _ _ _ _ _ _ Ex Ex'). }
  split; [exact B|]. apply Pp. destruct B as [Lb B]. assert (L0 : (0 < length (run (extended_mask mask) (map (bert_layer ex) layers) x))%nat) by (apply nth_error_Some; congruence).
  specialize (B 0%nat L0). now rewrite (nth_error_nth _ _ [] E0), (nth_error_nth _ _ [] E0') in B.
Qed.
Lemma model_flags ex ln word pos typ layers pool ids types mask all ckpt all' ckpt' : layers <> [] ->
  match bert_model ex ln word pos typ layers pool ids types mask all ckpt, bert_model ex ln word pos typ layers pool ids types mask all' ckpt' with
  | Ok (_, s, p), Ok (_, s', p') => s = s' /\ p = p'
  | Fail a, Fail b => a = b
  | _, _ => False
  end.
Proof.
  intros N. unfold bert_model. set (m := match mask with Some m => m | None => _ end). destruct (embed ln word pos typ ids types) as [x|]; [|reflexivity]. cbn [bind].
  destruct (negb (length m =? length ids)%nat); [reflexivity|].
  assert (N' : map (bert_layer ex) layers <> []) by (destruct layers; [congruence|discriminate]).
  destruct (encode_right (extended_mask m) all ckpt (map (bert_layer ex) layers) x) as (e1 & -> & L1 & _). destruct (encode_right (extended_mask m) all' ckpt' (map (bert_layer ex) layers) x) as (e2 & -> & L2 & _).
  cbn [bind]. rewrite (L1 (or_introl N')), (L2 (or_introl N')). cbn [bind]. destruct (item _ 0); cbn [bind]; auto.
Qed.

(** ** Nothing visible *)
Lemma attends_shift ex ns sc sc' val y c : good_exp ex -> (forall j, In j ns -> sc' j == sc j + c) -> attends ex ns sc' val y -> attends ex ns sc val y.
Proof.
  intros G Hs (m & (j0 & J1 & J2) & M2 & E). exists (m - c). split; [|split].
  - exists j0. split; [exact J1|]. rewrite (Hs _ J1) in J2. lra.
  - intros j Hj. specialize (M2 j Hj). rewrite (Hs _ Hj) in M2. lra.
  - assert (W : forall j, In j ns -> ex (sc j - (m - c)) == ex (sc' j - m)) by (intros j Hj; apply (ex_proper ex G); rewrite (Hs _ Hj); ring).
    rewrite (qsum_ext _ _ ns W). rewrite E. apply qsum_ext. intros j Hj. now rewrite (W j Hj).
Qed.
Lemma attention_none ex l x mask H s h e : good_exp ex -> sound H l -> Forall (fun r => length r = H) x -> length mask = length x ->
  Forall (fun m => m = 0%Z) mask -> (s < length x)%nat -> (h < l_heads l)%nat -> (e < l_size l)%nat ->
  attends ex (seq 0 (length x)) (head_score l x h s) (fun t => nth (h * l_size l + e) (l_v l (nth t x [])) 0) (cell (self_attention ex l x (extended_mask mask)) s (h * l_size l + e)).
Proof.
  intros G F X LM Z0 Hs Hh He. unfold cell. rewrite (attention_ctx ex l x mask H F X LM), nth_map_seq by exact Hs.
  rewrite (concat_cell (l_size l) _ h e).
  2:{ apply Forall_forall. intros r Hr. apply in_map_iff in Hr. destruct Hr as (h' & <- & _). apply ctx_length. }
  2:{ rewrite map_length, seq_length. exact Hh. }
  2:{ exact He. }
  rewrite nth_map_seq by exact Hh. unfold ctx. rewrite nth_map_seq by exact He.
  apply (attends_shift ex _ (head_score l x h s) (sc' l x mask h s) _ _ (- (10000)) G).
  - intros t Ht. apply in_seq in Ht. unfold sc', head_score. unfold extended_mask. rewrite (nth_map_in _ mask t 0 0%Z) by lia.
    rewrite Forall_forall in Z0. rewrite (Z0 (nth t mask 0%Z)) by (apply nth_In; lia). change (inject_Z 0) with 0. ring.
  - eapply attends_ext; [exact G|reflexivity| |reflexivity|apply (soft_attends ex G)].
    + intros t Ht. cbn beta. rewrite nth_part by exact He. reflexivity.
    + destruct x; [cbn in Hs; lia|discriminate].
Qed.

(** ** Focal loss *)
Lemma one_hot_pick r t : (t < length r)%nat -> qsum idq (zip_with Qmult r (map (fun j => if (j =? t)%nat then 1 else 0) (seq 0 (length r)))) == nth t r 0.
Proof.
  intros Ht. unfold zip_with. rewrite qsum_map.
  assert (A : forall r k, qsum (fun p => idq (fst p * snd p)) (combine r (map (fun j => if (j =? t)%nat then 1 else 0) (seq k (length r)))) == (if (k <=? t)%nat then nth (t - k) r 0 else 0)).
  { clear. induction r as [|a r IH]; intros k; [cbn; destruct (k <=? t)%nat; [destruct (t - k)%nat|]; reflexivity|].
    cbn [length seq map combine qsum fst snd]. rewrite IH. unfold idq. destruct (Nat.eqb_spec k t) as [->|N].
    - rewrite Nat.leb_refl, Nat.sub_diag. destruct (Nat.leb_spec (S t) t); [lia|]. cbn [nth]. ring.
    - destruct (Nat.leb_spec (S k) t), (Nat.leb_spec k t); try lia; [|ring]. replace (t - k)%nat with (S (t - S k)) by lia. cbn [nth]. ring. }
  rewrite A. cbn [Nat.leb]. now rewrite Nat.sub_0_r.
Qed.
Lemma softmax_length ex r : length (softmax ex r) = length r.
Proof. unfold softmax. now rewrite !map_length. Qed.
Lemma focal_right ex lg pw alpha c inputs targets :
  (forall a b, a == b -> lg a == lg b) -> (forall a b, a == b -> pw a == pw b) ->
  length alpha = c -> Forall (fun r => length r = c) inputs -> Forall (fun t => t < c)%nat targets -> length targets = length inputs ->
  exists cells, Forall2 Qeq cells (map (fun p => focal_cell ex lg pw alpha (fst p) (snd p)) (combine inputs targets)) /\
    focal ex lg pw (Column alpha) true c inputs targets = Ok (qsum idq cells / qnat (length inputs)) /\ focal ex lg pw (Column alpha) false c inputs targets = Ok (qsum idq cells).
Proof.
  intros Pl Pw La Fi Ft L. unfold focal. rewrite L, Nat.eqb_refl. cbn [negb].
  assert (Em : mapM (one_hot c) targets = Ok (map (fun t => map (fun j => if (j =? t)%nat then 1 else 0) (seq 0 c)) targets)).
  { apply mapM_all_ok. intros t Ht. unfold one_hot. rewrite Forall_forall in Ft. specialize (Ft t Ht). destruct (Nat.ltb_spec t c); [reflexivity|lia]. }
  assert (Ew : mapM (item alpha) targets = Ok (map (fun t => nth t alpha 0) targets)).
  { apply mapM_all_ok. intros t Ht. apply item_ok. rewrite Forall_forall in Ft. rewrite La. now apply Ft. }
  rewrite Em, Ew. cbn [bind]. set (cells := map _ (combine (map (fun t => nth t alpha 0) targets) _)).
  assert (Lc : length cells = length inputs) by (unfold cells; rewrite map_length, combine_length, !map_length, combine_length, map_length; lia).
  rewrite Lc. exists cells. split; [|split; reflexivity].
  unfold cells. clear -Pl Pw La Fi Ft L. revert targets Ft L. induction inputs as [|x inputs IH]; intros [|t targets] Ft L; try discriminate; [constructor|].
  inversion Fi as [|? ? Fx Fi']; subst. inversion Ft as [|? ? Ht Ft']; subst. cbn [map combine fst snd]. constructor; [|apply IH; auto].
  assert (Ep : qsum idq (zip_with Qmult (softmax ex x) (map (fun j => if (j =? t)%nat then 1 else 0) (seq 0 (length alpha)))) == nth t (softmax ex x) 0).
  { rewrite <- Fx, <- (softmax_length ex x). apply one_hot_pick. rewrite softmax_length. lia. }
  unfold focal_cell. rewrite (Pl _ _ Ep), (Pw _ _ (Qplus_comp _ _ (Qeq_refl 1) _ _ (Qopp_comp _ _ Ep))). reflexivity.
Qed.

Theorem model_unmasked ex ln word pos typ layers pool ids types all ckpt ones :
  length ones = length ids -> Forall (fun m => m = 1%Z) ones ->
  bert_model ex ln word pos typ layers pool ids types None all ckpt =
  bert_model ex ln word pos typ layers pool ids types (Some ones) all ckpt.
Proof.
  intros L F. unfold bert_model. replace ones with (repeat 1%Z (length ids)); [reflexivity|]. rewrite <- L. clear L.
  induction F as [|x l -> F IH]; cbn [length repeat]; [reflexivity|]. now rewrite IH.
Qed.
