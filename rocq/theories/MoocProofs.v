(** Records of the MOOC graph: proofs. *)
From Coq Require Import Sorting.Sorted Sorting.Permutation ZifyBool ZifyNat ZifyN.
From Verif Require Import Base WriterModel FeatureModel FeatureSpec TemporalProofs MoocModel MoocSpec.
Local Open Scope Z_scope.

Notation tv r := (m_ts r, m_val r).

(** ** Sorting *)
Definition key_le (a b : mrow) : Prop := key_ltb b a = false.
Lemma insert_row_perm x l : Permutation (insert_row x l) (x :: l).
Proof.
  induction l as [|y l IH]; [reflexivity|]. cbn. destruct (key_ltb x y); [reflexivity|].
  rewrite IH. apply perm_swap.
Qed.
Lemma insert_row_sorted x l : StronglySorted key_le l -> StronglySorted key_le (insert_row x l).
Proof.
  induction 1 as [|y l Hs IH HF]; cbn; [repeat constructor|].
  destruct (key_ltb x y) eqn:E.
  - constructor; [now constructor|]. constructor; [unfold key_le, key_ltb in *; lia|].
    eapply Forall_impl; [|exact HF]. unfold key_le, key_ltb in *. intros; lia.
  - constructor; [exact IH|]. apply Forall_forall. intros z Hz.
    apply (Permutation_in _ (insert_row_perm x l)) in Hz. destruct Hz as [<-|Hz]; [exact E|].
    rewrite Forall_forall in HF. now apply HF.
Qed.
Lemma sort_rows_from l : forall acc, StronglySorted key_le acc ->
  StronglySorted key_le (fold_left (fun acc x => insert_row x acc) l acc) /\
  Permutation (fold_left (fun acc x => insert_row x acc) l acc) (acc ++ l).
Proof.
  induction l as [|x l IH]; intros acc Ha; [rewrite app_nil_r; auto|]. cbn [fold_left].
  destruct (IH (insert_row x acc) (insert_row_sorted x acc Ha)) as [H1 H2]. split; [exact H1|].
  rewrite H2, insert_row_perm. cbn. apply Permutation_middle.
Qed.
Lemma sort_rows_spec l : StronglySorted key_le (sort_rows l) /\ Permutation (sort_rows l) l.
Proof. apply (sort_rows_from l []). constructor. Qed.

(** ** The loop as a grouping of the sorted rows *)
Fixpoint segs (s d : Z) (h : list (Z * list N)) (rows : list mrow) : list (Z * Z * list (Z * list N)) :=
  match rows with
  | [] => [(s, d, h)]
  | r :: t =>
      if m_src r =? s then
        if m_dst r =? d then segs s d (h ++ [tv r]) t else (s, d, h) :: segs s (m_dst r) [tv r] t
      else segs (m_src r) (m_dst r) (h ++ [tv r]) t
  end.
Fixpoint heads (s : Z) (rows : list mrow) : list Z :=
  match rows with
  | [] => []
  | r :: t => if m_src r =? s then heads s t else m_src r :: heads (m_src r) t
  end.
Definition raw_edge (x : Z * Z * list (Z * list N)) : record :=
  edge_rec (fst (fst x)) (snd (fst x)) (match snd x with y :: _ => fst y | [] => 0 end) (serialize (snd x)).

Lemma flush_ok s d d' h : h <> [] -> flush s d d' h = Ok [raw_edge (s, d, h)].
Proof. destruct h as [|y h]; [congruence|]. intros _. reflexivity. Qed.

Definition good (r : mrow) : Prop := 0 <= m_src r /\ 0 <= m_dst r.
Definition last_dst (d : Z) (rows : list mrow) : Z := match rev rows with [] => d | r :: _ => m_dst r end.
Lemma last_dst_cons d r t : last_dst d (r :: t) = last_dst (m_dst r) t.
Proof. unfold last_dst. cbn [rev]. destruct (rev t); reflexivity. Qed.

Lemma edge_is_edge x : 0 <= snd (fst x) -> rdst (raw_edge x) =? -1 = false.
Proof. unfold raw_edge, edge_rec, max_src. cbn [rdst]. lia. Qed.

Lemma run_segs rows : forall s d h, Forall good rows -> 0 <= d -> 0 <= s -> h <> [] ->
  exists rs st, mrun (MS s d h) rows = Ok (rs, st) /\ cur_dst st = last_dst d rows /\ feats st <> [] /\
    edge_records (rs ++ [raw_edge (cur_src st, cur_dst st, feats st)]) = map raw_edge (segs s d h rows) /\
    node_records (rs ++ [raw_edge (cur_src st, cur_dst st, feats st)]) = map student (heads s rows).
Proof.
  induction rows as [|r t IH]; intros s d h Hg Hd Hs Hh.
  - exists [], (MS s d h). cbn [mrun cur_dst cur_src feats app]. split; [reflexivity|]. split; [reflexivity|]. split; [exact Hh|].
    unfold edge_records, node_records. cbn [filter]. rewrite edge_is_edge by (cbn; lia). split; reflexivity.
  - inversion Hg as [|? ? [G1 G2] Hg']; subst. cbn [mrun segs heads]. unfold mstep. cbn [cur_src cur_dst feats].
    replace (d =? -1) with false by lia. rewrite last_dst_cons.
    destruct (m_src r =? s) eqn:Es; cbn [negb].
    + assert (m_src r = s) by lia. destruct (m_dst r =? d) eqn:Ed; cbn [negb andb].
      * assert (m_dst r = d) by lia.
        destruct (IH s d (h ++ [tv r]) Hg' Hd Hs) as (rs & st & E & H1 & H2 & H3 & H4).
        { intro X. apply app_eq_nil in X. destruct X. discriminate. }
        exists rs, st. cbn [bind snd fst app]. rewrite E. cbn [bind snd fst app].
        split; [reflexivity|]. split; [congruence|]. split; [exact H2|]. split; [exact H3|exact H4].
      * replace (0 <? length h)%nat with true by (destruct h; [congruence|reflexivity]).
        rewrite flush_ok by exact Hh. cbn [bind app].
        destruct (IH s (m_dst r) [tv r] Hg' G2 Hs) as (rs & st & E & H1 & H2 & H3 & H4); [discriminate|].
        cbn [snd fst]. rewrite E. cbn [bind snd fst app].
        eexists _, st. split; [reflexivity|]. split; [exact H1|]. split; [exact H2|].
        cbn [app map]. rewrite <- H3, <- H4. unfold edge_records, node_records. cbn [filter].
        rewrite (edge_is_edge (s, d, h)) by (cbn; lia). cbn [negb]. split; reflexivity.
    + rewrite Z.eqb_refl. cbn [negb andb].
      destruct (IH (m_src r) (m_dst r) (h ++ [tv r]) Hg' G2 G1) as (rs & st & E & H1 & H2 & H3 & H4).
      { intro X. apply app_eq_nil in X. destruct X. discriminate. }
      cbn [bind snd fst app]. rewrite E. cbn [bind snd fst app].
      eexists _, st. split; [reflexivity|]. split; [exact H1|]. split; [exact H2|].
      cbn [map]. rewrite <- H3, <- H4. unfold edge_records, node_records. cbn [app filter].
      replace (rdst (node_rec (m_src r)) =? -1) with true by reflexivity. cbn [negb]. split; reflexivity.
Qed.

Lemma iterator_segs file : rows_ok file ->
  exists r0 t rs, sort_rows file = r0 :: t /\ edge_iterator file = Ok rs /\
    edge_records rs = map raw_edge (segs (m_src r0) (m_dst r0) [tv r0] t) /\
    node_records rs = map student (m_src r0 :: heads (m_src r0) t) /\ hd_error rs = Some (node_rec (m_src r0)).
Proof.
  intros [Hn Hf]. destruct (sort_rows_spec file) as [Hs Hp].
  assert (Hg : Forall good (sort_rows file)).
  { apply Forall_forall. intros x Hx. rewrite Forall_forall in Hf. apply Hf. now apply (Permutation_in _ Hp). }
  unfold edge_iterator. destruct (sort_rows file) as [|r0 t] eqn:E.
  { apply Permutation_nil in Hp. congruence. }
  inversion Hg as [|? ? [G1 G2] Hg']; subst.
  cbn [mrun]. unfold mstep at 1. cbn [cur_src cur_dst feats].
  replace (m_src r0 =? -1) with false by lia. cbn [negb]. rewrite Z.eqb_refl. cbn [negb andb bind app snd fst].
  destruct (run_segs t (m_src r0) (m_dst r0) [tv r0] Hg' G2 G1) as (rs & st & Er & H1 & H2 & H3 & H4); [discriminate|].
  rewrite Er. cbn [bind snd fst app].
  exists r0, t.
  assert (Hd : exists q ql, rev (r0 :: t) = q :: ql /\ m_dst q = cur_dst st).
  { rewrite H1. unfold last_dst. cbn [rev]. destruct (rev t) as [|q ql]; [exists r0, []; split; reflexivity|].
    exists q, (ql ++ [r0]). split; reflexivity. }
  destruct Hd as (q & ql & Eq & Hq). rewrite Eq, Hq, flush_ok by exact H2. cbn [bind].
  eexists. split; [reflexivity|]. split; [reflexivity|].
  cbn [app]. unfold edge_records, node_records in *. cbn [filter].
  replace (rdst (node_rec (m_src r0)) =? -1) with true by reflexivity. cbn [negb map]. rewrite H3, H4. split; [reflexivity|split; reflexivity].
Qed.

(** ** Nothing is lost *)
Lemma segs_values rows : forall s d h, flat_map snd (segs s d h rows) = h ++ map (fun r => tv r) rows.
Proof.
  induction rows as [|r t IH]; intros s d h; [cbn; reflexivity|]. cbn [segs map].
  destruct (m_src r =? s); [destruct (m_dst r =? d)|]; cbn [flat_map snd]; rewrite IH; rewrite <- ?app_assoc; reflexivity.
Qed.
Lemma segs_nonempty rows : forall s d h, h <> [] -> Forall (fun x => snd x <> []) (segs s d h rows).
Proof.
  induction rows as [|r t IH]; intros s d h Hh; [repeat constructor; exact Hh|]. cbn [segs].
  assert (h ++ [tv r] <> []) by (intro X; apply app_eq_nil in X; destruct X; discriminate).
  destruct (m_src r =? s); [destruct (m_dst r =? d)|]; auto. constructor; [exact Hh|]. apply IH. discriminate.
Qed.

(** ** Counting *)
Fixpoint changes {A} (eqb : A -> A -> bool) (a : A) (l : list A) : nat :=
  match l with [] => 0%nat | b :: t => ((if eqb b a then 0 else 1) + changes eqb b t)%nat end.
Fixpoint grouped {A} (l : list A) : Prop :=
  match l with
  | [] => True
  | a :: t => match t with [] => True | b :: _ => b = a \/ ~ In a t end /\ grouped t
  end.
Lemma nodup_changes {A} (dec : forall a b : A, {a = b} + {a <> b}) eqb (He : forall a b, eqb a b = true <-> a = b) l :
  forall a, grouped (a :: l) -> length (nodup dec (a :: l)) = S (changes eqb a l).
Proof.
  induction l as [|b l IH]; intros a Hg; [reflexivity|]. destruct Hg as [H Hg].
  specialize (IH b Hg). cbn [changes]. cbn [nodup] in *.
  change (nodup dec (a :: b :: l)) with (if in_dec dec a (b :: l) then nodup dec (b :: l) else a :: nodup dec (b :: l)).
  destruct (eqb b a) eqn:E.
  - apply He in E. subst b. destruct (in_dec dec a (a :: l)) as [_|X]; [exact IH|]. elim X. now left.
  - assert (b <> a) by (intro X; apply He in X; congruence).
    destruct H as [H|H]; [contradiction|]. destruct (in_dec dec a (b :: l)); [contradiction|].
    cbn [length]. rewrite IH. lia.
Qed.
Lemma sorted_grouped {A} (dec : forall a b : A, {a = b} + {a <> b}) (f : mrow -> A) rows :
  StronglySorted key_le rows ->
  (forall a b c, key_le a b -> key_le b c -> f a = f c -> f b = f a) -> grouped (map f rows).
Proof.
  intros Hs Hf. induction Hs as [|a l Hs IH HF]; [exact I|]. cbn [map grouped]. split; [|exact IH].
  destruct l as [|b l]; [exact I|]. cbn [map].
  destruct (in_dec dec (f a) (f b :: map f l)) as [Hi|Hi]; [left|now right].
  destruct Hi as [Hi|Hi]; [exact Hi|]. apply in_map_iff in Hi. destruct Hi as (c & Ec & Hc).
  inversion Hs as [|? ? _ Hb]; subst. inversion HF as [|? ? Ha _]; subst. rewrite Forall_forall in Hb.
  apply (Hf a b c); [exact Ha|now apply Hb|congruence].
Qed.

Definition pair_eqb (a b : Z * Z) : bool := (fst a =? fst b) && (snd a =? snd b).
Lemma pair_eqb_eq a b : pair_eqb a b = true <-> a = b.
Proof. destruct a as [a1 a2], b as [b1 b2]. unfold pair_eqb. cbn. rewrite andb_true_iff, !Z.eqb_eq. split; [intros [-> ->]; reflexivity|intro E; inversion E; auto]. Qed.
Notation pr r := (m_src r, m_dst r).

Lemma segs_count rows : forall s d h,
  (length (segs s d h rows) + changes Z.eqb s (map m_src rows) = 1 + changes pair_eqb (s, d) (map (fun r => pr r) rows))%nat.
Proof.
  induction rows as [|r t IH]; intros s d h; [reflexivity|]. cbn [segs map changes]. unfold pair_eqb at 1. cbn [fst snd].
  destruct (m_src r =? s) eqn:Es; cbn [andb].
  - assert (m_src r = s) by lia. destruct (m_dst r =? d) eqn:Ed.
    + assert (m_dst r = d) by lia. specialize (IH s d (h ++ [tv r])).
      replace (m_src r) with s in * by lia. replace (m_dst r) with d in * by lia. lia.
    + cbn [length]. specialize (IH s (m_dst r) [tv r]). replace (m_src r) with s in * by lia. lia.
  - specialize (IH (m_src r) (m_dst r) (h ++ [tv r])). lia.
Qed.

Lemma nodup_perm {A} (dec : forall a b : A, {a = b} + {a <> b}) l l' : Permutation l l' -> Permutation (nodup dec l) (nodup dec l').
Proof.
  intro H. apply NoDup_Permutation; [apply NoDup_nodup|apply NoDup_nodup|].
  intro x. rewrite !nodup_In. split; apply Permutation_in; [exact H|now apply Permutation_sym].
Qed.

Lemma heads_nodup rows : forall s, grouped (s :: map m_src rows) ->
  Permutation (s :: heads s rows) (nodup Z.eq_dec (s :: map m_src rows)).
Proof.
  induction rows as [|r t IH]; intros s Hg; [cbn; reflexivity|]. destruct Hg as [H Hg]. cbn [map] in *.
  specialize (IH (m_src r) Hg). cbn [heads].
  change (nodup Z.eq_dec (s :: m_src r :: map m_src t)) with
    (if in_dec Z.eq_dec s (m_src r :: map m_src t) then nodup Z.eq_dec (m_src r :: map m_src t)
     else s :: nodup Z.eq_dec (m_src r :: map m_src t)).
  destruct (m_src r =? s) eqn:E.
  - assert (Es : m_src r = s) by lia. rewrite Es in IH at 1 2. rewrite IH.
    destruct (in_dec Z.eq_dec s (m_src r :: map m_src t)) as [_|X]; [reflexivity|]. elim X. now left.
  - destruct H as [H|H]; [lia|]. destruct (in_dec Z.eq_dec s (m_src r :: map m_src t)); [contradiction|].
    now apply perm_skip.
Qed.

Lemma sorted_sources rows : StronglySorted key_le rows -> grouped (map m_src rows).
Proof.
  intro H. apply (sorted_grouped Z.eq_dec m_src rows H). unfold key_le, key_ltb. intros. lia.
Qed.
Lemma sorted_pairs rows : StronglySorted key_le rows -> grouped (map (fun r => pr r) rows).
Proof.
  intro H. apply (sorted_grouped pair_dec (fun r => pr r) rows H). unfold key_le, key_ltb. intros a b c H1 H2 E. inversion E.
  f_equal; lia.
Qed.

Lemma iterator_counts file : rows_ok file ->
  exists rs, edge_iterator file = Ok rs /\ Permutation (node_records rs) (map student (sources file)) /\
    (length (edge_records rs) + length (sources file) = length (pairs file) + 1)%nat.
Proof.
  intro Hok. destruct (iterator_segs file Hok) as (r0 & t & rs & Es & Er & He & Hn & _).
  destruct (sort_rows_spec file) as [Hs Hp]. exists rs. split; [exact Er|].
  rewrite Es in Hs, Hp. pose proof (sorted_sources _ Hs) as G1. pose proof (sorted_pairs _ Hs) as G2. cbn [map] in G1, G2.
  split.
  - rewrite Hn. apply Permutation_map. rewrite (heads_nodup t (m_src r0) G1). unfold sources. apply nodup_perm.
    exact (Permutation_map m_src Hp).
  - rewrite He, map_length.
    assert (E1 : length (sources file) = S (changes Z.eqb (m_src r0) (map m_src t))).
    { rewrite <- (nodup_changes Z.eq_dec Z.eqb Z.eqb_eq (map m_src t) (m_src r0) G1).
      apply Permutation_length. unfold sources. apply nodup_perm. symmetry. exact (Permutation_map m_src Hp). }
    assert (E2 : length (pairs file) = S (changes pair_eqb (pr r0) (map (fun r => pr r) t))).
    { rewrite <- (nodup_changes pair_dec pair_eqb pair_eqb_eq (map (fun r => pr r) t) (pr r0) G2).
      apply Permutation_length. unfold pairs. apply nodup_perm. symmetry. exact (Permutation_map (fun r => pr r) Hp). }
    rewrite E1, E2. pose proof (segs_count t (m_src r0) (m_dst r0) [tv r0]). lia.
Qed.

(** ** Values *)
Lemma serialize_in_order h : serialize h = [in_order h].
Proof.
  unfold serialize, in_order, zeros, hist_header. replace (4 * (4 * length h + 3))%nat with (4 * (2 * (2 * length h + 1) + 1))%nat by lia.
  reflexivity.
Qed.
Lemma iterator_values file : rows_ok file ->
  exists rs hs, edge_iterator file = Ok rs /\
    Forall2 (fun h r => exists ts v t, h = (ts, v) :: t /\ rcreated r = Some ts /\ rfeats r = [Some (in_order h)]) hs (edge_records rs) /\
    Permutation (concat hs) (map (fun r => (m_ts r, m_val r)) file).
Proof.
  intro Hok. destruct (iterator_segs file Hok) as (r0 & t & rs & Es & Er & He & _).
  destruct (sort_rows_spec file) as [_ Hp]. rewrite Es in Hp.
  exists rs, (map snd (segs (m_src r0) (m_dst r0) [tv r0] t)). split; [exact Er|]. split.
  - rewrite He. pose proof (segs_nonempty t (m_src r0) (m_dst r0) [tv r0]) as Hne. specialize (Hne ltac:(discriminate)). clear He.
    induction (segs (m_src r0) (m_dst r0) [tv r0] t) as [|x l IH]; [constructor|].
    inversion Hne as [|? ? Hx Hl]; subst. cbn [map]. constructor; [|apply IH; exact Hl].
    destruct (snd x) as [|[ts v] tl] eqn:Ex; [congruence|]. exists ts, v, tl. split; [reflexivity|].
    unfold raw_edge, edge_rec. rewrite Ex. cbn [rcreated rfeats fst]. split; [reflexivity|]. rewrite serialize_in_order. reflexivity.
  - rewrite <- flat_map_concat_map, segs_values. exact (Permutation_map (fun r => tv r) Hp).
Qed.

(** ** One student *)
Lemma sorted_identity h : forall acc, StronglySorted (fun a b : Z * list N => fst a <= fst b) (acc ++ h) ->
  fold_left (fun acc x => insert_hist x acc) h acc = acc ++ h.
Proof.
  induction h as [|x h IH]; intros acc Hs; [now rewrite app_nil_r|]. cbn [fold_left].
  assert (E : insert_hist x acc = acc ++ [x]).
  { clear IH. induction acc as [|y acc IHa]; [reflexivity|]. cbn [app] in Hs. inversion Hs as [|? ? Hs' HF]; subst.
    cbn [insert_hist]. rewrite Forall_forall in HF. specialize (HF x ltac:(apply in_or_app; right; now left)).
    destruct (Z.ltb_spec (fst x) (fst y)) as [Hlt|_]; [lia|]. cbn [app]. f_equal. now apply IHa. }
  rewrite E. rewrite IH; rewrite <- app_assoc; [reflexivity|exact Hs].
Qed.
Lemma in_order_sorted h : StronglySorted (fun a b : Z * list N => fst a <= fst b) h -> in_order h = temporal_bytes h.
Proof.
  intro Hs. unfold temporal_bytes. cbv zeta. unfold sort_hist. rewrite (sorted_identity h []) by exact Hs. cbn [app].
  pose proof (serialize_in_order h) as E. unfold serialize in E. congruence.
Qed.

Lemma sorted_snoc (h : list (Z * list N)) y : StronglySorted (fun a b : Z * list N => fst a <= fst b) h ->
  (forall x, In x h -> fst x <= fst y) -> StronglySorted (fun a b : Z * list N => fst a <= fst b) (h ++ [y]).
Proof.
  induction 1 as [|x h Hs IH HF]; intro Hy; [repeat constructor|]. cbn [app]. constructor.
  - apply IH. intros z Hz. apply Hy. now right.
  - apply Forall_app. split; [exact HF|]. constructor; [|constructor]. apply Hy. now left.
Qed.
(** Invariant of the groups of one student. *)
Lemma segs_one rows : forall s d h,
  Forall (fun r => m_src r = s) rows -> StronglySorted key_le rows ->
  Forall (fun r => d <= m_dst r) rows ->
  (forall r x, In r rows -> m_dst r = d -> In x h -> fst x <= m_ts r) ->
  StronglySorted (fun a b : Z * list N => fst a <= fst b) h ->
  Forall (fun x => fst (fst x) = s /\ d <= snd (fst x) /\ StronglySorted (fun a b : Z * list N => fst a <= fst b) (snd x) /\
    snd x = (if snd (fst x) =? d then h else []) ++ interactions rows s (snd (fst x))) (segs s d h rows) /\
  NoDup (map fst (segs s d h rows)) /\
  (forall p, In p (map fst (segs s d h rows)) <-> In p ((s, d) :: map (fun r => pr r) rows)).
Proof.
  induction rows as [|r t IH]; intros s d h H1 H2 H3 H4 H5.
  - cbn [segs]. split; [|split].
    + constructor; [|constructor]. cbn [fst snd]. rewrite Z.eqb_refl. cbn. rewrite app_nil_r. repeat split; [lia|exact H5].
    + repeat constructor. intros [].
    + intro p. cbn. reflexivity.
  - inversion H1 as [|? ? E1 H1']; subst. inversion H2 as [|? ? H2' HF]; subst. inversion H3 as [|? ? D3 H3']; subst.
    cbn [segs]. rewrite Z.eqb_refl. destruct (m_dst r =? d) eqn:Ed.
    + assert (Er : m_dst r = d) by lia.
      destruct (IH (m_src r) d (h ++ [tv r]) H1' H2' H3') as (A & B & C).
      { intros q x Hq Hd Hx. apply in_app_or in Hx. destruct Hx as [Hx|[<-|[]]]; [apply (H4 q x); [now right|exact Hd|exact Hx]|].
        rewrite Forall_forall in HF. specialize (HF q Hq). rewrite Forall_forall in H1'. specialize (H1' q Hq).
        unfold key_le, key_ltb in HF. cbn [fst]. lia. }
      { apply sorted_snoc; [exact H5|]. intros x Hx. apply (H4 r x); [now left|exact Er|exact Hx]. }
      split; [|split].
      * eapply Forall_impl; [|exact A]. cbn beta. intros x (X1 & X2 & X3 & X4). repeat split; [exact X1|exact X2|exact X3|].
        rewrite X4. unfold interactions. cbn [filter]. rewrite Z.eqb_refl. cbn [andb].
        destruct (snd (fst x) =? d) eqn:Ex.
        -- replace (m_dst r =? snd (fst x)) with true by lia. cbn [map]. rewrite <- app_assoc. reflexivity.
        -- replace (m_dst r =? snd (fst x)) with false by lia. reflexivity.
      * exact B.
      * intro p. rewrite C. cbn [map In]. rewrite Er. tauto.
    + assert (Hlt : d < m_dst r) by lia.
      destruct (IH (m_src r) (m_dst r) [tv r] H1' H2') as (A & B & C).
      { apply Forall_forall. intros q Hq. rewrite Forall_forall in HF. specialize (HF q Hq).
        rewrite Forall_forall in H1'. specialize (H1' q Hq). unfold key_le, key_ltb in HF. lia. }
      { intros q x Hq Hd [<-|[]]. rewrite Forall_forall in HF. specialize (HF q Hq).
        rewrite Forall_forall in H1'. specialize (H1' q Hq). unfold key_le, key_ltb in HF. cbn [fst]. lia. }
      { repeat constructor. }
      assert (Hge : Forall (fun q => m_dst r <= m_dst q) t).
      { apply Forall_forall. intros q Hq. rewrite Forall_forall in HF. specialize (HF q Hq).
        rewrite Forall_forall in H1'. specialize (H1' q Hq). unfold key_le, key_ltb in HF. lia. }
      split; [|split].
      * constructor.
        -- cbn [fst snd]. rewrite Z.eqb_refl. repeat split; [lia|exact H5|]. unfold interactions. cbn [filter].
           rewrite Z.eqb_refl. replace (m_dst r =? d) with false by lia. cbn [andb].
           replace (filter (fun q => (m_src q =? m_src r) && (m_dst q =? d)) t) with (@nil mrow); [cbn; now rewrite app_nil_r|].
           symmetry. clear -Hge Hlt. induction Hge as [|q t Hq Ht IHt]; [reflexivity|]. cbn [filter].
           replace (m_dst q =? d) with false by lia. rewrite andb_false_r. exact IHt.
        -- eapply Forall_impl; [|exact A]. cbn beta. intros x (X1 & X2 & X3 & X4). repeat split; [exact X1|lia|exact X3|].
           rewrite X4. unfold interactions. cbn [filter]. rewrite Z.eqb_refl. cbn [andb].
           replace (snd (fst x) =? d) with false by lia. rewrite Z.eqb_sym.
           destruct (m_dst r =? snd (fst x)); reflexivity.
      * cbn [map fst]. constructor; [|exact B]. intro X. apply C in X. destruct X as [X|X]; [inversion X; lia|].
        apply in_map_iff in X. destruct X as (q & Eq & Hq). rewrite Forall_forall in Hge. specialize (Hge q Hq). inversion Eq. lia.
      * intro p. cbn [map fst In]. rewrite C. cbn [In]. tauto.
Qed.

Lemma raw_edge_with x : snd x <> [] -> StronglySorted (fun a b : Z * list N => fst a <= fst b) (snd x) ->
  edge_with (fst (fst x)) (snd (fst x)) (snd x) (raw_edge x).
Proof.
  intros Hn Hs. destruct (snd x) as [|[ts v] t] eqn:E; [congruence|]. exists ts, v, t. split; [reflexivity|].
  unfold raw_edge, edge_rec. rewrite E. rewrite serialize_in_order, in_order_sorted by exact Hs. reflexivity.
Qed.

Lemma perm_filter {A} (f : A -> bool) l l' : Permutation l l' -> Permutation (filter f l) (filter f l').
Proof.
  induction 1 as [|x l l' H IH|x y l|l1 l2 l3 H1 IH1 H2 IH2]; cbn; [constructor| | |now rewrite IH1].
  - destruct (f x); [now apply perm_skip|exact IH].
  - destruct (f x), (f y); try apply perm_swap; reflexivity.
Qed.
Lemma interactions_perm l l' s d : Permutation l l' -> Permutation (interactions l s d) (interactions l' s d).
Proof. intro H. unfold interactions. apply Permutation_map. now apply perm_filter. Qed.

Lemma single_source file : length (sources file) = 1%nat -> exists s, sources file = [s] /\ Forall (fun r => m_src r = s) file.
Proof.
  intro H. destruct (sources file) as [|s [|]] eqn:E; try discriminate. exists s. split; [reflexivity|]. apply Forall_forall. intros r Hr.
  assert (X : In (m_src r) (sources file)) by (unfold sources; apply nodup_In; now apply in_map).
  rewrite E in X. destruct X as [X|[]]. now symmetry.
Qed.

Lemma one_student file : rows_ok file -> length (sources file) = 1%nat ->
  exists rs, edge_iterator file = Ok rs /\ faithful file rs.
Proof.
  intros Hok H1. destruct (iterator_counts file Hok) as (rs & Er & Hn & _). exists rs. split; [exact Er|]. split; [exact Hn|].
  destruct (iterator_segs file Hok) as (r0 & t & rs' & Es & Er' & He & _). assert (rs' = rs) by congruence. subst rs'.
  destruct (sort_rows_spec file) as [Hs Hp]. rewrite Es in Hs, Hp.
  destruct (single_source file H1) as (s & _ & Hall).
  assert (Hall' : Forall (fun r => m_src r = s) (r0 :: t)).
  { apply Forall_forall. intros r Hr. rewrite Forall_forall in Hall. apply Hall. now apply (Permutation_in _ Hp). }
  inversion Hall' as [|? ? E0 Ht]; subst. inversion Hs as [|? ? Hs' HF]; subst.
  assert (Hk : forall q, In q t -> m_src q = m_src r0 /\ key_le r0 q).
  { intros q Hq. rewrite Forall_forall in Ht, HF. split; [now apply Ht|now apply HF]. }
  destruct (segs_one t (m_src r0) (m_dst r0) [tv r0] Ht Hs') as (A & B & C).
  { apply Forall_forall. intros q Hq. destruct (Hk q Hq). unfold key_le, key_ltb in *. lia. }
  { intros q x Hq Hd [<-|[]]. destruct (Hk q Hq). unfold key_le, key_ltb in *. cbn [fst]. lia. }
  { repeat constructor. }
  pose proof (segs_nonempty t (m_src r0) (m_dst r0) [tv r0] ltac:(discriminate)) as Hne.
  exists (segs (m_src r0) (m_dst r0) [tv r0] t). split; [|split].
  - apply NoDup_Permutation; [exact B|apply NoDup_nodup|]. intro p. rewrite C. unfold pairs. rewrite nodup_In.
    pose proof (Permutation_map (fun r => pr r) Hp) as Hm. cbn [map] in Hm.
    split; apply Permutation_in; [exact Hm|now apply Permutation_sym].
  - eapply Forall_impl; [|exact A]. cbn beta. intros x (X1 & X2 & X3 & X4). split; [|exact X3].
    rewrite <- (interactions_perm _ _ (fst (fst x)) (snd (fst x)) Hp). rewrite X4, X1. unfold interactions at 2. cbn [filter].
    rewrite Z.eqb_refl. cbn [andb]. rewrite Z.eqb_sym. destruct (m_dst r0 =? snd (fst x)); reflexivity.
  - rewrite He. clear -A Hne. induction A as [|x l (X1 & X2 & X3 & X4) Hl IH]; [constructor|].
    inversion Hne as [|? ? N1 N2]; subst. cbn [map]. constructor; [now apply raw_edge_with|now apply IH].
Qed.

Lemma forall2_length {A B} (P : A -> B -> Prop) l l' : Forall2 P l l' -> length l = length l'.
Proof. induction 1; cbn; congruence. Qed.
Lemma faithful_iff file : rows_ok file ->
  exists rs, edge_iterator file = Ok rs /\ (faithful file rs <-> length (sources file) = 1%nat).
Proof.
  intro Hok. destruct (iterator_counts file Hok) as (rs & Er & _ & Hc). exists rs. split; [exact Er|]. split.
  - intros (_ & hs & Hp & _ & H2). apply forall2_length in H2. apply Permutation_length in Hp. rewrite map_length in Hp. lia.
  - intro H1. destruct (one_student file Hok H1) as (rs' & Er' & Hf). congruence.
Qed.
