(** Temporal feature values. *)
From Verif Require Import Base WriterModel LoaderModel GraphModel GraphSpec FeatureModel FeatureSpec
  WriterProofs LoaderProofs GraphProofs ConvertProofs AnswerProofs SearchProofs FeatureProofs.
From Coq Require Import Sorting.Sorted Sorting.Permutation ZifyBool ZifyNat ZifyN.
Local Open Scope Z_scope.

(** ** The history is stored sorted *)
Lemma insert_hist_perm x h : Permutation (insert_hist x h) (x :: h).
Proof.
  induction h as [|y h IH]; [reflexivity|]. cbn. destruct (fst x <? fst y); [reflexivity|].
  rewrite IH. apply perm_swap.
Qed.
Lemma insert_hist_sorted x h :
  StronglySorted (fun a b : Z * list N => fst a <= fst b) h -> StronglySorted (fun a b => fst a <= fst b) (insert_hist x h).
Proof.
  induction 1 as [|y h Hs IH HF]; cbn; [repeat constructor|].
  destruct (Z.ltb_spec (fst x) (fst y)) as [H|H].
  - constructor; [now constructor|]. constructor; [lia|]. eapply Forall_impl; [|exact HF]. cbn. intros; lia.
  - constructor; [exact IH|]. apply Forall_forall. intros z Hz.
    apply (Permutation_in _ (insert_hist_perm x h)) in Hz. destruct Hz as [<-|Hz]; [lia|].
    rewrite Forall_forall in HF. now apply HF.
Qed.
Lemma sort_hist_from h : forall acc,
  StronglySorted (fun a b : Z * list N => fst a <= fst b) acc ->
  StronglySorted (fun a b : Z * list N => fst a <= fst b) (fold_left (fun acc x => insert_hist x acc) h acc) /\
  Permutation (fold_left (fun acc x => insert_hist x acc) h acc) (acc ++ h).
Proof.
  induction h as [|x h IH]; intros acc Ha; [rewrite app_nil_r; auto|]. cbn [fold_left].
  destruct (IH (insert_hist x acc) (insert_hist_sorted x acc Ha)) as [H1 H2]. split; [exact H1|].
  rewrite H2, insert_hist_perm. cbn. apply Permutation_middle.
Qed.
Lemma sort_hist_spec h :
  StronglySorted (fun a b => fst a <= fst b) (sort_hist h) /\ Permutation (sort_hist h) h.
Proof. apply (sort_hist_from h []). constructor. Qed.

Lemma hist_offsets_length h : forall pos, length (hist_offsets pos h) = S (length h).
Proof. induction h as [|x h IH]; intro pos; [reflexivity|]. cbn. now rewrite IH. Qed.

Lemma hist_offsets_nth h : forall pos k, (k <= length h)%nat ->
  nth_error (hist_offsets pos h) k = Some (pos + length (flat_map snd (firstn k h)))%nat.
Proof.
  induction h as [|x h IH]; intros pos k Hk.
  - destruct k; [cbn; f_equal; lia|cbn in Hk; lia].
  - destruct k as [|k]; [cbn; f_equal; lia|]. cbn [hist_offsets nth_error firstn flat_map].
    rewrite IH by (cbn in Hk; lia). rewrite app_length. f_equal. lia.
Qed.

Lemma hist_offsets_le h pos o : In o (hist_offsets pos h) -> (o <= pos + length (flat_map snd h))%nat.
Proof.
  intro H. apply In_nth_error in H. destruct H as (k & Hk).
  assert (Hl : (k < length (hist_offsets pos h))%nat) by (apply nth_error_Some; congruence).
  rewrite hist_offsets_length in Hl. rewrite hist_offsets_nth in Hk by lia. inversion Hk.
  rewrite <- (firstn_skipn k h) at 2. rewrite flat_map_app', app_length. lia.
Qed.

(** What a history has to satisfy to be representable. *)
Definition hist_ok (h : list (Z * list N)) : Prop :=
  h <> [] /\ (N.of_nat (length h) < 2 ^ 31)%N /\ Z.of_nat (length (temporal_bytes h)) < 2 ^ 63 /\
  Forall (fun x => - 2 ^ 63 <= fst x < 2 ^ 63) h.

Lemma temporal_bytes_length h :
  length (temporal_bytes h) = (hist_header (sort_hist h) + length (flat_map snd (sort_hist h)) + 8)%nat.
Proof.
  unfold temporal_bytes. rewrite !app_length. unfold cu32. rewrite le_length.
  rewrite !(flat_map_length_const 8) by (intros; apply zle_length).
  rewrite hist_offsets_length. unfold hist_header, zeros. rewrite repeat_length. lia.
Qed.

Lemma fields_zle l : fields 8 (flat_map (zle 8) l) = map (zle 8) l.
Proof. apply fields_flat_map; [lia|]. intro; apply zle_length. Qed.

Lemma temporal_at h t :
  hist_ok h -> forall a b,
  let data := a ++ temporal_bytes h ++ b in
  (none_yet t h /\ temporal_feature data (Z.of_nat (length a)) t = Ok (Z.of_nat (length a), 0, -1)) \/
  (exists x a' b', latest t h x /\ data = a' ++ snd x ++ b' /\
     temporal_feature data (Z.of_nat (length a)) t = Ok (Z.of_nat (length a'), Z.of_nat (length (snd x)), fst x)).
Proof.
  intros (Hne & Hlen & Hbytes & Hrange) a b data.
  destruct (sort_hist_spec h) as [Hsort Hperm].
  rewrite temporal_bytes_length in Hbytes.
  assert (Hl : length (sort_hist h) = length h) by now apply Permutation_length.
  assert (Hin : forall x, In x h <-> In x (sort_hist h)).
  { intro x. split; apply Permutation_in; [now symmetry|assumption]. }
  assert (Hrange' : Forall (fun x => - 2 ^ 63 <= fst x < 2 ^ 63) (sort_hist h)).
  { rewrite Forall_forall in *. intros x Hx. apply Hrange. now apply Hin. }
  remember (sort_hist h) as s eqn:Es.
  assert (Hs0 : (0 < length s)%nat) by (destruct h; [contradiction|cbn in *; lia]).
  set (n := length s) in *.
  set (times := map fst s). set (offs := map Z.of_nat (hist_offsets (hist_header s) s)).
  assert (D0 : data = a ++ cu32 n ++ (flat_map (zle 8) (times ++ offs) ++ flat_map snd s ++ zeros 8 ++ b)).
  { unfold data, temporal_bytes. rewrite <- Es, flat_map_app'. unfold times, offs. fold n.
    rewrite !flat_map_concat_map, !map_map, <- !flat_map_concat_map. rewrite <- !app_assoc. reflexivity. }
  assert (L4 : length (cu32 n) = 4%nat) by apply le_length.
  assert (Lidx : length (times ++ offs) = (2 * n + 1)%nat).
  { unfold times, offs. rewrite app_length, !map_length, hist_offsets_length. fold n. lia. }
  assert (Lraw : length (flat_map (zle 8) (times ++ offs)) = (8 * (2 * n + 1))%nat).
  { rewrite (flat_map_length_const 8) by (intros; apply zle_length). now rewrite Lidx. }
  assert (Hhead : hist_header s = (4 + 8 * (2 * n + 1))%nat) by (unfold hist_header; fold n; lia).
  unfold temporal_feature.
  rewrite (sread_ok data a (cu32 n) _ _ _ D0) by (rewrite ?L4; reflexivity). cbn [bind].
  assert (En : N.to_nat (unle (cu32 n)) = n).
  { unfold cu32. rewrite unle_le by (change (256 ^ N.of_nat 4)%N with (2 ^ 32)%N; lia). apply Nat2N.id. }
  rewrite En.
  assert (Hn : exists n', n = S n') by (destruct n; [lia|eauto]). destruct Hn as (n' & En').
  assert (Hm : forall (A : Type) (x y : A), match n with O => x | S _ => y end = y) by (intros; rewrite En'; reflexivity).
  rewrite Hm. clear Hm.
  assert (D1 : data = (a ++ cu32 n) ++ flat_map (zle 8) (times ++ offs) ++ (flat_map snd s ++ zeros 8 ++ b)).
  { rewrite D0, <- !app_assoc. reflexivity. }
  rewrite (sread_ok data (a ++ cu32 n) (flat_map (zle 8) (times ++ offs)) _ _ _ D1)
    by (rewrite ?app_length, ?L4, ?Lraw; lia).
  cbn [bind]. rewrite fields_zle.
  assert (Eidx : map (unzle 8) (map (zle 8) (times ++ offs)) = times ++ offs).
  { rewrite map_map. rewrite <- (map_id (times ++ offs)) at 2. apply map_ext_in. intros z Hz.
    apply unzle_zle; [lia|]. change (8 * Z.of_nat 8 - 1) with 63. apply in_app_or in Hz. destruct Hz as [Hz|Hz].
    - unfold times in Hz. apply in_map_iff in Hz. destruct Hz as (x & <- & Hx). rewrite Forall_forall in Hrange'. now apply Hrange'.
    - unfold offs in Hz. apply in_map_iff in Hz. destruct Hz as (o & <- & Ho). apply hist_offsets_le in Ho. lia. }
  rewrite Eidx.
  assert (Et : firstn n (times ++ offs) = times).
  { rewrite firstn_app. replace (n - length times)%nat with 0%nat by (unfold times; rewrite map_length; lia). cbn.
    rewrite app_nil_r. apply firstn_all2. unfold times. rewrite map_length. lia. }
  rewrite Et.
  destruct (bound_edges (fun x => x <? t) times) as (B1 & B2 & B3).
  set (pos0 := bound (fun x => x <? t) times) in *. clearbody pos0.
  assert (Ltimes : length times = n) by (unfold times; now rewrite map_length).
  assert (Gt : forall i x, nth_error s i = Some x -> get (times ++ offs) i = Ok (fst x)).
  { intros i x Hx. apply get_ok. rewrite nth_error_app1 by (rewrite Ltimes; apply nth_error_Some; congruence).
    unfold times. rewrite nth_error_map, Hx. reflexivity. }
  assert (Go : forall i, (i <= n)%nat -> get (times ++ offs) (n + i) = Ok (Z.of_nat (hist_header s + length (flat_map snd (firstn i s))))).
  { intros i Hi. rewrite <- Ltimes, get_app_r. apply get_ok. unfold offs. rewrite nth_error_map, hist_offsets_nth by assumption. reflexivity. }
  assert (Sorted_le : forall i j x y, (i <= j)%nat -> nth_error s i = Some x -> nth_error s j = Some y -> fst x <= fst y).
  { clear -Hsort. intros i j x y Hij Hi Hj. revert i j Hij Hi Hj. induction Hsort as [|z l Hs IH HF]; intros i j Hij Hi Hj.
    - destruct i; discriminate.
    - destruct i as [|i].
      + cbn in Hi. inversion Hi; subst. destruct j as [|j]; cbn in Hj; [inversion Hj; subst; lia|].
        apply nth_error_In in Hj. rewrite Forall_forall in HF. now apply HF.
      + destruct j as [|j]; [lia|]. cbn in Hi, Hj. apply (IH i j); [lia|assumption|assumption]. }
  (* the final step: entry [k] found *)
  assert (Fin : forall k x, nth_error s k = Some x -> fst x <= t ->
     (forall y, In y s -> fst y <= t -> fst y <= fst x) ->
     exists y a' b', latest t h y /\ data = a' ++ snd y ++ b' /\
      (do v <- get (times ++ offs) k;; do o <- get (times ++ offs) (n + k);; do o' <- get (times ++ offs) (n + k + 1);;
       Ok (Z.of_nat (length a) + o, u64 (o' - o), v)) = Ok (Z.of_nat (length a'), Z.of_nat (length (snd y)), fst y)).
  { intros k x Hk Hle Hmax.
    assert (Hkn : (k < n)%nat) by (apply nth_error_Some; congruence).
    destruct (nth_error_split s k Hk) as (s1 & s2 & Ess & Hs1).
    exists x, ((a ++ cu32 n ++ flat_map (zle 8) (times ++ offs)) ++ flat_map snd s1), (flat_map snd s2 ++ zeros 8 ++ b).
    split; [|split].
    - split; [apply Hin; eapply nth_error_In; eassumption|]. split; [assumption|]. intros y Hy. apply Hmax. now apply Hin.
    - rewrite D1. replace (flat_map snd s) with (flat_map snd s1 ++ snd x ++ flat_map snd s2)
        by (rewrite Ess, flat_map_app'; reflexivity). rewrite <- !app_assoc. reflexivity.
    - rewrite (Gt k x Hk). cbn [bind]. rewrite (Go k) by lia. cbn [bind].
      replace (n + k + 1)%nat with (n + (k + 1))%nat by lia. rewrite (Go (k + 1)%nat) by lia. cbn [bind].
      assert (F1 : firstn k s = s1) by (rewrite Ess, <- Hs1, firstn_app, firstn_all, Nat.sub_diag; cbn; apply app_nil_r).
      assert (F2 : firstn (k + 1) s = s1 ++ [x]).
      { rewrite Ess. replace (s1 ++ x :: s2) with ((s1 ++ [x]) ++ s2) by (now rewrite <- app_assoc).
        replace (k + 1)%nat with (length (s1 ++ [x])) by (rewrite app_length; cbn; lia).
        rewrite firstn_app, firstn_all, Nat.sub_diag. cbn. apply app_nil_r. }
      rewrite F1, F2, flat_map_app', app_length. cbn [flat_map]. rewrite app_nil_r.
      assert (Hfit : (length (flat_map snd s1) + length (snd x) <= length (flat_map snd s))%nat).
      { rewrite Ess, flat_map_app', app_length. cbn [flat_map]. rewrite app_length. lia. }
      f_equal. f_equal. f_equal.
      + rewrite !app_length, L4, Lraw. lia.
      + rewrite u64_small; lia. }
  destruct (Nat.eqb_spec pos0 n) as [Hp|Hp].
  - (* every entry is older than t *)
    destruct (nth_error s (pos0 - 1)) as [x|] eqn:Ex; [|apply nth_error_None in Ex; fold n in Ex; lia].
    assert (Hx : fst x < t).
    { specialize (B3 (pos0 - 1)%nat (fst x) ltac:(lia)). unfold times in B3. rewrite nth_error_map, Ex in B3.
      specialize (B3 eq_refl). lia. }
    rewrite (Gt _ _ Ex). cbn [bind].
    destruct (Z.ltb_spec t (fst x)); [lia|]. cbn [andb].
    destruct (Fin (pos0 - 1)%nat x Ex ltac:(lia)) as (y & a' & b' & Y1 & Y2 & Y3).
    + intros y Hy _. apply In_nth_error in Hy. destruct Hy as (j & Hj).
      apply (Sorted_le j (pos0 - 1)%nat); try assumption.
      assert ((j < length s)%nat) by (apply nth_error_Some; congruence). fold n in H0. lia.
    + right. exists y, a', b'. split; [assumption|]. split; [assumption|].
      exact Y3.
  - destruct (nth_error s pos0) as [x|] eqn:Ex; [|apply nth_error_None in Ex; fold n in Ex; lia].
    assert (Hx : t <= fst x).
    { specialize (B2 (fst x)). unfold times in B2. rewrite nth_error_map, Ex in B2. specialize (B2 eq_refl). lia. }
    rewrite (Gt _ _ Ex). cbn [bind].
    destruct (Z.ltb_spec t (fst x)) as [Hlt|Hge].
    + destruct (Nat.eqb_spec pos0 0) as [H0|H0]; cbn [andb].
      * left. split; [|reflexivity]. intros y Hy. apply Hin in Hy. apply In_nth_error in Hy. destruct Hy as (j & Hj).
        pose proof (Sorted_le pos0 j x y ltac:(lia) Ex Hj). lia.
      * destruct (nth_error s (pos0 - 1)) as [z|] eqn:Ez; [|apply nth_error_None in Ez; fold n in Ez; lia].
        assert (Hz : fst z < t).
        { specialize (B3 (pos0 - 1)%nat (fst z) ltac:(lia)). unfold times in B3. rewrite nth_error_map, Ez in B3.
          specialize (B3 eq_refl). lia. }
        destruct (Fin (pos0 - 1)%nat z Ez ltac:(lia)) as (y & a' & b' & Y1 & Y2 & Y3).
        -- intros y Hy Hyt. apply In_nth_error in Hy. destruct Hy as (j & Hj).
           destruct (Nat.le_gt_cases pos0 j) as [Hj2|Hj2].
           ++ pose proof (Sorted_le pos0 j x y Hj2 Ex Hj). lia.
           ++ apply (Sorted_le j (pos0 - 1)%nat); [lia|assumption|assumption].
        -- right. exists y, a', b'. auto.
    + cbn [andb]. destruct (Fin pos0 x Ex ltac:(lia)) as (y & a' & b' & Y1 & Y2 & Y3).
      * intros; lia.
      * right. exists y, a', b'. split; [assumption|]. split; [assumption|].
        exact Y3.
Qed.

(** ** Queries with timestamps *)

Definition entry_at (t : Z) (h : list (Z * list N)) : option (Z * list N) :=
  newest_from None (filter (fun x => fst x <=? t) h).

Lemma newest_none l : forall b, newest_from b l = None -> b = None /\ l = [].
Proof.
  induction l as [|x l IH]; intros b H; [auto|]. cbn in H. apply IH in H. destruct H as [H _].
  destruct b as [b|]; [destruct (fst b <? fst x)|]; discriminate.
Qed.

Lemma newest_some l : forall b y, newest_from b l = Some y ->
  (b = Some y \/ In y l) /\ (forall x, b = Some x \/ In x l -> fst x <= fst y).
Proof.
  induction l as [|x l IH]; intros b y H; cbn in H.
  - subst b. split; [now left|]. intros x [Hx|[]]. inversion Hx. lia.
  - apply IH in H. destruct H as [H1 H2]. destruct b as [b|].
    + destruct (Z.ltb_spec (fst b) (fst x)) as [Hlt|Hge].
      * split; [destruct H1 as [H1|H1]; [inversion H1; subst; right; now left|right; now right]|].
        intros z [Hz|[<-|Hz]]; [inversion Hz; subst z|now apply H2; left|now apply H2; right].
        pose proof (H2 x (or_introl eq_refl)). lia.
      * split; [destruct H1 as [H1|H1]; [now left|right; now right]|].
        intros z [Hz|[<-|Hz]]; [now apply H2; left| |now apply H2; right].
        pose proof (H2 b (or_introl eq_refl)). lia.
    + split; [destruct H1 as [H1|H1]; [inversion H1; subst; right; now left|right; now right]|].
      intros z [Hz|[<-|Hz]]; [discriminate|now apply H2; left|now apply H2; right].
Qed.

Lemma entry_at_spec t h :
  match entry_at t h with Some x => latest t h x | None => none_yet t h end.
Proof.
  unfold entry_at. destruct (newest_from None (filter (fun x => fst x <=? t) h)) as [x|] eqn:E.
  - apply newest_some in E. destruct E as [[H1|H1] H2]; [discriminate|]. apply filter_In in H1. destruct H1 as [H1 H3].
    split; [assumption|]. split; [lia|]. intros y Hy Ht. apply H2. right. apply filter_In. split; [assumption|lia].
  - apply newest_none in E. destruct E as [_ E]. intros y Hy. destruct (Z.leb_spec (fst y) t); [|lia].
    assert (In y []) by (rewrite <- E; apply filter_In; split; [assumption|lia]). contradiction.
Qed.

Lemma latest_unique t h x y : NoDup (map fst h) -> latest t h x -> latest t h y -> x = y.
Proof.
  intros Hd (X1 & X2 & X3) (Y1 & Y2 & Y3). assert (E : fst x = fst y) by (specialize (X3 y Y1 Y2); specialize (Y3 x X1 X2); lia).
  clear -Hd X1 Y1 E. induction h as [|z h IH]; [contradiction|]. cbn in Hd. inversion Hd as [|? ? Hn Hd']; subst.
  destruct X1 as [<-|X1], Y1 as [<-|Y1]; [reflexivity| | |now apply IH].
  - elim Hn. rewrite E. now apply in_map.
  - elim Hn. rewrite <- E. now apply in_map.
Qed.

(** Histories as stored values: [hist] explains the bytes of a stored value. *)
Definition explains (hist : list N -> list (Z * list N)) (v : option (list N)) : Prop :=
  let h := hist (bytes_of v) in
  hist_ok h /\ NoDup (map fst h) /\ Forall (fun x => 0 <= fst x) h /\ v = Some (temporal_bytes h).

Definition tlook (hist : list N -> list (Z * list N)) (t : Z) (v : option (list N)) : Z * list N :=
  match entry_at t (hist (bytes_of v)) with Some x => x | None => (-1, []) end.

Lemma tlook_resolves hist t v data : explains hist v -> resolves data (Some t) (tlook hist t) v.
Proof.
  intros (Hok & Hd & _ & Ev) a b ->. unfold tlook, resolve. cbn [fst snd].
  pose proof (entry_at_spec t (hist (bytes_of v))) as Hs.
  assert (Ef : fbytes v = temporal_bytes (hist (bytes_of v))) by (rewrite Ev at 1; reflexivity).
  destruct (temporal_at _ t Hok a b) as [[Hn Ht]|(x & a' & b' & Hx & Hdat & Ht)]; cbn zeta in Ht; rewrite <- Ef in *.
  - destruct (entry_at t (hist (bytes_of v))) as [y|].
    + destruct Hs as (Hy & Hle & _). specialize (Hn y Hy). lia.
    + exists a, (fbytes v ++ b). cbn. split; [reflexivity|]. exact Ht.
  - destruct (entry_at t (hist (bytes_of v))) as [y|].
    + pose proof (latest_unique _ _ _ _ Hd Hx Hs); subst y. exists a', b'. split; [assumption|]. exact Ht.
    + destruct Hx as (Hx & Hle & _). specialize (Hs x Hx). lia.
Qed.

(** The newest entry not after [t] among all values given, earlier record first on ties. *)
Definition spec_temporal (hist : list N -> list (Z * list N)) (t : Z) (vs : list (option (list N))) : option (Z * list N) :=
  newest_from None (flat_map (fun v => opt_list (entry_at t (hist (bytes_of v)))) vs).

Lemma picked_temporal hist t vs f :
  Forall (explains hist) vs ->
  picked (Some t) (tlook hist t) vs f =
  fixed (snd f) (match spec_temporal hist t vs with Some x => snd x | None => [] end).
Proof.
  unfold picked, spec_temporal.
  assert (H : forall vs x b, Forall (explains hist) vs ->
     match b with None => x = (-1, []) | Some y => x = (fst y, fixed (snd f) (snd y)) /\ 0 <= fst y <= t end ->
     let x' := fold_left (vstep (Some t) (tlook hist t) (snd f)) vs x in
     match newest_from b (flat_map (fun v => opt_list (entry_at t (hist (bytes_of v)))) vs) with
     | None => x' = (-1, []) | Some y => x' = (fst y, fixed (snd f) (snd y)) /\ 0 <= fst y <= t end).
  { clear vs. induction vs as [|v vs IH]; intros x b HF Hb; [exact Hb|]. inversion HF as [|? ? Hv HF']; subst.
    cbn [fold_left flat_map].
    assert (Hy : forall y, entry_at t (hist (bytes_of v)) = Some y -> 0 <= fst y <= t).
    { intros y Hy. pose proof (entry_at_spec t (hist (bytes_of v))) as Hs. rewrite Hy in Hs. destruct Hs as (Hs1 & Hs2 & _).
      destruct Hv as (_ & _ & Hp & _). rewrite Forall_forall in Hp. specialize (Hp y Hs1). lia. }
    assert (Ev : vstep (Some t) (tlook hist t) (snd f) x v =
       if fst x =? t then x
       else let y := match entry_at t (hist (bytes_of v)) with Some y => y | None => (-1, []) end in
            if fst y <=? fst x then x else (fst y, fixed (snd f) (snd y))) by reflexivity.
    rewrite Ev. clear Ev. cbn zeta.
    destruct (entry_at t (hist (bytes_of v))) as [y|]; cbn [opt_list app newest_from fst snd].
    - specialize (Hy y eq_refl). apply IH; [assumption|]. destruct b as [b|].
      + destruct Hb as [-> Hb]. cbn [fst snd].
        destruct (Z.eqb_spec (fst b) t) as [E|E].
        * destruct (Z.ltb_spec (fst b) (fst y)); [lia|]. split; [reflexivity|lia].
        * destruct (Z.ltb_spec (fst b) (fst y)); destruct (Z.leb_spec (fst y) (fst b)); try lia; split; auto; lia.
      + subst x. cbn [fst snd]. destruct (Z.eqb_spec (-1) t); [lia|]. destruct (Z.leb_spec (fst y) (-1)); [lia|]. split; [reflexivity|lia].
    - apply IH; [assumption|]. destruct b as [b|].
      + destruct Hb as [-> Hb]. cbn [fst snd]. destruct (fst b =? t); [auto|]. destruct (Z.leb_spec (-1) (fst b)); [auto|lia].
      + subst x. cbn [fst snd]. destruct (-1 =? t); reflexivity. }
  intro HF. specialize (H vs (-1, []) None HF eq_refl). cbn zeta in H.
  destruct (newest_from None _) as [y|].
  - destruct H as [-> Hy]. unfold filled. cbn [fst snd]. destruct (Z.leb_spec 0 (fst y)); [reflexivity|lia].
  - rewrite H. unfold filled. cbn. symmetry. apply fixed_nil.
Qed.

Section TemporalGraph.
Variables (fadd : N -> N -> N) (wval : N -> Z).

Theorem converted_node_features_ts wm parts g nodes fs ts hist :
  converted fadd wval wm parts g -> Forall (fun f => int32 (fst f)) fs ->
  (forall n f v, In n nodes -> In f (map fst fs) -> In v (node_values parts n f) -> explains hist v) ->
  node_features g nodes fs (Some ts) =
  Ok (map (fun x => concat (map (fun f => fixed (snd f)
                 (match spec_temporal hist (snd x) (node_values parts (fst x) (fst f)) with Some y => snd y | None => [] end)) fs))
          (combine nodes ts)).
Proof.
  intros C Hi He. unfold node_features, per_elem. apply mapM_pure. intros [n t] Hin. cbn [fst snd].
  apply in_combine_l in Hin.
  rewrite (g_node_feature_spec fadd wval wm parts g fs (Some t) n _ (tlook hist t) C Hi).
  - f_equal. f_equal. apply map_ext_in. intros f Hf. apply picked_temporal. apply Forall_forall. intros v Hv.
    eapply (He n (fst f)); [assumption|now apply in_map|assumption].
  - unfold zeros. apply repeat_length.
  - intros f v data Hf Hv. apply tlook_resolves. eapply (He n (fst f)); [assumption|now apply in_map|assumption].
Qed.
End TemporalGraph.
