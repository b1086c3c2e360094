(** The queue keeps a selection of the latest edges. *)
From Verif Require Import Base WriterModel LoaderModel GraphModel GraphSpec WriterProofs LoaderProofs QueryProofs GraphProofs ConvertProofs AnswerProofs LastNModel CountProofs.
From Coq Require Import Sorting.Sorted Permutation ZifyBool ZifyNat ZifyN.
Local Open Scope Z_scope.

Definition created (x : nbr) : Z := snd x.

(** [kept] are [count] latest of [all] (all of them when there are fewer). *)
Definition latest_of (count : nat) (all kept : list nbr) : Prop :=
  length kept = Nat.min count (length all) /\
  exists dropped, Permutation all (kept ++ dropped) /\
    forall x y, In x kept -> In y dropped -> created y <= created x.

Definition marks (K : list nbr) : list (Z * nat) := combine (map created K) (seq 0 (length K)).

Lemma combine_app' {A B} (a1 a2 : list A) (b1 b2 : list B) : length a1 = length b1 ->
  combine (a1 ++ a2) (b1 ++ b2) = combine a1 b1 ++ combine a2 b2.
Proof. revert b1; induction a1 as [|x a1 IH]; intros [|y b1] H; try discriminate; [reflexivity|]. cbn. rewrite IH by (cbn in H; lia). reflexivity. Qed.

Lemma marks_mid K1 x K2 : marks (K1 ++ x :: K2) =
  combine (map created K1) (seq 0 (length K1)) ++ (created x, length K1) :: combine (map created K2) (seq (S (length K1)) (length K2)).
Proof.
  unfold marks. rewrite map_app, app_length, seq_app, combine_app' by (now rewrite map_length, seq_length). reflexivity.
Qed.

Lemma marks_snoc K x : marks (K ++ [x]) = marks K ++ [(created x, length K)].
Proof. rewrite marks_mid. reflexivity. Qed.

Lemma marks_in K c pos : In (c, pos) (marks K) -> exists K1 x K2, K = K1 ++ x :: K2 /\ length K1 = pos /\ created x = c.
Proof.
  intro H. assert (Hp : (pos < length K)%nat).
  { unfold marks in H. apply in_combine_r in H. apply in_seq in H. lia. }
  destruct (nth_error K pos) as [x|] eqn:E; [|apply nth_error_None in E; lia].
  apply nth_error_split in E. destruct E as (K1 & K2 & -> & L). exists K1, x, K2. split; [reflexivity|]. split; [assumption|].
  rewrite marks_mid in H. apply in_app_or in H. destruct H as [H|[H|H]].
  - apply in_combine_r in H. apply in_seq in H. lia.
  - now inversion H.
  - apply in_combine_r in H. apply in_seq in H. lia.
Qed.

Lemma marks_of K x : In x K -> exists pos, In (created x, pos) (marks K).
Proof.
  intro H. apply in_split in H. destruct H as (K1 & K2 & ->). exists (length K1). rewrite marks_mid. apply in_or_app. right. now left.
Qed.

Lemma marks_length K : length (marks K) = length K.
Proof. unfold marks. rewrite combine_length, map_length, seq_length. lia. Qed.

(** The queue is ascending. *)
Definition le_pair (a b : Z * nat) : Prop := pair_lt b a = false.
Lemma emplace_perm x q : Permutation (emplace x q) (x :: q).
Proof.
  induction q as [|y q IH]; cbn; [reflexivity|]. destruct (pair_lt y x); [|reflexivity].
  rewrite IH. apply perm_swap.
Qed.
Lemma emplace_sorted x q : StronglySorted le_pair q -> StronglySorted le_pair (emplace x q).
Proof.
  induction 1 as [|y q Hs IH Hf]; cbn; [repeat constructor|].
  destruct (pair_lt y x) eqn:E.
  - constructor; [assumption|]. apply Forall_forall. intros z Hz. apply (Permutation_in _ (emplace_perm x q)) in Hz.
    destruct Hz as [<-|Hz]; [unfold le_pair, pair_lt in *; lia|]. rewrite Forall_forall in Hf. now apply Hf.
  - constructor; [now constructor|]. constructor; [exact E|].
    eapply Forall_impl; [|exact Hf]. intros z Hz. unfold le_pair, pair_lt in *. lia.
Qed.

Definition QInv (count : nat) (all : list nbr) (st : list (Z * nat) * list nbr) : Prop :=
  let '(q, out) := st in
  length out = count /\ StronglySorted le_pair q /\ length q = Nat.min count (length all) /\
  Permutation q (marks (firstn (length q) out)) /\
  exists dropped, Permutation all (firstn (length q) out ++ dropped) /\
    forall x y, In x (firstn (length q) out) -> In y dropped -> created y <= created x.

Lemma firstn_len {A} (l : list A) n : (n <= length l)%nat -> length (firstn n l) = n.
Proof. intro H. rewrite firstn_length. lia. Qed.

Lemma front {A} (K1 K2 D : list A) a : Permutation ((K1 ++ a :: K2) ++ D) (a :: (K1 ++ K2) ++ D).
Proof. rewrite <- app_assoc, <- (app_assoc K1 K2). cbn. symmetry. apply Permutation_middle. Qed.

Lemma push_inv count all x st : (0 < count)%nat -> QInv count all st ->
  exists st', lastn_push count x st = Ok st' /\ QInv count (all ++ [x]) st'.
Proof.
  intros Hc. destruct st as [q out]. intros (Hlen & Hsort & Hq & Hmarks & dropped & Hperm & Hle).
  unfold lastn_push. destruct (Nat.eqb_spec (length q) count) as [Hfull|Hnot].
  - destruct q as [|[c0 p0] q']; [cbn in Hfull; lia|]. cbn [fst snd].
    rewrite Hfull in *. rewrite (firstn_all2 (n := count) out) in * by lia.
    pose proof (Permutation_in _ Hmarks (or_introl eq_refl)) as Hin.
    destruct (marks_in _ _ _ Hin) as (K1 & old & K2 & HK & Hp & Hco).
    assert (Hmin : forall y, In y out -> c0 <= created y).
    { intros y Hy. destruct (marks_of _ _ Hy) as (pos & Hpos). apply (Permutation_in _ (Permutation_sym Hmarks)) in Hpos.
      destruct Hpos as [E|Hpos]; [inversion E; lia|].
      apply StronglySorted_inv in Hsort. destruct Hsort as [_ Hf]. rewrite Forall_forall in Hf. specialize (Hf _ Hpos).
      unfold le_pair, pair_lt in Hf. cbn [fst snd] in Hf. lia. }
    fold (created x). destruct (Z.leb_spec (created x) c0) as [Hskip|Hnew].
    + exists ((c0, p0) :: q', out). split; [reflexivity|]. unfold QInv. rewrite Hfull, (firstn_all2 (n := count) out) by lia.
      split; [assumption|]. split; [assumption|]. split; [rewrite app_length; cbn; lia|]. split; [assumption|].
      exists (x :: dropped). split.
      * rewrite Hperm. rewrite <- app_assoc. apply Permutation_app_head. rewrite <- Permutation_cons_append. reflexivity.
      * intros u v Hu [<-|Hv]; [specialize (Hmin u Hu); lia|now apply Hle].
    + assert (Hst : store out p0 x = Ok (K1 ++ x :: K2)).
      { unfold store. rewrite HK, app_length. cbn [length]. replace (p0 <? length K1 + S (length K2))%nat with true by lia.
        subst p0. f_equal. f_equal.
        - now rewrite firstn_app, Nat.sub_diag, firstn_all, firstn_O, app_nil_r.
        - f_equal. replace (K1 ++ old :: K2) with ((K1 ++ [old]) ++ K2) by (now rewrite <- app_assoc).
          replace (S (length K1)) with (length (K1 ++ [old])) by (rewrite app_length; cbn; lia).
          now rewrite skipn_app, Nat.sub_diag, skipn_all. }
      rewrite Hst. cbn [bind]. exists (emplace (created x, p0) q', K1 ++ x :: K2). split; [reflexivity|].
      assert (Hlq : length (emplace (created x, p0) q') = count).
      { rewrite (Permutation_length (emplace_perm _ _)). exact Hfull. }
      assert (Hlo : length (K1 ++ x :: K2) = count).
      { rewrite HK in Hlen. rewrite app_length in *. exact Hlen. }
      unfold QInv. rewrite Hlq, (firstn_all2 (n := count)) by lia.
      apply StronglySorted_inv in Hsort. destruct Hsort as [Hsort _].
      split; [assumption|]. split; [now apply emplace_sorted|]. split; [rewrite app_length; cbn; lia|]. split.
      * rewrite emplace_perm. rewrite marks_mid, Hp. rewrite HK, marks_mid, Hp, Hco in Hmarks.
        apply Permutation_cons_app. eapply Permutation_cons_app_inv. exact Hmarks.
      * exists (old :: dropped). split.
        -- rewrite Hperm, HK, <- Permutation_cons_append, !front. apply perm_skip.
           rewrite <- !app_assoc. rewrite (app_assoc K1 K2 (old :: dropped)), (app_assoc K1 K2 dropped). apply Permutation_middle.
        -- intros u v Hu Hv. assert (Hu' : In u out \/ u = x).
           { rewrite HK. apply in_app_or in Hu. destruct Hu as [Hu|[Hu|Hu]].
             - left. apply in_or_app. now left.
             - right. now symmetry.
             - left. apply in_or_app. right. now right. }
           destruct Hv as [<-|Hv].
           ++ destruct Hu' as [Hu'|Hu']; [specialize (Hmin u Hu'); lia|subst u; lia].
           ++ destruct Hu' as [Hu'|Hu']; [now apply Hle|]. subst u. specialize (Hle old v).
              assert (In old out) by (rewrite HK; apply in_or_app; right; now left). specialize (Hle H Hv). lia.
  - assert (Hsmall : (length q = length all)%nat) by lia.
    assert (Hd : dropped = []).
    { apply Permutation_length in Hperm. rewrite app_length, firstn_len in Hperm by lia. destruct dropped; [reflexivity|cbn in Hperm; lia]. }
    subst dropped. rewrite app_nil_r in Hperm.
    assert (Hst : store out (length q) x = Ok (firstn (length q) out ++ x :: skipn (S (length q)) out)).
    { unfold store. replace (length q <? length out)%nat with true by lia. reflexivity. }
    fold (created x). rewrite Hst. cbn [bind]. eexists. split; [reflexivity|].
    assert (Hlq : length (emplace (created x, length q) q) = S (length q)) by (rewrite (Permutation_length (emplace_perm _ _)); reflexivity).
    assert (Hf : firstn (S (length q)) (firstn (length q) out ++ x :: skipn (S (length q)) out) = firstn (length q) out ++ [x]).
    { rewrite firstn_app, firstn_len by lia. rewrite firstn_firstn. replace (Nat.min (S (length q)) (length q)) with (length q) by lia.
      replace (S (length q) - length q)%nat with 1%nat by lia. reflexivity. }
    unfold QInv. rewrite Hlq, Hf. split; [|split; [|split; [|split]]].
    + rewrite app_length. cbn [length]. rewrite firstn_len by lia. rewrite skipn_length. lia.
    + now apply emplace_sorted.
    + rewrite app_length. cbn. lia.
    + rewrite emplace_perm, marks_snoc, firstn_len by lia. rewrite <- Permutation_cons_append. now constructor.
    + exists []. rewrite app_nil_r. split; [now apply Permutation_app_tail|intros ? ? _ []].
Qed.

Lemma foldR_app {A St} (f : A -> St -> res St) l1 l2 s : foldR f (l1 ++ l2) s = do s' <- foldR f l1 s ;; foldR f l2 s'.
Proof. revert s; induction l1 as [|a l1 IH]; intro s; cbn; [reflexivity|]. destruct (f a s); cbn; [apply IH|reflexivity]. Qed.

Lemma fold_push count xs : (0 < count)%nat -> forall all st, QInv count all st ->
  exists st', foldR (lastn_push count) xs st = Ok st' /\ QInv count (all ++ xs) st'.
Proof.
  intro Hc. induction xs as [|x xs IH]; intros all st H.
  - exists st. rewrite app_nil_r. auto.
  - cbn [foldR]. destruct (push_inv count all x st Hc H) as (st1 & E & H1). rewrite E. cbn [bind].
    destruct (IH _ _ H1) as (st2 & E2 & H2). exists st2. rewrite <- app_assoc in H2. auto.
Qed.

Lemma foldR_seq {A St} (F : nat -> St -> res St) (G : A -> St -> res St) (l : list A) : forall s k,
  (forall j x, nth_error l j = Some x -> forall st, F (k + j)%nat st = G x st) ->
  foldR F (seq k (length l)) s = foldR G l s.
Proof.
  induction l as [|a l IH]; intros s k H; [reflexivity|]. cbn [length seq foldR].
  rewrite <- (Nat.add_0_r k) at 1. rewrite (H 0%nat a eq_refl). destruct (G a s); cbn [bind]; [|reflexivity].
  apply IH. intros j x Hj st. rewrite <- (H (S j) x Hj). f_equal. lia.
Qed.

Lemma foldR_filter {A B St} (ok : A -> bool) (k : A -> B) (f : B -> St -> res St) l s :
  foldR (fun a st => if ok a then f (k a) st else Ok st) l s = foldR f (map k (filter ok l)) s.
Proof.
  revert s; induction l as [|a l IH]; intro s; [reflexivity|]. cbn [foldR filter]. destruct (ok a); cbn [map foldR bind].
  - destruct (f (k a) s); cbn [bind]; [apply IH|reflexivity].
  - apply IH.
Qed.

Section Rows.
Variables fadd fsub : N -> N -> N.
Variable wval : N -> Z.

(** The condition of LastNCreatedNeighbors: unlike [alive], an edge removed exactly at [t]
    still counts. *)
Definition still (t : Z) (e : edge) : bool := (e_c e <=? t) && ((e_r e =? -1) || (t <=? e_r e)).
Lemma lastn_skip_still t e : lastn_skip (e_c e, e_r e) t = negb (still t e).
Proof. unfold lastn_skip, still. cbn [fst snd]. lia. Qed.

Lemma lastn_group_spec m tmp rws pre g post t count st :
  (0 <=? lm_watermark m) && tmp = true ->
  all_runs rws = pre ++ g :: post ->
  lastn_group fsub (part_of fadd m tmp rws) t count (sum (map glen pre), (sum (map glen pre) + glen g)%nat, length pre) st =
  foldR (lastn_push count) (map nbr_ts_of (filter (fun x => still t (fst x)) (gedges fadd fsub g))) st.
Proof.
  intros Hwm Hr. unfold lastn_group.
  replace (sum (map glen pre) + glen g - sum (map glen pre))%nat with (length (gedges fadd fsub g))
    by (rewrite gedges_length; lia).
  rewrite <- (foldR_filter (fun x : edge * N => still t (fst x)) nbr_ts_of (lastn_push count)).
  apply foldR_seq. intros j [e w] Hj st'.
  destruct (group_reads fadd fsub m tmp rws pre g post j e w Hr Hj) as (Hd & Hw & Hts).
  rewrite (Hts Hwm). cbn [bind]. rewrite lastn_skip_still. cbn [fst]. destruct (still t e); [|reflexivity]. cbn [negb].
  rewrite Hd. cbn [bind]. rewrite (group_type fadd m tmp rws pre g post Hr). cbn [bind]. rewrite Hw. cbn [bind].
  unfold nbr_ts_of. cbn [fst snd].
  assert (Ht : e_typ e = fst g).
  { pose proof (all_runs_ok rws) as Ho. rewrite Hr in Ho. apply Forall_app in Ho. destruct Ho as [_ Ho].
    inversion Ho as [|? ? [_ Hg] _]; subst. apply (gedges_typ fadd fsub) in Hg. rewrite Forall_forall in Hg.
    apply (Hg (e, w)). eapply nth_error_In; eassumption. }
  now rewrite Ht.
Qed.

Lemma lastn_partition_spec m tmp r1 r r2 T t count st :
  (0 <=? lm_watermark m) && tmp = true ->
  StronglySorted Z.le (map e_typ (row_edges r)) -> StronglySorted Z.lt T ->
  row_gap_free T r -> row_exact fadd fsub r ->
  lastn_partition fsub (part_of fadd m tmp (r1 ++ r :: r2)) (length r1) t T count st =
  foldR (lastn_push count) (map edge_nbr_ts (filter (still t) (filter (fun e => mem (e_typ e) T) (row_edges r)))) st.
Proof.
  intros Hwm Hs HT Hg Hx. unfold lastn_partition. rewrite nii_spec. cbn [bind].
  set (V := visit akey (length (row_runs r)) T (row_ann r1 r)).
  assert (HV : map snd V = visited r T) by (unfold V, visited, row_ann; apply visit_ann).
  assert (H : forall st, foldR (lastn_group fsub (part_of fadd m tmp (r1 ++ r :: r2)) t count) (map apos V) st =
    foldR (lastn_push count) (flat_map (fun g => map nbr_ts_of (filter (fun x => still t (fst x)) (gedges fadd fsub g))) (map snd V)) st).
  { assert (HI : forall a, In a V -> In a V) by auto. revert HI. generalize V at 1 3 4. intro W.
    induction W as [|a W IH]; intros HI st'; [reflexivity|]. cbn [map foldR flat_map]. rewrite foldR_app.
    destruct (visited_pos r1 r r2 T a (HI a (or_introl eq_refl))) as (pre & post & Hr & ->).
    rewrite (lastn_group_spec m tmp _ pre (snd a) post t count st' Hwm Hr).
    destruct (foldR (lastn_push count) _ st'); cbn [bind]; [|reflexivity].
    apply IH. intros; apply HI; now right. }
  rewrite H, HV, (visited_filter r T Hs HT Hg). f_equal.
  rewrite (flat_map_map_in _ (fun g => filter (still t) (snd g)) edge_nbr_ts).
  - f_equal. rewrite <- runs_filter. unfold row_runs.
    generalize (filter (fun g => mem (fst g) T) (runs (row_edges r))). intro l.
    induction l as [|g l IH]; cbn; [reflexivity|]. now rewrite filter_app, IH.
  - intros g Hin. apply filter_In in Hin. destruct Hin as [Hin _].
    rewrite (gedges_exact fadd fsub r g Hs Hx Hin). clear. induction (snd g) as [|e l IH]; cbn; [reflexivity|].
    destruct (still t e); cbn; now rewrite IH.
Qed.

Lemma foldR_places P n rwss (count : nat) t T (h : row -> list nbr) st :
  (forall rws r1 r r2, In rws rwss -> rws = r1 ++ r :: r2 -> row_id r = n ->
     forall st, lastn_partition fsub (P rws) (length r1) t T count st = foldR (lastn_push count) (h r) st) ->
  foldR (fun x st => lastn_partition fsub (fst x) (snd x) t T count st) (places P n rwss) st =
  foldR (lastn_push count) (flat_map h (node_rows n rwss)) st.
Proof.
  intro H. revert st. unfold places, node_rows. induction rwss as [|rws rwss IH]; intro st; [reflexivity|].
  cbn [map concat flat_map]. rewrite filter_app, flat_map_app', !foldR_app.
  assert (E : forall st, foldR (fun x st => lastn_partition fsub (fst x) (snd x) t T count st)
               (map (fun x => (P rws, fst x)) (filter (fun x => row_id (snd x) =? n) (indexed rws))) st =
              foldR (lastn_push count) (flat_map h (filter (fun r => row_id r =? n) rws)) st).
  { intro st'. rewrite <- (filter_indexed (fun r => row_id r =? n) rws).
    assert (HI : forall i r, In (i, r) (indexed rws) -> row_id r = n ->
        forall st, lastn_partition fsub (P rws) i t T count st = foldR (lastn_push count) (h r) st).
    { intros i r Hir Hn. destruct (indexed_split rws i r Hir) as (l1 & l2 & El & ->).
      apply (H rws l1 r l2); [now left|assumption|assumption]. }
    revert HI. generalize (indexed rws). intro L. revert st'. induction L as [|[i r] L IHL]; intros st' HI; [reflexivity|].
    cbn [filter snd]. destruct (Z.eqb_spec (row_id r) n) as [En|En].
    - cbn [map foldR flat_map fst snd]. rewrite foldR_app, (HI i r (or_introl eq_refl) En).
      destruct (foldR (lastn_push count) (h r) st'); cbn [bind]; [|reflexivity]. apply IHL. intros; apply HI; [now right|assumption].
    - apply IHL. intros; apply HI; [now right|assumption]. }
  rewrite E. destruct (foldR (lastn_push count) _ st) as [s'|]; cbn [bind]; [|reflexivity].
  apply IH. intros rws' r1 r r2 Hin. apply H. now right.
Qed.

Lemma node_lastn w parts g types count default init n t :
  0 <= w -> (0 < count)%nat -> length init = count -> converted fadd wval (Some w) parts g -> guarded fadd fsub types parts ->
  exists kept, g_lastn fsub g (make_sorted_list types) count default init n t = Ok (kept ++ repeat default (count - length kept)) /\
    latest_of count (map answer_ts (filter (still t) (spec_edges parts types n))) kept.
Proof.
  intros Hw Hc Hi C HG. destruct (converted_rows fadd wval _ parts g C) as (m & Hg & HF & Hm).
  set (h := fun r => map edge_nbr_ts (filter (still t) (filter (fun e => mem (e_typ e) types) (row_edges r)))).
  assert (Hall : flat_map h (node_rows n (map rows parts)) = map answer_ts (filter (still t) (spec_edges parts types n))).
  { unfold spec_edges. rewrite <- (node_rows_edges (fun e => mem (e_typ e) types) parts n HF).
    induction (node_rows n (map rows parts)) as [|r l IH]; [reflexivity|]. cbn [flat_map]. rewrite !filter_app, map_app.
    now rewrite IH. }
  unfold g_lastn. rewrite Hg. cbn [bind]. unfold lookup, found.
  assert (Hf := foldR_places (part_of fadd m true) n (map rows parts) count t (make_sorted_list types) h ([], init)).
  pose proof (places_nil (part_of fadd m (is_temporal (Some w))) n (map rows parts)) as Hn. cbn [is_temporal] in *.
  destruct (places (part_of fadd m true) n (map rows parts)) as [|o os].
  - rewrite <- Hall, (proj1 Hn eq_refl). exists []. cbn [length app flat_map]. rewrite Nat.sub_0_r. split; [reflexivity|].
    split; [cbn; lia|]. exists []. split; [reflexivity|intros ? ? []].
  - rewrite Hf; clear Hf.
    + destruct (fold_push count (flat_map h (node_rows n (map rows parts))) Hc [] ([], init)) as ([q out] & E & HQ).
      { cbn. split; [assumption|]. split; [constructor|]. split; [lia|]. split; [reflexivity|]. exists []. split; [reflexivity|intros ? ? []]. }
      rewrite E. cbn [bind fst snd]. destruct HQ as (Hlen & _ & Hq & _ & dropped & Hp & Hle). cbn [app] in *.
      exists (firstn (length q) out). rewrite firstn_len by lia. split; [reflexivity|]. rewrite <- Hall. split; [rewrite firstn_len; lia|].
      exists dropped. auto.
    + intros rws r1 r r2 Hin Er Hrn st. destruct (row_in_part _ _ _ _ _ Hin Er HF) as [Hs _].
      destruct (guard_row fadd fsub types parts rws r1 r r2 HG Hin Er) as [H1 H2]. rewrite Er.
      rewrite (lastn_partition_spec m true r1 r r2 _ t count st); try assumption.
      * unfold h. f_equal. apply (f_equal (map edge_nbr_ts)). apply (f_equal (filter (still t))). apply filter_ext. intro e. apply mem_sorted.
      * rewrite Hm. cbn. lia.
      * apply make_sorted_sorted.
Qed.

Theorem converted_lastn w parts g types nodes ts count default :
  0 <= w -> (0 < count)%nat -> converted fadd wval (Some w) parts g -> guarded fadd fsub types parts ->
  exists outs, lastn_neighbors fsub g nodes types ts count default = Ok outs /\
    Forall2 (fun x out => exists kept, out = kept ++ repeat default (count - length kept) /\
               latest_of count (map answer_ts (filter (still (snd x)) (spec_edges parts types (fst x)))) kept)
            (combine nodes ts) outs.
Proof.
  intros Hw Hc C HG. unfold lastn_neighbors. induction (combine nodes ts) as [|x l (outs & E & H)].
  - exists []. split; [reflexivity|constructor].
  - destruct (node_lastn w parts g types count default (repeat default count) (fst x) (snd x) Hw Hc (repeat_length _ _) C HG) as (kept & Ek & Hk).
    eexists. cbn [mapM]. rewrite Ek. cbn [bind]. rewrite E. cbn [bind]. split; [reflexivity|]. constructor; [|exact H].
    exists kept. auto.
Qed.
End Rows.
