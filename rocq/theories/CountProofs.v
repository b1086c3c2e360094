(** Temporal NeighborCount: the two binary searches agree with a count of the alive edges when
    a group is ordered by creation and by removal time. *)
From Verif Require Import Base WriterModel LoaderModel GraphModel GraphSpec WriterProofs LoaderProofs QueryProofs GraphProofs ConvertProofs AnswerProofs SearchProofs.
From Coq Require Import Sorting.Sorted ZifyBool ZifyNat ZifyN.
Local Open Scope Z_scope.

(** Neither created earlier nor removed earlier (-1: never removed). *)
Definition not_before (a b : Z * Z) : Prop :=
  fst a <= fst b /\ (snd b = -1 \/ (snd a <> -1 /\ snd a <= snd b)).
Definition lives (x : Z * Z) (t : Z) : bool := (fst x <=? t) && ((t <? snd x) || (snd x =? -1)).
Definition count_alive (t : Z) (l : list (Z * Z)) : nat := length (filter (fun x => lives x t) l).

Lemma lives_false x t : lives x t = false <-> t < fst x \/ (snd x <> -1 /\ snd x <= t).
Proof. unfold lives. lia. Qed.
Lemma lives_true x t : lives x t = true <-> fst x <= t /\ (snd x = -1 \/ t < snd x).
Proof. unfold lives. lia. Qed.

Lemma count_app t a b : count_alive t (a ++ b) = (count_alive t a + count_alive t b)%nat.
Proof. unfold count_alive. now rewrite filter_app, app_length. Qed.
Lemma count_dead t l : Forall (fun x => lives x t = false) l -> count_alive t l = 0%nat.
Proof. unfold count_alive. induction 1 as [|x l H _ IH]; cbn; [reflexivity|]. now rewrite H. Qed.
Lemma count_live t l : Forall (fun x => lives x t = true) l -> count_alive t l = length l.
Proof. unfold count_alive. induction 1 as [|x l H _ IH]; cbn; [reflexivity|]. rewrite H. cbn. now rewrite IH. Qed.

Lemma sorted_app {A} (R : A -> A -> Prop) (a b : list A) : StronglySorted R (a ++ b) ->
  StronglySorted R a /\ StronglySorted R b /\ (forall x y, In x a -> In y b -> R x y).
Proof.
  induction a as [|x a IH]; cbn; intro H.
  - repeat split; [constructor|assumption|intros ? ? []].
  - apply StronglySorted_inv in H. destruct H as [H1 H2]. destruct (IH H1) as (Ha & Hb & Hab).
    rewrite Forall_forall in H2. repeat split; [|assumption|].
    + constructor; [assumption|]. apply Forall_forall. intros y Hy. apply H2. apply in_or_app. now left.
    + intros u v [<-|Hu] Hv; [apply H2; apply in_or_app; now right|now apply Hab].
Qed.

(** In an ordered list everything up to position [j] is not after the element there. *)
Lemma sorted_upto {A} (R : A -> A -> Prop) l k y : (forall x, R x x) -> StronglySorted R l ->
  nth_error l k = Some y -> Forall (fun x => R x y) (firstn (S k) l).
Proof.
  intros Hr Hs Hk. apply nth_error_split in Hk. destruct Hk as (a & b & -> & <-).
  replace (firstn (S (length a)) (a ++ y :: b)) with (a ++ [y]).
  - apply Forall_app. split; [|now constructor]. apply Forall_forall. intros x Hx.
    apply sorted_app in Hs. destruct Hs as (_ & _ & H). apply H; [assumption|now left].
  - replace (a ++ y :: b) with ((a ++ [y]) ++ b) by (now rewrite <- app_assoc).
    replace (S (length a)) with (length (a ++ [y])) by (rewrite app_length; cbn; lia).
    now rewrite firstn_app, Nat.sub_diag, firstn_all, firstn_O, app_nil_r.
Qed.
Lemma sorted_from {A} (R : A -> A -> Prop) l k y : (forall x, R x x) -> StronglySorted R l ->
  nth_error l k = Some y -> Forall (fun x => R y x) (skipn k l).
Proof.
  intros Hr Hs Hk. apply nth_error_split in Hk. destruct Hk as (a & b & -> & <-).
  rewrite skipn_app, Nat.sub_diag, skipn_all. cbn. constructor; [apply Hr|].
  apply sorted_app in Hs. destruct Hs as (_ & Hs & _). now apply StronglySorted_inv in Hs.
Qed.

Lemma not_before_refl x : not_before x x.
Proof. unfold not_before. destruct (Z.eq_dec (snd x) (-1)); [split; [lia|now left]|split; [lia|right; lia]]. Qed.

Definition int32 (t : Z) : Prop := - 2 ^ 31 <= t < 2 ^ 31.
Lemma to_int32_id t : int32 t -> to_int32 t = t.
Proof.
  unfold int32, to_int32. intro H. destruct (Z.ltb_spec (t mod 2 ^ 32) (2 ^ 31)).
  - destruct (Z_lt_dec t 0).
    + rewrite <- (Z.mod_add t 1) in * by lia. rewrite Z.mod_small in * by lia. lia.
    + apply Z.mod_small; lia.
  - destruct (Z_lt_dec t 0).
    + rewrite <- (Z.mod_add t 1) in * by lia. rewrite Z.mod_small in * by lia. lia.
    + rewrite Z.mod_small in * by lia. lia.
Qed.

(** What is skipped is dead; what is left has not been removed yet, unless nothing of it is
    created. *)
Lemma find_start_spec span t :
  int32 t -> StronglySorted not_before span ->
  let it := find_start span t in
  Forall (fun x => lives x t = false) (firstn it span) /\
  (forall x, In x (skipn it span) -> t < fst x \/ snd x = -1 \/ t < snd x).
Proof.
  intros Ht Hs it. subst it. destruct span as [|x span]; [split; [constructor|intros ? []]|].
  unfold find_start. fold (lives x t). destruct (lives x t) eqn:E.
  - split; [constructor|]. cbn [skipn]. intros y Hy.
    pose proof (sorted_from not_before (x :: span) 0 x not_before_refl Hs eq_refl) as H.
    cbn [skipn] in H. rewrite Forall_forall in H. specialize (H y Hy). apply lives_true in E. unfold not_before in H. lia.
  - destruct (Z_lt_dec t (fst x)) as [Hlt|Hge].
    + (* nothing is created *)
      pose proof (sorted_from not_before (x :: span) 0 x not_before_refl Hs eq_refl) as H.
      cbn [skipn] in H. rewrite Forall_forall in H.
      set (k := bound _ _). clearbody k. split.
      * apply Forall_forall. intros y Hy. apply lives_false. left. specialize (H y).
        assert (In y (x :: span)) by (rewrite <- (firstn_skipn k (x :: span)); apply in_or_app; now left).
        specialize (H H0). unfold not_before in H. lia.
      * intros y Hy. left. specialize (H y).
        assert (In y (x :: span)) by (rewrite <- (firstn_skipn k (x :: span)); apply in_or_app; now right).
        specialize (H H0). unfold not_before in H. lia.
    + apply lives_false in E. replace (Z.max t (snd x)) with t by lia. rewrite (to_int32_id t Ht).
      set (go := fun a : Z * Z => negb (snd a =? -1) && (snd a <=? t)).
      destruct (bound_edges go (x :: span)) as (Hk & Hr & Hl). set (k := bound go (x :: span)) in *. clearbody k. split.
      * destruct k as [|j]; [constructor|].
        destruct (nth_error (x :: span) j) as [y|] eqn:Ey; [|apply nth_error_None in Ey; lia].
        specialize (Hl j y eq_refl Ey). unfold go in Hl.
        pose proof (sorted_upto not_before (x :: span) j y not_before_refl Hs Ey) as H.
        eapply Forall_impl; [|exact H]. intros a Ha. apply lives_false. unfold not_before in Ha. lia.
      * destruct (nth_error (x :: span) k) as [y|] eqn:Ey.
        -- specialize (Hr y eq_refl). unfold go in Hr.
           pose proof (sorted_from not_before (x :: span) k y not_before_refl Hs Ey) as H.
           rewrite Forall_forall in H. intros a Ha. specialize (H a Ha). unfold not_before in H. lia.
        -- apply nth_error_None in Ey. rewrite skipn_all2 by assumption. intros ? [].
Qed.

Lemma find_last_spec x l t :
  StronglySorted not_before (x :: l) -> (forall y, In y (x :: l) -> t < fst y \/ snd y = -1 \/ t < snd y) ->
  let ll := find_last (x :: l) t in
  (ll = 0%nat /\ t < fst x) \/ ((0 < ll <= length (x :: l))%nat /\ Forall (fun y => lives y t = true) (firstn ll (x :: l))).
Proof.
  intros Hs Hr ll. unfold ll, find_last. clear ll. destruct (Z.ltb_spec t (fst x)) as [Hlt|Hge]; [now left|right].
  set (go := fun a : Z * Z => negb ((snd x <? snd a) || (t <? fst a))).
  destruct (bound_edges go (x :: l)) as (Hk & Hb & Hl). set (k := bound go (x :: l)) in *. clearbody k.
  destruct k as [|j].
  - specialize (Hb x eq_refl). unfold go in Hb. lia.
  - split; [lia|]. destruct (nth_error (x :: l) j) as [y|] eqn:Ey; [|apply nth_error_None in Ey; lia].
    specialize (Hl j y eq_refl Ey). unfold go in Hl.
    pose proof (sorted_upto not_before (x :: l) j y not_before_refl Hs Ey) as H.
    apply Forall_forall. intros a Ha. rewrite Forall_forall in H. specialize (H a Ha).
    assert (In a (x :: l)) by (rewrite <- (firstn_skipn (S j) (x :: l)); apply in_or_app; now left).
    specialize (Hr a H0). apply lives_true. unfold not_before in H. lia.
Qed.

Lemma skipn_sorted {A} (R : A -> A -> Prop) l k : StronglySorted R l -> StronglySorted R (skipn k l).
Proof. intro H. rewrite <- (firstn_skipn k l) in H. apply sorted_app in H. tauto. Qed.

Lemma skipn_nth {A} (l : list A) : forall k x, nth_error l k = Some x -> skipn k l = x :: skipn (S k) l.
Proof.
  induction l as [|a l IH]; intros [|k] x H; cbn in H; try discriminate; [now inversion H|].
  change (skipn (S k) (a :: l)) with (skipn k l). rewrite (IH k x H). reflexivity.
Qed.

Lemma skipn_plus {A} (l : list A) b : forall a, skipn (a + b) l = skipn b (skipn a l).
Proof.
  induction l as [|x l IH]; intro a; [now rewrite !skipn_nil|]. destruct a as [|a]; [reflexivity|]. cbn. apply IH.
Qed.

Lemma count_loop_spec fuel : forall span t,
  (length span <= fuel)%nat -> int32 t -> StronglySorted not_before span ->
  count_loop fuel span t = Ok (count_alive t span).
Proof.
  induction fuel as [|fuel IH]; intros span t Hf Ht Hs.
  - destruct span; [reflexivity|cbn in Hf; lia].
  - cbn [count_loop]. destruct (find_start_spec span t Ht Hs) as [Hdead Hleft].
    set (it := find_start span t) in *. clearbody it.
    assert (Hc : count_alive t span = count_alive t (skipn it span)).
    { rewrite <- (firstn_skipn it span) at 1. rewrite count_app, (count_dead t _ Hdead). reflexivity. }
    destruct (nth_error span it) as [x|] eqn:Ex.
    + assert (Hsk : skipn it span = x :: skipn (S it) span).
      { now apply skipn_nth. }
      assert (Hs' : StronglySorted not_before (skipn it span)) by now apply skipn_sorted.
      destruct ((snd x =? -1) && (t <? fst x)) eqn:Estop.
      * rewrite Hc. f_equal. symmetry. apply count_dead. apply Forall_forall. intros y Hy. apply lives_false. left.
        pose proof (sorted_from not_before _ _ _ not_before_refl Hs Ex) as H. rewrite Forall_forall in H. specialize (H y Hy).
        unfold not_before in H. lia.
      * rewrite Hsk in *. pose proof (find_last_spec x (skipn (S it) span) t Hs' Hleft) as Hll.
        set (ll := find_last (x :: skipn (S it) span) t) in *. clearbody ll.
        set (adv := if (ll =? 0)%nat then 1%nat else ll).
        assert (Hadd : skipn (it + adv) span = skipn adv (x :: skipn (S it) span)).
        { rewrite <- Hsk. apply skipn_plus. }
        assert (Hl1 : (length (x :: skipn (S it) span) = length span - it)%nat) by (rewrite <- Hsk; apply skipn_length).
        assert (Hadv : (0 < adv)%nat) by (unfold adv; destruct (Nat.eqb_spec ll 0); lia).
        assert (Hit : (it < length span)%nat) by (apply nth_error_Some; congruence).
        rewrite Hadd, IH; [|rewrite skipn_length, Hl1; lia|assumption|now apply skipn_sorted].
        cbn [bind]. rewrite Hc. f_equal. rewrite <- (firstn_skipn adv (x :: skipn (S it) span)) at 2. rewrite count_app. f_equal.
        destruct Hll as [[-> Hx]|[Hpos Hlive]].
        -- subst adv. cbn [Nat.eqb firstn]. symmetry. apply count_dead. constructor; [|constructor]. apply lives_false. now left.
        -- subst adv. destruct (Nat.eqb_spec ll 0); [lia|]. rewrite (count_live t _ Hlive), firstn_length. lia.
    + apply nth_error_None in Ex. rewrite Hc, skipn_all2 by assumption. reflexivity.
Qed.

(** ** Rows and graphs *)
Section Count.
Variables fadd fsub : N -> N -> N.
Variable wval : N -> Z.

Definition life (e : edge) : Z * Z := (e_c e, e_r e).

Lemma run_edges r g :
  StronglySorted Z.le (map e_typ (row_edges r)) -> In g (row_runs r) ->
  snd g = filter (fun e => e_typ e =? fst g) (row_edges r).
Proof.
  intros Hs Hg.
  assert (E : filter (fun e => e_typ e =? fst g) (row_edges r) =
              flat_map snd (filter (fun x => mem (fst x) [fst g]) (runs (row_edges r)))).
  { rewrite runs_filter. apply filter_ext. intro e. cbn. now rewrite orb_false_r. }
  rewrite E. clear E. apply runs_sorted in Hs. unfold row_runs in Hg.
  apply in_split in Hg. destruct Hg as (l1 & l2 & Hg). rewrite Hg in *.
  rewrite map_app in Hs. apply sorted_app_inv in Hs. destruct Hs as (_ & H2 & H3). cbn [map] in H2.
  apply StronglySorted_inv in H2. destruct H2 as [_ Hf]. rewrite Forall_forall in Hf.
  rewrite filter_app. cbn [filter mem existsb]. rewrite Z.eqb_refl. cbn [orb].
  assert (N : forall l, (forall x, In x l -> fst x <> fst g) -> filter (fun x : Z * list edge => (fst x =? fst g) || false) l = []).
  { induction l as [|x l IH]; intro H; [reflexivity|]. cbn [filter].
    destruct (Z.eqb_spec (fst x) (fst g)) as [E|E]; [destruct (H x (or_introl eq_refl) E)|]. cbn [orb]. apply IH. intros; apply H. now right. }
  unfold mem, existsb. rewrite !N.
  - cbn. now rewrite app_nil_r.
  - intros x Hx. assert (fst g < fst x) by (apply Hf; now apply in_map). lia.
  - intros x Hx. assert (fst x < fst g) by (apply H3; [now apply in_map|now left]). lia.
Qed.

Lemma slice_mid {A} (a b c : list A) : slice (a ++ b ++ c) (length a) (length b) = b.
Proof. unfold slice. rewrite skipn_app, Nat.sub_diag, skipn_all. cbn. now rewrite firstn_app, Nat.sub_diag, firstn_all, firstn_O, app_nil_r. Qed.

Lemma visited_in r T g : In g (visited r T) -> In g (row_runs r).
Proof. unfold visited. apply (visit_sub fst). Qed.

Lemma group_span m rws pre g post : 0 <= lm_watermark m ->
  all_runs rws = pre ++ g :: post ->
  let p := part_of fadd m true rws in
  (sum (map glen pre) + glen g <= length (p_ts p))%nat /\
  slice (p_ts p) (sum (map glen pre)) (glen g) = map life (snd g).
Proof.
  intros Hw Hr p. unfold p. cbn [p_ts part_of]. replace (0 <=? lm_watermark m) with true by lia. cbn [andb].
  assert (He : all_edges rws = flat_map snd pre ++ snd g ++ flat_map snd post).
  { rewrite <- all_runs_edges, Hr, flat_map_app'. reflexivity. }
  rewrite He, !map_app, !app_length, !map_length, (sum_glen_edges pre).
  split; [unfold glen; lia|].
  rewrite <- (map_length life (flat_map snd pre)). unfold glen. rewrite <- (map_length life (snd g)). apply slice_mid.
Qed.

(** Full and counting queries visit the same groups. *)
Lemma count_ts_visited m r1 r r2 T t : 0 <= lm_watermark m -> int32 t ->
  (forall g, In g (visited r T) -> StronglySorted not_before (map life (snd g))) ->
  neighbor_count (part_of fadd m true (r1 ++ r :: r2)) (length r1) (Some t) T =
  Ok (sum (map (fun g => count_alive t (map life (snd g))) (visited r T))).
Proof.
  intros Hw Ht Hs. unfold neighbor_count. rewrite nii_spec. cbn [bind].
  set (V := visit akey (length (row_runs r)) T (row_ann r1 r)).
  assert (HV : map snd V = visited r T) by (unfold V, visited, row_ann; apply visit_ann).
  rewrite <- HV in *. rewrite map_map.
  match goal with |- context [mapM ?f (map apos V)] => set (F := f) end.
  assert (H : mapM F (map apos V) = Ok (map (fun a => count_alive t (map life (snd (snd a)))) V)).
  { assert (HI : forall a, In a V -> In a V) by auto. revert HI. generalize V at 1 3 4. intro W.
    induction W as [|a W IH]; intro HI; [reflexivity|]. cbn [map mapM].
    destruct (visited_pos r1 r r2 T a (HI a (or_introl eq_refl))) as (pre & post & Hr & ->).
    destruct (group_span m _ pre (snd a) post Hw Hr) as [H1 H2]. unfold F at 1.
    assert (E : (length (p_ts (part_of fadd m true (r1 ++ r :: r2))) <? sum (map glen pre) + glen (snd a))%nat = false).
    { apply Nat.ltb_ge. exact H1. }
    rewrite E.
    replace (sum (map glen pre) + glen (snd a) - sum (map glen pre))%nat with (glen (snd a)) by lia.
    rewrite H2, count_loop_spec; [|rewrite map_length; unfold glen; lia|assumption|].
    - cbn [bind]. rewrite IH by (intros; apply HI; now right). reflexivity.
    - apply Hs. apply in_map. apply HI. now left. }
  rewrite H. cbn [bind]. now rewrite fold_add_sum.
Qed.

Lemma alive_pairs_count t l (ws : list N) : length ws = length l ->
  length (filter (alive_pair t) (combine l ws)) = count_alive t (map life l).
Proof.
  revert ws; induction l as [|e l IH]; intros [|w ws] H; try discriminate; [reflexivity|].
  cbn [combine filter map]. unfold alive_pair at 1. cbn [fst]. unfold count_alive. cbn [map filter].
  assert (E : lives (life e) t = alive t e).
  { unfold lives, alive, life. cbn [fst snd]. f_equal. apply orb_comm. }
  rewrite E. destruct (alive t e); cbn [length]; rewrite (IH ws) by (cbn in H; lia); reflexivity.
Qed.

Lemma full_ts_length (m : lmeta) r T t :
  length (flat_map (fun g => map nbr_ts_of (filter (alive_pair t) (gedges fadd fsub g))) (visited r T)) =
  sum (map (fun g => count_alive t (map life (snd g))) (visited r T)).
Proof.
  induction (visited r T) as [|g l IH]; [reflexivity|]. cbn [flat_map map]. rewrite app_length, map_length, sum_cons, IH. f_equal.
  unfold gedges. apply alive_pairs_count. now rewrite recover_length, map_length.
Qed.

(** Lifetimes of the edges of each type are ordered in every block. *)
Definition ordered_lives (parts : list (list (list record))) : Prop :=
  forall r ty, In r (flat_map rows parts) ->
    StronglySorted not_before (map life (filter (fun e => e_typ e =? ty) (row_edges r))).

Theorem converted_counts_ts w parts g types nodes ts :
  0 <= w -> converted fadd wval (Some w) parts g -> ordered_lives parts -> Forall int32 ts ->
  exists ls, neighbors fsub g nodes types (Some ts) = Ok (concat ls, map (@length nbr) ls) /\
             neighbor_counts g nodes types (Some ts) = Ok (map (@length nbr) ls).
Proof.
  intros Hw C HO HT. destruct (converted_rows fadd wval _ parts g C) as (m & Hg & HF & Hm).
  unfold neighbors, neighbor_counts, per_node. set (T := make_sorted_list types).
  set (ans := fun n t => flat_map (fun r => flat_map (fun g => map nbr_ts_of (filter (alive_pair t) (gedges fadd fsub g))) (visited r T))
                                  (node_rows n (map rows parts))).
  assert (Hfull : forall n t, g_full_neighbor fsub g T n (Some t) = Ok (ans n t)).
  { intros n t. apply (g_full_neighbor_lift fadd fsub m true); [exact Hg|]. intros rws r1 r r2 _ -> _.
    apply full_neighbor_ts_visited. rewrite Hm. cbn. lia. }
  assert (Hcnt : forall n t, int32 t -> g_neighbor_count g T n (Some t) = Ok (length (ans n t))).
  { intros n t Ht. unfold g_neighbor_count.
    rewrite (g_count_lift fadd m true (map rows parts) g n (fun p i => neighbor_count p i (Some t) T)
               (fun r => sum (map (fun g => count_alive t (map life (snd g))) (visited r T)))); [|exact Hg|].
    - f_equal. unfold ans. induction (node_rows n (map rows parts)) as [|r l IH]; [reflexivity|].
      cbn [map flat_map]. now rewrite sum_cons, app_length, (full_ts_length m), IH.
    - intros rws r1 r r2 Hin E _. destruct (row_in_part _ _ _ _ _ Hin E HF) as [Hs _]. rewrite E.
      apply count_ts_visited; [rewrite Hm; assumption|assumption|].
      intros gr Hgr. apply visited_in in Hgr. rewrite (run_edges r gr Hs Hgr). apply HO.
      apply in_map_iff in Hin. destruct Hin as (bs & Ebs & Hbs). apply in_flat_map. exists bs. split; [assumption|].
      rewrite Ebs, E. apply in_or_app. right. now left. }
  exists (map (fun x => ans (fst x) (snd x)) (combine nodes ts)).
  rewrite (mapM_pure _ (fun x => ans (fst x) (snd x))) by (intros; apply Hfull). cbn [bind].
  rewrite (mapM_pure _ (fun x => length (ans (fst x) (snd x)))) by (intros; now apply ts_count).
  cbn [bind]. rewrite map_map. split; [reflexivity|].
  apply mapM_pure. intros x Hx. apply Hcnt. rewrite Forall_forall in HT. apply HT. destruct x. eapply in_combine_r; eassumption.
Qed.
End Count.
