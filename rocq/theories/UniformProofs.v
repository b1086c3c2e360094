(** Uniform neighbor sampling of a converted graph. *)
From Verif Require Import Base Dist WriterModel LoaderModel GraphModel GraphSpec WriterProofs LoaderProofs QueryProofs GraphProofs ConvertProofs AnswerProofs SearchProofs CountProofs ReservoirModel ReservoirProofs NeighborModel NeighborProofs.
From Coq Require Import Lqa Sorting.Sorted ZifyBool ZifyNat ZifyN.
Local Open Scope nat_scope.

(** The edges of [n] a query at time [ts] is about; a graph without timestamps ignores [ts]. *)
Definition matching (wm : option Z) (parts : list (list (list record))) (types : list Z) (n : Z) (ts : option Z) : list edge :=
  match wm, ts with
  | Some _, Some t => filter (alive t) (spec_edges parts types n)
  | _, _ => spec_edges parts types n
  end.
(** The answer for an edge: the creation time is only reported for a query with a time. *)
Definition slot_for (wm ts : option Z) (e : edge) : slot :=
  (e_dst e, e_typ e, match wm, ts with Some _, Some _ => e_c e | _, _ => (-1)%Z end).

(** Edges of one type and block have one removal time. *)
Definition one_removal (parts : list (list (list record))) : Prop :=
  forall r e1 e2, In r (flat_map rows parts) -> In e1 (row_edges r) -> In e2 (row_edges r) -> e_typ e1 = e_typ e2 -> e_r e1 = e_r e2.
(** What is needed of the times of edges: nothing for a query without a time. *)
Definition times_ok (wor : bool) (wm : option Z) (parts : list (list (list record))) (ts : option Z) : Prop :=
  match wm, ts with
  | Some w, Some t => (0 <= w)%Z /\ int32 t /\ ordered_lives parts /\ (wor = true -> one_removal parts)
  | _, _ => True
  end.

Section Uniform.
Variable fadd : N -> N -> N.
Variable wval : N -> Z.

Theorem batches_matching wor wm parts g types n ts :
  converted fadd wval wm parts g -> times_ok wor wm parts ts ->
  exists o l, node_batches wor g (make_sorted_list types) n ts = Ok o /\ concat (batches_of o) = map (slot_for wm ts) l /\
    incl l (matching wm parts types n ts) /\ (gaps_ok types parts -> l = matching wm parts types n ts).
Proof.
  intros C Ht. destruct (converted_rows fadd wval wm parts g C) as (m & Hg & HF & Hm).
  destruct wm as [w|]; [destruct ts as [t|]|].
  - destruct Ht as (Hw & Hi & HO & HR).
    destruct (node_batches_spec fadd m true (map rows parts) g wor (Some t) slot_ts_of (alive t) (make_sorted_list types) n Hg) as (o & E & Eo & _).
    { intros rws r1 r r2 v p gr Hin Er _ Hv Gk. replace ((0 <=? lm_watermark m)%Z && true) with true in Gk by (rewrite Hm; cbn; lia).
      destruct (row_in_part _ _ _ _ _ Hin Er HF) as [Hs _]. apply visited_in in Hv.
      assert (Hrow : In r (flat_map rows parts)).
      { apply in_map_iff in Hin as (bs & <- & Hb). apply in_flat_map. exists bs. split; [exact Hb|]. rewrite Er. apply in_or_app. right. now left. }
      pose proof (run_edges r v Hs Hv) as Ev.
      assert (Sv : StronglySorted not_before (map life (snd v))) by (rewrite Ev; now apply HO).
      destruct (group_batches_ts fadd p gr v t Hi Sv Gk) as (bs & E1 & E2). exists bs. split; [|exact E2].
      destruct wor; [|exact E1]. rewrite (group_batches_wor fadd p gr v t Sv); [exact E1| |exact Gk].
      specialize (HR eq_refl). destruct (snd v) as [|e0 l] eqn:El; [exists 0%Z; constructor|]. exists (e_r e0). rewrite <- El in *.
      apply Forall_forall. intros x Hx. apply in_map_iff in Hx as (e & <- & He). cbn [life snd]. rewrite Ev in He. apply filter_In in He as [He Ee].
      assert (He0 : In e0 (snd v)) by (rewrite El; now left). rewrite Ev in He0. apply filter_In in He0 as [He0 Ee0].
      apply (HR r); auto. lia. }
    exists o, (filter (alive t) (seen_edges (map rows parts) (make_sorted_list types) n)). split; [exact E|]. split; [exact Eo|]. cbn [matching].
    split.
    + intros e He. apply filter_In in He as [He Ha]. apply filter_In. split; [|exact Ha]. now apply (seen_sub parts HF).
    + intros Hgap. now rewrite (seen_all parts HF).
  - destruct (node_batches_spec fadd m true (map rows parts) g wor None slot_of (fun _ => true) (make_sorted_list types) n Hg) as (o & E & Eo & _).
    { intros rws r1 r r2 v p gr _ _ _ _ Gk. rewrite (group_batches_none fadd wor _ p gr v Gk). eexists. split; [reflexivity|].
      cbn [concat]. rewrite app_nil_r. f_equal. clear. induction (snd v); cbn [filter]; congruence. }
    replace (filter (fun _ => true) (seen_edges (map rows parts) (make_sorted_list types) n)) with (seen_edges (map rows parts) (make_sorted_list types) n) in Eo
      by (clear; induction (seen_edges _ _ _); cbn [filter]; congruence).
    exists o, (seen_edges (map rows parts) (make_sorted_list types) n). split; [exact E|]. split; [exact Eo|]. split.
    + intros e He. now apply (seen_sub parts HF).
    + intros Hgap. now apply (seen_all parts HF).
  - destruct (node_batches_spec fadd m false (map rows parts) g wor ts slot_of (fun _ => true) (make_sorted_list types) n Hg) as (o & E & Eo & _).
    { intros rws r1 r r2 v p gr _ _ _ _ Gk. replace ((0 <=? lm_watermark m)%Z && false) with false in Gk by (rewrite andb_false_r; reflexivity).
      exists [map slot_of (snd v)]. split.
      - destruct ts as [t|]; [apply (group_batches_static fadd); exact Gk|apply (group_batches_none fadd wor _ p gr v Gk)].
      - cbn [concat]. rewrite app_nil_r. f_equal. clear. induction (snd v); cbn [filter]; congruence. }
    replace (filter (fun _ => true) (seen_edges (map rows parts) (make_sorted_list types) n)) with (seen_edges (map rows parts) (make_sorted_list types) n) in Eo
      by (clear; induction (seen_edges _ _ _); cbn [filter]; congruence).
    exists o, (seen_edges (map rows parts) (make_sorted_list types) n). split; [exact E|]. split; [exact Eo|]. split.
    + intros e He. now apply (seen_sub parts HF).
    + intros Hgap. now apply (seen_all parts HF).
Qed.

(** Without replacement: distinct positions of the list of matching edges. *)
Theorem uniform_without wm parts g types n ts skip pick temporal ret count default :
  converted fadd wval wm parts g -> times_ok true wm parts ts -> (ret = true -> ts <> None) ->
  (forall c, 1 <= skip c) -> (forall c, pick c < count) ->
  exists l ps es,
    g_uniform_without skip pick temporal ret g (make_sorted_list types) count default n ts =
      Ok (map (slot_for wm ts) es ++ repeat default (count - length es)) /\
    map (nth_error l) ps = map Some es /\ NoDup ps /\ length ps = Nat.min count (length l) /\
    incl l (matching wm parts types n ts) /\ (gaps_ok types parts -> l = matching wm parts types n ts).
Proof.
  intros C Ht Hret Hs Hp. destruct (batches_matching true wm parts g types n ts C Ht) as (o & l & E & Eo & Hi & Hl).
  unfold g_uniform_without. rewrite E. cbn [bind].
  assert (W : forall b, writes_null (b && ret) ts count = false).
  { intros b. unfold writes_null. destruct ret; [|now rewrite andb_false_r]. destruct ts; [now rewrite andb_false_r|]. now destruct (Hret eq_refl). }
  destruct o as [bs|].
  - cbn [batches_of] in Eo. destruct (algorithm_l skip pick count bs Hs Hp) as (s & ps & El & Ln & Nd & Fa). rewrite El. cbn [bind snd].
    rewrite W. rewrite Eo, map_length in *.
    assert (Hes : exists es, map (nth_error l) ps = map Some es).
    { clear - Fa. induction Fa as [|p ps H _ (es & IH)]; [exists []; reflexivity|].
      destruct (nth_error l p) as [e|] eqn:Ee; [|apply nth_error_None in Ee; lia]. exists (e :: es). cbn [map]. now rewrite Ee, IH. }
    destruct Hes as (es & Hes). exists l, ps, es.
    assert (Les : length es = length ps) by (rewrite <- (map_length Some es), <- Hes, map_length; reflexivity).
    split; [|auto]. f_equal.
    assert (Em : map (nth_error (map (slot_for wm ts) l)) ps = map Some (map (slot_for wm ts) es)).
    { rewrite map_map, <- (map_map Some (option_map (slot_for wm ts))), <- Hes, map_map. apply map_ext. intros p. apply nth_error_map. }
    rewrite Em.
    assert (Fn : forall (xs : list slot) k j, length xs <= j -> or_default default (firstn j (map Some xs ++ repeat None k)) = xs ++ repeat default (Nat.min k (j - length xs))).
    { intros xs k j Hj. unfold or_default. rewrite firstn_app, map_app, map_length. rewrite firstn_all2 by (rewrite map_length; exact Hj). f_equal.
      - rewrite map_map. apply map_id.
      - generalize (j - length xs). clear. revert k. intros k j. revert k. induction j as [|j IH]; intros [|k]; cbn [repeat firstn map Nat.min]; try reflexivity. f_equal. apply IH. }
    rewrite Fn by (rewrite map_length; lia). rewrite map_length, <- app_assoc. f_equal. rewrite <- repeat_app. f_equal. lia.
  - cbn [batches_of concat] in Eo. destruct l; [|discriminate]. pose proof (W true) as W1. cbn [andb] in W1. rewrite W1.
    exists [], [], []. cbn [map length app]. rewrite Nat.sub_0_r, Nat.min_0_r. repeat split; auto. constructor.
Qed.

Local Open Scope Q_scope.
Definition on_ok {A} (f : A -> Q) (r : res A) : Q := match r with Ok a => f a | Fail _ => 0 end.

(** With replacement: the slots are independent and uniform over the matching edges. *)
Theorem uniform_with wm parts g types n ts temporal ret count default :
  converted fadd wval wm parts g -> times_ok false wm parts ts -> (ret = true -> ts <> None) ->
  exists l,
    (l = [] -> g_uniform_with temporal ret g (make_sorted_list types) count default n ts = dret (Ok (repeat default count))) /\
    (l <> [] -> forall fs, length fs = count ->
       ex (g_uniform_with temporal ret g (make_sorted_list types) count default n ts) (on_ok (prodf fs)) ==
       fold_right (fun f q => (qsum (fun e => f (slot_for wm ts e)) l / qnat (length l)) * q) 1 fs) /\
    incl l (matching wm parts types n ts) /\ (gaps_ok types parts -> l = matching wm parts types n ts).
Proof.
  intros C Ht Hret. destruct (batches_matching false wm parts g types n ts C Ht) as (o & l & E & Eo & Hi & Hl).
  exists l. unfold g_uniform_with. rewrite E.
  assert (W : forall b, writes_null (b && ret) ts count = false).
  { intros b. unfold writes_null. destruct ret; [|now rewrite andb_false_r]. destruct ts; [now rewrite andb_false_r|]. now destruct (Hret eq_refl). }
  destruct o as [bs|]; cbn [batches_of concat] in Eo.
  - rewrite Eo, map_length. rewrite W. split; [intros ->; reflexivity|]. split; [|auto]. intros Hne fs Hf.
    assert (0 < length l)%nat by (destruct l; [congruence|cbn; lia]).
    replace (length l =? 0)%nat with false by (symmetry; apply Nat.eqb_neq; lia).
    set (fs' := map (fun (f : slot -> Q) (o : option slot) => f (match o with Some x => x | None => default end)) fs).
    transitivity (ex (wr_run 0 bs (repeat None count)) (prodf fs')).
    { rewrite ex_bind. apply ex_ext_all. intros r. rewrite ex_ret. cbn [on_ok]. unfold fs', or_default. clear.
      revert r. induction fs as [|f fs IH]; intros [|x r]; cbn [map prodf]; try reflexivity. now rewrite IH. }
    rewrite with_replacement_joint.
    + unfold fs'. clear - Eo H. rewrite Eo, map_length. induction fs as [|f fs IH]; cbn [map fold_right]; [reflexivity|]. rewrite IH, qsum_map. reflexivity.
    + rewrite Eo. destruct l; [congruence|discriminate].
    + unfold fs'. now rewrite map_length, repeat_length.
  - destruct l; [|discriminate]. pose proof (W true) as W1. cbn [andb] in W1. rewrite W1. split; [reflexivity|]. split; [congruence|auto].
Qed.
End Uniform.

(** Every slot is in a set with probability 1 if all edges are. *)
Section Support.
Local Open Scope Q_scope.
Lemma wr_run_length {A} (q : list (option A)) : forall bs s (p : list (option A)), In q (map fst (wr_run s bs p)) -> length q = length p.
Proof.
  induction bs as [|b bs IH]; intros s p H; cbn [wr_run] in H.
  - cbn in H. destruct H as [<-|[]]. reflexivity.
  - apply in_map_iff in H as ([v w] & Ev & H). cbn in Ev. subst v. apply in_flat_map in H as (y & Hy & H).
    apply in_map_iff in H as (z & Ez & H). injection Ez as <- _.
    rewrite (IH (s + length b)%nat (fst y) (in_map fst _ _ H)). apply (wr_slots_length s b p). now apply in_map.
Qed.

Lemma uniform_with_length temporal ret g types count default n ts s :
  In (Ok s) (map fst (g_uniform_with temporal ret g types count default n ts)) -> length s = count.
Proof.
  unfold g_uniform_with. destruct (node_batches false g types n ts) as [[bs|]|e].
  - destruct (_ =? 0)%nat.
    + destruct (writes_null _ ts count); cbn; intros [H|[]]; try discriminate. injection H as <-. apply repeat_length.
    + intros H. apply in_map_iff in H as ([v w] & Ev & H). cbn in Ev. subst v. apply in_flat_map in H as (y & Hy & H).
      apply in_map_iff in H as (z & Ez & H). cbn in H. destruct H as [<-|[]]. cbn [fst] in Ez. injection Ez as <- _.
      unfold or_default. rewrite map_length. rewrite (wr_run_length (fst y) bs 0%nat (repeat None count)); [apply repeat_length|]. now apply in_map.
  - destruct (writes_null _ ts count); cbn; intros [H|[]]; try discriminate. injection H as <-. apply repeat_length.
  - cbn. intros [H|[]]. discriminate.
Qed.

Definition all_slots (count : nat) (p : slot -> bool) (r : res (list slot)) : bool :=
  match r with Ok s => (length s =? count)%nat && forallb p s | Fail _ => false end.

Lemma all_slots_prodf temporal ret g types count default n ts p :
  pr (g_uniform_with temporal ret g types count default n ts) (all_slots count p) ==
  ex (g_uniform_with temporal ret g types count default n ts) (on_ok (prodf (repeat (fun x => ind (p x)) count))).
Proof.
  apply ex_ext. intros [s|e] Hin; [|reflexivity]. cbn [all_slots on_ok]. apply uniform_with_length in Hin. rewrite Hin, Nat.eqb_refl. cbn [andb].
  revert s Hin. induction count as [|k IH]; intros [|x s] Hs; try discriminate; [reflexivity|]. cbn [repeat forallb prodf length] in *.
  rewrite <- IH by lia. destruct (p x), (forallb p s); unfold ind; cbn [andb]; ring.
Qed.
End Support.

Section Real.
Local Open Scope Q_scope.
Variable fadd : N -> N -> N.
Variable wval : N -> Z.
(** C14 for sampling with replacement. *)
Theorem uniform_with_real wm parts g types n ts temporal ret count default (p : slot -> bool) :
  converted fadd wval wm parts g -> times_ok false wm parts ts -> (ret = true -> ts <> None) ->
  (forall e, In e (matching wm parts types n ts) -> p (slot_for wm ts e) = true) ->
  pr (g_uniform_with temporal ret g (make_sorted_list types) count default n ts) (all_slots count p) == 1 \/
  g_uniform_with temporal ret g (make_sorted_list types) count default n ts = dret (Ok (repeat default count)).
Proof.
  intros C Ht Hret Hp. destruct (uniform_with fadd wval wm parts g types n ts temporal ret count default C Ht Hret) as (l & Hnil & Hl & Hi & _).
  destruct l as [|e l]; [right; now apply Hnil|left]. rewrite all_slots_prodf, Hl; [|discriminate|apply repeat_length].
  set (L := e :: l) in *. assert (N : 0 < qnat (length L)) by (apply qnat_pos; cbn; lia). clearbody L. clear Hnil Hl.
  induction count as [|k IH]; cbn [repeat fold_right]; [reflexivity|]. rewrite IH.
  assert (S : qsum (fun e => ind (p (slot_for wm ts e))) L == qnat (length L)).
  { rewrite (qsum_ext _ (fun _ => 1)); [rewrite qsum_const; ring|]. intros a Ha. rewrite (Hp a (Hi a Ha)). reflexivity. }
  rewrite S. field. lra.
Qed.
End Real.
