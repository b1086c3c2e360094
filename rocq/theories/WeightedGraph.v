(** Weighted neighbor sampling of a converted graph when weights add up exactly. *)
From Verif Require Import Base Dist WriterModel LoaderModel GraphModel GraphSpec WriterProofs LoaderProofs QueryProofs GraphProofs ConvertProofs AnswerProofs SearchProofs CountProofs AliasModel ReservoirModel SamplerModel MultinomialProofs NeighborModel NeighborProofs UniformProofs WeightedProofs WeightedLaw.
From Coq Require Import Lqa Sorting.Sorted ZifyBool ZifyNat ZifyN.
Local Open Scope Q_scope.

Lemma places_rows P n rwss :
  Forall2 (fun (o : partition * nat) (r : row) => exists rws r1 r2, In rws rwss /\ rws = r1 ++ r :: r2 /\ row_id r = n /\ o = (P rws, length r1))
    (places P n rwss) (node_rows n rwss).
Proof.
  assert (G : forall all l, incl l all -> Forall2 (fun (o : partition * nat) (r : row) => exists rws r1 r2, In rws all /\ rws = r1 ++ r :: r2 /\ row_id r = n /\ o = (P rws, length r1))
    (places P n l) (node_rows n l)).
  { intros all. induction l as [|rws l IH]; intros Hi; [constructor|]. unfold places, node_rows. cbn [flat_map concat]. rewrite filter_app.
    apply Forall2_app; [|apply IH; intros x Hx; apply Hi; now right].
    rewrite <- (filter_indexed (fun r => (row_id r =? n)%Z)).
    assert (Hin : forall x, In x (filter (fun x : nat * row => (row_id (snd x) =? n)%Z) (indexed rws)) ->
       exists rws' r1 r2, In rws' all /\ rws' = r1 ++ snd x :: r2 /\ row_id (snd x) = n /\ (P rws, fst x) = (P rws', length r1)).
    { intros [i r] Hx. apply filter_In in Hx as [Hx Hn]. cbn [fst snd] in *. apply indexed_split in Hx as (l1 & l2 & E & ->).
      exists rws, l1, l2. split; [apply Hi; now left|]. split; [exact E|]. split; [lia|reflexivity]. }
    induction (filter _ (indexed rws)) as [|x t IHt]; [constructor|]. cbn [map]. constructor; [now apply Hin; left|]. apply IHt. intros; apply Hin; now right. }
  apply G, incl_refl.
Qed.

(** What is needed of times. *)
Definition sample_times (wm : option Z) (parts : list (list (list record))) (ts : option Z) : Prop :=
  match ts, wm with
  | None, _ => True
  | Some t, Some w => (0 <= w)%Z /\ int32 t /\ ordered_lives parts /\ forall e, In e (flat_map edges_of parts) -> int32 (e_r e)
  | Some _, None => False
  end.
(** The answer for an edge. *)
Definition ans (ts : option Z) (e : edge) : nbr := match ts with None => answer e | Some _ => answer_ts e end.

Section Graph.
Variables fadd fsub : N -> N -> N.
Variable qval : N -> Q.
Variable wval : N -> Z.
Notation wq := (wq qval).
Notation mass := (mass qval).
Variable rep : N -> Prop.
Variable B : Q.
Hypothesis X : exact_on fadd fsub qval rep B.

Variables (wm : option Z) (parts : list (list (list record))) (g : graph) (types : list Z) (n : Z) (ts : option Z).
Hypothesis C : converted fadd wval wm parts g.
Hypothesis HG : guarded fadd fsub types parts.
Hypothesis Ht : sample_times wm parts ts.
Hypothesis Hrep : forall e, In e (flat_map edges_of parts) -> rep (e_w e).
Hypothesis Hb : 2 * mass (spec_edges parts types n) <= B.

Notation T := (make_sorted_list types).
Notation M := (matching wm parts types n ts).

Definition at_edge (ts : option Z) (e : edge) : bool := match ts with None => true | Some t => alive t e end.

Lemma row_edge_in r e : In r (flat_map rows parts) -> In e (row_edges r) -> In e (flat_map edges_of parts).
Proof.
  intros Hr He. apply in_flat_map in Hr as (bs & Hb' & Hr). apply in_flat_map. exists bs. split; [exact Hb'|].
  unfold edges_of. rewrite <- rows_all_edges. apply in_flat_map. exists r. split; assumption.
Qed.

Lemma matching_filter : M = filter (at_edge ts) (spec_edges parts types n).
Proof.
  unfold matching, at_edge. unfold sample_times in Ht. destruct ts as [t|]; [destruct wm; [reflexivity|contradiction]|].
  assert (E : forall l : list edge, l = filter (fun _ => true) l) by (induction l as [|e l IH]; cbn [filter]; congruence).
  destruct wm; apply E.
Qed.

Lemma weighted_setup : exists m, graph_of fadd m (is_temporal wm) (map rows parts) g /\
  Forall2 (ready fadd rep ts T) (places (part_of fadd m (is_temporal wm)) n (map rows parts)) (map (fun r => visited r T) (node_rows n (map rows parts))) /\
  flat_map (offers fadd fsub qval ts) (map (fun r => visited r T) (node_rows n (map rows parts))) = map (fun e => (ans ts e, wq e)) M /\
  qsum (wmass qval) (map (fun r => visited r T) (node_rows n (map rows parts))) == mass (spec_edges parts types n).
Proof.
  destruct (converted_rows fadd wval wm parts g C) as (m & Hg & HF & Hm). exists m. split; [exact Hg|].
  assert (Hgap : gaps_ok types parts).
  { intros r Hr. apply in_flat_map in Hr as (bs & Hbs & Hr). apply (HG bs r Hbs Hr). }
  assert (Rin : forall r, In r (node_rows n (map rows parts)) -> In r (flat_map rows parts) /\ StronglySorted Z.le (map e_typ (row_edges r)) /\ row_exact fadd fsub r).
  { intros r Hr. unfold node_rows in Hr. apply filter_In in Hr as [Hr _]. rewrite <- flat_map_concat_map in Hr.
    split; [exact Hr|]. apply in_flat_map in Hr as (bs & Hbs & Hr). destruct (HG bs r Hbs Hr) as [_ H2].
    rewrite Forall_forall in HF. pose proof (HF (rows bs) (in_map _ _ _ Hbs)) as Hf. rewrite Forall_forall in Hf. destruct (Hf r Hr) as [Hs _]. split; [exact Hs|].
    intros ty. apply H2. }
  split; [|split].
  - pose proof (places_rows (part_of fadd m (is_temporal wm)) n (map rows parts)) as PR.
    assert (Hrs : forall r, In r (node_rows n (map rows parts)) -> In r (node_rows n (map rows parts))) by auto.
    revert PR Hrs. generalize (places (part_of fadd m (is_temporal wm)) n (map rows parts)).
    assert (GG : forall rs os, Forall2 (fun (o : partition * nat) (r : row) => exists rws r1 r2, In rws (map rows parts) /\ rws = r1 ++ r :: r2 /\ row_id r = n /\ o = (part_of fadd m (is_temporal wm) rws, length r1)) os rs ->
      (forall r, In r rs -> In r (node_rows n (map rows parts))) -> Forall2 (ready fadd rep ts T) os (map (fun r => visited r T) rs)); [|apply GG].
    intros rs os F Hrs.
    induction F as [|o r os rs (rws & r1 & r2 & H1 & H2 & H3 & ->) _ IH]; cbn [map]; [constructor|].
    constructor; [|apply IH; intros; apply Hrs; now right]. cbn [fst snd]. rewrite H2.
    destruct (row_groups fadd m (is_temporal wm) r1 r r2 T) as (gs & E & F).
    destruct (Rin r (Hrs r (or_introl eq_refl))) as (Hr & Hs & Hx).
    exists ((0 <=? lm_watermark m)%Z && is_temporal wm), gs. cbn [fst snd]. split; [exact E|]. split; [exact F|]. split.
    + unfold sample_times in Ht. destruct ts as [t|]; [|congruence]. intros _. destruct wm as [w|]; [|contradiction]. rewrite Hm. destruct Ht. cbn [is_temporal]. lia.
    + apply Forall_forall. intros v Hv. apply visited_in in Hv. pose proof (run_edges r v Hs Hv) as Ev. split.
      * apply Forall_forall. intros w Hw. apply in_map_iff in Hw as (e & <- & He). apply Hrep. rewrite Ev in He. apply filter_In in He as [He _]. now apply (row_edge_in r).
      * unfold group_times. unfold sample_times in Ht. destruct ts as [t|]; [|exact I]. destruct wm as [w|]; [|contradiction].
        destruct Ht as (_ & Hi & HO & Hr32). split; [exact Hi|]. split; [rewrite Ev; now apply HO|].
        apply Forall_forall. intros e He. apply Hr32. rewrite Ev in He. apply filter_In in He as [He _]. now apply (row_edge_in r).
  - rewrite matching_filter, <- (seen_all parts HF types n Hgap). unfold seen_edges.
    revert Rin. generalize (node_rows n (map rows parts)). intros rs Rin. induction rs as [|r rs IH]; [reflexivity|].
    cbn [map flat_map]. rewrite filter_app, map_app, IH by (intros; apply Rin; now right). f_equal.
    destruct (Rin r (or_introl eq_refl)) as (_ & Hs & Hx). unfold offers.
    assert (Hin : forall v, In v (visited r T) -> offer fadd fsub qval ts v = map (fun e => (ans ts e, wq e)) (filter (at_edge ts) (snd v))).
    { intros v Hv. apply visited_in in Hv. unfold offer. rewrite (gedges_exact fadd fsub r v Hs Hx Hv). clear.
      induction (snd v) as [|e l IH]; [reflexivity|]. cbn [map filter].
      assert (E : at_time ts (e, e_w e) = at_edge ts e) by (destruct ts; reflexivity). rewrite E. destruct (at_edge ts e); cbn [map]; rewrite IH; [|reflexivity].
      f_equal. destruct ts; reflexivity. }
    induction (visited r T) as [|v l IHl]; [reflexivity|]. cbn [flat_map]. rewrite filter_app, map_app, <- IHl by (intros; apply Hin; now right).
    f_equal. apply Hin. now left.
  - rewrite <- (seen_all parts HF types n Hgap). unfold seen_edges. clear. induction (node_rows n (map rows parts)) as [|r rs IH]; [reflexivity|].
    cbn [map qsum flat_map]. rewrite IH, mass_app. apply Qplus_comp; [|reflexivity]. unfold wmass.
    induction (visited r T) as [|v l IHl]; [reflexivity|]. cbn [qsum flat_map]. rewrite IHl, mass_app. reflexivity.
Qed.

(** Every outcome holds matching edges or defaults. *)
Theorem weighted_real_exact count default r :
  routcome (g_sample fadd fsub qval g T count default n ts) r ->
  exists l, r = Ok l /\ length l = count /\ forall x, In x l -> x = default \/ In x (map (ans ts) M).
Proof.
  destruct weighted_setup as (m & Hg & HR & HO & HM). destruct (xo_zero _ _ _ _ _ X) as [Z1 Z2].
  assert (R : rall (fun l => length l = count /\ forall x, In x l -> x = default \/ In x (map (ans ts) M)) (g_sample fadd fsub qval g T count default n ts)).
  { unfold g_sample. eapply rall_lift; [apply Hg|]. unfold lookup, found.
    assert (Fd : fine count default (map (ans ts) M) (repeat default count, 0%N)).
    { split; cbn [fst]; [apply repeat_length|]. intros x Hx. left. now apply repeat_spec in Hx. }
    destruct (places (part_of fadd m (is_temporal wm)) n (map rows parts)) as [|o os]; [apply rall_ret; exact Fd|].
    eapply rall_bind; [apply (partitions_real fadd fsub qval rep B X ts T count default (map (ans ts) M) _ _ _ _ HR Z1)|].
    - rewrite Z2, HM. lra.
    - assert (E : map (ans ts) M = map fst (map (fun e => (ans ts e, wq e)) M)) by (rewrite map_map; reflexivity). rewrite E, <- HO. clear.
      induction (map (fun r => visited r T) (node_rows n (map rows parts))) as [|vs vss IH]; [constructor|]. cbn [flat_map]. rewrite map_app. constructor; [now apply incl_appl, incl_refl|].
      eapply Forall_impl; [|exact IH]. intros a Ha. now apply incl_appr.
    - exact Fd.
    - intros st H. apply rall_ret. exact H. }
  intros Hr. destruct (R r Hr) as (l & -> & H1 & H2). exists l. auto.
Qed.

Definition wshare (f : nbr -> Q) : Q := qsum (fun e => wq e * f (ans ts e)) M.

Lemma cmass_M : cmass (map (fun e => (ans ts e, wq e)) M) == mass M.
Proof. unfold cmass, WeightedLaw.mass. rewrite qsum_map. reflexivity. Qed.
Lemma share_M f : share f (map (fun e => (ans ts e, wq e)) M) == wshare f.
Proof. unfold share, wshare. rewrite qsum_map. reflexivity. Qed.

(** One neighbor: an edge is drawn with its share of the weight of all matching edges. *)
Theorem weighted_one default f : 0 < mass M ->
  ex (rlaw (g_sample fadd fsub qval g T 1 default n ts)) (on_ok (qsum f)) == wshare f / mass M.
Proof.
  intros Hpos. destruct weighted_setup as (m & Hg & HR & HO & HM). destruct (xo_zero _ _ _ _ _ X) as [Z1 Z2].
  unfold g_sample. rewrite (ex_lift _ _ _ _ (Hg n)). unfold lookup, found.
  destruct (places (part_of fadd m (is_temporal wm)) n (map rows parts)) as [|o os] eqn:Ep.
  - exfalso. apply places_nil in Ep. rewrite Ep in HO. cbn [map flat_map] in HO. pose proof cmass_M as CM. rewrite <- HO in CM. unfold cmass in CM. cbn [qsum] in CM. lra.
  - rewrite ex_rbind. cbn [repeat].
    transitivity (ex (rlaw (sample_partitions fadd fsub qval (o :: os) ts T 1 default ([default], 0%N))) (on_ok (fun st => qsum f (fst st)))).
    { apply ex_ext_all. intros [st|e]; cbn [on_ok rlaw]; [|reflexivity]. now rewrite ex_ret. }
    rewrite (partitions_one fadd fsub qval rep B X ts T default f _ _ default 0%N HR Z1); [|rewrite Z2, HM; lra|reflexivity].
    rewrite HO. unfold blend.
    destruct (Qeq_bool _ 0) eqn:Eb; [apply Qeq_bool_iff in Eb; rewrite Z2, cmass_M in Eb; lra|].
    rewrite Z2, cmass_M, share_M. field. lra.
Qed.

(** Several neighbors of a node whose edges are in one block: the expected number of draws of
    an edge is its share. *)
Theorem weighted_block count default f r : 0 < mass M -> node_rows n (map rows parts) = [r] ->
  ex (rlaw (g_sample fadd fsub qval g T count default n ts)) (on_ok (qsum f)) == qnat count * (wshare f / mass M).
Proof.
  intros Hpos Hone. destruct weighted_setup as (m & Hg & HR & HO & HM). destruct (xo_zero _ _ _ _ _ X) as [Z1 Z2].
  unfold g_sample. rewrite (ex_lift _ _ _ _ (Hg n)). unfold lookup, found. rewrite Hone in *. cbn [map flat_map qsum] in *. rewrite app_nil_r in HO.
  inversion HR as [|o ? os ? (tmp & gs & R1 & R2 & R3 & R4) HR' E1 E2]. inversion HR'; subst. destruct o as [p id]. cbn [fst snd] in *.
  cbn [sample_partitions]. rewrite ex_rbind.
  transitivity (ex (rlaw (sample_partition fadd fsub qval p id ts T count default (repeat default count, 0%N))) (on_ok (fun st => qsum f (fst st)))).
  { rewrite ex_rbind. apply ex_ext_all. intros [st|e]; cbn [on_ok rlaw]; [|reflexivity]. rewrite ex_ret. cbn [on_ok rlaw]. now rewrite ex_ret. }
  rewrite (partition_law fadd fsub qval rep B X tmp p id ts T gs _ R1 R2 R3 R4 count default default 0%N f); [|exact Z1|rewrite Z2; lra|reflexivity|reflexivity].
  rewrite HO. destruct (Qeq_bool _ 0) eqn:Eb; [apply Qeq_bool_iff in Eb; rewrite Z2, cmass_M in Eb; lra|].
  rewrite Z2, cmass_M, share_M. field. lra.
Qed.
End Graph.

(** Weights that are natural numbers. *)
Lemma exact_N B : exact_on N.add N.sub (fun w => inject_Z (Z.of_N w)) (fun _ => True) B.
Proof.
  constructor.
  - split; [exact I|reflexivity].
  - intros a _. change 0 with (inject_Z 0). rewrite <- Zle_Qle. lia.
  - intros a b _ _ _. split; [exact I|]. rewrite <- inject_Z_plus. now rewrite N2Z.inj_add.
  - intros a b _ _ H. split; [exact I|]. rewrite <- Zle_Qle in H. rewrite N2Z.inj_sub by lia. unfold Z.sub. now rewrite inject_Z_plus, inject_Z_opp.
Qed.
