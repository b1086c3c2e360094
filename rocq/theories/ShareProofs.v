(** Samples with replacement hold every element in proportion to its weight. *)
From Coq Require Import Lqa Permutation.
From Verif Require Import Base Dist WriterModel WriterProofs ConvertProofs AliasModel AliasProofs SamplerModel SamplerProofs MultinomialProofs OccurrenceProofs.
Local Open Scope Q_scope.

Section Share.
Context {A : Type} (eqb : A -> A -> bool) (x : A).
Hypothesis eqb_ok : forall a b, eqb a b = true <-> a = b.

(** Weight of [x] in a list of weighted elements. *)
Definition share (part : list (A * Q)) : Q := qsum (fun e => if eqb (fst e) x then snd e else 0) part.
Definition part_weight (part : list (A * Q)) : Q := qsum snd part.
(** The weights a sampler sees. *)
Definition weights_of (types : list (Z * list (list (A * Q)))) : list (Z * list Q) :=
  map (fun t => (fst t, map part_weight (snd t))) types.
Definition elements (types : list (Z * list (list (A * Q)))) : list (A * Q) := concat (flat_map snd types).

Lemma part_weight_app a b : part_weight (a ++ b) == part_weight a + part_weight b.
Proof. unfold part_weight. apply qsum_app. Qed.
Lemma share_app a b : share (a ++ b) == share a + share b.
Proof. unfold share. apply qsum_app. Qed.
Lemma total_parts ps : total (map part_weight ps) == part_weight (concat ps).
Proof. induction ps as [|p ps IH]; [reflexivity|]. unfold total in *. cbn [map concat qsum]. rewrite part_weight_app, IH. reflexivity. Qed.
Lemma grand_weight types : grand (map snd (weights_of types)) == part_weight (elements types).
Proof.
  unfold elements. induction types as [|[ty ps] types IH]; [reflexivity|]. unfold grand in *. cbn [weights_of map snd fst qsum flat_map].
  rewrite concat_app, part_weight_app, total_parts. unfold weights_of in IH. rewrite IH. reflexivity.
Qed.

Section Tables.
Context {T : Type} (q : T -> Q).
(** The sampler [tab] draws [x] in proportion to its weight in [part]. *)
Definition fair (part : list (A * Q)) (tab : T) : Prop := part_weight part * q tab == share part.

Lemma chance_in tabs i p ps tab : nth_error tabs i = Some ps -> nth_error ps p = Some tab -> chance q tabs (i, p) = q tab.
Proof. intros H1 H2. unfold chance, get. cbn [fst snd]. rewrite H1. cbn [bind]. rewrite H2. reflexivity. Qed.

Lemma parts_share parts ps : Forall2 fair parts ps -> forall g,
  (forall p tab, nth_error ps p = Some tab -> g p = q tab) ->
  wsum (map part_weight parts) g == share (concat parts).
Proof.
  induction 1 as [|part tab parts ps H _ IH]; intros g G; cbn [map wsum concat]; [reflexivity|].
  rewrite share_app, (IH (fun p => g (S p))), (G 0%nat tab eq_refl).
  - unfold fair in H. rewrite H. reflexivity.
  - intros p t Hp. apply (G (S p) t Hp).
Qed.

Lemma types_share types tabs : Forall2 (fun t ps => Forall2 fair (snd t) ps) types tabs -> forall g,
  (forall i p ps tab, nth_error tabs i = Some ps -> nth_error ps p = Some tab -> g (i, p) = q tab) ->
  wsum2 (map snd (weights_of types)) g == share (elements types).
Proof.
  unfold elements. induction 1 as [|[ty parts] ps types tabs H _ IH]; intros g G; cbn [weights_of map snd fst wsum2 flat_map]; [reflexivity|].
  rewrite concat_app, share_app. cbn [snd] in H. rewrite (parts_share _ _ H) by (intros p tab Hp; apply (G 0%nat p ps tab eq_refl Hp)).
  unfold weights_of in IH. rewrite (IH (fun y => g (S (fst y), snd y))); [reflexivity|].
  intros i p ps' tab H1 H2. cbn [fst snd]. apply (G (S i) p ps' tab H1 H2).
Qed.

Lemma fair_sample (take : T -> nat -> dist (list (option A))) types tabs size :
  (forall tab, draws_with eqb take x tab (q tab)) ->
  Forall (fun t => Forall (fun part => 0 <= part_weight part) (snd t) /\ snd t <> []) types ->
  0 < part_weight (elements types) ->
  Forall2 (fun t ps => Forall2 fair (snd t) ps) types tabs ->
  ex (sample_with take (weights_of types) tabs size) (fun _ => 1) == 1 /\
  ex (sample_with take (weights_of types) tabs size) (times eqb x) == qnat size * (share (elements types) / part_weight (elements types)).
Proof.
  intros D H W F.
  destruct (expected_times eqb take x q tabs D (weights_of types) size) as [M E].
  - unfold weights_of. rewrite Forall_map. eapply Forall_impl; [|exact H]. cbn [snd]. intros [ty ps] [H1 H2]. cbn [snd] in *. split.
    + rewrite Forall_map. exact H1.
    + destruct ps; [congruence|discriminate].
  - rewrite grand_weight. exact W.
  - unfold weights_of. rewrite map_map. cbn [snd]. clear - F. induction F as [|t ps types tabs H _ IH]; [reflexivity|].
    cbn [map]. rewrite IH, map_length. f_equal. clear - H. induction H; [reflexivity|]. cbn [length]. now rewrite IHForall2.
  - split; [exact M|]. rewrite E. rewrite (types_share types tabs F (chance q tabs)).
    + rewrite grand_weight. reflexivity.
    + intros i p ps tab H1 H2. now apply (chance_in tabs i p ps tab).
Qed.
End Tables.

Lemma share_weight part : share part == weight_of eqb x (map fst part) (map snd part).
Proof.
  unfold share, weight_of. induction part as [|[a w] part IH]; [reflexivity|].
  cbn [map combine qsum fst snd]. rewrite IH. unfold ind. destruct (eqb a x); ring.
Qed.
Lemma share_zero part : Forall (fun e => 0 <= snd e) part -> part_weight part == 0 -> share part == 0.
Proof.
  assert (G : Forall (fun e : A * Q => 0 <= snd e) part -> 0 <= share part /\ share part <= part_weight part).
  { induction 1 as [|[a w] part H _ IH]; cbn [share part_weight qsum fst snd] in *; [lra|].
    unfold share, part_weight in IH. cbn [snd] in H. destruct (eqb a x); lra. }
  intros H Z. specialize (G H). lra.
Qed.
Lemma part_nonneg part : Forall (fun e : A * Q => 0 <= snd e) part -> 0 <= part_weight part.
Proof. induction 1 as [|[a w] part H _ IH]; cbn [part_weight qsum snd] in *; [lra|]. unfold part_weight in IH. lra. Qed.

(** The alias tables the converter writes; a partition of weight 0 may have any table. *)
Theorem weighted_share (zero : A) types tabs size :
  Forall (fun t => Forall (Forall (fun e => 0 <= snd e)) (snd t) /\ snd t <> []) types ->
  0 < part_weight (elements types) ->
  Forall2 (fun t ps => Forall2 (fun part tab => 0 < part_weight part -> alias_table zero (map fst part) (map snd part) = Ok tab) (snd t) ps) types tabs ->
  ex (sample_with take_weighted (weights_of types) tabs size) (fun _ => 1) == 1 /\
  ex (sample_with take_weighted (weights_of types) tabs size) (times eqb x) == qnat size * (share (elements types) / part_weight (elements types)).
Proof.
  intros H W F. apply (fair_sample (fun tab => pr (alias_sample tab) (fun a => eqb a x)) take_weighted).
  - intros tab. apply weighted_draws.
  - eapply Forall_impl; [|exact H]. intros t [H1 H2]. split; [|exact H2]. eapply Forall_impl; [|exact H1]. intros; now apply part_nonneg.
  - exact W.
  - revert H F. clear W size. intros H F. induction F as [|t ps types tabs F1 _ IH]; [constructor|].
    inversion H as [|t' types' [H1 _] H2]; subst. constructor; [|now apply IH].
    clear - H1 F1 eqb_ok. induction F1 as [|part tab parts ps Ht _ IH]; [constructor|]. inversion H1 as [|p' ps' Hp Hps]; subst.
    constructor; [|now apply IH]. unfold fair. destruct (Qlt_le_dec 0 (part_weight part)) as [P|P].
    + assert (Sm : qsum (fun q => q) (map snd part) == part_weight part).
      { unfold part_weight. clear. induction part as [|e part IH]; cbn [map qsum]; [reflexivity|]. now rewrite IH. }
      destruct (table_spec zero eqb eqb_ok (map fst part) (map snd part)) as (t' & E & _ & _ & _ & _ & Pr).
      * now rewrite !map_length.
      * split; [now rewrite Forall_map|rewrite Sm; exact P].
      * rewrite (Ht P) in E. injection E as <-. rewrite (Pr x), Sm, share_weight. field. lra.
    + assert (Z : part_weight part == 0) by (pose proof (part_nonneg part Hp); lra).
      rewrite Z, (share_zero part Hp Z). ring.
Qed.

(** Uniform samplers with replacement: the partitions weigh as much as they have elements. *)
Lemma occ_share l : qnat (occ eqb x (map Some l)) == share (map (fun a => (a, 1)) l).
Proof.
  unfold share. induction l as [|a l IH]; cbn [map occ filter qsum fst snd]; [reflexivity|]. unfold occ in IH.
  unfold occ. cbn [filter]. destruct (eqb a x); cbn [length]; rewrite ?qnat_S, IH; ring.
Qed.
Lemma count_weight l : part_weight (map (fun a : A => (a, 1)) l) == qnat (length l).
Proof. unfold part_weight. induction l as [|a l IH]; [reflexivity|]. cbn [map qsum snd length]. rewrite qnat_S, IH. ring. Qed.

End Share.

Section Uniform.
Context {A : Type} (eqb : A -> A -> bool) (x : A).
Theorem uniform_share (types : list (Z * list (list A))) size :
  Forall (fun t => snd t <> []) types -> (0 < length (population types))%nat ->
  ex (sample_with take_uniform (sizes_of types) (map snd types) size) (fun _ => 1) == 1 /\
  ex (sample_with take_uniform (sizes_of types) (map snd types) size) (times eqb x)
  == qnat size * (qnat (occ eqb x (map Some (population types))) / qnat (length (population types))).
Proof.
  intros H P.
  set (q := fun rs : list A => qnat (occ eqb x (map Some rs)) / qnat (length rs)).
  destruct (expected_times eqb take_uniform x q (map snd types) (fun rs => uniform_draws eqb x rs) (sizes_of types) size) as [M E].
  - unfold sizes_of. rewrite Forall_map. eapply Forall_impl; [|exact H]. cbn [snd]. intros [ty ps] H2. cbn [snd] in *. split.
    + rewrite Forall_map. apply Forall_forall. intros r _. apply qnat_nonneg.
    + destruct ps; [congruence|discriminate].
  - assert (G : grand (map snd (sizes_of types)) == qnat (length (population types))).
    { unfold grand, total, sizes_of, population. clear. induction types as [|[ty ps] types IH]; [reflexivity|]. cbn [map qsum snd fst flat_map].
      rewrite app_length, qnat_add. rewrite IH. apply Qplus_comp; [|reflexivity]. clear.
      induction ps as [|p ps IH]; [reflexivity|]. cbn [map qsum concat]. now rewrite app_length, qnat_add, IH. }
    rewrite G. apply qnat_pos. exact P.
  - unfold sizes_of. rewrite !map_map. apply map_ext. intros t. cbn [snd]. now rewrite map_length.
  - split; [exact M|]. rewrite E.
    set (wt := map (fun t : Z * list (list A) => (fst t, map (map (fun a => (a, 1))) (snd t))) types).
    assert (Q1 : forall g, wsum2 (map snd (sizes_of types)) g == wsum2 (map snd (weights_of wt)) g).
    { unfold sizes_of, weights_of, wt. clear. induction types as [|[ty ps] types IH]; intros g; [reflexivity|]. cbn [map snd fst wsum2].
      apply Qplus_comp; [|apply IH]. generalize (fun p : nat => g (0%nat, p)). clear. induction ps as [|p ps IH]; intros g; [reflexivity|].
      cbn [map wsum]. rewrite (IH (fun p => g (S p))), count_weight. reflexivity. }
    assert (El : elements wt = map (fun a => (a, 1)) (population types)).
    { unfold elements, population, wt. clear. induction types as [|[ty ps] types IH]; [reflexivity|]. cbn [map snd fst flat_map].
      rewrite concat_app, map_app. rewrite IH. f_equal. now rewrite concat_map. }
    assert (G : grand (map snd (sizes_of types)) == qnat (length (population types))).
    { rewrite <- count_weight, <- El, <- grand_weight. clear.
      unfold wt, sizes_of, weights_of, grand, total. induction types as [|[ty ps] types IH]; [reflexivity|]. cbn [map snd fst qsum].
      rewrite IH. apply Qplus_comp; [|reflexivity]. clear. induction ps as [|p ps IH]; [reflexivity|]. cbn [map qsum]. rewrite IH, count_weight. reflexivity. }
    rewrite G, Q1, occ_share, <- El.
    rewrite (types_share eqb x q wt (map snd types)); [reflexivity| |].
    + unfold wt. clear. induction types as [|[ty ps] types IH]; [constructor|]. cbn [map snd fst]. constructor; [|exact IH]. cbn [snd].
      induction ps as [|p ps IH']; [constructor|]. cbn [map]. constructor; [|exact IH'].
      unfold fair, q. rewrite count_weight, <- occ_share. destruct p as [|a p]; [cbn [map occ filter length]; rewrite !qnat_0; ring|].
      assert (0 < qnat (length (a :: p))) by (apply qnat_pos; cbn [length]; lia). field. lra.
    + intros i p ps tab H1 H2. now apply (chance_in q (map snd types) i p ps tab).
Qed.
End Uniform.
