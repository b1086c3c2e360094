(** Personalised PageRank: the best scores, and the whole procedure. *)
From Verif Require Import Base Dist LoaderModel GraphModel NeighborModel WalkModel WalkProofs PprModel PprProofs.
From Coq Require Import Lqa Permutation Sorting.Sorted Qround ZifyBool ZifyNat ZifyN.
Local Open Scope Z_scope.

(** ** Specification *)
(** Scores ascending; equal scores by node. *)
Definition score_le (a b : Q * Z) : Prop := (fst a < fst b)%Q \/ ((fst a == fst b)%Q /\ snd a <= snd b).
(** [out] has [count] entries: the best ones of [all] in ascending order, then the default. *)
Definition best_of (count : nat) (default : Q * Z) (all out : list (Q * Z)) : Prop :=
  exists kept dropped, out = kept ++ repeat default (count - length kept) /\ Permutation (kept ++ dropped) all /\
    StronglySorted score_le kept /\ length kept = Nat.min count (length all) /\
    forall k d, In k kept -> In d dropped -> (fst d <= fst k)%Q.

Lemma insert_score_perm x l : Permutation (insert_score x l) (x :: l).
Proof. induction l as [|y l IH]; cbn [insert_score]; [reflexivity|]. destruct (score_ltb x y); [reflexivity|]. rewrite IH. apply perm_swap. Qed.
Lemma score_ltb_true x y : score_ltb x y = true -> score_le x y.
Proof.
  unfold score_ltb, score_le. rewrite orb_true_iff, negb_true_iff, andb_true_iff. intros [H|[H1 H2]].
  - left. apply Qnot_le_lt. intros K. apply Qle_bool_iff in K. congruence.
  - right. apply Qeq_bool_iff in H1. split; [exact H1|lia].
Qed.
Lemma score_ltb_false x y : score_ltb x y = false -> score_le y x.
Proof.
  unfold score_ltb, score_le. rewrite orb_false_iff, negb_false_iff, andb_false_iff. intros [H1 H2]. apply Qle_bool_iff in H1.
  destruct (Qeq_bool (fst x) (fst y)) eqn:E.
  - apply Qeq_bool_iff in E. right. split; [now symmetry|]. destruct H2 as [H2|H2]; [discriminate|lia].
  - apply Qeq_bool_neq in E. left. apply Qle_lteq in H1 as [K|K]; [exact K|]. exfalso. apply E. now symmetry.
Qed.
Lemma score_le_trans a b c : score_le a b -> score_le b c -> score_le a c.
Proof. unfold score_le. intros [H1|[H1 H2]] [K1|[K1 K2]]; [left; lra|left; lra|left; lra|right; split; [lra|lia]]. Qed.
Lemma insert_score_sorted x l : StronglySorted score_le l -> StronglySorted score_le (insert_score x l).
Proof.
  induction 1 as [|y l H IH F]; cbn [insert_score]; [repeat constructor|]. destruct (score_ltb x y) eqn:E.
  - constructor; [constructor; assumption|]. apply score_ltb_true in E. constructor; [exact E|]. eapply Forall_impl; [|exact F]. intros z Hz. eapply score_le_trans; eassumption.
  - constructor; [exact IH|]. apply score_ltb_false in E. eapply Permutation_Forall; [symmetry; apply insert_score_perm|]. constructor; assumption.
Qed.
Definition entry (x : Z * Q) : Q * Z := (snd x, fst x).
Lemma best_ok count m : (0 < count)%nat -> forall pq dropped, StronglySorted score_le pq -> (length pq <= count)%nat -> ((length pq < count)%nat -> dropped = []) ->
  (forall k d, In k pq -> In d dropped -> (fst d <= fst k)%Q) ->
  exists out dropped', best count m pq = Ok out /\ Permutation (out ++ dropped') (map entry m ++ pq ++ dropped) /\ StronglySorted score_le out /\
    (length out <= count)%nat /\ ((length out < count)%nat -> dropped' = []) /\ forall k d, In k out -> In d dropped' -> (fst d <= fst k)%Q.
Proof.
  intros Hc. induction m as [|[n x] m IH]; intros pq dropped S0 L Hd Hl; cbn [best map app]; [exists pq, dropped; repeat split; auto|].
  destruct (Nat.ltb_spec (length pq) count) as [Lt|Ge].
  - destruct (IH (insert_score (x, n) pq) dropped) as (out & dr & E & P & R).
    + now apply insert_score_sorted.
    + rewrite (Permutation_length (insert_score_perm _ _)). cbn [length]. lia.
    + intros _. now apply Hd.
    + intros k d Hk Hin. rewrite (Hd Lt) in Hin. destruct Hin.
    + exists out, dr. split; [exact E|]. split; [|exact R]. rewrite P. rewrite insert_score_perm. cbn [app entry fst snd]. symmetry. apply Permutation_middle.
  - destruct pq as [|top rest]; [cbn [length] in Ge; lia|]. inversion S0 as [|? ? S1 F]; subst. cbn [length] in *.
    assert (Top : forall k, In k rest -> (fst top <= fst k)%Q).
    { intros k Hk. rewrite Forall_forall in F. destruct (F k Hk) as [K|[K _]]; lra. }
    destruct (Qle_bool (fst top) x) eqn:Ex; cbn [negb].
    + apply Qle_bool_iff in Ex. destruct (IH (insert_score (x, n) rest) (top :: dropped)) as (out & dr & E & P & R).
      * now apply insert_score_sorted.
      * rewrite (Permutation_length (insert_score_perm _ _)). cbn [length]. lia.
      * rewrite (Permutation_length (insert_score_perm _ _)). cbn [length]. lia.
      * intros k d Hk Hin. apply (Permutation_in _ (insert_score_perm _ _)) in Hk.
        assert (T : (fst top <= fst k)%Q) by (destruct Hk as [<-|Hk]; [exact Ex|auto]).
        destruct Hin as [<-|Hin]; [exact T|]. apply Qle_trans with (fst top); [|exact T]. apply Hl; [now left|exact Hin].
      * exists out, dr. split; [exact E|]. split; [|exact R]. rewrite P, insert_score_perm. cbn [app entry fst snd].
        rewrite <- Permutation_middle. rewrite <- (Permutation_middle (map entry m)). apply perm_skip. rewrite !app_assoc. symmetry. apply Permutation_middle.
    + assert (Lt : (x < fst top)%Q) by (apply Qnot_le_lt; intros K; apply Qle_bool_iff in K; congruence).
      destruct (IH (top :: rest) ((x, n) :: dropped)) as (out & dr & E & P & R).
      * exact S0.
      * exact L.
      * cbn [length]. lia.
      * intros k d Hk [<-|Hin]; [|now apply Hl]. cbn [fst]. destruct Hk as [<-|Hk]; [lra|]. specialize (Top k Hk). lra.
      * exists out, dr. split; [exact E|]. split; [|exact R]. rewrite P. cbn [entry fst snd].
        change (Permutation (map entry m ++ (top :: rest) ++ (x, n) :: dropped) ((x, n) :: map entry m ++ (top :: rest) ++ dropped)).
        rewrite !app_assoc. symmetry. apply Permutation_middle.
Qed.
Lemma row_answer_best pord count default s : (0 < count)%nat -> (forall m, Permutation (pord m) m) ->
  exists out, row_answer pord count default s = Ok out /\ best_of count default (map entry (pr_p s)) out.
Proof.
  intros Hc Hp. unfold row_answer. destruct (best_ok count (pord (pr_p s)) Hc [] []) as (out & dr & E & P & S0 & L & Hd & Hl); try constructor; try (cbn [length]; lia); try (intros k d []).
  rewrite E. cbn [bind]. eexists. split; [reflexivity|]. exists out, dr. cbn [app] in P. rewrite app_nil_r in P.
  assert (P' : Permutation (out ++ dr) (map entry (pr_p s))) by (rewrite P; apply Permutation_map, Hp).
  split; [now rewrite firstn_all2 by exact L|]. split; [exact P'|]. split; [exact S0|]. split; [|exact Hl].
  apply Permutation_length in P'. rewrite app_length in P'. destruct (Nat.eq_dec (length out) count) as [El|Nl]; [lia|]. rewrite Hd in P' by lia. cbn [length] in P'. lia.
Qed.

(** ** The whole procedure *)
(** What a row of the answer satisfies; [p] are the scores, [r] the residuals when it stops. *)
Definition ppr_row (adj : Z -> list Z) (alpha eps : Q) (count : nat) (default : Q * Z) (n : Z) (out : list (Q * Z)) : Prop :=
  exists p r : qmap,
    NoDup (map fst p) /\ NoDup (map fst r) /\ (forall x, In x p -> (0 <= snd x)%Q) /\ (forall x, In x r -> (0 <= snd x)%Q) /\
    (alpha * qsum snd p + qsum snd r <= alpha)%Q /\
    ((forall v, adj v <> []) -> (alpha * qsum snd p + qsum snd r == alpha)%Q) /\
    (forall v x, In (v, x) r -> (x == 0)%Q \/ (x < alpha * eps * qnat (length (adj v)))%Q) /\
    (forall g h, harmonic alpha adj g h -> (alpha * qsum (fun x => snd x * g (fst x)) p + qsum (fun x => snd x * h (fst x)) r == alpha * h n)%Q) /\
    best_of count default (map entry p) out.

Lemma qget_in (m : qmap) v x : NoDup (map fst m) -> In (v, x) m -> qget m v = x.
Proof.
  induction m as [|[k y] m IH]; cbn [map fst qget]; intros N H; [destruct H|]. inversion N as [|? ? N1 N2]; subst. destruct H as [E|H].
  - injection E as -> ->. now rewrite Z.eqb_refl.
  - destruct (Z.eqb_spec k v) as [->|]; [|auto]. exfalso. apply N1. apply (in_map fst) in H. exact H.
Qed.
Lemma wsum_one m : (wsum (fun _ => 1%Q) m == qsum snd m)%Q.
Proof. unfold wsum. apply qsum_ext. intros. ring. Qed.

Section Whole.
Variable query : list Z -> option (list Z) -> res (list nbr * list nat).
Variable qcount : list Z -> option (list Z) -> res (list nat).
Variable ord : list key -> list key.
Variable pord : qmap -> qmap.
Variable adj : Z -> list Z.
Notation deg := (fun v => length (adj v)).
Hypothesis Hq : forall ns, exists l cs, query ns None = Ok (l, cs) /\ split_counts cs (map (fun y => fst (nbr_node y)) l) = Ok (map adj ns).
Hypothesis Hc : forall ns, qcount ns None = Ok (map deg ns).
Hypothesis Hord : forall l, Permutation (ord l) l.
Hypothesis Hpord : forall l, Permutation (pord l) l.
Variables alpha eps : Q.
Hypothesis Ha0 : (0 < alpha)%Q.
Hypothesis Ha1 : (alpha <= 1)%Q.
Hypothesis He : (0 < eps)%Q.
Notation step := (step alpha eps adj).
Notation start := (start alpha).

Lemma step_empty s : pr_q s = [] -> step s = s.
Proof. intros E. unfold PprProofs.step, push_row. now rewrite E. Qed.
Lemma iter_fine k n : fine alpha eps adj (match k with O => true | S _ => false end) (Nat.iter k step (start n)).
Proof.
  induction k as [|k IH]; [now apply fine_start|]. change (Nat.iter (S k) step (start n)) with (step (Nat.iter k step (start n))).
  destruct (pr_q (Nat.iter k step (start n))) as [|u q'] eqn:E.
  - rewrite step_empty by exact E. destruct k as [|k]; [discriminate|exact IH].
  - eapply fine_step; try eassumption; [congruence|]. destruct k; [|discriminate]. intros _. exists n. reflexivity.
Qed.
Lemma iter_done_more j : forall s, pr_q s = [] -> pr_q (Nat.iter j step s) = [].
Proof. induction j as [|j IH]; intros s H; [exact H|]. rewrite iter_succ_r, step_empty by exact H. auto. Qed.
Lemma iter_bounded m : forall s, fine alpha eps adj false s -> bounded alpha eps m s -> pr_q (Nat.iter m step s) = [].
Proof.
  induction m as [|m IH]; intros s F B.
  - apply (bounded_zero alpha eps Ha0 He s B). apply (nonneg_wsum (fun _ => 1%Q)); [apply (f_r _ _ _ _ _ F)|intros; lra].
  - rewrite iter_succ_r. destruct (pr_q s) as [|u q'] eqn:E; [rewrite step_empty by exact E; now apply iter_done_more|].
    apply IH; [eapply fine_step; try eassumption; [congruence|discriminate]|]. apply bounded_step; try assumption. congruence.
Qed.
Lemma row_stops n : exists m, forall k, (m <= k)%nat -> pr_q (Nat.iter k step (start n)) = [].
Proof.
  pose proof (iter_fine 1 n) as F. destruct (bounded_exists alpha eps adj Ha0 He (Nat.iter 1 step (start n))) as (m & B).
  exists (S m). intros k Hk. replace k with (k - S m + S m)%nat by lia. 
  assert (E : Nat.iter (k - S m + S m) step (start n) = Nat.iter (k - S m) step (Nat.iter (S m) step (start n))).
  { generalize (k - S m)%nat as j. induction j as [|j IHj]; [reflexivity|]. cbn [Nat.add]. change (Nat.iter (S (j + S m)) step (start n)) with (step (Nat.iter (j + S m) step (start n))). rewrite IHj. reflexivity. }
  rewrite E. apply iter_done_more. rewrite iter_succ_r. now apply iter_bounded.
Qed.
Lemma rows_stop nodes : exists m, forall k, (m <= k)%nat -> Forall (fun n => pr_q (Nat.iter k step (start n)) = []) nodes.
Proof.
  induction nodes as [|n nodes (m & IH)]; [exists 0%nat; intros; constructor|]. destruct (row_stops n) as (m' & H). exists (Nat.max m m'). intros k Hk.
  constructor; [apply H; lia|apply IH; lia].
Qed.
Lemma iter_conserves g h k n : harmonic alpha adj g h ->
  (alpha * wsum g (pr_p (Nat.iter k step (start n))) + wsum h (pr_r (Nat.iter k step (start n))) == alpha * h n)%Q.
Proof.
  intros H. induction k as [|k IH].
  - cbn. unfold wsum. cbn [qsum fst snd]. ring.
  - change (Nat.iter (S k) step (start n)) with (step (Nat.iter k step (start n))). rewrite step_conserves by assumption. exact IH.
Qed.
Lemma harmonic_one : (forall v, adj v <> []) -> harmonic alpha adj (fun _ => 1%Q) (fun _ => 1%Q).
Proof.
  intros H u. assert (P : (0 < qnat (length (adj u)))%Q) by (apply qnat_pos; specialize (H u); destruct (adj u); [congruence|cbn; lia]). rewrite qsum_const. field. lra.
Qed.
Lemma final_row k n out count default : pr_q (Nat.iter k step (start n)) = [] -> best_of count default (map entry (pr_p (Nat.iter k step (start n)))) out ->
  ppr_row adj alpha eps count default n out.
Proof.
  intros E B. pose proof (iter_fine k n) as F. set (s := Nat.iter k step (start n)) in *. exists (pr_p s), (pr_r s).
  split; [apply (f_pk _ _ _ _ _ F)|]. split; [apply (f_rk _ _ _ _ _ F)|]. split; [apply Forall_forall, (f_p _ _ _ _ _ F)|]. split; [apply Forall_forall, (f_r _ _ _ _ _ F)|].
  split; [rewrite <- !wsum_one; apply (f_mass _ _ _ _ _ F)|]. split; [intros H; rewrite <- !wsum_one; pose proof (iter_conserves _ _ k n (harmonic_one H)) as K; fold s in K; rewrite K; ring|].
  split; [|split; [intros g h H; now apply iter_conserves|exact B]].
  intros v x Hx. pose proof (f_settled _ _ _ _ _ F v) as K. unfold settled in K. rewrite (qget_in _ v x (f_rk _ _ _ _ _ F) Hx), E in K. destruct K as [[]|K]. exact K.
Qed.
Lemma mapM_rows {A B} (f : A -> res B) (P : A -> B -> Prop) l : (forall x, In x l -> exists y, f x = Ok y /\ P x y) -> exists ys, mapM f l = Ok ys /\ Forall2 P l ys.
Proof.
  induction l as [|x l IH]; intros H; cbn [mapM]; [exists []; split; [reflexivity|constructor]|].
  destruct (H x) as (y & E & Py); [now left|]. destruct IH as (ys & E' & F); [intros z Hz; apply H; now right|]. rewrite E. cbn [bind]. rewrite E'. cbn [bind]. exists (y :: ys). split; [reflexivity|now constructor].
Qed.
Theorem ppr_ok nodes count default : (0 < count)%nat ->
  exists out m, Forall2 (ppr_row adj alpha eps count default) nodes out /\
    forall fuel, (m <= fuel)%nat -> ppr query qcount ord pord fuel alpha eps nodes None count default = Ok out.
Proof.
  intros Hcount. destruct (rows_stop nodes) as (m & Hm).
  assert (G : good_cache adj (Cache [] [])) by (split; intros; discriminate). assert (Cl : closed (Cache [] [])) by (intros k l v H; discriminate).
  pose proof (fun fuel => loop_direct query qcount ord adj Hq Hc Hord alpha eps fuel (Cache [] []) (map start nodes) G Cl) as D.
  destruct (direct_done adj alpha eps m (map start nodes)) as (rows & Er).
  { apply Forall_forall. intros s Hs. apply in_map_iff in Hs as (n & <- & Hn). specialize (Hm m (Nat.le_refl m)). rewrite Forall_forall in Hm. now apply Hm. }
  destruct (direct_iter adj alpha eps m (map start nodes) rows Er) as (k & -> & Hdone).
  rewrite map_map in *.
  destruct (mapM_rows (row_answer pord count default) (fun s o => best_of count default (map entry (pr_p s)) o) (map (fun n => Nat.iter k step (start n)) nodes)) as (out & Eo & Ho).
  { intros s _. now apply row_answer_best. }
  exists out, m. split.
  - clear D Er Eo Hm. revert out Ho. induction nodes as [|n ns IH]; intros out Ho; cbn [map] in *; inversion Ho; subst; constructor.
    + eapply final_row; [|eassumption]. now apply Forall_inv in Hdone.
    + apply IH; [now apply Forall_inv_tail in Hdone|assumption].
  - intros fuel Hf. unfold ppr. change (fun n => PR [] [(n, alpha)] [n]) with start. rewrite D.
    assert (M : forall f rows r, direct adj alpha eps f rows = Ok r -> forall f', (f <= f')%nat -> direct adj alpha eps f' rows = Ok r).
    { clear. induction f as [|f IH]; intros rows r H f' Hf; destruct f' as [|f']; try lia; cbn [direct] in *; destruct (all_done rows); try congruence; try discriminate. apply (IH _ _ H). lia. }
    rewrite (M m _ _ Er fuel Hf). cbn [bind]. exact Eo.
Qed.
End Whole.

(** Consequences of a row. *)
Lemma row_error (adj : Z -> list Z) alpha eps n (p r : qmap) g h : (0 < alpha)%Q -> (forall v, 0 <= h v)%Q -> (forall x, In x r -> (0 <= snd x)%Q) ->
  (forall v x, In (v, x) r -> (x == 0)%Q \/ (x < alpha * eps * qnat (length (adj v)))%Q) -> (0 < eps)%Q ->
  (alpha * qsum (fun x => snd x * g (fst x)) p + qsum (fun x => snd x * h (fst x)) r == alpha * h n)%Q ->
  (qsum (fun x => snd x * g (fst x)) p <= h n)%Q /\ (h n - qsum (fun x => snd x * g (fst x)) p <= eps * qsum (fun x => qnat (length (adj (fst x))) * h (fst x)) r)%Q.
Proof.
  intros Ha Hh Hr Hs He E. set (P := qsum (fun x => snd x * g (fst x))%Q p) in *. set (R := qsum (fun x => snd x * h (fst x))%Q r) in *.
  assert (R0 : (0 <= R)%Q) by (apply qsum_nonneg; intros x Hx; apply Qmult_le_0_compat; auto).
  assert (R1 : (R <= alpha * eps * qsum (fun x => qnat (length (adj (fst x))) * h (fst x)) r)%Q).
  { rewrite <- qsum_scale. apply qsum_le. intros [v x] Hx. cbn [fst snd]. specialize (Hh v). destruct (Hs v x Hx) as [K|K].
    - rewrite K. assert (0 <= alpha * eps)%Q by (apply Qmult_le_0_compat; lra). pose proof (qnat_nonneg (length (adj v))).
      assert (0 <= qnat (length (adj v)) * h v)%Q by (apply Qmult_le_0_compat; assumption). assert (0 <= alpha * eps * (qnat (length (adj v)) * h v))%Q by (apply Qmult_le_0_compat; assumption). lra.
    - rewrite Qmult_assoc. apply Qmult_le_compat_r; [lra|exact Hh]. }
  split.
  - apply (Qmult_le_l _ _ alpha Ha). lra.
  - apply (Qmult_le_l _ _ alpha Ha). lra.
Qed.

Lemma row_scores adj alpha eps count default n out : (0 < alpha)%Q -> ppr_row adj alpha eps count default n out ->
  length out = count /\ exists kept k, out = kept ++ repeat default k /\ StronglySorted score_le kept /\ NoDup (map snd kept) /\
    (forall x, In x kept -> (0 <= fst x)%Q) /\ (qsum fst kept <= 1)%Q.
Proof.
  intros Ha (p & r & Np & Nr & Pp & Pr & M & _ & _ & _ & kept & dropped & -> & P & S0 & L & _).
  split; [rewrite app_length, repeat_length, L; lia|]. exists kept, (count - length kept)%nat. split; [reflexivity|]. split; [exact S0|].
  assert (Nn : NoDup (map snd (kept ++ dropped))).
  { eapply Permutation_NoDup; [apply Permutation_map, Permutation_sym, P|]. rewrite map_map. cbn [entry snd]. exact Np. }
  assert (Ps : forall x, In x (kept ++ dropped) -> (0 <= fst x)%Q).
  { intros x Hx. apply (Permutation_in _ P) in Hx. apply in_map_iff in Hx as (y & <- & Hy). cbn [entry fst]. now apply Pp. }
  assert (Ek : (qsum fst kept + qsum fst dropped == qsum snd p)%Q).
  { rewrite <- qsum_app, (qsum_perm fst _ _ P), qsum_map. reflexivity. }
  split; [rewrite map_app in Nn; clear - Nn; induction (map snd kept) as [|x l IH]; [constructor|]; inversion Nn; subst; constructor; [rewrite in_app_iff in *; tauto|auto]|].
  split; [intros x Hx; apply Ps, in_or_app; now left|].
  assert (D0 : (0 <= qsum fst dropped)%Q) by (apply qsum_nonneg; intros x Hx; apply Ps, in_or_app; now right).
  assert (R0 : (0 <= qsum snd r)%Q) by (apply qsum_nonneg; exact Pr).
  apply Qle_trans with (qsum snd p); [lra|]. apply (Qmult_le_l _ _ alpha Ha). lra.
Qed.
