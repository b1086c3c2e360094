(** Weighted neighbor sampling with exact arithmetic: expectations. *)
From Verif Require Import Base Dist WriterModel LoaderModel GraphModel GraphSpec WriterProofs LoaderProofs QueryProofs GraphProofs ConvertProofs AnswerProofs SearchProofs CountProofs AliasModel ReservoirModel SamplerModel MultinomialProofs NeighborModel NeighborProofs UniformProofs WeightedProofs.
From Coq Require Import Lqa Sorting.Sorted ZifyBool ZifyNat ZifyN.
Local Open Scope Q_scope.

(** ** Laws of random programs *)
Lemma ex_rbind {A B} (m : rprog A) (k : A -> rprog B) (f : B -> Q) :
  ex (rlaw (rbind m k)) (on_ok f) == ex (rlaw m) (on_ok (fun a => ex (rlaw (k a)) (on_ok f))).
Proof.
  induction m as [a|e|n p h IH|p h IH|b w l h IH]; cbn [rbind rlaw].
  - rewrite ex_ret. reflexivity.
  - rewrite !ex_ret. reflexivity.
  - rewrite !ex_bind. apply ex_ext_all. intros c. apply IH.
  - rewrite !ex_bind. apply ex_ext_all. intros c. apply IH.
  - rewrite !ex_bind. apply ex_ext_all. intros c. apply IH.
Qed.
Lemma ex_lift {A B} (m : res A) a (k : A -> rprog B) (f : B -> Q) : m = Ok a ->
  ex (rlaw (rbind (rlift m) k)) (on_ok f) == ex (rlaw (k a)) (on_ok f).
Proof. intros ->. reflexivity. Qed.

(** All results on any path. *)
Fixpoint rany {A} (P : A -> Prop) (m : rprog A) : Prop :=
  match m with
  | RRet a => P a
  | RErr _ => True
  | RBin n _ k => forall c, (c <= n)%nat -> rany P (k c)
  | RCoin _ k => forall b, rany P (k b)
  | RPick _ _ _ k => forall i, rany P (k i)
  end.
Lemma rany_law {A} (P : A -> Prop) m a : rany P m -> In (Ok a) (map fst (rlaw m)) -> P a.
Proof.
  assert (G : forall B (d : dist B) (k : B -> dist (res A)), In (Ok a) (map fst (dbind d k)) -> exists b, In b (map fst d) /\ In (Ok a) (map fst (k b))).
  { intros B d k H. apply in_map_iff in H as ([v w] & Ev & H). cbn in Ev. subst v. apply in_flat_map in H as (y & Hy & H).
    apply in_map_iff in H as (z & Ez & H). injection Ez as E1 _. exists (fst y). split; [now apply in_map|]. rewrite <- E1. now apply in_map. }
  induction m as [x|e|n p k IH|p k IH|b w l k IH]; cbn [rany rlaw]; intros H Hin.
  - cbn in Hin. destruct Hin as [E|[]]. injection E as <-. exact H.
  - cbn in Hin. destruct Hin as [E|[]]. discriminate.
  - apply G in Hin as (c & Hc & Hin). apply (IH c); [|exact Hin]. apply H. now apply (dbinom_support n p).
  - apply G in Hin as (c & _ & Hin). now apply (IH c).
  - apply G in Hin as (c & _ & Hin). now apply (IH c).
Qed.
Lemma rany_bind {A B} (P : A -> Prop) (R : B -> Prop) m (k : A -> rprog B) : rany P m -> (forall a, P a -> rany R (k a)) -> rany R (rbind m k).
Proof. intros H1 H2. induction m as [x|e|n p h IH|p h IH|b w l h IH]; cbn [rany rbind] in *; auto. Qed.
Lemma rany_lift {A B} (R : B -> Prop) (m : res A) (k : A -> rprog B) : (forall a, m = Ok a -> rany R (k a)) -> rany R (rbind (rlift m) k).
Proof. destruct m; cbn [rlift rbind rany]; auto. Qed.

Lemma ex_law_ext {A} (m : rprog A) (P : A -> Prop) (f g : A -> Q) : rany P m -> (forall a, P a -> f a == g a) ->
  ex (rlaw m) (on_ok f) == ex (rlaw m) (on_ok g).
Proof. intros H E. apply ex_ext. intros [a|e] Hin; [|reflexivity]. cbn [on_ok]. apply E. eapply rany_law; eassumption. Qed.
Lemma ex_ok_plus {A} (d : dist (res A)) f g : ex d (on_ok (fun a => f a + g a)) == ex d (on_ok f) + ex d (on_ok g).
Proof. rewrite <- ex_plus. apply ex_ext_all. intros [a|e]; cbn [on_ok]; ring. Qed.

Lemma binom_mean n p : ex (dbinom n p) qnat == qnat n * p.
Proof.
  induction n as [|n IH]; [cbn [dbinom]; rewrite ex_ret, qnat_0; ring|]. rewrite ex_binom_S.
  transitivity (p * (ex (dbinom n p) qnat + 1) + (1 - p) * ex (dbinom n p) qnat); [|rewrite IH, qnat_S; ring].
  apply Qplus_comp; [|reflexivity]. apply Qmult_comp; [reflexivity|].
  transitivity (ex (dbinom n p) (fun c => qnat c + 1)); [apply ex_ext_all; intros; apply qnat_S|]. now rewrite ex_plus, binom_mass.
Qed.
Lemma binom_zero n p f : p == 0 -> ex (dbinom n p) f == f 0%nat.
Proof.
  intros H. revert f. induction n as [|n IH]; intros f; [apply ex_ret|]. rewrite ex_binom_S, !IH, H. ring.
Qed.
Lemma binom_affine n p a b : ex (dbinom n p) (fun c => a + qnat c * b) == a + qnat n * p * b.
Proof. rewrite ex_plus, (ex_scale_r (dbinom n p) b qnat), binom_mean. rewrite (ex_ext_all _ (fun _ => a) (fun _ => a * 1)) by (intros; ring). rewrite ex_scale, binom_mass. ring. Qed.

Lemma mapM_length {A B} (f : A -> res B) l : forall r, mapM f l = Ok r -> length r = length l.
Proof.
  induction l as [|a l IH]; cbn [mapM]; intros r H; [injection H as <-; reflexivity|].
  destruct (f a); [|discriminate]. cbn [bind] in H. destruct (mapM f l) as [t|]; [|discriminate]. cbn [bind] in H.
  injection H as <-. cbn [length]. now rewrite (IH t).
Qed.
Lemma map_fst_combine' {A B} (a : list A) : forall (b : list B), length a = length b -> map fst (combine a b) = a.
Proof. induction a as [|x a IH]; intros [|y b] H; cbn in *; try discriminate; [reflexivity|]. now rewrite IH by lia. Qed.

Lemma skipn_repeat {A} (x : A) n : forall k, skipn k (repeat x n) = repeat x (n - k).
Proof. induction n as [|n IH]; intros [|k]; cbn [repeat skipn Nat.sub]; auto. Qed.

(** The law of a pick. *)
Lemma ex_pick b w l (ws : list Q) g : Forall2 Qeq (gaps b l) ws ->
  ex (dpick b w l) g == qsum (fun x => fst x / w * g (snd x)) (combine ws (seq 0 (length ws))).
Proof.
  unfold dpick. generalize 0%nat. revert b ws. induction l as [|x l IH]; intros b ws s H; inversion H as [|? y ? t Hy Ht]; subst; [reflexivity|].
  cbn [gaps length seq map combine]. unfold ex in *. cbn [qsum fst snd]. rewrite (IH x t (S s) Ht), Hy. reflexivity.
Qed.

Section Exact.
Variables fadd fsub : N -> N -> N.
Variable qval : N -> Q.
Notation part_of := (part_of fadd).
Notation gedges := (gedges fadd fsub).

(** Weights [rep] are computed with exactly up to a bound. *)
Record exact_on (rep : N -> Prop) (B : Q) : Prop := {
  xo_zero : rep 0%N /\ qval 0%N == 0;
  xo_nonneg : forall a, rep a -> 0 <= qval a;
  xo_add : forall a b, rep a -> rep b -> qval a + qval b <= B -> rep (fadd a b) /\ qval (fadd a b) == qval a + qval b;
  xo_sub : forall a b, rep a -> rep b -> qval b <= qval a -> rep (fsub a b) /\ qval (fsub a b) == qval a - qval b
}.
Variable rep : N -> Prop.
Variable B : Q.
Hypothesis X : exact_on rep B.

Definition wq (e : edge) : Q := qval (e_w e).
Definition mass (es : list edge) : Q := qsum wq es.
Definition share (f : nbr -> Q) (ck : list (nbr * Q)) : Q := qsum (fun x => snd x * f (fst x)) ck.
Definition cmass (ck : list (nbr * Q)) : Q := qsum snd ck.

Lemma mass_nonneg es : Forall rep (map e_w es) -> 0 <= mass es.
Proof. intros H. apply qsum_nonneg. intros e He. rewrite Forall_forall in H. apply (xo_nonneg _ _ X), H. now apply in_map. Qed.
Lemma mass_app a b : mass (a ++ b) == mass a + mass b.
Proof. apply qsum_app. Qed.
Lemma mass_prefix es k : Forall rep (map e_w es) -> mass (firstn k es) <= mass es.
Proof.
  intros H. rewrite <- (firstn_skipn k es) at 2. rewrite mass_app.
  assert (0 <= mass (skipn k es)); [|lra]. apply mass_nonneg. rewrite <- (firstn_skipn k es), map_app in H. apply Forall_app in H. tauto.
Qed.

Lemma cum_exact es : forall acc, rep acc -> Forall rep (map e_w es) -> qval acc + mass es <= B ->
  forall j c, nth_error (cum fadd acc (map e_w es)) j = Some c -> rep c /\ qval c == qval acc + mass (firstn (S j) es).
Proof.
  induction es as [|e es IH]; intros acc Ha Hr Hb j c Hj; [destruct j; discriminate|].
  cbn [map cum] in *. inversion Hr as [|? ? He Hr']; subst. pose proof (mass_nonneg es Hr') as Hm.
  unfold mass in Hb. cbn [qsum] in Hb. fold (mass es) in Hb. unfold wq in Hb at 1.
  destruct (xo_add _ _ X acc (e_w e) Ha He) as [H1 H2]; [lra|].
  destruct j as [|j].
  - cbn in Hj. injection Hj as <-. split; [exact H1|]. rewrite H2. unfold mass. cbn [firstn qsum]. unfold wq. ring.
  - cbn [nth_error] in Hj. destruct (IH (fadd acc (e_w e)) H1 Hr' ltac:(lra) j c Hj) as [H3 H4]. split; [exact H3|].
    rewrite H4, H2. unfold mass. cbn [firstn qsum]. unfold wq. ring.
Qed.

(** ** Ranges with exact weights *)
Record range_ex (p : partition) (ts : option Z) (first i : nat) (r : nat * nat) (tw : N) (ck : list (nbr * Q)) : Prop := RX {
  rx_len : snd r = length ck;
  rx_weight : range_weight fsub p first r = Ok tw;
  rx_rep : rep tw;
  rx_w : qval tw == cmass ck;
  rx_base : exists base cums, range_base qval p first (fst r) = Ok base /\ mapM (get (p_wts p)) (seq (fst r) (snd r)) = Ok cums /\
      Forall2 Qeq (gaps base (map qval cums)) (map snd ck);
  rx_edge : forall j nb q, nth_error ck j = Some (nb, q) -> edge_at fsub p ts first i (fst r + j) = Ok nb;
  rx_nonneg : Forall (fun x => 0 <= snd x) ck
}.

Lemma gaps_last l : forall b ws, Forall2 Qeq (gaps b l) ws -> l <> [] -> exists c, nth_error l (length l - 1) = Some c /\ c == b + qsum (fun q => q) ws.
Proof.
  induction l as [|x l IH]; intros b ws H Hne; [congruence|]. inversion H as [|? y ? t Hy Ht]; subst. destruct l as [|x' l].
  - inversion Ht; subst. exists x. split; [reflexivity|]. cbn [qsum]. rewrite <- Hy. ring.
  - destruct (IH x t Ht) as (c & E & Ec); [discriminate|]. exists c. split.
    + replace (length (x :: x' :: l) - 1)%nat with (S (length (x' :: l) - 1)) by (cbn; lia). cbn [nth_error]. exact E.
    + rewrite Ec. cbn [qsum]. rewrite <- Hy. ring.
Qed.

Lemma range_ex_ok p ts first i r tw ck : range_ex p ts first i r tw ck -> range_ok fsub qval p ts first i r tw (map fst ck).
Proof.
  intros [L W R Wq (base & cums & Hb & Hc & Hg) E Nn]. constructor.
  - now rewrite map_length.
  - exact W.
  - exists base, cums. split; [exact Hb|]. split; [exact Hc|]. intros u Hne Hu.
    assert (Lc : length (map qval cums) = length (map fst ck)).
    { rewrite !map_length. apply mapM_length in Hc. rewrite seq_length in Hc. congruence. }
    rewrite <- Lc. destruct (gaps_last (map qval cums) base (map snd ck) Hg) as (c & Ec & Qc).
    { intros Z. rewrite Z in Lc. cbn in Lc. destruct ck; [now apply Hne|discriminate]. }
    apply (picked_lt _ _ _ _ c Ec). rewrite Qc, qsum_map, Wq. fold (cmass ck).
    assert (0 <= cmass ck). { apply qsum_nonneg. intros a Ha. rewrite Forall_forall in Nn. now apply Nn. }
    assert (qsum (fun a : nbr * Q => snd a) ck == cmass ck) as -> by reflexivity. nra.
  - intros j nb Hj. rewrite nth_error_map in Hj. destruct (nth_error ck j) as [[nb' q]|] eqn:Ej; [|discriminate]. cbn in Hj. injection Hj as <-. now apply (E j nb' q).
  - intros Z. destruct ck; [|discriminate]. exact Wq.
Qed.

Lemma slice_mass es pos ll : mass (slice es pos ll) == mass (firstn (pos + ll) es) - mass (firstn pos es).
Proof.
  assert (E : firstn (pos + ll) es = firstn pos es ++ firstn ll (skipn pos es)).
  { clear. revert pos. induction es as [|e es IH]; intros [|pos]; cbn [firstn skipn Nat.add app]; try reflexivity; [now rewrite firstn_nil|]. now rewrite IH. }
  rewrite E, mass_app. unfold slice. ring.
Qed.

Definition chunk (ts : option Z) (v : Z * list edge) (pos ll : nat) : list (nbr * Q) :=
  map (fun x => (nbr_at ts x, wq (fst x))) (slice (gedges v) pos ll).
Lemma chunk_mass ts v pos ll : cmass (chunk ts v pos ll) == mass (slice (snd v) pos ll).
Proof.
  unfold cmass, chunk, mass. rewrite qsum_map. cbn [snd].
  assert (E : map fst (gedges v) = snd v).
  { unfold QueryProofs.gedges. apply map_fst_combine'. now rewrite recover_length, map_length. }
  rewrite <- E. unfold slice. rewrite skipn_map, firstn_map, qsum_map. reflexivity.
Qed.

Lemma group_wts tmp p s l i v j : group_ok fadd tmp p (s, l, i) v -> Forall rep (map e_w (snd v)) -> mass (snd v) <= B -> (j < length (snd v))%nat ->
  exists c, get (p_wts p) (s + j) = Ok c /\ rep c /\ qval c == mass (firstn (S j) (snd v)).
Proof.
  intros G Hr Hb Hj. destruct (nth_error (cum fadd 0%N (map e_w (snd v))) j) as [c|] eqn:Ec.
  - exists c. split; [apply (go_wts _ _ _ _ _ G j c Ec)|]. destruct (xo_zero _ _ X) as [Z1 Z2].
    destruct (cum_exact (snd v) 0%N Z1 Hr ltac:(rewrite Z2; lra) j c Ec) as [H1 H2]. split; [exact H1|]. rewrite H2, Z2. ring.
  - apply nth_error_None in Ec. rewrite cum_length, map_length in Ec. lia.
Qed.

Lemma range_exact tmp p ts s l i v pos ll : group_ok fadd tmp p (s, l, i) v -> (ts <> None -> tmp = true) ->
  Forall rep (map e_w (snd v)) -> mass (snd v) <= B -> (pos + ll <= length (snd v))%nat -> (0 < ll \/ 0 < pos)%nat ->
  (exists tw, range_ex p ts s i ((s + pos)%nat, ll) tw (chunk ts v pos ll)) /\
  forall total, rep total -> qval total + mass (snd v) <= B ->
    exists total', add_range fadd fsub p s ((s + pos)%nat, ll) total = Ok total' /\ rep total' /\ qval total' == qval total + cmass (chunk ts v pos ll).
Proof.
  intros G Ht Hr Hb Hpl Hpos.
  assert (Ck : length (chunk ts v pos ll) = ll).
  { unfold chunk. rewrite map_length. apply slice_len. now rewrite gedges_len. }
  assert (Hz : (s + pos + ll =? 0)%nat = false) by (apply Nat.eqb_neq; lia).
  destruct (group_wts tmp p s l i v (pos + ll - 1)%nat G Hr Hb ltac:(lia)) as (c & Ec & Rc & Qc).
  replace (S (pos + ll - 1)) with (pos + ll)%nat in Qc by lia.
  assert (Ei : (s + pos + ll - 1 = s + (pos + ll - 1))%nat) by lia.
  assert (V : (0 < pos)%nat -> exists d, get (p_wts p) (s + pos - 1) = Ok d /\ rep d /\ qval d == mass (firstn pos (snd v))).
  { intros Hp. destruct (group_wts tmp p s l i v (pos - 1)%nat G Hr Hb ltac:(lia)) as (d & Ed & Rd & Qd).
    replace (S (pos - 1)) with pos in Qd by lia. exists d. split; [|auto]. rewrite <- Ed. f_equal. lia. }
  assert (Le : mass (firstn pos (snd v)) <= mass (firstn (pos + ll) (snd v))).
  { pose proof (slice_mass (snd v) pos ll) as M.
    assert (0 <= mass (slice (snd v) pos ll)); [|lra]. apply mass_nonneg. apply Forall_forall. intros x Hx. rewrite Forall_forall in Hr. apply Hr.
    apply in_map_iff in Hx as (e & <- & He). apply in_map. unfold slice in He.
    rewrite <- (firstn_skipn pos (snd v)). apply in_or_app. right. rewrite <- (firstn_skipn ll (skipn pos (snd v))). apply in_or_app. now left. }
  assert (CM : cmass (chunk ts v pos ll) == mass (firstn (pos + ll) (snd v)) - mass (firstn pos (snd v))) by (now rewrite chunk_mass, slice_mass).
  split.
  - assert (Tw : exists tw, range_weight fsub p s ((s + pos)%nat, ll) = Ok tw /\ rep tw /\ qval tw == cmass (chunk ts v pos ll)).
    { unfold range_weight. rewrite Hz, Ei, Ec. cbn [bind].
      destruct (Nat.eqb_spec (s + pos) s) as [E0|E0].
      - assert (pos = 0%nat) as -> by lia. exists c. split; [reflexivity|]. split; [exact Rc|]. rewrite CM, Qc. cbn [firstn]. unfold mass at 3. cbn [qsum]. ring.
      - destruct (V ltac:(lia)) as (d & Ed & Rd & Qd). rewrite Ed. cbn [bind]. exists (fsub c d). split; [reflexivity|].
        destruct (xo_sub _ _ X c d Rc Rd) as [H1 H2]; [rewrite Qc, Qd; exact Le|]. split; [exact H1|]. rewrite CM, H2, Qc, Qd. reflexivity. }
    destruct Tw as (tw & Etw & Rtw & Qtw). exists tw. constructor; cbn [fst snd]; auto.
    + (* sums *)
      assert (Hcs : exists cums, mapM (get (p_wts p)) (seq (s + pos) ll) = Ok cums /\
        forall b, b == mass (firstn pos (snd v)) -> Forall2 Qeq (gaps b (map qval cums)) (map snd (chunk ts v pos ll))).
      { assert (Es : map snd (chunk ts v pos ll) = map wq (slice (snd v) pos ll)).
        { assert (E : map fst (gedges v) = snd v) by (unfold QueryProofs.gedges; apply map_fst_combine'; now rewrite recover_length, map_length).
          unfold chunk. rewrite map_map. cbn [snd]. rewrite <- E. unfold slice. now rewrite skipn_map, firstn_map, map_map. }
        rewrite Es. clear - G Hr Hb Hpl X. revert pos Hpl. induction ll as [|ll IH]; intros pos Hpl.
        - exists []. split; [reflexivity|]. intros b _. unfold slice. cbn [firstn map gaps]. constructor.
        - destruct (group_wts tmp p s l i v pos G Hr Hb ltac:(lia)) as (c & Ec & Rc & Qc).
          destruct (IH (S pos) ltac:(lia)) as (cums & E1 & E2). cbn [seq mapM]. rewrite Ec. cbn [bind].
          replace (S (s + pos)) with (s + S pos)%nat by lia. rewrite E1. cbn [bind]. exists (c :: cums). split; [reflexivity|]. intros b Hbb.
          destruct (nth_error (snd v) pos) as [e|] eqn:Ee; [|apply nth_error_None in Ee; lia].
          unfold slice. rewrite (skipn_nth _ _ _ Ee). cbn [firstn map gaps]. constructor; [|apply (E2 (qval c) Qc)].
          assert (Ef : firstn (S pos) (snd v) = firstn pos (snd v) ++ [e]).
          { clear - Ee. revert pos Ee. induction (snd v) as [|x es IH]; intros [|pos] Ee; cbn in Ee; try discriminate.
            - injection Ee as ->. reflexivity.
            - change (firstn (S (S pos)) (x :: es)) with (x :: firstn (S pos) es). rewrite (IH pos Ee). reflexivity. }
          rewrite Qc, Hbb, Ef, mass_app. unfold mass. cbn [qsum]. ring. }
      destruct Hcs as (cums & E1 & E2). unfold range_base. destruct (Nat.eqb_spec (s + pos) s) as [E0|E0].
      * exists 0, cums. split; [reflexivity|]. split; [exact E1|]. apply E2. assert (pos = 0%nat) as -> by lia. reflexivity.
      * destruct (V ltac:(lia)) as (d & Ed & Rd & Qd). rewrite Ed. cbn [bind]. exists (qval d), cums. split; [reflexivity|]. split; [exact E1|]. now apply E2.
    + intros j nb q Hj. unfold chunk in Hj. rewrite nth_error_map in Hj. destruct (nth_error (slice (gedges v) pos ll) j) as [x|] eqn:Ej; [|discriminate].
      cbn in Hj. injection Hj as <- _. apply nth_slice in Ej. replace (s + pos + j)%nat with (s + (pos + j))%nat by lia.
      now apply (edge_at_group fadd fsub qval tmp p ts s l i v (pos + j) x G).
    + apply Forall_forall. intros x Hx. unfold chunk in Hx. apply in_map_iff in Hx as (y & <- & Hy). cbn [snd]. unfold wq.
      apply (xo_nonneg _ _ X). rewrite Forall_forall in Hr. apply Hr. apply in_map. unfold slice in Hy.
      assert (Hy' : In y (gedges v)).
      { rewrite <- (firstn_skipn pos (gedges v)). apply in_or_app. right. rewrite <- (firstn_skipn ll (skipn pos (gedges v))). apply in_or_app. now left. }
      unfold QueryProofs.gedges in Hy'. destruct y. eapply in_combine_l; eassumption.
  - intros total Rt Bt. unfold add_range. rewrite Hz, Ei, Ec. cbn [bind].
    pose proof (mass_prefix (snd v) (pos + ll) Hr) as Mp.
    destruct (xo_add _ _ X total c Rt Rc) as [H1 H2]; [rewrite Qc; lra|].
    destruct (Nat.eqb_spec (s + pos) s) as [E0|E0].
    + assert (pos = 0%nat) as -> by lia. exists (fadd total c). split; [reflexivity|]. split; [exact H1|]. rewrite CM, H2, Qc. cbn [firstn]. unfold mass at 3. cbn [qsum]. ring.
    + destruct (V ltac:(lia)) as (d & Ed & Rd & Qd). rewrite Ed. cbn [bind]. exists (fsub (fadd total c) d). split; [reflexivity|].
      pose proof (xo_nonneg _ _ X total Rt) as Nt.
      destruct (xo_sub _ _ X (fadd total c) d H1 Rd) as [H3 H4]; [rewrite H2, Qc, Qd; lra|]. split; [exact H3|]. rewrite CM, H4, H2, Qc, Qd. ring.
Qed.

(** ** The law of the draws *)
Lemma share_plus f c ck : share (fun x => f x + c) ck == share f ck + c * cmass ck.
Proof.
  unfold share, cmass. rewrite <- qsum_scale, <- qsum_plus. apply qsum_ext. intros; ring.
Qed.
Lemma share_app f a b : share f (a ++ b) == share f a + share f b.
Proof. apply qsum_app. Qed.
Lemma cmass_app a b : cmass (a ++ b) == cmass a + cmass b.
Proof. apply qsum_app. Qed.
Lemma cmass_nonneg ck : Forall (fun x => 0 <= snd x) ck -> 0 <= cmass ck.
Proof. intros H. apply qsum_nonneg. intros a Ha. rewrite Forall_forall in H. now apply H. Qed.
Lemma share_zero f ck : Forall (fun x => 0 <= snd x) ck -> cmass ck == 0 -> share f ck == 0.
Proof.
  induction 1 as [|x ck H F IH]; [reflexivity|]. unfold cmass, share in *. cbn [qsum]. intros E.
  pose proof (cmass_nonneg ck F) as Nn. unfold cmass in Nn.
  assert (E1 : snd x == 0) by lra. rewrite E1, IH by lra. ring.
Qed.

Lemma pick_chunk base w cums ck (g : nat -> Q) (h : nbr -> Q) : Forall2 Qeq (gaps base cums) (map snd ck) ->
  (forall j nb q, nth_error ck j = Some (nb, q) -> g j == h nb) -> ex (dpick base w cums) g == share h ck / w.
Proof.
  intros H1 H2. rewrite (ex_pick _ _ _ _ g H1), map_length. clear H1.
  assert (G : forall s, (forall j nb q, nth_error ck j = Some (nb, q) -> g (s + j)%nat == h nb) ->
    qsum (fun x => fst x / w * g (snd x)) (combine (map snd ck) (seq s (length ck))) == share h ck / w).
  { clear H2. induction ck as [|[nb q] ck IH]; intros s H2; cbn [length map seq combine qsum]; [unfold share; cbn [qsum]; unfold Qdiv; ring|].
    rewrite IH; [|intros j nb' q' Hj; replace (S s + j)%nat with (s + S j)%nat by lia; now apply (H2 (S j) nb' q')].
    cbn [fst snd]. pose proof (H2 0%nat nb q eq_refl) as E. rewrite Nat.add_0_r in E. rewrite E. unfold share. cbn [qsum fst snd]. unfold Qdiv. ring. }
  apply G. intros j nb q Hj. now apply (H2 j nb q).
Qed.

Lemma draw_law p ts rate first i lo len base w cums ck f n : Forall2 Qeq (gaps base cums) (map snd ck) -> 
  (n = 0%nat \/ 0 < w) -> cmass ck == w ->
  (forall j nb q, nth_error ck j = Some (nb, q) -> edge_at fsub p ts first i (lo + j) = Ok nb) ->
  forall a, ex (rlaw (draw_edges fsub p ts rate first i lo len base w cums n)) (on_ok (fun es => a + qsum f es)) == a + qnat n * rate * (share f ck / w).
Proof.
  intros Hg Hw Hm He. induction n as [|n IH]; intros a; cbn [draw_edges].
  - cbn [rlaw]. rewrite ex_ret. cbn [on_ok qsum]. rewrite qnat_0. ring.
  - destruct Hw as [|Hw]; [discriminate|]. cbn [rlaw]. rewrite ex_bind, ex_flip. specialize (IH (or_intror Hw)).
    rewrite IH. cbn [rlaw]. rewrite ex_bind.
    rewrite (pick_chunk base w cums ck _ (fun nb => f nb + (a + qnat n * rate * (share f ck / w))) Hg).
    + rewrite share_plus, Hm, qnat_S. field. intros E. rewrite E in Hw. now apply Qlt_irrefl in Hw.
    + intros j nb q Hj. rewrite (ex_lift _ nb) by (now apply (He j nb q)). rewrite ex_rbind.
      rewrite (ex_ext_all _ _ (on_ok (fun es => (a + f nb) + qsum f es))).
      * rewrite IH. ring.
      * intros [es|e]; cbn [on_ok rlaw]; [|reflexivity]. rewrite ex_ret. cbn [on_ok qsum]. ring.
Qed.

(** ** The law of the loops *)
Definition cks_of (data : list (N * list (nbr * Q))) : list (nbr * Q) := flat_map snd data.
Record inv (data : list (N * list (nbr * Q))) (total : N) (left : nat) : Prop := {
  in_rep : rep total;
  in_sum : qval total == cmass (cks_of data);
  in_stop : qval total == 0 -> left = 0%nat;
  in_ok : Forall (fun d => rep (fst d) /\ qval (fst d) == cmass (snd d) /\ Forall (fun x => 0 <= snd x) (snd d)) data
}.
Definition lin (rate : Q) (f : nbr -> Q) (ck : list (nbr * Q)) (total : N) (left : nat) : Q := qnat left * rate * (share f ck / qval total).

Lemma cks_nonneg data : Forall (fun d => rep (fst d) /\ qval (fst d) == cmass (snd d) /\ Forall (fun x => 0 <= snd x) (snd d)) data ->
  Forall (fun x : nbr * Q => 0 <= snd x) (cks_of data).
Proof. induction 1 as [|d data (_ & _ & H) _ IH]; cbn; [constructor|]. now apply Forall_app. Qed.

Lemma inv_next tw ck data total left c : inv ((tw, ck) :: data) total left -> (c <= left)%nat -> (feq qval tw total = true -> c = left) ->
  inv data (fsub total tw) (left - c) /\ qval (fsub total tw) == qval total - qval tw /\ qval total == qval tw + cmass (cks_of data).
Proof.
  intros [R S St Ok] Hc Hf. inversion Ok as [|? ? (O1 & O2 & O3) Ok']; subst. cbn [fst snd] in *.
  pose proof (cks_nonneg data Ok') as Nn. pose proof (cmass_nonneg _ Nn) as Nd.
  assert (E : qval total == qval tw + cmass (cks_of data)).
  { rewrite S, O2. unfold cks_of. cbn [flat_map snd]. apply cmass_app. }
  destruct (xo_sub _ _ X total tw R O1) as [H1 H2]; [lra|]. split; [|split; [exact H2|exact E]].
  constructor; auto; [rewrite H2; lra|]. intros Z. rewrite H2 in Z.
  assert (Ef : feq qval tw total = true) by (unfold feq; apply Qeq_bool_iff; lra). rewrite (Hf Ef). lia.
Qed.

Lemma range_law p ts rate first i f rs : forall data rest total left a K,
  Forall2 (fun r d => range_ex p ts first i r (fst d) (snd d)) rs data -> inv (data ++ rest) total left ->
  (forall es total' left', inv rest total' left' -> K es total' left' == a + qsum f es + lin rate f (cks_of rest) total' left') ->
  ex (rlaw (range_loop fsub qval p ts rate first i rs total left)) (on_ok (fun x => let '(es, total', left') := x in K es total' left'))
  == a + lin rate f (cks_of (data ++ rest)) total left.
Proof.
  induction rs as [|[lo len] rs IH]; intros data rest total left a K F I HK; inversion F as [|? [tw ck] ? data' R F']; subst; cbn [range_loop].
  - cbn [rlaw app] in *. rewrite ex_ret. cbn [on_ok]. rewrite HK by exact I. cbn [qsum]. ring.
  - cbn [fst snd] in R. destruct R as [Rl Rw Rr Rq (base & cums & Rb & Rc & Rg) Re Rn]. cbn [fst snd app] in *.
    rewrite (ex_lift _ tw _ _ Rw), (ex_lift _ base _ _ Rb), (ex_lift _ cums _ _ Rc).
    assert (Body : forall c, (c <= left)%nat -> (feq qval tw total = true -> c = left) -> (qval tw == 0 -> c = 0%nat) ->
      ex (rlaw (rbind (draw_edges fsub p ts rate first i lo len base (qval tw) (map qval cums) c) (fun es =>
         rbind (range_loop fsub qval p ts rate first i rs (fsub total tw) (left - c)) (fun r =>
         let '(es', total', left') := r in RRet (es ++ es', total', left')))))
        (on_ok (fun x => let '(es, total', left') := x in K es total' left'))
      == a + qnat c * rate * (share f ck / qval tw) + lin rate f (cks_of (data' ++ rest)) (fsub total tw) (left - c)).
    { intros c Hc Hf Hz. destruct (inv_next _ _ _ _ _ c I Hc Hf) as (I' & _ & _).
      rewrite ex_rbind.
      transitivity (ex (rlaw (draw_edges fsub p ts rate first i lo len base (qval tw) (map qval cums) c))
        (on_ok (fun es => (a + lin rate f (cks_of (data' ++ rest)) (fsub total tw) (left - c)) + qsum f es))).
      - apply ex_ext_all. intros [es|e]; cbn [on_ok]; [|reflexivity]. rewrite ex_rbind.
        rewrite <- (Qplus_assoc a), (Qplus_comm _ (qsum f es)), Qplus_assoc. rewrite <- (IH data' rest (fsub total tw) (left - c)%nat (a + qsum f es) (fun es' => K (es ++ es')) F' I').
        + apply ex_ext_all. intros [[[es' total'] left']|e]; cbn [on_ok rlaw]; [|reflexivity]. rewrite ex_ret. cbn [on_ok]. reflexivity.
        + intros es' total' left' I''. rewrite HK by exact I''. rewrite qsum_app. ring.
      - rewrite (draw_law p ts rate first i lo len base (qval tw) (map qval cums) ck f c Rg); [ring| |now rewrite Rq|exact Re].
        destruct (Qlt_le_dec 0 (qval tw)) as [H|H]; [now right|left]. apply Hz. pose proof (xo_nonneg _ _ X tw Rr). lra. }
    pose proof (in_ok _ _ _ I) as Iok. inversion Iok as [|? ? _ Iok']; subst. pose proof (cks_nonneg _ Iok') as Nn.
    pose proof (cmass_nonneg _ Nn) as Nd. pose proof (xo_nonneg _ _ X tw Rr) as Ntw.
    assert (Sh : share f (cks_of ((tw, ck) :: data' ++ rest)) == share f ck + share f (cks_of (data' ++ rest))) by (unfold cks_of; cbn [flat_map snd]; apply share_app).
    rewrite ex_rbind. destruct (feq qval tw total) eqn:Ef.
    + cbn [rlaw]. rewrite ex_ret. cbn [on_ok]. assert (Eq : qval tw == qval total) by (unfold feq in Ef; now apply Qeq_bool_iff in Ef).
      rewrite Body; auto; [|intros Z; apply (in_stop _ _ _ I); now rewrite <- Eq].
      destruct (inv_next _ _ _ _ _ left I (le_n _) (fun _ => eq_refl)) as (_ & _ & E).
      unfold lin. rewrite Nat.sub_diag, qnat_0, Sh, (share_zero f (cks_of (data' ++ rest)) Nn) by lra. rewrite Eq. unfold Qdiv. ring.
    + cbn [rlaw]. rewrite ex_bind.
      destruct (inv_next _ _ _ _ _ 0 I ltac:(lia) ltac:(congruence)) as (_ & E2 & E3).
      assert (Ne : ~ qval tw == qval total) by (intros Z; apply Qeq_bool_iff in Z; unfold feq in Ef; congruence).
      assert (Pt : 0 < qval total) by lra. assert (Pr : 0 < qval total - qval tw) by lra.
      destruct (Qlt_le_dec 0 (qval tw)) as [Htw|Htw].
      * rewrite (ex_ext _ _ (fun c => (a + qnat left * rate * (share f (cks_of (data' ++ rest)) / (qval total - qval tw)))
             + qnat c * (rate * (share f ck / qval tw) - rate * (share f (cks_of (data' ++ rest)) / (qval total - qval tw))))).
        -- rewrite binom_affine. unfold lin. rewrite Sh. field. repeat split; lra.
        -- intros c Hc. apply dbinom_support in Hc. rewrite ex_ret. cbn [on_ok]. rewrite (Body c Hc) by (congruence || (intros; lra)).
           unfold lin. rewrite (qnat_sub left c Hc), E2. ring.
      * assert (Z : qval tw == 0) by lra.
        rewrite (binom_zero left (qval tw / qval total)) by (rewrite Z; unfold Qdiv; ring).
        rewrite ex_ret. cbn [on_ok]. rewrite (Body 0%nat ltac:(lia)) by (congruence || auto). unfold lin. rewrite Nat.sub_0_r, E2, qnat_0, Sh, Z.
        rewrite (share_zero f ck Rn) by (now rewrite <- Rq). unfold Qdiv. rewrite Qplus_0_l.
        assert (qval total - 0 == qval total) as -> by ring. ring.
Qed.

Lemma group_law p ts rate f gs : forall datas total left a,
  Forall2 (fun g data => Forall2 (fun r d => range_ex p ts (wg_first g) (wg_index g) r (fst d) (snd d)) (wg_ranges g) data) gs datas ->
  inv (concat datas) total left ->
  ex (rlaw (group_loop fsub qval p ts rate gs total left)) (on_ok (fun es => a + qsum f es)) == a + lin rate f (cks_of (concat datas)) total left.
Proof.
  induction gs as [|g gs IH]; intros datas total left a F I; inversion F as [|? data ? datas' Hd F']; subst; cbn [group_loop].
  - cbn [rlaw concat cks_of flat_map]. rewrite ex_ret. cbn [on_ok qsum]. unfold lin, share. cbn [qsum]. unfold Qdiv. ring.
  - destruct (feq qval total 0%N || (left =? 0)%nat) eqn:Es.
    + cbn [rlaw]. rewrite ex_ret. cbn [on_ok qsum]. unfold lin. assert (left = 0%nat) as ->; [|rewrite qnat_0; ring].
      apply orb_true_iff in Es as [Es|Es]; [|lia]. apply (in_stop _ _ _ I). unfold feq in Es. apply Qeq_bool_iff in Es. rewrite Es. apply (xo_zero _ _ X).
    + rewrite ex_rbind. cbn [concat] in *.
      rewrite <- (range_law p ts rate (wg_first g) (wg_index g) f (wg_ranges g) data (concat datas') total left a
        (fun es total' left' => ex (rlaw (rbind (group_loop fsub qval p ts rate gs total' left') (fun es' => RRet (es ++ es')))) (on_ok (fun es => a + qsum f es))) Hd I).
      { apply ex_ext_all. intros [[[es total'] left']|e]; reflexivity. }
      intros es total' left' I'. rewrite ex_rbind. rewrite <- (IH datas' total' left' (a + qsum f es) F' I').
      apply ex_ext_all. intros [es'|e]; cbn [on_ok rlaw]; [|reflexivity]. rewrite ex_ret. cbn [on_ok]. rewrite qsum_app. ring.
Qed.

(** ** Results of any length *)
Lemma draw_len p ts rate first i lo len base w cums n : rany (fun es => length es <= n)%nat (draw_edges fsub p ts rate first i lo len base w cums n).
Proof.
  induction n as [|n IH]; cbn [draw_edges rany]; [cbn; lia|]. intros [|].
  - intros k. apply rany_lift. intros e _. eapply rany_bind; [exact IH|]. intros l Hl. cbn in *. lia.
  - clear - IH. revert IH. generalize (draw_edges fsub p ts rate first i lo len base w cums n).
    assert (G : forall (P R : list nbr -> Prop) m, (forall l, P l -> R l) -> rany P m -> rany R m).
    { intros P R m H. induction m; cbn [rany]; auto. }
    intros m. apply G. intros; lia.
Qed.
Lemma range_len p ts rate first i rs : forall total left,
  rany (fun x => length (fst (fst x)) + snd x <= left)%nat (range_loop fsub qval p ts rate first i rs total left).
Proof.
  induction rs as [|[lo len] rs IH]; intros total left; cbn [range_loop]; [cbn; lia|].
  apply rany_lift. intros tw _. apply rany_lift. intros base _. apply rany_lift. intros cums _.
  apply (rany_bind (fun c => c <= left)%nat); [destruct (feq qval tw total); cbn; auto; lia|].
  intros c Hc. eapply rany_bind; [apply draw_len|]. intros es He. eapply rany_bind; [apply IH|].
  intros [[es' total'] left'] H. cbn in *. rewrite app_length. lia.
Qed.
Lemma group_len p ts rate gs : forall total left, rany (fun es => length es <= left)%nat (group_loop fsub qval p ts rate gs total left).
Proof.
  induction gs as [|g gs IH]; intros total left; cbn [group_loop]; [cbn; lia|]. destruct (_ || _); [cbn; lia|].
  eapply rany_bind; [apply range_len|]. intros [[es total'] left'] H. cbn [fst snd] in H.
  eapply rany_bind; [apply IH|]. intros es' H'. cbn in H' |- *. rewrite app_length. lia.
Qed.

(** ** Groups of a partition *)
Definition at_time (ts : option Z) (x : edge * N) : bool := match ts with None => true | Some t => alive_pair t x end.
Definition offer (ts : option Z) (v : Z * list edge) : list (nbr * Q) := map (fun x => (nbr_at ts x, wq (fst x))) (filter (at_time ts) (gedges v)).
Definition group_times (ts : option Z) (v : Z * list edge) : Prop :=
  match ts with None => True | Some t => int32 t /\ StronglySorted not_before (map life (snd v)) /\ Forall (fun e => int32 (e_r e)) (snd v) end.

Lemma streams_pos fuel span t ss : int32 t -> Forall (fun x => int32 (snd x)) span -> streams fuel span t 0 = Ok ss ->
  Forall (fun x => 0 < snd x \/ 0 < fst (fst x))%nat ss.
Proof.
  intros Ht Hr H.
  assert (Later : forall fuel span pos ss, (0 < pos)%nat -> streams fuel span t pos = Ok ss -> Forall (fun x => 0 < snd x \/ 0 < fst (fst x))%nat ss).
  { clear. induction fuel as [|fuel IH]; intros span pos ss Hp H; cbn [streams] in H; destruct (nth_error span (find_start span t)) as [x|];
      try (injection H as <-; constructor); destruct (_ && _); try (injection H as <-; constructor); try discriminate.
    apply bind_ok in H as (rest & Hrest & H). injection H as <-. constructor; [cbn; lia|]. eapply IH; [|exact Hrest]. lia. }
  destruct fuel as [|fuel]; cbn [streams] in H; destruct (nth_error span (find_start span t)) as [x|] eqn:Ex;
    try (injection H as <-; constructor); destruct ((snd x =? -1)%Z && (t <? fst x)%Z) eqn:Eb; try (injection H as <-; constructor); try discriminate.
  apply bind_ok in H as (rest & Hrest & H). injection H as <-. constructor.
  - cbn [fst snd]. destruct (find_start span t) as [|k] eqn:Ef; [left|right; lia]. cbn [skipn]. destruct span as [|y span]; [discriminate|].
    cbn in Ex. injection Ex as ->. unfold find_last. unfold find_start in Ef. inversion Hr as [|? ? Hx _]; subst.
    destruct (Z.ltb_spec t (fst x)) as [Hl|Hl].
    + exfalso. replace ((fst x <=? t)%Z && ((t <? snd x)%Z || (snd x =? -1)%Z)) with false in Ef by lia.
      match type of Ef with bound ?go _ = _ => destruct (bound_edges go (x :: span)) as (_ & B2 & _) end.
      rewrite Ef in B2. specialize (B2 x eq_refl). cbn beta in B2. rewrite to_int32_id in B2 by (unfold int32 in *; lia). lia.
    + match goal with |- (0 < bound ?go _)%nat => destruct (bound_edges go (x :: span)) as (_ & B2 & _) end.
      match goal with |- (0 < ?k)%nat => destruct k eqn:Ek; [|lia] end. specialize (B2 x eq_refl). cbn beta in B2. lia.
  - eapply Later; [|exact Hrest]. destruct (_ =? 0)%nat eqn:E0; lia.
Qed.

Lemma chunks_pairs (v : Z * list edge) t ss :
  flat_map (fun x : nat * nat * nat => seq (fst (fst x)) (snd x)) ss = map fst (filter (fun x => lives (snd x) t) (combine (seq 0 (length (map life (snd v)))) (map life (snd v)))) ->
  Forall (fun x => fst (fst x) + snd x <= length (snd v))%nat ss ->
  flat_map (fun x => slice (gedges v) (fst (fst x)) (snd x)) ss = filter (alive_pair t) (gedges v).
Proof.
  assert (El : map life (snd v) = map (fun x => life (fst x)) (gedges v)).
  { assert (E : map fst (gedges v) = snd v) by (unfold QueryProofs.gedges; apply map_fst_combine'; now rewrite recover_length, map_length).
    rewrite <- E at 1. now rewrite map_map. }
  rewrite El, map_length. rewrite <- (gedges_len fadd fsub v). generalize (gedges v). intros es H Bd. clear El.
  assert (R : forall at_ len, (at_ + len <= length es)%nat -> map Some (slice es at_ len) = map (nth_error es) (seq at_ len)).
  { intros at_ len Hb. apply nth_error_ext'. intros j. rewrite !nth_error_map.
    destruct (Nat.lt_ge_cases j len) as [Hj|Hj].
    - rewrite nth_error_seq_lt by exact Hj. cbn [option_map].
      destruct (nth_error (slice es at_ len) j) as [e|] eqn:Ej.
      + apply nth_slice in Ej. now rewrite Ej.
      + apply nth_error_None in Ej. rewrite slice_len in Ej by exact Hb. lia.
    - replace (nth_error (slice es at_ len) j) with (@None (edge * N)) by (symmetry; apply nth_error_None; rewrite slice_len; lia).
      replace (nth_error (seq at_ len) j) with (@None nat) by (symmetry; apply nth_error_None; rewrite seq_length; lia). reflexivity. }
  assert (E : map Some (flat_map (fun x => slice es (fst (fst x)) (snd x)) ss) = map Some (filter (alive_pair t) es)).
  { transitivity (map (nth_error es) (flat_map (fun x : nat * nat * nat => seq (fst (fst x)) (snd x)) ss)).
    - clear H. induction Bd as [|x ss Hx _ IH]; [reflexivity|]. cbn [flat_map]. rewrite !map_app, IH, R by exact Hx. reflexivity.
    - rewrite H.
      assert (G : forall l pre, es = pre ++ l -> map (nth_error es) (map fst (filter (fun x => lives (snd x) t) (combine (seq (length pre) (length l)) (map (fun x => life (fst x)) l)))) = map Some (filter (alive_pair t) l)).
      { clear. induction l as [|e l IH]; intros pre E; [reflexivity|]. cbn [length seq map combine filter snd]. rewrite alive_life. fold (alive_pair t e).
        assert (N : map (nth_error es) (map fst (filter (fun x => lives (snd x) t) (combine (seq (S (length pre)) (length l)) (map (fun x => life (fst x)) l)))) = map Some (filter (alive_pair t) l)).
        { specialize (IH (pre ++ [e])). rewrite app_length in IH. cbn [length] in IH. rewrite Nat.add_1_r in IH. apply IH. now rewrite <- app_assoc. }
        destruct (alive_pair t e); cbn [map fst]; rewrite N; [|reflexivity]. f_equal. rewrite E, nth_error_app2, Nat.sub_diag by lia. reflexivity. }
      apply (G es []). reflexivity. }
  revert E. generalize (flat_map (fun x => slice es (fst (fst x)) (snd x)) ss) (filter (alive_pair t) es). clear.
  induction l as [|a l IH]; intros [|b m] E; cbn in E; try discriminate; [reflexivity|]. injection E as -> E. f_equal. now apply IH.
Qed.

Lemma offer_mass ts v : Forall rep (map e_w (snd v)) -> 0 <= cmass (offer ts v) <= mass (snd v).
Proof.
  intros Hr. assert (E : map fst (gedges v) = snd v) by (unfold QueryProofs.gedges; apply map_fst_combine'; now rewrite recover_length, map_length).
  assert (Hr' : Forall (fun x => rep (e_w (fst x))) (gedges v)).
  { apply Forall_forall. intros x Hx. rewrite Forall_forall in Hr. apply Hr, in_map. rewrite <- E. now apply in_map. }
  unfold cmass, offer, mass. rewrite <- E, qsum_map, qsum_map. cbn [snd].
  clear E. induction Hr' as [|x l Hx Hl IH]; cbn [filter qsum]; [lra|].
  pose proof (xo_nonneg _ _ X _ Hx). fold (wq (fst x)) in *. destruct (at_time ts x); cbn [qsum]; lra.
Qed.
Lemma offer_nonneg ts v : Forall rep (map e_w (snd v)) -> Forall (fun x => 0 <= snd x) (offer ts v).
Proof.
  intros Hr. apply Forall_forall. intros x Hx. unfold offer in Hx. apply in_map_iff in Hx as (y & <- & Hy). apply filter_In in Hy as [Hy _].
  unfold QueryProofs.gedges in Hy. destruct y as [e w]. apply in_combine_l in Hy. cbn [fst snd]. unfold wq. apply (xo_nonneg _ _ X).
  rewrite Forall_forall in Hr. apply Hr. now apply in_map.
Qed.

Definition gdata (p : partition) (ts : option Z) (g : wgroup) (data : list (N * list (nbr * Q))) : Prop :=
  Forall2 (fun r d => range_ex p ts (wg_first g) (wg_index g) r (fst d) (snd d)) (wg_ranges g) data.

Lemma group_exact tmp p ts s l i v : group_ok fadd tmp p (s, l, i) v -> (ts <> None -> tmp = true) ->
  Forall rep (map e_w (snd v)) -> mass (snd v) <= B -> group_times ts v ->
  exists g data, weighted_group p ts (s, l, i) = Ok g /\ gdata p ts g data /\ cks_of data = offer ts v /\
    forall total, rep total -> qval total + 2 * mass (snd v) <= B ->
    exists total', foldN (add_range fadd fsub p (wg_first g)) (wg_ranges g) total = Ok total' /\ rep total' /\ qval total' == qval total + cmass (offer ts v).
Proof.
  intros G Ht Hr Hb Hts. pose proof (go_len _ _ _ _ _ G) as L. cbn [fst snd] in L.
  assert (Lv : (0 < length (snd v))%nat) by (pose proof (go_ne _ _ _ _ _ G); destruct (snd v); [congruence|cbn; lia]).
  assert (Gen : forall prs : list (nat * nat), Forall (fun x => fst x + snd x <= length (snd v) /\ (0 < snd x \/ 0 < fst x))%nat prs ->
    exists data, Forall2 (fun r d => range_ex p ts s i r (fst d) (snd d)) (map (fun x => ((s + fst x)%nat, snd x)) prs) data /\
      cks_of data = flat_map (fun x => chunk ts v (fst x) (snd x)) prs /\
      forall total, rep total -> qval total + cmass (cks_of data) + mass (snd v) <= B ->
      exists total', foldN (add_range fadd fsub p s) (map (fun x => ((s + fst x)%nat, snd x)) prs) total = Ok total' /\ rep total' /\ qval total' == qval total + cmass (cks_of data)).
  { induction 1 as [|[pos ll] prs [H1 H2] _ (data & D1 & D2 & D3)].
    - exists []. split; [constructor|]. split; [reflexivity|]. intros total Rt _. exists total. split; [reflexivity|]. split; [exact Rt|]. unfold cks_of, cmass. cbn. ring.
    - cbn [fst snd] in *. destruct (range_exact tmp p ts s l i v pos ll G Ht Hr Hb H1 H2) as ((tw & Rx) & Ad).
      pose proof (cmass_nonneg _ (rx_nonneg _ _ _ _ _ _ _ Rx)) as N1.
      assert (N2 : 0 <= cmass (cks_of data)).
      { apply cmass_nonneg. clear - D1. unfold cks_of. induction D1 as [|r d rs data Hd _ IH]; cbn [flat_map]; [constructor|]. apply Forall_app. split; [apply (rx_nonneg _ _ _ _ _ _ _ Hd)|exact IH]. }
      exists ((tw, chunk ts v pos ll) :: data). split; [cbn [map]; constructor; assumption|].
      split; [unfold cks_of; cbn [flat_map fst snd]; now rewrite <- D2|].
      assert (Ec : cmass (cks_of ((tw, chunk ts v pos ll) :: data)) == cmass (chunk ts v pos ll) + cmass (cks_of data)) by (unfold cks_of; cbn [flat_map snd]; apply cmass_app).
      intros total Rt Bt. rewrite Ec in Bt. destruct (Ad total Rt ltac:(lra)) as (t1 & E1 & R1 & Q1).
      destruct (D3 t1 R1 ltac:(rewrite Q1; lra)) as (t2 & E2 & R2 & Q2). exists t2. cbn [map foldN fst snd]. rewrite E1. cbn [bind]. split; [exact E2|]. split; [exact R2|].
      rewrite Ec, Q2, Q1. ring. }
  pose proof (offer_mass ts v Hr) as Om.
  destruct ts as [t|]; unfold weighted_group.
  - destruct Hts as (Hi & Hs & Hr32). rewrite (Ht ltac:(discriminate)) in G. pose proof (go_ts _ _ _ _ _ G) as [Tl Ts]. cbn [fst snd] in *.
    unfold group_streams. replace (length (p_ts p) <? l)%nat with false by (symmetry; apply Nat.ltb_ge; exact Tl).
    replace (l - s)%nat with (length (snd v)) by lia. rewrite Ts.
    destruct (streams_spec (length (snd v)) (map life (snd v)) t 0) as (ss & E & F & Bd); [now rewrite map_length|assumption|assumption|].
    assert (Ps : Forall (fun x => 0 < snd x \/ 0 < fst (fst x))%nat ss).
    { eapply streams_pos; [exact Hi| |exact E]. apply Forall_map. eapply Forall_impl; [|exact Hr32]. intros e He. exact He. }
    rewrite map_length in Bd. rewrite E. cbn [bind].
    destruct (Gen (map (fun x : nat * nat * nat => (fst (fst x), snd x)) ss)) as (data & D1 & D2 & D3).
    { apply Forall_map. rewrite Forall_forall in *. intros x Hx. cbn [fst snd]. split; [apply (Bd x Hx)|apply (Ps x Hx)]. }
    assert (Er : map (fun x : nat * nat * nat => let '(pos, _, ll) := x in ((s + pos)%nat, ll)) ss = map (fun x => ((s + fst x)%nat, snd x)) (map (fun x : nat * nat * nat => (fst (fst x), snd x)) ss)).
    { rewrite map_map. apply map_ext. intros [[pos it] ll]. reflexivity. }
    assert (Eo : cks_of data = offer (Some t) v).
    { rewrite D2, flat_map_concat_map, map_map. cbn [fst snd]. unfold offer, chunk. cbn [at_time].
      change (filter (at_time (Some t)) (gedges v)) with (filter (alive_pair t) (gedges v)). rewrite <- (chunks_pairs v t ss F Bd).
      clear. induction ss as [|x ss IH]; [reflexivity|]. cbn [map concat flat_map]. rewrite IH, map_app. reflexivity. }
    eexists (WG s i _), data. split; [reflexivity|]. unfold gdata. cbn [wg_first wg_index wg_ranges]. rewrite Er. split; [exact D1|]. split; [exact Eo|].
    intros total Rt Bt. rewrite <- Eo. apply D3; [exact Rt|]. rewrite Eo. lra.
  - replace (l <=? s)%nat with false by (symmetry; apply Nat.leb_gt; lia).
    destruct (Gen [(0%nat, length (snd v))]) as (data & D1 & D2 & D3); [constructor; [|constructor]; cbn; lia|].
    assert (Eo : cks_of data = offer None v).
    { rewrite D2. cbn [flat_map fst snd]. rewrite app_nil_r. unfold offer, chunk, slice. cbn [skipn]. rewrite firstn_all2 by (rewrite gedges_len; lia).
      f_equal. cbn [at_time]. clear. induction (gedges v); cbn [filter at_time]; congruence. }
    eexists (WG s i _), data. split; [reflexivity|]. unfold gdata. cbn [wg_first wg_index wg_ranges].
    cbn [map fst snd] in D1, D3. rewrite Nat.add_0_r in D1, D3. replace (l - s)%nat with (length (snd v)) by lia. split; [exact D1|]. split; [exact Eo|].
    intros total Rt Bt. rewrite <- Eo. apply D3; [exact Rt|]. rewrite Eo. lra.
Qed.

Definition wmass (vs : list (Z * list edge)) : Q := qsum (fun v => mass (snd v)) vs.
Definition offers (ts : option Z) (vs : list (Z * list edge)) : list (nbr * Q) := flat_map (offer ts) vs.

Lemma partition_exact tmp p ts gs vs : Forall2 (group_ok fadd tmp p) gs vs -> (ts <> None -> tmp = true) ->
  Forall (fun v => Forall rep (map e_w (snd v)) /\ group_times ts v) vs -> 
  forall total, rep total -> qval total + 2 * wmass vs <= B ->
  exists wgs datas total', mapM (weighted_group p ts) gs = Ok wgs /\ Forall2 (gdata p ts) wgs datas /\ cks_of (concat datas) = offers ts vs /\
    foldN (fun g t => foldN (add_range fadd fsub p (wg_first g)) (wg_ranges g) t) wgs total = Ok total' /\ rep total' /\
    qval total' == qval total + cmass (offers ts vs).
Proof.
  intros F Ht. induction F as [|[[s l] i] v gs vs G _ IH]; intros Hv total Rt Bt.
  - exists [], [], total. repeat split; auto; try constructor. unfold offers, cmass. cbn. ring.
  - inversion Hv as [|? ? [Hr Hts] Hv']; subst. unfold wmass in Bt. cbn [qsum] in Bt. fold (wmass vs) in Bt.
    assert (Nw : 0 <= wmass vs).
    { apply qsum_nonneg. intros w Hw. rewrite Forall_forall in Hv'. apply mass_nonneg. now apply Hv'. }
    pose proof (mass_nonneg (snd v) Hr) as Nm. pose proof (offer_mass ts v Hr) as Om. pose proof (xo_nonneg _ _ X total Rt) as Nt.
    destruct (group_exact tmp p ts s l i v G Ht Hr ltac:(lra) Hts) as (g & data & E1 & E2 & E3 & E4).
    destruct (E4 total Rt ltac:(lra)) as (t1 & F1 & F2 & F3).
    destruct (IH Hv' t1 F2) as (wgs & datas & total' & H1 & H2 & H3 & H4 & H5 & H6); [rewrite F3; lra|].
    exists (g :: wgs), (data :: datas), total'. cbn [mapM foldN]. rewrite E1. cbn [bind]. rewrite H1, F1. cbn [bind].
    split; [reflexivity|]. split; [now constructor|]. split; [unfold cks_of in *; cbn [concat]; rewrite flat_map_app', E3, H3; reflexivity|].
    split; [exact H4|]. split; [exact H5|]. rewrite H6, F3. unfold offers. cbn [flat_map]. rewrite cmass_app. ring.
Qed.

Lemma gdata_inv p ts wgs datas total left : Forall2 (gdata p ts) wgs datas -> rep total -> qval total == cmass (cks_of (concat datas)) -> (qval total == 0 -> left = 0%nat) ->
  inv (concat datas) total left.
Proof.
  intros F R S Z. constructor; auto. apply Forall_concat. clear S. induction F as [|g data wgs datas H _ IH]; [constructor|]. constructor.
  - clear - H. unfold gdata in H. induction H as [|r d rs ds Hd _ IH]; [constructor|]. constructor; [|exact IH].
    split; [apply (rx_rep _ _ _ _ _ _ _ Hd)|]. split; [apply (rx_w _ _ _ _ _ _ _ Hd)|apply (rx_nonneg _ _ _ _ _ _ _ Hd)].
  - exact IH.
Qed.

(** ** One partition *)
Section Row.
Variables (tmp : bool) (p : partition) (id : nat) (ts : option Z) (T : list Z) (gs : list (nat * nat * nat)) (vs : list (Z * list edge)).
Hypothesis Hg : nii p id T = Ok gs.
Hypothesis HF : Forall2 (group_ok fadd tmp p) gs vs.
Hypothesis Htmp : ts <> None -> tmp = true.
Hypothesis Hv : Forall (fun v => Forall rep (map e_w (snd v)) /\ group_times ts v) vs.

Lemma wmass_offers : 0 <= cmass (offers ts vs) <= wmass vs.
Proof.
  clear - Hv X. unfold offers. pose proof Hv as Hv'. clear Hv. induction Hv' as [|v l [Hr _] _ IH]; [unfold cmass, wmass; cbn; lra|].
  cbn [flat_map]. rewrite cmass_app. unfold wmass in *. cbn [qsum]. pose proof (offer_mass ts v Hr). lra.
Qed.

(** The result of a partition in terms of a run over its groups. *)
Lemma partition_run count default out acc : rep acc -> qval acc + 2 * wmass vs <= B ->
  exists wgs datas total acc', Forall2 (gdata p ts) wgs datas /\ cks_of (concat datas) = offers ts vs /\ rep total /\ qval total == cmass (offers ts vs) /\
    rep acc' /\ qval acc' == qval acc + cmass (offers ts vs) /\
    sample_partition fadd fsub qval p id ts T count default (out, acc) =
    (if feq qval total 0%N then RRet (if feq qval acc' 0%N then repeat default count else out, acc')
     else rbind (group_loop fsub qval p ts (qval total / qval acc') wgs total count) (fun es => RRet (es ++ skipn (length es) out, acc'))).
Proof.
  intros Ra Ba. destruct (xo_zero _ _ X) as [Z1 Z2]. pose proof wmass_offers as Wo. pose proof (xo_nonneg _ _ X acc Ra) as Na.
  destruct (partition_exact tmp p ts gs vs HF Htmp Hv 0%N Z1) as (wgs & datas & total & H1 & H2 & H3 & H4 & H5 & H6); [rewrite Z2; lra|].
  assert (Qt : qval total == cmass (offers ts vs)) by (rewrite H6, Z2; ring).
  destruct (xo_add _ _ X acc total Ra H5) as [A1 A2]; [rewrite Qt; lra|].
  exists wgs, datas, total, (fadd acc total). split; [exact H2|]. split; [exact H3|]. split; [exact H5|]. split; [exact Qt|]. split; [exact A1|].
  split; [rewrite A2, Qt; ring|]. unfold sample_partition. rewrite Hg. cbn [rlift rbind]. rewrite H1. cbn [rlift rbind]. unfold total_of. rewrite H4. reflexivity.
Qed.

(** Only offered edges are written. *)
Lemma partition_real count default full out acc : rep acc -> qval acc + 2 * wmass vs <= B ->
  incl (map fst (offers ts vs)) full -> fine count default full (out, acc) ->
  rall (fun st => fine count default full st /\ rep (snd st) /\ qval (snd st) == qval acc + cmass (offers ts vs))
    (sample_partition fadd fsub qval p id ts T count default (out, acc)).
Proof.
  intros Ra Ba Hin [Hl Hf]. destruct (partition_run count default out acc Ra Ba) as (wgs & datas & total & acc' & H1 & H2 & H3 & H4 & H5 & H6 & ->).
  cbn [fst] in *. destruct (feq qval total 0%N) eqn:Et.
  - apply rall_ret. cbn [snd]. split; [|auto]. destruct (feq qval acc' 0%N); split; cbn [fst]; auto; [apply repeat_length|]. intros x Hx. left. now apply repeat_spec in Hx.
  - set (Inv := fun (d' : list (N * list nbr)) t l => exists d, map (fun x : N * list (nbr * Q) => (fst x, map fst (snd x))) d = d' /\ inv d t l).
    eapply rall_bind; [apply (group_all fadd fsub qval Inv) with (datas := map (map (fun x : N * list (nbr * Q) => (fst x, map fst (snd x)))) datas)|].
    + intros tw rest t l (d & _ & I) Z. now apply (in_stop _ _ _ I).
    + intros tw nbs rest t l c (d & Ed & I) Hc Hfe. destruct d as [|[tw' ck] d]; [discriminate|]. cbn [map fst snd] in Ed. injection Ed as <- _ <-.
      exists d. split; [reflexivity|]. now apply (inv_next tw' ck).
    + clear - H1. induction H1 as [|g data wgs datas H _ IH]; [constructor|]. cbn [map]. constructor; [|exact IH].
      unfold group_data. unfold gdata in H. induction H as [|r d rs ds Hd _ IHd]; [constructor|]. cbn [map]. constructor; [|exact IHd]. cbn [fst snd]. now apply range_ex_ok.
    + exists (concat datas). split; [now rewrite concat_map|]. apply (gdata_inv p ts wgs); auto.
      * rewrite H2. exact H4.
      * intros Z. exfalso. unfold feq in Et. apply Bool.not_true_iff_false in Et. apply Et. apply Qeq_bool_iff. rewrite Z. symmetry. apply (xo_zero _ _ X).
    + intros es [L I]. apply rall_ret. cbn [snd]. split; [|auto]. split; cbn [fst].
      * rewrite app_length, skipn_length. lia.
      * intros x Hx. apply in_app_iff in Hx as [Hx|Hx].
        -- right. apply Hin. apply I in Hx. rewrite <- concat_map in Hx. rewrite <- H2. clear - Hx. unfold cks_of.
           induction (concat datas) as [|d ds IH]; [destruct Hx|]. cbn [map flat_map fst snd] in *. rewrite map_app. apply in_app_iff in Hx as [Hx|Hx]; apply in_or_app; [now left|right; auto].
        -- apply Hf. rewrite <- (firstn_skipn (length es) out). apply in_or_app. now right.
Qed.

(** The law when the slots all hold one value. *)
Lemma partition_law count default x acc (f : nbr -> Q) K : rep acc -> qval acc + 2 * wmass vs <= B -> (qval acc == 0 -> x = default) ->
  (forall es out acc', (length es <= count)%nat -> (cmass (offers ts vs) == 0 -> es = []) -> out = es ++ repeat x (count - length es) -> rep acc' -> qval acc' == qval acc + cmass (offers ts vs) ->
     K (out, acc') == qsum f out) ->
  ex (rlaw (sample_partition fadd fsub qval p id ts T count default (repeat x count, acc))) (on_ok K) ==
  (if Qeq_bool (qval acc + cmass (offers ts vs)) 0 then qnat count * f x
   else qnat count * ((qval acc * f x + share f (offers ts vs)) / (qval acc + cmass (offers ts vs)))).
Proof.
  intros Ra Ba Hx HK. destruct (partition_run count default (repeat x count) acc Ra Ba) as (wgs & datas & total & acc' & H1 & H2 & H3 & H4 & H5 & H6 & ->).
  destruct (xo_zero _ _ X) as [Z1 Z2]. pose proof (xo_nonneg _ _ X acc Ra) as Na. pose proof wmass_offers as [Wo _].
  assert (Nn : Forall (fun x => 0 <= snd x) (offers ts vs)).
  { clear - Hv X. unfold offers. pose proof Hv as Hv'. clear Hv. induction Hv' as [|v l [Hr _] _ IH]; [constructor|]. cbn [flat_map]. apply Forall_app. split; [now apply offer_nonneg|exact IH]. }
  assert (Sr : qsum f (repeat x count) == qnat count * f x).
  { clear. induction count as [|c IH]; cbn [repeat qsum]; [rewrite qnat_0; ring|]. rewrite IH, qnat_S. ring. }
  destruct (feq qval total 0%N) eqn:Et.
  - assert (Z : cmass (offers ts vs) == 0) by (unfold feq in Et; apply Qeq_bool_iff in Et; rewrite <- H4, Et; exact Z2).
    cbn [rlaw]. rewrite ex_ret. cbn [on_ok].
    assert (Eo : (if feq qval acc' 0%N then repeat default count else repeat x count) = repeat x count).
    { destruct (feq qval acc' 0%N) eqn:Ea; [|reflexivity]. unfold feq in Ea. apply Qeq_bool_iff in Ea. rewrite Hx; [reflexivity|]. lra. }
    rewrite Eo. rewrite (HK [] (repeat x count) acc'); [|cbn; lia|reflexivity|cbn [app length]; now rewrite Nat.sub_0_r|assumption|assumption].
    rewrite Sr. destruct (Qeq_bool (qval acc + cmass (offers ts vs)) 0) eqn:Eq; [reflexivity|].
    rewrite Z, (share_zero f _ Nn Z). field. intros Z'. apply Qeq_bool_neq in Eq. apply Eq. rewrite Z. lra.
  - assert (Pt : 0 < cmass (offers ts vs)).
    { destruct (Qlt_le_dec 0 (cmass (offers ts vs))) as [H|H]; [exact H|exfalso]. unfold feq in Et. apply Qeq_bool_neq in Et. apply Et. rewrite H4, Z2. lra. }
    destruct (Qeq_bool (qval acc + cmass (offers ts vs)) 0) eqn:Eq; [apply Qeq_bool_iff in Eq; lra|].
    rewrite ex_rbind.
    transitivity (ex (rlaw (group_loop fsub qval p ts (qval total / qval acc') wgs total count)) (on_ok (fun es => qnat count * f x + qsum (fun y => f y + - f x) es))).
    + apply (ex_law_ext _ (fun es => length es <= count)%nat); [apply group_len|]. intros es Le. cbn [rlaw]. rewrite ex_ret. cbn [on_ok].
      rewrite skipn_repeat. rewrite (HK es (es ++ repeat x (count - length es)) acc' Le ltac:(intros; lra) eq_refl H5 H6).
      rewrite qsum_app, qsum_plus, qsum_const.
      assert (Sr' : forall k, qsum f (repeat x k) == qnat k * f x).
      { clear. induction k as [|c IH]; cbn [repeat qsum]; [rewrite qnat_0; ring|]. rewrite IH, qnat_S. ring. }
      rewrite Sr', (qnat_sub _ _ Le). ring.
    + rewrite (group_law p ts _ _ wgs datas total count); [|exact H1|].
      * unfold lin. rewrite H2, share_plus, H4, H6. field; lra.
      * apply (gdata_inv p ts wgs); auto; [rewrite H2; exact H4|]. intros Z. lra.
Qed.
End Row.

(** ** Several partitions *)
Definition ready (ts : option Z) (T : list Z) (o : partition * nat) (vs : list (Z * list edge)) : Prop :=
  exists tmp gs, nii (fst o) (snd o) T = Ok gs /\ Forall2 (group_ok fadd tmp (fst o)) gs vs /\ (ts <> None -> tmp = true) /\
    Forall (fun v => Forall rep (map e_w (snd v)) /\ group_times ts v) vs.

Lemma partitions_real ts T count default full os : forall vss out acc, Forall2 (ready ts T) os vss -> rep acc ->
  qval acc + 2 * qsum wmass vss <= B -> Forall (fun vs => incl (map fst (offers ts vs)) full) vss -> fine count default full (out, acc) ->
  rall (fun st => fine count default full st) (sample_partitions fadd fsub qval os ts T count default (out, acc)).
Proof.
  induction os as [|[p id] os IH]; intros vss out acc F Ra Ba Hi Hf; inversion F as [|? vs ? vss' (tmp & gs & R1 & R2 & R3 & R4) F']; subst; cbn [sample_partitions fst snd] in *.
  - now apply rall_ret.
  - inversion Hi as [|? ? Hi1 Hi']; subst. cbn [qsum] in Ba.
    assert (Nw : 0 <= qsum wmass vss').
    { clear - F' X. induction F' as [|o vs os vss (tmp & gs & _ & _ & _ & R4) _ IH]; cbn [qsum]; [lra|]. pose proof (wmass_offers ts vs R4). lra. }
    pose proof (wmass_offers ts vs R4) as Wo.
    eapply rall_bind; [apply (partition_real tmp p id ts T gs vs R1 R2 R3 R4 count default full out acc Ra ltac:(lra) Hi1 Hf)|].
    intros [out' acc'] (G1 & G2 & G3). cbn [snd] in *. apply (IH vss' out' acc' F' G2); auto. rewrite G3. lra.
Qed.

Definition blend (f : nbr -> Q) (a W S : Q) (x : nbr) : Q := if Qeq_bool (a + W) 0 then f x else (a * f x + S) / (a + W).

Lemma partitions_one ts T default f os : forall vss x acc, Forall2 (ready ts T) os vss -> rep acc ->
  qval acc + 2 * qsum wmass vss <= B -> (qval acc == 0 -> x = default) ->
  ex (rlaw (sample_partitions fadd fsub qval os ts T 1 default ([x], acc))) (on_ok (fun st => qsum f (fst st))) ==
  blend f (qval acc) (cmass (flat_map (offers ts) vss)) (share f (flat_map (offers ts) vss)) x.
Proof.
  induction os as [|[p id] os IH]; intros vss x acc F Ra Ba Hx; inversion F as [|? vs ? vss' (tmp & gs & R1 & R2 & R3 & R4) F']; subst; cbn [sample_partitions fst snd] in *.
  - cbn [rlaw flat_map]. rewrite ex_ret. cbn [on_ok fst qsum]. unfold blend, cmass, share. cbn [qsum].
    destruct (Qeq_bool (qval acc + 0) 0) eqn:E; [ring|]. field. intros Z. apply Qeq_bool_neq in E. apply E. lra.
  - cbn [qsum] in Ba. pose proof (wmass_offers ts vs R4) as Wo. pose proof (xo_nonneg _ _ X acc Ra) as Na.
    assert (Nw : 0 <= cmass (flat_map (offers ts) vss') <= qsum wmass vss').
    { clear - F' X. induction F' as [|o vs os vss (tmp & gs & _ & _ & _ & R4) _ IH]; cbn [flat_map qsum]; [unfold cmass; cbn; lra|].
      rewrite cmass_app. pose proof (wmass_offers ts vs R4). lra. }
    assert (Nn : forall l, Forall2 (ready ts T) os l -> Forall (fun x => 0 <= snd x) (flat_map (offers ts) l)).
    { assert (No : forall vs, Forall (fun v => Forall rep (map e_w (snd v)) /\ group_times ts v) vs -> Forall (fun x => 0 <= snd x) (offers ts vs)).
      { clear - X. intros vs H. unfold offers. induction H as [|v l [Hr _] _ IH]; [constructor|]. cbn [flat_map]. apply Forall_app. split; [now apply offer_nonneg|exact IH]. }
      clear - No. intros l F. induction F as [|o vs os vss (tmp & gs & _ & _ & _ & R4) _ IH]; cbn [flat_map]; [constructor|]. apply Forall_app. split; [now apply No|exact IH]. }
    assert (Nv : Forall (fun x => 0 <= snd x) (offers ts vs)).
    { clear - R4 X. unfold offers. induction R4 as [|v l [Hr _] _ IH]; [constructor|]. cbn [flat_map]. apply Forall_app. split; [now apply offer_nonneg|exact IH]. }
    rewrite ex_rbind. set (A := qval acc + cmass (offers ts vs)). set (Wr := cmass (flat_map (offers ts) vss')). set (Sr := share f (flat_map (offers ts) vss')).
    rewrite (partition_law tmp p id ts T gs vs R1 R2 R3 R4 1 default x acc (blend f A Wr Sr)); [|exact Ra|lra|exact Hx|].
    + fold A. assert (E1 : cmass (flat_map (offers ts) (vs :: vss')) == cmass (offers ts vs) + Wr) by (cbn [flat_map]; apply cmass_app).
      assert (E2 : share f (flat_map (offers ts) (vs :: vss')) == share f (offers ts vs) + Sr) by (cbn [flat_map]; apply share_app).
      assert (NWr : 0 <= Wr) by apply Nw.
      assert (Eb : Qeq_bool (qval acc + cmass (flat_map (offers ts) (vs :: vss'))) 0 = Qeq_bool (A + Wr) 0).
      { apply eq_true_iff_eq. rewrite !Qeq_bool_iff. rewrite E1. unfold A. split; intros; lra. }
      unfold blend. rewrite Eb. change (qnat 1) with 1. destruct (Qeq_bool A 0) eqn:EA.
      * apply Qeq_bool_iff in EA. unfold A in EA. assert (Zv : cmass (offers ts vs) == 0) by lra.
        pose proof (share_zero f _ Nv Zv) as Sv.
        destruct (Qeq_bool (A + Wr) 0) eqn:EW; [ring|]. rewrite E1, E2, Sv. unfold A. rewrite Zv. field. intros Z.
        apply Qeq_bool_neq in EW. apply EW. unfold A. lra.
      * apply Qeq_bool_neq in EA. assert (PA : 0 < A) by (unfold A in *; lra).
        destruct (Qeq_bool (A + Wr) 0) eqn:EW; [apply Qeq_bool_iff in EW; lra|].
        assert (Sh : share (fun y => (A * f y + Sr) / (A + Wr)) (offers ts vs) == A / (A + Wr) * share f (offers ts vs) + Sr / (A + Wr) * cmass (offers ts vs)).
        { unfold share, cmass. rewrite <- !qsum_scale, <- qsum_plus. apply qsum_ext. intros y _. field. lra. }
        rewrite Sh, E1, E2. unfold A in *. field. lra.
    + intros es out acc' Le He -> Ra' Qa'.
      assert (Hout : exists y, es ++ repeat x (1 - length es) = [y] /\ (A == 0 -> y = default)).
      { destruct es as [|y [|z es]]; [exists x|exists y|cbn in Le; lia]; (split; [reflexivity|]); unfold A; intros Z; [apply Hx; lra|]. exfalso. assert (Zv : cmass (offers ts vs) == 0) by lra. apply He in Zv. discriminate. }
      destruct Hout as (y & -> & Hy). rewrite (IH vss' y acc' F' Ra').
      * cbn [qsum]. fold Wr Sr. fold A in Qa'. unfold blend.
        assert (Eb : Qeq_bool (qval acc' + Wr) 0 = Qeq_bool (A + Wr) 0) by (apply eq_true_iff_eq; rewrite !Qeq_bool_iff, Qa'; reflexivity).
        rewrite Eb. destruct (Qeq_bool (A + Wr) 0); [ring|]. rewrite Qa'. ring.
      * rewrite Qa'. lra.
      * rewrite Qa'. exact Hy.
Qed.
End Exact.
