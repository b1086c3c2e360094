From Coq Require Import QArith Qminmax Qround Lqa.
From Verif Require Import Base ScheduleModel ScheduleSpec.

Lemma qlt_spec a b : reflect (a < b) (qlt a b).
Proof.
  unfold qlt. destruct (Qle_bool b a) eqn:E; constructor.
  - apply Qle_bool_iff in E. now apply Qle_not_lt.
  - apply Qnot_le_lt. intros H. apply Qle_bool_iff in H. congruence.
Qed.
Lemma qmax_ge1 w : 1 <= Qmax 1 w. Proof. apply Q.le_max_l. Qed.
Lemma qmax_pos w : 0 < Qmax 1 w. Proof. pose proof (qmax_ge1 w). lra. Qed.
Lemma qmax_nz w : ~ Qmax 1 w == 0.
Proof. intros Z0. pose proof (qmax_pos w) as P. rewrite Z0 in P. now apply Qlt_irrefl in P. Qed.
Lemma qmax_id w : 1 <= w -> Qmax 1 w == w. Proof. intros H. now apply Q.max_r. Qed.
Lemma div_le a b d : 0 < d -> a <= b -> a / d <= b / d.
Proof. intros P H. unfold Qdiv. apply Qmult_le_compat_r; [exact H|]. apply Qlt_le_weak, Qinv_lt_0_compat, P. Qed.
Lemma div_self d : ~ d == 0 -> d / d == 1. Proof. intros H. field. exact H. Qed.
Lemma div_nonneg a d : 0 <= a -> 0 < d -> 0 <= a / d.
Proof. intros A D. apply Qle_shift_div_l; [exact D|]. lra. Qed.
Lemma div_le1 a d : a <= d -> 0 < d -> a / d <= 1.
Proof. intros A D. apply Qle_shift_div_r; [exact D|]. lra. Qed.

Lemma warm_bounds s w : 0 <= s -> s < w -> 0 <= warm s w <= 1.
Proof.
  intros A B. unfold warm. split; [apply div_nonneg; [exact A|apply qmax_pos]|].
  apply div_le1; [|apply qmax_pos]. pose proof (Q.le_max_r 1 w). lra.
Qed.
Lemma warm_exact s w : 1 <= w -> warm s w * w == s.
Proof. intros H. unfold warm. rewrite (qmax_id w H). field. intros Z0. rewrite Z0 in H. lra. Qed.
Lemma warms_of f w : (forall s, s < w -> f s = warm s w) -> warms f w.
Proof. intros E s A B. rewrite E by exact A. now apply warm_exact. Qed.

(** ** Constant *)
Theorem constant_shape : within01 constant /\ forall s, constant s == 1.
Proof. split; [intros s _; unfold constant; lra|reflexivity]. Qed.
Theorem constant_warmup_shape w : within01 (constant_warmup w) /\ warms (constant_warmup w) w /\ ends (constant_warmup w) w 1.
Proof.
  unfold constant_warmup. refine (conj _ (conj _ _)).
  - intros s A. destruct (qlt_spec s w); [now apply warm_bounds|lra].
  - apply warms_of. intros s A. destruct (qlt_spec s w); [reflexivity|contradiction].
  - intros s A. destruct (qlt_spec s w); [lra|reflexivity].
Qed.

(** ** Linear *)
Lemma max0_mono a b : a <= b -> Qmax 0 a <= Qmax 0 b.
Proof. intros H. apply Q.max_le_compat_l. exact H. Qed.
Lemma max0_bounds a : a <= 1 -> 0 <= Qmax 0 a <= 1.
Proof. intros H. split; [apply Q.le_max_l|]. apply Q.max_lub; [lra|exact H]. Qed.
Theorem linear_shape w n :
  within01 (linear w n) /\ warms (linear w n) w /\ (forall b, falls (linear w n) w b) /\
  (w <= n -> ends (linear w n) n 0) /\ (w <= n - 1 -> linear w n w == 1) /\
  (forall s, w <= s -> w <= n - 1 -> s <= n -> linear w n s * (n - w) == n - s).
Proof.
  unfold linear. refine (conj _ (conj _ (conj _ (conj _ (conj _ _))))).
  - intros s A. destruct (qlt_spec s w); [now apply warm_bounds|]. apply max0_bounds. apply div_le1; [|apply qmax_pos].
    pose proof (Q.le_max_r 1 (n - w)). lra.
  - apply warms_of. intros s A. destruct (qlt_spec s w); [reflexivity|contradiction].
  - intros b s t A B C. destruct (qlt_spec t w); [lra|]. destruct (qlt_spec s w); [lra|].
    apply max0_mono, div_le; [apply qmax_pos|lra].
  - intros H s A. destruct (qlt_spec s w); [lra|]. apply Q.max_l. apply Qle_shift_div_r; [apply qmax_pos|].
    pose proof (qmax_pos (n - w)). lra.
  - intros H. destruct (qlt_spec w w); [lra|]. assert (G : 1 <= n - w) by lra. rewrite (qmax_id _ G).
    assert (E : (n - w) / (n - w) == 1) by (apply div_self; intros Z0; rewrite Z0 in G; lra). rewrite E. reflexivity.
  - intros s A B C. destruct (qlt_spec s w); [lra|]. assert (G : 1 <= n - w) by lra.
    assert (N : ~ n - w == 0) by (intros Z0; rewrite Z0 in G; lra).
    rewrite (Q.max_r 0); [rewrite (qmax_id _ G); field; exact N|]. apply div_nonneg; [lra|apply qmax_pos].
Qed.

(** ** Cosine *)
Section Cos.
Variable c : Q -> Q.
Hypothesis G : good_cos c.
Lemma c_proper x y : x == y -> c x == c y. Proof. apply G. Qed.
Lemma half_le x : (1 # 2) * (1 + c x) <= 1.
Proof. destruct G as (_ & B & _). pose proof (B x). lra. Qed.
Lemma cosine_after cycles w n s : w <= s ->
  cosine c cycles w n s = Qmax 0 ((1 # 2) * (1 + c (cycles * 2 * ((s - w) / Qmax 1 (n - w))))).
Proof. intros H. unfold cosine. destruct (qlt_spec s w); [lra|reflexivity]. Qed.
Theorem cosine_shape cycles w n :
  within01 (cosine c cycles w n) /\ warms (cosine c cycles w n) w /\ cosine c cycles w n w == 1.
Proof.
  refine (conj _ (conj _ _)).
  - intros s A. unfold cosine. destruct (qlt_spec s w); [now apply warm_bounds|]. apply max0_bounds, half_le.
  - apply warms_of. intros s A. unfold cosine. destruct (qlt_spec s w); [reflexivity|contradiction].
  - rewrite cosine_after by lra.
    assert (E : c (cycles * 2 * ((w - w) / Qmax 1 (n - w))) == 1).
    { destruct G as (_ & _ & C0 & _). transitivity (c 0); [|exact C0]. apply c_proper. field. apply qmax_nz. }
    rewrite E. reflexivity.
Qed.
Theorem cosine_half w n : w <= n - 1 ->
  falls (cosine c (1 # 2) w n) w n /\ cosine c (1 # 2) w n n == 0 /\ cosine c (1 # 2) w n (n + (n - w)) == 1.
Proof.
  intros H. assert (Gq : 1 <= n - w) by lra. assert (N : ~ n - w == 0) by (intros Z0; rewrite Z0 in Gq; lra).
  pose proof (qmax_id _ Gq) as M. destruct G as (P & B & C0 & C1 & C2 & D). refine (conj _ (conj _ _)).
  - intros s t A E F. rewrite !cosine_after by lra. apply max0_mono.
    assert (X : c ((1 # 2) * 2 * ((t - w) / Qmax 1 (n - w))) <= c ((1 # 2) * 2 * ((s - w) / Qmax 1 (n - w)))).
    { rewrite (P _ ((t - w) / (n - w))), (P ((1 # 2) * 2 * ((s - w) / Qmax 1 (n - w))) ((s - w) / (n - w))) by (rewrite M; field; exact N).
      apply D; [apply div_nonneg; lra|apply div_le; lra|apply div_le1; lra]. }
    lra.
  - rewrite cosine_after by lra. rewrite (P _ 1) by (rewrite M; field; exact N). rewrite C1. reflexivity.
  - rewrite cosine_after by lra. rewrite (P _ 2) by (rewrite M; field; exact N). rewrite C2. reflexivity.
Qed.

(** ** Restarts *)
Lemma mod1_bounds x : 0 <= mod1 x < 1.
Proof.
  unfold mod1. pose proof (Qfloor_le x). pose proof (Qlt_floor x) as L. rewrite inject_Z_plus in L.
  change (inject_Z 1) with 1 in L. lra.
Qed.
Lemma mod1_int x z : x == inject_Z z -> mod1 x == 0.
Proof. intros E. unfold mod1. rewrite (Qfloor_comp _ _ E), Qfloor_Z, E. ring. Qed.
Lemma restarts_after cycles w n s : w <= s ->
  restarts c cycles w n s = if Qle_bool 1 ((s - w) / Qmax 1 (n - w)) then 0
                            else Qmax 0 ((1 # 2) * (1 + c (mod1 (cycles * ((s - w) / Qmax 1 (n - w)))))).
Proof. intros H. unfold restarts. destruct (qlt_spec s w); [lra|reflexivity]. Qed.
Theorem restarts_shape cycles w n :
  within01 (restarts c cycles w n) /\ warms (restarts c cycles w n) w /\ (w <= n - 1 -> ends (restarts c cycles w n) n 0).
Proof.
  refine (conj _ (conj _ _)).
  - intros s A. unfold restarts. destruct (qlt_spec s w); [now apply warm_bounds|].
    destruct (Qle_bool 1 _); [lra|]. apply max0_bounds, half_le.
  - apply warms_of. intros s A. unfold restarts. destruct (qlt_spec s w); [reflexivity|contradiction].
  - intros H s A. rewrite restarts_after by lra.
    assert (Gq : 1 <= n - w) by lra.
    assert (E : Qle_bool 1 ((s - w) / Qmax 1 (n - w)) = true).
    { apply Qle_bool_iff. apply Qle_shift_div_l; [apply qmax_pos|]. rewrite (qmax_id _ Gq). lra. }
    rewrite E. reflexivity.
Qed.
(** Full rate at the start of every cycle, falling within one. *)
Theorem restarts_full cycles w n s m : w <= n - 1 -> w <= s -> s < n ->
  cycles * (s - w) == inject_Z m * (n - w) -> restarts c cycles w n s == 1.
Proof.
  intros H A B E. rewrite restarts_after by lra. assert (Gq : 1 <= n - w) by lra. pose proof (qmax_id _ Gq) as M.
  assert (N : ~ n - w == 0) by (intros Z0; rewrite Z0 in Gq; lra).
  destruct (Qle_bool 1 ((s - w) / Qmax 1 (n - w))) eqn:L.
  { exfalso. apply Qle_bool_iff in L. rewrite M in L.
    assert (X : (n - w) * 1 <= (n - w) * ((s - w) / (n - w))) by (rewrite !(Qmult_comm (n - w)); apply Qmult_le_compat_r; lra).
    assert (Y : (n - w) * ((s - w) / (n - w)) == s - w) by (field; exact N). rewrite Y in X. lra. }
  assert (Z0 : mod1 (cycles * ((s - w) / Qmax 1 (n - w))) == 0).
  { apply (mod1_int _ m). rewrite M. transitivity (cycles * (s - w) / (n - w)); [field; exact N|]. rewrite E. field. exact N. }
  rewrite (c_proper _ 0 Z0). destruct G as (_ & _ & C0 & _). rewrite C0. reflexivity.
Qed.
Theorem restarts_fall cycles w n s t : w <= n - 1 -> 0 <= cycles -> w <= s -> s <= t -> t < n ->
  Qfloor (cycles * ((s - w) / (n - w))) = Qfloor (cycles * ((t - w) / (n - w))) ->
  restarts c cycles w n t <= restarts c cycles w n s.
Proof.
  intros H Hc A B C E. rewrite !restarts_after by lra. assert (Gq : 1 <= n - w) by lra. pose proof (qmax_id _ Gq) as M.
  destruct (Qle_bool 1 ((t - w) / Qmax 1 (n - w))) eqn:Lt.
  { destruct (Qle_bool 1 ((s - w) / Qmax 1 (n - w))); [lra|apply Q.le_max_l]. }
  destruct (Qle_bool 1 ((s - w) / Qmax 1 (n - w))) eqn:Ls.
  { exfalso. apply Qle_bool_iff in Ls. assert (X : 1 <= (t - w) / Qmax 1 (n - w)).
    { apply Qle_trans with (1 := Ls). apply div_le; [apply qmax_pos|lra]. } apply Qle_bool_iff in X. congruence. }
  apply max0_mono.
  assert (X : c (mod1 (cycles * ((t - w) / Qmax 1 (n - w)))) <= c (mod1 (cycles * ((s - w) / Qmax 1 (n - w))))).
  { destruct G as (_ & _ & _ & _ & _ & D).
    pose proof (mod1_bounds (cycles * ((s - w) / Qmax 1 (n - w)))). pose proof (mod1_bounds (cycles * ((t - w) / Qmax 1 (n - w)))).
    apply D; [lra| |lra]. unfold mod1.
    assert (Fs : Qfloor (cycles * ((s - w) / Qmax 1 (n - w))) = Qfloor (cycles * ((s - w) / (n - w)))) by (apply Qfloor_comp; now rewrite M).
    assert (Ft : Qfloor (cycles * ((t - w) / Qmax 1 (n - w))) = Qfloor (cycles * ((t - w) / (n - w)))) by (apply Qfloor_comp; now rewrite M).
    rewrite Fs, Ft, E.
    assert (K : cycles * ((s - w) / Qmax 1 (n - w)) <= cycles * ((t - w) / Qmax 1 (n - w))).
    { rewrite !(Qmult_comm cycles). apply Qmult_le_compat_r; [|exact Hc]. apply div_le; [apply qmax_pos|lra]. }
    lra. }
  lra.
Qed.
End Cos.

(** ** Polynomial *)
Section Pow.
Variable pw : Q -> Q.
Hypothesis G : good_pow pw.
Variables (lr0 lr1 w n : Q).
Hypotheses (H0 : 0 <= lr1) (H1 : lr1 < lr0).
Lemma lr0_nz : ~ lr0 == 0. Proof. intros Z0. rewrite Z0 in H1. lra. Qed.
Lemma lr0_test : Qeq_bool lr0 0 = false.
Proof. destruct (Qeq_bool lr0 0) eqn:E; [|reflexivity]. apply Qeq_bool_eq in E. now apply lr0_nz in E. Qed.
Theorem poly_warm s : s < w -> polynomial pw lr0 lr1 w n s = Ok (warm s w).
Proof. intros A. unfold polynomial. destruct (qlt_spec lr1 lr0); [|contradiction]. destruct (qlt_spec s w); [reflexivity|contradiction]. Qed.
Theorem poly_end s : w <= s -> n < s -> polynomial pw lr0 lr1 w n s = Ok (lr1 / lr0).
Proof.
  intros A B. unfold polynomial. destruct (qlt_spec lr1 lr0); [|contradiction]. destruct (qlt_spec s w); [lra|].
  destruct (qlt_spec n s); [|contradiction]. now rewrite lr0_test.
Qed.
Lemma poly_mid s : w <= s -> s <= n -> w < n ->
  polynomial pw lr0 lr1 w n s = Ok (((lr0 - lr1) * pw (1 - (s - w) / (n - w)) + lr1) / lr0).
Proof.
  intros A B C. unfold polynomial. destruct (qlt_spec lr1 lr0); [|contradiction]. destruct (qlt_spec s w); [lra|].
  destruct (qlt_spec n s); [lra|]. destruct (Qeq_bool (n - w) 0) eqn:E; [apply Qeq_bool_eq in E; lra|]. now rewrite lr0_test.
Qed.
Lemma pct s : w <= s -> s <= n -> w < n -> 0 <= 1 - (s - w) / (n - w) <= 1.
Proof.
  intros A B C. assert (0 <= (s - w) / (n - w)) by (apply div_nonneg; lra).
  assert ((s - w) / (n - w) <= 1) by (apply div_le1; lra). lra.
Qed.
Theorem poly_decay : w < n ->
  (exists r, polynomial pw lr0 lr1 w n w = Ok r /\ r == 1) /\
  (exists r, polynomial pw lr0 lr1 w n n = Ok r /\ r == lr1 / lr0) /\
  (forall s t, w <= s -> s <= t -> t <= n ->
     exists a b, polynomial pw lr0 lr1 w n s = Ok a /\ polynomial pw lr0 lr1 w n t = Ok b /\ lr1 / lr0 <= b /\ b <= a /\ a <= 1).
Proof.
  intros C. destruct G as (P & P0 & P1 & M). pose proof lr0_nz as N.
  assert (N' : ~ n - w == 0) by lra.
  refine (conj _ (conj _ _)).
  - eexists. split; [apply poly_mid; lra|]. rewrite (P _ 1) by (field; exact N'). rewrite P1. field. exact N.
  - eexists. split; [apply poly_mid; lra|]. rewrite (P _ 0) by (field; exact N'). rewrite P0. field. exact N.
  - intros s t A B D. eexists. eexists. split; [apply poly_mid; lra|]. split; [apply poly_mid; lra|].
    pose proof (pct s ltac:(lra) ltac:(lra) C) as Bs. pose proof (pct t ltac:(lra) ltac:(lra) C) as Bt.
    assert (X : (s - w) / (n - w) <= (t - w) / (n - w)) by (apply div_le; lra).
    assert (Y : pw (1 - (t - w) / (n - w)) <= pw (1 - (s - w) / (n - w))) by (apply M; lra).
    assert (Y0 : 0 <= pw (1 - (t - w) / (n - w))) by (assert (pw 0 <= pw (1 - (t - w) / (n - w))) by (apply M; lra); lra).
    assert (Y1 : pw (1 - (s - w) / (n - w)) <= 1) by (assert (pw (1 - (s - w) / (n - w)) <= pw 1) by (apply M; lra); lra).
    set (a := pw (1 - (s - w) / (n - w))) in *. set (b := pw (1 - (t - w) / (n - w))) in *.
    assert (L0 : 0 < lr0) by lra. refine (conj _ (conj _ _)).
    + apply div_le; [exact L0|]. assert (0 <= (lr0 - lr1) * b) by (apply Qmult_le_0_compat; lra). lra.
    + apply div_le; [exact L0|]. assert ((lr0 - lr1) * b <= (lr0 - lr1) * a) by (rewrite !(Qmult_comm (lr0 - lr1)); apply Qmult_le_compat_r; lra). lra.
    + apply div_le1; [|exact L0]. assert ((lr0 - lr1) * a <= (lr0 - lr1) * 1) by (rewrite !(Qmult_comm (lr0 - lr1)); apply Qmult_le_compat_r; lra). lra.
Qed.
(** The one step at which it fails. *)
Theorem poly_fails s : (exists e, polynomial pw lr0 lr1 w n s = Fail e) <-> s == w /\ w == n.
Proof.
  split.
  - intros [e E]. destruct (Qlt_le_dec s w) as [A|A]; [rewrite poly_warm in E by exact A; discriminate|].
    destruct (Qlt_le_dec n s) as [B|B]; [rewrite poly_end in E by assumption; discriminate|].
    destruct (Qlt_le_dec w n) as [C|C]; [rewrite poly_mid in E by assumption; discriminate|]. lra.
  - intros [A B]. exists EUB. unfold polynomial. destruct (qlt_spec lr1 lr0); [|contradiction]. destruct (qlt_spec s w); [lra|].
    destruct (qlt_spec n s); [lra|]. assert (E : Qeq_bool (n - w) 0 = true) by (apply Qeq_bool_iff; lra). now rewrite E.
Qed.
End Pow.

(** ** Trainer *)
Theorem trainer_rates a base count : 0 <= t_warmup a -> t_warmup a <= 1 -> 0 <= base -> (0 < t_max_steps a)%nat ->
  Forall (fun r => 0 <= r <= base) (rates a base count) /\
  (0 < base -> forall t, (0 < t < t_max_steps a * t_epochs a)%nat -> (t < count)%nat -> 0 < nth t (rates a base count) 0).
Proof.
  intros W W1 B M. unfold rates, schedule_of. destruct (Nat.ltb_spec 0 (t_max_steps a)); [|lia].
  set (n := inject_Z (Z.of_nat (t_max_steps a * t_epochs a))). set (w := t_warmup a * n).
  assert (N0 : 0 <= n) by (unfold n; change 0 with (inject_Z 0); rewrite <- Zle_Qle; lia).
  split.
  - rewrite Forall_forall. intros r Hr. apply in_map_iff in Hr. destruct Hr as (t & <- & _).
    destruct (linear_shape w n) as (L & _). specialize (L (inject_Z (Z.of_nat t))).
    assert (T : 0 <= inject_Z (Z.of_nat t)) by (change 0 with (inject_Z 0); rewrite <- Zle_Qle; lia).
    specialize (L T). split; [apply Qmult_le_0_compat; lra|].
    rewrite <- (Qmult_1_r base) at 2. rewrite !(Qmult_comm base). apply Qmult_le_compat_r; lra.
  - intros Bp t T C. rewrite (nth_indep _ 0 (base * linear w n (inject_Z (Z.of_nat 0)))) by (rewrite map_length, seq_length; exact C).
    rewrite (map_nth (fun t => base * linear w n (inject_Z (Z.of_nat t)))), seq_nth by exact C. cbn [plus].
    set (q := inject_Z (Z.of_nat t)).
    assert (Q0 : 0 < q) by (unfold q; change 0 with (inject_Z 0); rewrite <- Zlt_Qlt; lia).
    assert (Q1 : q < n) by (unfold q, n; rewrite <- Zlt_Qlt; lia).
    assert (L : 0 < linear w n q).
    { unfold linear. destruct (qlt_spec q w) as [A|A].
      - unfold warm. apply Qlt_shift_div_l; [apply qmax_pos|]. lra.
      - apply Qlt_le_trans with ((n - q) / Qmax 1 (n - w)); [|apply Q.le_max_r]. apply Qlt_shift_div_l; [apply qmax_pos|]. lra. }
    rewrite <- (Qmult_0_l (linear w n q)). apply Qmult_lt_compat_r; assumption.
Qed.
