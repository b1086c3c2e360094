(** C80: learning rates. *)
From Coq Require Import QArith Qminmax Qround Qabs Lqa.
From Verif Require Import Base ScheduleModel ScheduleSpec ScheduleProofs.

Theorem C80_constant : within01 constant /\ forall s, constant s == 1.
Proof. exact constant_shape. Qed.
Print Assumptions C80_constant.
Theorem C80_constant_warmup : forall w, within01 (constant_warmup w) /\ warms (constant_warmup w) w /\ ends (constant_warmup w) w 1.
Proof. exact constant_warmup_shape. Qed.
Print Assumptions C80_constant_warmup.

(** Up to the full rate on one line, down to zero on another, never outside. *)
Theorem C80_linear : forall w n,
  within01 (linear w n) /\ warms (linear w n) w /\ (forall b, falls (linear w n) w b) /\
  (w <= n -> ends (linear w n) n 0) /\ (w <= n - 1 -> linear w n w == 1) /\
  (forall s, w <= s -> w <= n - 1 -> s <= n -> linear w n s * (n - w) == n - s).
Proof. exact linear_shape. Qed.
Print Assumptions C80_linear.

Theorem C80_cosine : forall c, good_cos c -> forall cycles w n,
  within01 (cosine c cycles w n) /\ warms (cosine c cycles w n) w /\ cosine c cycles w n w == 1.
Proof. exact cosine_shape. Qed.
Print Assumptions C80_cosine.
(** Half a cycle falls to zero at the last step; as many steps later the rate is the full one again. *)
Theorem C80_cosine_half_partial : forall c, good_cos c -> forall w n, w <= n - 1 ->
  falls (cosine c (1 # 2) w n) w n /\ cosine c (1 # 2) w n n == 0 /\ cosine c (1 # 2) w n (n + (n - w)) == 1.
Proof. exact cosine_half. Qed.
Print Assumptions C80_cosine_half_partial.

Theorem C80_restarts : forall c, good_cos c -> forall cycles w n,
  within01 (restarts c cycles w n) /\ warms (restarts c cycles w n) w /\ (w <= n - 1 -> ends (restarts c cycles w n) n 0).
Proof. exact restarts_shape. Qed.
Print Assumptions C80_restarts.
Theorem C80_restarts_full : forall c, good_cos c -> forall cycles w n s m, w <= n - 1 -> w <= s -> s < n ->
  cycles * (s - w) == inject_Z m * (n - w) -> restarts c cycles w n s == 1.
Proof. exact restarts_full. Qed.
Print Assumptions C80_restarts_full.
Theorem C80_restarts_fall : forall c, good_cos c -> forall cycles w n s t, w <= n - 1 -> 0 <= cycles -> w <= s -> s <= t -> t < n ->
  Qfloor (cycles * ((s - w) / (n - w))) = Qfloor (cycles * ((t - w) / (n - w))) ->
  restarts c cycles w n t <= restarts c cycles w n s.
Proof. exact restarts_fall. Qed.
Print Assumptions C80_restarts_fall.

Theorem C80_poly_warm : forall pw lr0 lr1 w n, lr1 < lr0 -> forall s, s < w -> polynomial pw lr0 lr1 w n s = Ok (warm s w).
Proof. exact poly_warm. Qed.
Print Assumptions C80_poly_warm.
Theorem C80_poly_decay : forall pw, good_pow pw -> forall lr0 lr1 w n, 0 <= lr1 -> lr1 < lr0 -> w < n ->
  (exists r, polynomial pw lr0 lr1 w n w = Ok r /\ r == 1) /\
  (exists r, polynomial pw lr0 lr1 w n n = Ok r /\ r == lr1 / lr0) /\
  (forall s t, w <= s -> s <= t -> t <= n ->
     exists a b, polynomial pw lr0 lr1 w n s = Ok a /\ polynomial pw lr0 lr1 w n t = Ok b /\ lr1 / lr0 <= b /\ b <= a /\ a <= 1).
Proof. exact poly_decay. Qed.
Print Assumptions C80_poly_decay.
Theorem C80_poly_end : forall pw lr0 lr1 w n, 0 <= lr1 -> lr1 < lr0 ->
  forall s, w <= s -> n < s -> polynomial pw lr0 lr1 w n s = Ok (lr1 / lr0).
Proof. exact poly_end. Qed.
Print Assumptions C80_poly_end.
(** It fails only when all steps are warm-up steps, at the last one. *)
Theorem C80_poly_fails : forall pw lr0 lr1 w n, 0 <= lr1 -> lr1 < lr0 -> forall s,
  (exists e, polynomial pw lr0 lr1 w n s = Fail e) <-> s == w /\ w == n.
Proof. exact poly_fails. Qed.
Print Assumptions C80_poly_fails.
Theorem C80_poly_refuted : exists pw lr0 lr1 w n s,
  good_pow pw /\ 0 <= lr1 /\ lr1 < lr0 /\ 0 <= s <= n /\ w <= n /\ polynomial pw lr0 lr1 w n s = Fail EUB.
Proof.
  exists (fun x => x), 1, 0, 5, 5, 5. refine (conj _ _).
  - refine (conj _ (conj _ (conj _ _))); [auto|reflexivity|reflexivity|auto].
  - refine (conj _ (conj _ (conj _ (conj _ _)))); try (vm_compute; congruence); try reflexivity. split; vm_compute; congruence.
Qed.
Print Assumptions C80_poly_refuted.

(** A cosine made of lines. *)
Definition zigzag (x : Q) : Q := Qmin 1 (2 * Qabs (x - 1) - 1).
Lemma zigzag_good : good_cos zigzag.
Proof.
  unfold zigzag. refine (conj _ (conj _ (conj _ (conj _ (conj _ _))))); try reflexivity.
  - intros x y E. rewrite E. reflexivity.
  - intros x. split; [|apply Q.le_min_l]. apply Q.min_glb; [lra|]. pose proof (Qabs_nonneg (x - 1)). lra.
  - intros x y A B C. apply Q.min_le_compat_l. rewrite !Qabs_neg by lra. lra.
Qed.
(** Without steps to decay in the cosine is at its top at the last step, linear decay at zero. *)
Theorem C80_no_decay_refuted : exists c w n, good_cos c /\ w <= n /\ cosine c (1 # 2) w n n == 1 /\ restarts c 1 w n n == 1 /\ linear w n n == 0.
Proof.
  exists zigzag, 5, 5. refine (conj zigzag_good (conj _ (conj _ (conj _ _)))); [lra| | |]; vm_compute; reflexivity.
Qed.
Print Assumptions C80_no_decay_refuted.
(** After the last step the cosine rises again. *)
Theorem C80_cosine_end_refuted : exists c w n s, good_cos c /\ w <= n - 1 /\ n < s /\ cosine c (1 # 2) w n n == 0 /\ cosine c (1 # 2) w n s == 1.
Proof.
  exists zigzag, 1, 5, 9. refine (conj zigzag_good (conj _ (conj _ (conj _ _)))); [lra|lra| |]; vm_compute; reflexivity.
Qed.
Print Assumptions C80_cosine_end_refuted.

(** The trainer: every rate is between zero and that of the optimizer, and not zero after the first batch. *)
Theorem C80_trainer : forall a base count, 0 <= t_warmup a -> t_warmup a <= 1 -> 0 <= base -> (0 < t_max_steps a)%nat ->
  Forall (fun r => 0 <= r <= base) (rates a base count) /\
  (0 < base -> forall t, (0 < t < t_max_steps a * t_epochs a)%nat -> (t < count)%nat -> 0 < nth t (rates a base count) 0).
Proof. exact trainer_rates. Qed.
Print Assumptions C80_trainer.
(** Two of four batches, then a new process for the other two: not the rates of one process. *)
Theorem C80_resume_refuted : exists a base, t_max_steps a = 4%nat /\ t_epochs a = 1%nat /\
  ~ Forall2 Qeq (rates a base 2 ++ rates a base 2) (rates a base 4).
Proof.
  exists (TArgs (1 # 4) 4 1), 1. split; [reflexivity|]. split; [reflexivity|]. intros F.
  inversion F as [|? ? ? ? _ F1]; subst. inversion F1 as [|? ? ? ? _ F2]; subst. inversion F2 as [|? ? ? ? E _]; subst.
  vm_compute in E. discriminate.
Qed.
Print Assumptions C80_resume_refuted.

Example C80_ex_linear : map (fun s => Qred (linear 2 6 s)) [0; 1; 2; 3; 4; 5; 6; 7] = [0; 1 # 2; 1; 3 # 4; 1 # 2; 1 # 4; 0; 0].
Proof. vm_compute. reflexivity. Qed.
Example C80_ex_restarts : map (fun s => Qred (restarts zigzag 2 2 10 s)) [1; 2; 4; 5; 6; 8; 10] = [1 # 2; 1; 1 # 2; 1 # 4; 1; 1 # 2; 0].
Proof. vm_compute. reflexivity. Qed.
Example C80_ex_poly :
  map (fun s => match polynomial (fun x => x * x) 10 2 1 5 s with Ok r => Qred r | Fail _ => 7 end) [0; 1; 3; 5; 8] = [0; 1; 2 # 5; 1 # 5; 1 # 5].
Proof. vm_compute. reflexivity. Qed.
Example C80_ex_trainer : map Qred (rates (TArgs (1 # 4) 4 2) 8 9) = [0; 4; 8; 20 # 3; 16 # 3; 4; 8 # 3; 4 # 3; 0].
Proof. vm_compute. reflexivity. Qed.
