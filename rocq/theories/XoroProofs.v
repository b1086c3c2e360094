(** The generator is a permutation of its states. *)
From Coq Require Import ZifyBool ZifyNat ZifyN Permutation.
From Verif Require Import Base XoroModel.
Local Open Scope N_scope.

Definition word64 (x : N) : Prop := x < 2 ^ 64.

Lemma word64_bits x : word64 x <-> forall i, 64 <= i -> N.testbit x i = false.
Proof.
  unfold word64. split.
  - intros H i Hi. destruct (N.eq_dec x 0) as [->|Hx]; [apply N.bits_0|]. apply N.bits_above_log2.
    apply N.lt_le_trans with 64; [|exact Hi]. apply N.log2_lt_pow2; [lia|exact H].
  - intro H. destruct (N.eq_dec x 0) as [->|Hx]; [reflexivity|]. apply N.log2_lt_pow2; [lia|].
    destruct (N.lt_ge_cases (N.log2 x) 64) as [L|L]; [exact L|]. specialize (H _ L). rewrite N.bit_log2 in H by exact Hx. discriminate.
Qed.
Lemma word64_lxor a b : word64 a -> word64 b -> word64 (N.lxor a b).
Proof. rewrite !word64_bits. intros Ha Hb i Hi. rewrite N.lxor_spec, Ha, Hb by exact Hi. reflexivity. Qed.
Lemma word64_u64 x : word64 (u64 x).
Proof. apply N.mod_lt. discriminate. Qed.
Lemma u64_id x : word64 x -> u64 x = x.
Proof. intro H. apply N.mod_small. exact H. Qed.
Lemma u64_bit x i : i < 64 -> N.testbit (u64 x) i = N.testbit x i.
Proof. intro H. apply N.mod_pow2_bits_low. exact H. Qed.

(** Rotation. *)
Lemma rotl_bit x k i : word64 x -> k <= 64 -> i < 64 ->
  N.testbit (rotl64 x k) i = if i <? k then N.testbit x (i + (64 - k)) else N.testbit x (i - k).
Proof.
  intros Hx Hk Hi. unfold rotl64, shl64. rewrite N.lor_spec, u64_bit by exact Hi. rewrite N.shiftr_spec' .
  destruct (N.ltb_spec i k) as [L|L].
  - rewrite N.shiftl_spec_low by exact L. reflexivity.
  - rewrite N.shiftl_spec_high' by exact L. rewrite (proj1 (word64_bits x) Hx (i + (64 - k))) by lia. apply orb_false_r.
Qed.
Lemma rotl_word x k : word64 x -> k <= 64 -> word64 (rotl64 x k).
Proof.
  intros Hx Hk. apply word64_bits. intros i Hi. unfold rotl64, shl64. rewrite N.lor_spec.
  rewrite (proj1 (word64_bits _) (word64_u64 _) i Hi), N.shiftr_spec'. apply (proj1 (word64_bits x) Hx). lia.
Qed.
Lemma rotl_inj a b k : word64 a -> word64 b -> k <= 64 -> rotl64 a k = rotl64 b k -> a = b.
Proof.
  intros Ha Hb Hk E. apply N.bits_inj. intro i. destruct (N.lt_ge_cases i 64) as [L|L].
  - destruct (N.lt_ge_cases (i + k) 64) as [M|M].
    + pose proof (rotl_bit a k (i + k) Ha Hk M) as Ra. pose proof (rotl_bit b k (i + k) Hb Hk M) as Rb.
      rewrite E in Ra. rewrite Ra in Rb. rewrite (proj2 (N.ltb_ge (i + k) k)) in Rb by lia.
      now replace (i + k - k) with i in Rb by lia.
    + pose proof (rotl_bit a k (i + k - 64) Ha Hk ltac:(lia)) as Ra. pose proof (rotl_bit b k (i + k - 64) Hb Hk ltac:(lia)) as Rb.
      rewrite E in Ra. rewrite Ra in Rb. rewrite (proj2 (N.ltb_lt (i + k - 64) k)) in Rb by lia.
      now replace (i + k - 64 + (64 - k)) with i in Rb by lia.
  - rewrite (proj1 (word64_bits a) Ha i L), (proj1 (word64_bits b) Hb i L). reflexivity.
Qed.

Lemma lxor_cancel_r a b c : N.lxor a c = N.lxor b c -> a = b.
Proof.
  intro H. rewrite <- (N.lxor_0_r a), <- (N.lxor_0_r b), <- (N.lxor_nilpotent c), <- !N.lxor_assoc. now rewrite H.
Qed.

(** z ^ (z >> k) *)
Lemma xorshift_inj a b k : 0 < k -> N.lxor a (N.shiftr a k) = N.lxor b (N.shiftr b k) -> a = b.
Proof.
  intros Hk E. apply N.lxor_eq_0_iff. set (d := N.lxor a b).
  assert (D : N.shiftr d k = d).
  { unfold d. rewrite N.shiftr_lxor. apply N.bits_inj. intro i. apply (f_equal (fun x => N.testbit x i)) in E.
    rewrite !N.lxor_spec in *. destruct (N.testbit a i), (N.testbit b i), (N.testbit (N.shiftr a k) i), (N.testbit (N.shiftr b k) i); cbn in *; congruence. }
  rewrite N.shiftr_div_pow2 in D. destruct (N.eq_dec d 0) as [Z|NZ]; [exact Z|].
  assert (d / 2 ^ k < d); [|lia]. apply N.div_lt; [lia|]. apply N.pow_gt_1; lia.
Qed.
Lemma xorshift_word a k : word64 a -> word64 (N.lxor a (N.shiftr a k)).
Proof.
  intro H. apply word64_lxor; [exact H|]. apply word64_bits. intros i Hi. rewrite N.shiftr_spec'.
  apply (proj1 (word64_bits a) H). lia.
Qed.

(** Multiplication by a constant with an inverse. *)
Lemma mul_inj c ci a b : u64 (c * ci) = 1 -> word64 a -> word64 b -> u64 (a * c) = u64 (b * c) -> a = b.
Proof.
  intros Hc Ha Hb E.
  assert (G : forall x, word64 x -> u64 (u64 (x * c) * ci) = x).
  { intros x Hx. unfold u64 in *. rewrite N.mul_mod_idemp_l by discriminate. rewrite <- N.mul_assoc, <- N.mul_mod_idemp_r by discriminate.
    rewrite Hc, N.mul_1_r. now apply N.mod_small. }
  rewrite <- (G a Ha), <- (G b Hb), E. reflexivity.
Qed.

Lemma mix_inj a b : word64 a -> word64 b -> mix a = mix b -> a = b.
Proof.
  intros Ha Hb. unfold mix. intro E.
  apply xorshift_inj in E; [|reflexivity].
  apply (mul_inj _ 0x319642b2d24d8ec3) in E; [|vm_compute; reflexivity|apply xorshift_word, word64_u64|apply xorshift_word, word64_u64].
  apply xorshift_inj in E; [|reflexivity].
  apply (mul_inj _ 0x96de1b173f119089) in E; [|vm_compute; reflexivity|now apply xorshift_word|now apply xorshift_word].
  apply xorshift_inj in E; [exact E|reflexivity].
Qed.
Lemma mix_word a : word64 (mix a).
Proof. unfold mix. apply xorshift_word, word64_u64. Qed.

Lemma add_inj a b c : word64 a -> word64 b -> u64 (a + c) = u64 (b + c) -> a = b.
Proof.
  unfold word64, u64. intros Ha Hb E.
  pose proof (N.div_mod (a + c) (2 ^ 64) ltac:(discriminate)). pose proof (N.div_mod (b + c) (2 ^ 64) ltac:(discriminate)).
  rewrite E in H. nia.
Qed.

Lemma seed_inj a b : word64 a -> word64 b -> fst (xseed a) = fst (xseed b) -> a = b.
Proof.
  intros Ha Hb E. unfold xseed, split_mix in E. cbn [fst snd] in E. apply mix_inj in E; try apply word64_u64. now apply add_inj in E.
Qed.
Lemma seed_word a : word64 (fst (xseed a)) /\ word64 (snd (xseed a)).
Proof. split; apply mix_word. Qed.
Lemma seed_nonzero a : word64 a -> fst (xseed a) <> snd (xseed a).
Proof.
  intros Ha E. unfold xseed, split_mix in E. cbn [fst snd] in E. apply mix_inj in E; try apply word64_u64.
  set (c := 0x9e3779b97f4a7c15) in *. set (x := u64 (a + c)) in *. assert (Hx : word64 x) by apply word64_u64.
  unfold u64, word64 in *. pose proof (N.div_mod (x + c) (2 ^ 64) ltac:(discriminate)). unfold c in *. nia.
Qed.

(** The state update. *)
Definition wstate (s : xstate) : Prop := word64 (fst s) /\ word64 (snd s).
Lemma next_word s : wstate s -> wstate (snd (xnext s)).
Proof.
  intros [H0 H1]. unfold xnext. cbn [fst snd]. split; cbn [fst snd].
  - apply word64_lxor; [apply word64_lxor; [apply rotl_word; [exact H0|discriminate]|now apply word64_lxor]|apply word64_u64].
  - apply rotl_word; [now apply word64_lxor|discriminate].
Qed.
Lemma next_inj s t : wstate s -> wstate t -> snd (xnext s) = snd (xnext t) -> s = t.
Proof.
  destruct s as [a b], t as [c d]. intros [Ha Hb] [Hc Hd] E. cbn [fst snd] in *. unfold xnext in E. cbn [fst snd] in E.
  injection E as E0 E1. apply rotl_inj in E1; [|now apply word64_lxor|now apply word64_lxor|discriminate].
  rewrite E1 in E0. apply lxor_cancel_r, lxor_cancel_r in E0. apply rotl_inj in E0; [|assumption|assumption|discriminate].
  subst c. apply lxor_cancel_r in E1. now subst.
Qed.
Lemma next_zero : snd (xnext (0, 0)) = (0, 0).
Proof. reflexivity. Qed.
Lemma next_nonzero s : wstate s -> s <> (0, 0) -> snd (xnext s) <> (0, 0).
Proof.
  intros Hs Hn E. apply Hn. apply next_inj; [exact Hs|split; reflexivity|]. rewrite E. reflexivity.
Qed.

Lemma xstep_snoc n : forall s, xstep (S n) s = snd (xnext (xstep n s)).
Proof. induction n as [|n IH]; intro s; [reflexivity|]. cbn [xstep] in *. apply IH. Qed.
Lemma step_word n : forall s, wstate s -> wstate (xstep n s).
Proof. induction n as [|n IH]; intros s H; [exact H|]. cbn [xstep]. apply IH, next_word, H. Qed.
Lemma step_nonzero n s : wstate s -> s <> (0, 0) -> xstep n s <> (0, 0).
Proof.
  revert s. induction n as [|n IH]; intros s H Hn; [exact Hn|]. cbn [xstep]. apply IH; [now apply next_word|now apply next_nonzero].
Qed.
Lemma step_inj n s t : wstate s -> wstate t -> xstep n s = xstep n t -> s = t.
Proof.
  revert s t. induction n as [|n IH]; intros s t Hs Ht E; [exact E|]. cbn [xstep] in E. apply IH in E; try now apply next_word.
  now apply next_inj.
Qed.

(** There are finitely many states: every stream comes back to where it started. *)
Definition all_below (m : N) : list N := map N.of_nat (seq 0 (N.to_nat m)).
Lemma all_below_in x m : x < m -> In x (all_below m).
Proof.
  intro H. unfold all_below. apply in_map_iff. exists (N.to_nat x). split; [apply N2Nat.id|]. apply in_seq. lia.
Qed.
Lemma xstep_add n m s : xstep (n + m) s = xstep m (xstep n s).
Proof. revert s. induction n as [|n IH]; intro s; [reflexivity|]. cbn [xstep Nat.add]. apply IH. Qed.
Lemma nodup_find {A} (dec : forall x y : A, {x = y} + {x <> y}) (f : nat -> A) n :
  NoDup (map f (seq 0 n)) \/ exists i j, (i < j < n)%nat /\ f i = f j.
Proof.
  induction n as [|n IH]; [left; constructor|]. destruct IH as [IH|(i & j & H & E)]; [|right; exists i, j; split; [lia|exact E]].
  destruct (in_dec dec (f n) (map f (seq 0 n))) as [I|I].
  - right. apply in_map_iff in I. destruct I as (i & E & Hi). apply in_seq in Hi. exists i, n. split; [lia|exact E].
  - left. rewrite seq_S, map_app. cbn. apply (Permutation_NoDup (l := f n :: map f (seq 0 n))); [|now constructor].
    apply Permutation_cons_append.
Qed.
Lemma step_recurs s : wstate s -> exists n, (0 < n)%nat /\ xstep n s = s.
Proof.
  intro Hs. assert (dec : forall x y : xstate, {x = y} + {x <> y}) by (decide equality; apply N.eq_dec).
  assert (HL : exists L, forall x y, word64 x -> word64 y -> In (x, y) L).
  { exists (list_prod (all_below (2 ^ 64)) (all_below (2 ^ 64))). intros x y Hx Hy. apply in_prod; apply all_below_in; assumption. }
  destruct HL as (L & EL).
  destruct (nodup_find dec (fun i => xstep i s) (S (length L))) as [ND|(i & j & Hij & E)].
  - exfalso. assert (HI : incl (map (fun i => xstep i s) (seq 0 (S (length L)))) L).
    { intros x Hx. apply in_map_iff in Hx. destruct Hx as (i & <- & _). destruct (step_word i s Hs) as [W0 W1].
      destruct (xstep i s) as [a b]. now apply EL. }
    pose proof (NoDup_incl_length ND HI) as HL. rewrite map_length, seq_length in HL. exact (Nat.nle_succ_diag_l _ HL).
  - exists (j - i)%nat. split; [lia|]. replace j with (j - i + i)%nat in E by lia. rewrite xstep_add in E.
    symmetry. apply (step_inj i); [exact Hs|now apply step_word|]. rewrite E. f_equal.
Qed.
