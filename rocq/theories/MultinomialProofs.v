(** Splitting a sample with conditional binomial draws is the same as independent draws. *)
From Coq Require Import Lqa Permutation.
From Verif Require Import Base Dist WriterModel WriterProofs ConvertProofs AliasModel AliasProofs SamplerModel SamplerProofs.
Local Open Scope Q_scope.

(** ** Specification: independent draws *)
Fixpoint draws {A} (n : nat) (d : dist A) : dist (list A) :=
  match n with O => dret [] | S m => dbind d (fun a => dbind (draws m d) (fun l => dret (a :: l))) end.

(** The weights of all partitions of all types together. *)
Definition grand (tws : list (list Q)) : Q := qsum total tws.
(** One draw of a type and a partition: pair (i, p) has probability w_ip / W. *)
Definition pick_pair (tws : list (list Q)) : dist (nat * nat) :=
  flat_map (fun r => map (fun x => ((fst r, fst x), snd x / grand tws)) (combine (seq 0 (length (snd r))) (snd r)))
           (combine (seq 0 (length tws)) tws).

Definition pair_is (i p : nat) (d : nat * nat) : bool := (fst d =? i)%nat && (snd d =? p)%nat.
Definition type_draws (i : nat) (ds : list (nat * nat)) : nat := length (filter (fun d => fst d =? i)%nat ds).
Definition pair_draws (i p : nat) (ds : list (nat * nat)) : nat := length (filter (pair_is i p) ds).

(** The plan that belongs to a list of draws. *)
Definition plan_of (types : list (Z * list Q)) (ds : list (nat * nat)) : list Z * list (nat * nat * nat) :=
  (flat_map (fun r => repeat (fst (snd r)) (type_draws (fst r) ds)) (combine (seq 0 (length types)) types),
   flat_map (fun r => flat_map (fun p => if (pair_draws (fst r) p ds =? 0)%nat then [] else [(fst r, p, pair_draws (fst r) p ds)])
                               (seq 0 (length (snd (snd r)))))
            (combine (seq 0 (length types)) types)).

(** ** Expectations *)
Lemma ex_swap {A B} (d1 : dist A) (d2 : dist B) (g : A -> B -> Q) :
  ex d1 (fun a => ex d2 (g a)) == ex d2 (fun b => ex d1 (fun a => g a b)).
Proof.
  unfold ex. rewrite (qsum_ext _ (fun x => qsum (fun y => snd x * (snd y * g (fst x) (fst y))) d2)).
  2:{ intros; symmetry; apply qsum_scale. }
  rewrite qsum_swap. apply qsum_ext. intros y _. rewrite <- qsum_scale. apply qsum_ext. intros x _. ring.
Qed.

Lemma dbinom_support n p : forall c, In c (map fst (dbinom n p)) -> (c <= n)%nat.
Proof.
  induction n as [|n IH]; intros c H; cbn [dbinom] in H.
  - destruct H as [<-|[]]. cbn [fst]. lia.
  - apply in_map_iff in H as ([c' q] & <- & H). cbn [fst]. unfold dbind in H. apply in_flat_map in H as ([b w] & _ & H).
    apply in_map_iff in H as ([c'' w'] & E & H). cbn [fst snd] in *. injection E as -> _.
    apply in_flat_map in H as ([d u] & Hd & H). apply in_map_iff in H as ([e v] & E & H). cbn [fst snd] in *. injection E as -> _.
    destruct H as [H|[]]. injection H as <- _. assert (In d (map fst (dbinom n p))) by (apply in_map_iff; exists (d, u); auto).
    apply IH in H. destruct b; lia.
Qed.
Lemma ex_binom_S n p f : ex (dbinom (S n) p) f ==
  p * ex (dbinom n p) (fun c => f (S c)) + (1 - p) * ex (dbinom n p) f.
Proof.
  cbn [dbinom]. rewrite ex_bind, ex_flip, !ex_bind.
  rewrite (ex_ext_all (dbinom n p) (fun a => ex (dret (S a)) f) (fun c => f (S c))) by (intros; apply ex_ret).
  rewrite (ex_ext_all (dbinom n p) (fun a => ex (dret a) f) f) by (intros; apply ex_ret). reflexivity.
Qed.
Lemma ex_binom_eq n p q f : p == q -> ex (dbinom n p) f == ex (dbinom n q) f.
Proof. intros H. revert f. induction n as [|n IH]; intros f; [reflexivity|]. rewrite !ex_binom_S, !IH, H. reflexivity. Qed.
Lemma binom_mass n p : ex (dbinom n p) (fun _ => 1) == 1.
Proof. induction n as [|n IH]; [cbn [dbinom]; rewrite ex_ret; reflexivity|]. rewrite ex_binom_S, IH. ring. Qed.

(** ** Dense counts *)
Fixpoint dparts (ws : list Q) (n : nat) : dist (list nat) :=
  match ws with
  | [] => dret []
  | w :: t => dbind (dbinom n (w / total ws)) (fun c => dbind (dparts t (n - c)) (fun l => dret (c :: l)))
  end.
Fixpoint dtypes (tws : list (list Q)) (n : nat) : dist (list (nat * list nat)) :=
  match tws with
  | [] => dret []
  | ws :: t => dbind (dbinom n (total ws / grand tws)) (fun c => dbind (dparts ws c) (fun l =>
               dbind (dtypes t (n - c)) (fun r => dret ((c, l) :: r))))
  end.

Lemma ex_parts w t n f : ex (dparts (w :: t) n) f ==
  ex (dbinom n (w / total (w :: t))) (fun c => ex (dparts t (n - c)) (fun l => f (c :: l))).
Proof. cbn [dparts]. rewrite ex_bind. apply ex_ext_all. intros c. rewrite ex_bind. apply ex_ext_all. intros l. apply ex_ret. Qed.
Lemma ex_types ws t n f : ex (dtypes (ws :: t) n) f ==
  ex (dbinom n (total ws / grand (ws :: t))) (fun c => ex (dparts ws c) (fun l => ex (dtypes t (n - c)) (fun r => f ((c, l) :: r)))).
Proof.
  cbn [dtypes]. rewrite ex_bind. apply ex_ext_all. intros c. rewrite ex_bind. apply ex_ext_all. intros l.
  rewrite ex_bind. apply ex_ext_all. intros r. apply ex_ret.
Qed.

(** Weighted sums over indices. *)
Fixpoint wsum (ws : list Q) (g : nat -> Q) : Q :=
  match ws with [] => 0 | w :: t => w * g 0%nat + wsum t (fun i => g (S i)) end.
Fixpoint wsum2 (tws : list (list Q)) (g : nat * nat -> Q) : Q :=
  match tws with [] => 0 | ws :: t => wsum ws (fun p => g (0%nat, p)) + wsum2 t (fun x => g (S (fst x), snd x)) end.

Lemma wsum_ext ws : forall g h, (forall i, g i == h i) -> wsum ws g == wsum ws h.
Proof. induction ws as [|w ws IH]; intros g h E; cbn [wsum]; [reflexivity|]. rewrite E, (IH _ (fun i => h (S i))) by auto. reflexivity. Qed.
Lemma wsum2_ext tws : forall g h, (forall i, g i == h i) -> wsum2 tws g == wsum2 tws h.
Proof. induction tws as [|w ws IH]; intros g h E; cbn [wsum2]; [reflexivity|].
  rewrite (wsum_ext w _ (fun p => h (0%nat, p))), (IH _ (fun x => h (S (fst x), snd x))) by auto. reflexivity. Qed.
Lemma wsum_ex {A} ws (d : dist A) (g : nat -> A -> Q) : wsum ws (fun i => ex d (g i)) == ex d (fun a => wsum ws (fun i => g i a)).
Proof.
  revert g. induction ws as [|w ws IH]; intros g; cbn [wsum].
  - unfold ex. symmetry. apply qsum_zero. intros; ring.
  - rewrite IH, ex_plus, ex_scale. reflexivity.
Qed.
Lemma wsum2_ex {A} tws (d : dist A) (g : nat * nat -> A -> Q) : wsum2 tws (fun i => ex d (g i)) == ex d (fun a => wsum2 tws (fun i => g i a)).
Proof.
  revert g. induction tws as [|ws tws IH]; intros g; cbn [wsum2].
  - unfold ex. symmetry. apply qsum_zero. intros; ring.
  - rewrite (IH (fun x => g (S (fst x), snd x))), (wsum_ex ws d (fun p => g (0%nat, p))), ex_plus. reflexivity.
Qed.
Lemma wsum_scale ws c : forall g, wsum ws (fun i => c * g i) == c * wsum ws g.
Proof. induction ws as [|w ws IH]; intros g; cbn [wsum]; [ring|]. rewrite (IH (fun i => g (S i))). ring. Qed.
Lemma wsum_zero ws g : Forall (fun w => w == 0) ws -> wsum ws g == 0.
Proof. intros H. revert g. induction H as [|w ws Hw _ IH]; intros g; cbn [wsum]; [reflexivity|]. rewrite Hw, IH. ring. Qed.
Lemma wsum2_zero tws g : Forall (Forall (fun w => w == 0)) tws -> wsum2 tws g == 0.
Proof. intros H. revert g. induction H as [|w ws Hw _ IH]; intros g; cbn [wsum2]; [reflexivity|]. rewrite wsum_zero, IH by assumption. ring. Qed.
Lemma wsum_one ws : wsum ws (fun _ => 1) == total ws.
Proof. induction ws as [|w ws IH]; cbn [wsum total qsum]; [reflexivity|]. fold (total ws). rewrite IH. ring. Qed.
Lemma wsum2_one tws : wsum2 tws (fun _ => 1) == grand tws.
Proof. induction tws as [|w ws IH]; cbn [wsum2 grand qsum]; [reflexivity|]. fold (grand ws). rewrite IH, wsum_one. reflexivity. Qed.

Lemma total_nonneg ws : Forall (fun w => 0 <= w) ws -> 0 <= total ws.
Proof. intros H. apply qsum_nonneg. rewrite Forall_forall in H. exact H. Qed.
Lemma total_zero ws : Forall (fun w => 0 <= w) ws -> total ws <= 0 -> Forall (fun w => w == 0) ws.
Proof.
  induction 1 as [|w ws Hw H IH]; intros T; [constructor|]. cbn [total qsum] in T. fold (total ws) in T.
  pose proof (total_nonneg ws H). constructor; [lra|apply IH; lra].
Qed.
Lemma grand_nonneg tws : Forall (Forall (fun w => 0 <= w)) tws -> 0 <= grand tws.
Proof. intros H. apply qsum_nonneg. intros ws Hw. apply total_nonneg. rewrite Forall_forall in H. auto. Qed.
Lemma grand_zero tws : Forall (Forall (fun w => 0 <= w)) tws -> grand tws <= 0 -> Forall (Forall (fun w => w == 0)) tws.
Proof.
  induction 1 as [|w ws Hw H IH]; intros T; [constructor|]. cbn [grand qsum] in T. fold (grand ws) in T.
  pose proof (grand_nonneg ws H). pose proof (total_nonneg w Hw). constructor; [apply total_zero; [exact Hw|lra]|apply IH; lra].
Qed.

(** ** One more draw *)
Fixpoint bump (i : nat) (l : list nat) : list nat :=
  match l with [] => [] | x :: t => match i with O => S x :: t | S j => x :: bump j t end end.
Fixpoint bump2 (i : nat * nat) (l : list (nat * list nat)) : list (nat * list nat) :=
  match l with
  | [] => []
  | x :: t => match i with (O, p) => (S (fst x), bump p (snd x)) :: t | (S j, p) => x :: bump2 (j, p) t end
  end.

Lemma parts_more ws : Forall (fun w => 0 <= w) ws -> 0 < total ws -> forall n f,
  ex (dparts ws (S n)) f == wsum ws (fun i => ex (dparts ws n) (fun l => f (bump i l))) / total ws.
Proof.
  induction 1 as [|w ws Hw H IH]; intros T n f; [cbn in T; lra|].
  rewrite ex_parts, ex_binom_S.
  set (p := w / total (w :: ws)). cbn [wsum]. 
  rewrite (ex_parts w ws n (fun l => f (bump 0 l))). fold p. cbn [bump].
  rewrite (ex_ext_all (dbinom n p) (fun c => ex (dparts ws (S n - S c)) _) (fun c => ex (dparts ws (n - c)) (fun l => f (S c :: l)))) by (intros; reflexivity).
  set (E1 := ex (dbinom n p) (fun c => ex (dparts ws (n - c)) (fun l => f (S c :: l)))).
  rewrite (wsum_ext ws _ (fun i => ex (dbinom n p) (fun c => ex (dparts ws (n - c)) (fun l => f (c :: bump i l))))).
  2:{ intros i. rewrite ex_parts. reflexivity. }
  rewrite wsum_ex.
  assert (Tn : total (w :: ws) == w + total ws) by reflexivity.
  destruct (Qlt_le_dec 0 (total ws)) as [Pos|Neg].
  - rewrite (ex_ext (dbinom n p) (fun c => ex (dparts ws (S n - c)) (fun l => f (c :: l)))
      (fun c => / total ws * wsum ws (fun i => ex (dparts ws (n - c)) (fun l => f (c :: bump i l))))).
    2:{ intros c Hc. apply dbinom_support in Hc. replace (S n - c)%nat with (S (n - c)) by lia.
        rewrite (IH Pos (n - c)%nat (fun l => f (c :: l))). unfold Qdiv. ring. }
    rewrite ex_scale. set (E2 := ex (dbinom n p) (fun a => wsum ws _)). change (ex (dbinom n p) (fun c => ex (dparts ws (n - c)) (fun l => f (S c :: l)))) with E1.
    assert (Ep : p == w / (w + total ws)) by reflexivity.
    rewrite Ep, Tn. rewrite Tn in T. field. split; lra.
  - pose proof (total_zero ws H Neg) as Z. pose proof (total_nonneg ws H).
    rewrite (ex_ext_all (dbinom n p) (fun a => wsum ws _) (fun _ => 0)) by (intros; now apply wsum_zero).
    assert (ex (dbinom n p) (fun _ => 0) == 0) as -> by (unfold ex; apply qsum_zero; intros; ring).
    assert (total ws == 0) as T0 by lra.
    assert (Hz1 : p == 1) by (unfold p; rewrite Tn, T0; field; rewrite Tn in T; lra).
    generalize (ex (dbinom n p) (fun c : nat => ex (dparts ws (S n - c)) (fun l : list nat => f (c :: l)))). intros X.
    generalize E1. clear E1. intros E1. rewrite Hz1.
    rewrite Tn, T0. field. rewrite Tn in T. lra.
Qed.

Lemma types_more tws : Forall (Forall (fun w => 0 <= w)) tws -> 0 < grand tws -> forall n f,
  ex (dtypes tws (S n)) f == wsum2 tws (fun i => ex (dtypes tws n) (fun l => f (bump2 i l))) / grand tws.
Proof.
  induction 1 as [|ws tws Hw H IH]; intros T n f; [cbn in T; lra|].
  rewrite ex_types, ex_binom_S. set (p := total ws / grand (ws :: tws)). cbn [wsum2].
  assert (Tn : grand (ws :: tws) == total ws + grand tws) by reflexivity.
  pose proof (total_nonneg ws Hw) as Nw. pose proof (grand_nonneg tws H) as Nt.
  rewrite (wsum_ext ws _ (fun q => ex (dbinom n p) (fun c => ex (dparts ws c) (fun l => ex (dtypes tws (n - c)) (fun r => f ((S c, bump q l) :: r)))))).
  2:{ intros q. rewrite ex_types. reflexivity. }
  rewrite wsum_ex.
  rewrite (wsum2_ext tws _ (fun x => ex (dbinom n p) (fun c => ex (dparts ws c) (fun l => ex (dtypes tws (n - c)) (fun r => f ((c, l) :: bump2 x r)))))).
  2:{ intros [i q]. rewrite ex_types. reflexivity. }
  rewrite wsum2_ex.
  set (A := ex (dbinom n p) (fun a => wsum ws _)). set (B := ex (dbinom n p) (fun a => wsum2 tws _)).
  assert (EA : p * ex (dbinom n p) (fun c => ex (dparts ws (S c)) (fun l => ex (dtypes tws (S n - S c)) (fun r => f ((S c, l) :: r)))) == A / grand (ws :: tws)).
  { destruct (Qlt_le_dec 0 (total ws)) as [Pos|Neg].
    - rewrite (ex_ext_all (dbinom n p) _ (fun c => / total ws * wsum ws (fun q => ex (dparts ws c) (fun l => ex (dtypes tws (n - c)) (fun r => f ((S c, bump q l) :: r)))))).
      2:{ intros c. rewrite (parts_more ws Hw Pos c (fun l => ex (dtypes tws (S n - S c)) (fun r => f ((S c, l) :: r)))). unfold Qdiv. rewrite Qmult_comm. reflexivity. }
      rewrite ex_scale. fold A. assert (Ep : p == total ws / (total ws + grand tws)) by reflexivity. rewrite Ep, Tn. rewrite Tn in T. field. split; lra.
    - pose proof (total_zero ws Hw Neg) as Z. assert (T0 : total ws == 0) by lra.
      assert (Hz2 : p == 0) by (unfold p; rewrite T0; unfold Qdiv; ring).
      generalize (ex (dbinom n p) (fun c => ex (dparts ws (S c)) (fun l => ex (dtypes tws (S n - S c)) (fun r => f ((S c, l) :: r))))). intros X.

      assert (HA0 : A == 0).
      { unfold A. rewrite (ex_ext_all (dbinom n p) _ (fun _ => 0)) by (intros; now apply wsum_zero). unfold ex; apply qsum_zero; intros; ring. }
      rewrite HA0, Hz2. unfold Qdiv. ring. }
  assert (EB : (1 - p) * ex (dbinom n p) (fun c => ex (dparts ws c) (fun l => ex (dtypes tws (S n - c)) (fun r => f ((c, l) :: r)))) == B / grand (ws :: tws)).
  { destruct (Qlt_le_dec 0 (grand tws)) as [Pos|Neg].
    - rewrite (ex_ext (dbinom n p) _ (fun c => / grand tws * wsum2 tws (fun x => ex (dparts ws c) (fun l => ex (dtypes tws (n - c)) (fun r => f ((c, l) :: bump2 x r)))))).
      2:{ intros c Hc. apply dbinom_support in Hc. replace (S n - c)%nat with (S (n - c)) by lia.
          rewrite (ex_ext_all (dparts ws c) _ (fun l => / grand tws * wsum2 tws (fun x => ex (dtypes tws (n - c)) (fun r => f ((c, l) :: bump2 x r))))).
          - rewrite ex_scale, wsum2_ex. reflexivity.
          - intros l. rewrite (IH Pos (n - c)%nat (fun r => f ((c, l) :: r))). unfold Qdiv. rewrite Qmult_comm. reflexivity. }
      rewrite ex_scale. fold B. assert (Ep : p == total ws / (total ws + grand tws)) by reflexivity. rewrite Ep, Tn. rewrite Tn in T. field. split; lra.
    - pose proof (grand_zero tws H Neg) as Z. assert (T0 : grand tws == 0) by lra.
      assert (HB0 : B == 0).
      { unfold B. rewrite (ex_ext_all (dbinom n p) _ (fun _ => 0)) by (intros; now apply wsum2_zero). unfold ex; apply qsum_zero; intros; ring. }
      assert (Hz3 : p == 1) by (unfold p; rewrite Tn, T0; field; rewrite Tn in T; lra).
      generalize (ex (dbinom n p) (fun c => ex (dparts ws c) (fun l => ex (dtypes tws (S n - c)) (fun r => f ((c, l) :: r))))). intros X.
      rewrite Hz3, HB0. unfold Qdiv. ring. }
  rewrite EA, EB. field. rewrite Tn in *. lra.
Qed.

(** ** Independent draws *)
Lemma ex_combine_seq {A} (g : nat -> A -> Q) (l : list A) : forall a,
  qsum (fun x => g (fst x) (snd x)) (combine (seq a (length l)) l) ==
  qsum (fun x => g (a + fst x)%nat (snd x)) (combine (seq 0 (length l)) l).
Proof.
  assert (G : forall (l : list A) a b, combine (seq (a + b) (length l)) l = map (fun x => ((a + fst x)%nat, snd x)) (combine (seq b (length l)) l)).
  { clear. induction l as [|y l IH]; intros a b; cbn [length seq combine map fst snd]; [reflexivity|]. f_equal. rewrite <- IH. do 2 f_equal. lia. }
  intros a. replace a with (a + 0)%nat at 1 by lia. rewrite G, qsum_map. apply qsum_ext. intros. cbn [fst snd]. reflexivity.
Qed.

Lemma wsum_list ws : forall g, qsum (fun x => snd x * g (fst x)) (combine (seq 0 (length ws)) ws) == wsum ws g.
Proof.
  induction ws as [|w ws IH]; intros g; cbn [length seq combine qsum wsum fst snd]; [reflexivity|].
  rewrite (ex_combine_seq (fun i v => v * g i) ws 1). rewrite <- (IH (fun i => g (S i))). reflexivity.
Qed.
Lemma ex_pick_pair tws g : ex (pick_pair tws) g == wsum2 tws g / grand tws.
Proof.
  unfold ex, pick_pair. rewrite qsum_flat_map.
  assert (G : forall T tws g, qsum (fun a => qsum (fun x => snd x * g (fst x))
       (map (fun x => ((fst a, fst x), snd x / T)) (combine (seq 0 (length (snd a))) (snd a)))) (combine (seq 0 (length tws)) tws) == wsum2 tws g / T).
  { clear. intros T. induction tws as [|ws tws IH]; intros g; cbn [length seq combine qsum wsum2 fst snd]; [unfold Qdiv; ring|].
    rewrite (ex_combine_seq (fun i v => qsum (fun x => snd x * g (fst x)) (map (fun x => (i, fst x, snd x / T)) (combine (seq 0 (length v)) v))) tws 1).
    rewrite (qsum_ext _ (fun a : nat * list Q => qsum (fun x => snd x * g (S (fst (fst x)), snd (fst x)))
       (map (fun x => (fst a, fst x, snd x / T)) (combine (seq 0 (length (snd a))) (snd a)))) (combine (seq 0 (length tws)) tws))
      by (intros; rewrite !qsum_map; cbn [fst snd Nat.add]; reflexivity).
    rewrite (IH (fun x => g (S (fst x), snd x))). rewrite qsum_map. cbn [fst snd].
    rewrite (qsum_ext _ (fun a => snd a * g (0%nat, fst a) * / T)) by (intros; unfold Qdiv; ring). rewrite qsum_scale_r.
    rewrite (wsum_list ws (fun p => g (0%nat, p))). unfold Qdiv. ring. }
  apply G.
Qed.

Lemma ex_draws {A} n (d : dist A) f : ex (draws (S n) d) f == ex d (fun a => ex (draws n d) (fun l => f (a :: l))).
Proof. cbn [draws]. rewrite ex_bind. apply ex_ext_all. intros a. rewrite ex_bind. apply ex_ext_all. intros l. apply ex_ret. Qed.

(** The dense counts of a list of draws. *)
Definition dense (a : nat) (shape : list nat) (ds : list (nat * nat)) : list (nat * list nat) :=
  map (fun r => (type_draws (fst r) ds, map (fun p => pair_draws (fst r) p ds) (seq 0 (snd r)))) (combine (seq a (length shape)) shape).

Lemma bump_seq i (h : nat -> nat) m : forall a,
  bump i (map h (seq a m)) = map (fun j => if (a + i =? j)%nat then S (h j) else h j) (seq a m).
Proof.
  revert i. induction m as [|m IH]; intros i a; cbn [seq map]; [destruct i; reflexivity|]. destruct i as [|i]; cbn [bump].
  - rewrite Nat.add_0_r, Nat.eqb_refl. f_equal. apply map_ext_in. intros j Hj. apply in_seq in Hj.
    replace (a =? j)%nat with false by (symmetry; apply Nat.eqb_neq; lia). reflexivity.
  - replace (a + S i =? a)%nat with false by (symmetry; apply Nat.eqb_neq; lia). f_equal. rewrite IH. now rewrite Nat.add_succ_comm.
Qed.
Lemma dense_bump i p ds shape : forall a, bump2 (i, p) (dense a shape ds) = dense a shape (((a + i)%nat, p) :: ds).
Proof.
  revert i. induction shape as [|m shape IH]; intros i a; cbn [dense length seq combine map]; [destruct i; reflexivity|].
  fold (dense (S a) shape ds). fold (dense (S a) shape ((a + i, p)%nat :: ds)).
  cbn [fst snd]. destruct i as [|i]; cbn [bump2 fst snd].
  - rewrite Nat.add_0_r. f_equal.
    + f_equal.
      * unfold type_draws. cbn [filter fst]. rewrite Nat.eqb_refl. reflexivity.
      * rewrite bump_seq. apply map_ext. intros j. unfold pair_draws, pair_is. cbn [filter fst snd Nat.add]. rewrite Nat.eqb_refl. cbn [andb].
        destruct (p =? j)%nat; reflexivity.
    + unfold dense. apply map_ext_in. intros [b k] Hb. apply in_combine_l in Hb. apply in_seq in Hb. cbn [fst snd].
      assert (Na : (a =? b)%nat = false) by (apply Nat.eqb_neq; lia). f_equal.
      * unfold type_draws. cbn [filter fst]. now rewrite Na.
      * apply map_ext. intros j. unfold pair_draws, pair_is. cbn [filter fst snd]. now rewrite Na.
  - f_equal.
    + assert (Na : (a + S i =? a)%nat = false) by (apply Nat.eqb_neq; lia). f_equal.
      * unfold type_draws. cbn [filter fst]. now rewrite Na.
      * apply map_ext. intros j. unfold pair_draws, pair_is. cbn [filter fst snd]. now rewrite Na.
    + rewrite IH. now rewrite Nat.add_succ_comm.
Qed.

Lemma parts_zero ws f : ex (dparts ws 0) f == f (repeat 0%nat (length ws)).
Proof. revert f. induction ws as [|w ws IH]; intros f; [apply ex_ret|]. rewrite ex_parts. cbn [dbinom]. rewrite ex_ret. cbn [Nat.sub]. apply (IH (fun l => f (0%nat :: l))). Qed.
Lemma types_zero tws f : ex (dtypes tws 0) f == f (map (fun ws => (0%nat, repeat 0%nat (length ws))) tws).
Proof.
  revert f. induction tws as [|ws tws IH]; intros f; [apply ex_ret|]. rewrite ex_types. cbn [dbinom]. rewrite ex_ret, parts_zero. cbn [Nat.sub].
  apply (IH (fun l => f ((0%nat, repeat 0%nat (length ws)) :: l))).
Qed.

Lemma dtypes_draws tws n f : Forall (Forall (fun w => 0 <= w)) tws -> 0 < grand tws ->
  ex (dtypes tws n) f == ex (draws n (pick_pair tws)) (fun ds => f (dense 0 (map (@length Q) tws) ds)).
Proof.
  intros H T. revert f. induction n as [|n IH]; intros f.
  - cbn [draws]. rewrite ex_ret, types_zero.
    assert (E : map (fun ws => (0%nat, repeat 0%nat (length ws))) tws = dense 0 (map (@length Q) tws) []); [|now rewrite E].
    assert (G : forall l a, map (fun ws : list Q => (0%nat, repeat 0%nat (length ws))) l = dense a (map (@length Q) l) []); [|apply G].
    clear. induction l as [|ws tws IH]; intros a; unfold dense; cbn [map length seq combine]; [reflexivity|].
    f_equal; [|apply (IH (S a))]. cbn [fst snd]. f_equal. unfold pair_draws. cbn [filter length].
    assert (G : forall m b, repeat 0%nat m = map (fun _ => 0%nat) (seq b m)).
    { induction m as [|m IHm]; intros b; cbn [seq map repeat]; [reflexivity|]. now rewrite <- IHm. }
    apply G.
  - rewrite (types_more tws H T), ex_draws, ex_pick_pair. apply Qmult_comp; [|reflexivity]. apply wsum2_ext. intros [i p].
    rewrite (IH (fun l => f (bump2 (i, p) l))). apply ex_ext_all. intros ds. now rewrite dense_bump.
Qed.

(** ** The program *)
Fixpoint sparse (p : nat) (l : list nat) : list (nat * nat) :=
  match l with [] => [] | c :: t => if (c =? 0)%nat then sparse (S p) t else (p, c) :: sparse (S p) t end.

Lemma ex_law_bind {A B} (m : prog A) (k : A -> prog B) f :
  ex (law (pbind m k)) f == ex (law m) (fun r => match r with Ok a => ex (law (k a)) f | Fail e => f (Fail e) end).
Proof.
  induction m as [a|e|n p c IH]; cbn [pbind law].
  - now rewrite ex_ret.
  - now rewrite !ex_ret.
  - rewrite !ex_bind. apply ex_ext_all. intros i. apply IH.
Qed.
Lemma ex_law_draw left e f : ex (law (draw_count true left e)) f == ex (dbinom left (fst (fst e))) (fun c => f (Ok c)).
Proof. destruct e as [[p mx] mn]. cbn [draw_count law fst]. rewrite ex_bind. apply ex_ext_all. intros c. apply ex_ret. Qed.

Lemma sparse_zero n : forall p, sparse p (repeat 0%nat n) = [].
Proof. induction n as [|n IH]; intros p; cbn [repeat sparse Nat.eqb]; auto. Qed.

Lemma law_parts ws : forall p0 n f,
  ex (law (parts_loop true (table ws) p0 n)) f == ex (dparts ws n) (fun l => f (Ok (sparse p0 l))).
Proof.
  induction ws as [|w ws IH]; intros p0 n f.
  - cbn [table conditional_probabilities fold_right map combine fst parts_loop law dparts]. now rewrite !ex_ret.
  - destruct (table_cons w ws) as (p & -> & Ep). cbn [parts_loop]. destruct (Nat.eqb_spec n 0) as [->|Nn].
    + cbn [law]. rewrite ex_ret, parts_zero, sparse_zero. reflexivity.
    + rewrite ex_law_bind, ex_law_draw. cbn [fst]. rewrite ex_parts, (ex_binom_eq _ _ _ _ Ep). apply ex_ext_all. intros c.
      rewrite ex_law_bind, IH. apply ex_ext_all. intros l. cbn [law sparse]. rewrite ex_ret. destruct (c =? 0)%nat; reflexivity.
Qed.

Definition entry (types : list (Z * list Q)) : list (Z * (Q * nat * nat) * list (Q * nat * nat)) :=
  combine (combine (map fst types) (table (map (fun t => total (snd t)) types))) (map (fun t => table (snd t)) types).

(** Types and chunks of dense counts. *)
Fixpoint unfold_plan (i : nat) (tys : list Z) (m : list (nat * list nat)) : list Z * list (nat * nat * nat) :=
  match tys, m with
  | ty :: tys', (c, l) :: m' => let r := unfold_plan (S i) tys' m' in
      (repeat ty c ++ fst r, map (fun x => (i, fst x, snd x)) (sparse 0 l) ++ snd r)
  | _, _ => ([], [])
  end.

Lemma grand_total (types : list (Z * list Q)) : total (map (fun t => total (snd t)) types) = grand (map snd types).
Proof. unfold total at 1, grand. now rewrite !qsum_map. Qed.

Lemma unfold_zero types : forall i, unfold_plan i (map fst types) (map (fun ws => (0%nat, repeat 0%nat (length ws))) (map (@snd Z (list Q)) types)) = ([], []).
Proof. induction types as [|[ty ws] types IH]; intros i; cbn [map unfold_plan fst snd]; [reflexivity|]. rewrite IH, sparse_zero. reflexivity. Qed.

Lemma law_types types : forall i n f,
  ex (law (types_loop true (entry types) i n)) f == ex (dtypes (map snd types) n) (fun m => f (Ok (unfold_plan i (map fst types) m))).
Proof.
  induction types as [|[ty ws] types IH]; intros i n f.
  - cbn [entry map combine types_loop law dtypes]. now rewrite !ex_ret.
  - unfold entry. cbn [map fst snd]. destruct (table_cons (total ws) (map (fun t => total (snd t)) types)) as (p & -> & Ep).
    cbn [combine types_loop]. fold (entry types). destruct (Nat.eqb_spec n 0) as [->|Nn].
    + cbn [law]. rewrite ex_ret, types_zero. change (ws :: map snd types) with (map snd ((ty, ws) :: types)).
      change (ty :: map fst types) with (map fst ((ty, ws) :: types)). now rewrite unfold_zero.
    + rewrite ex_law_bind, ex_law_draw. cbn [fst]. rewrite ex_types.
      assert (E : p == total ws / grand (ws :: map snd types)).
      { rewrite Ep. cbn [grand total qsum]. fold (grand (map snd types)). rewrite <- grand_total. reflexivity. }
      rewrite (ex_binom_eq _ _ _ _ E). apply ex_ext_all. intros c.
      rewrite ex_law_bind, law_parts. apply ex_ext_all. intros l. rewrite ex_law_bind, IH. apply ex_ext_all. intros r.
      cbn [law unfold_plan]. apply ex_ret.
Qed.

Lemma sparse_seq (h : nat -> nat) m : forall a,
  sparse a (map h (seq a m)) = flat_map (fun p => if (h p =? 0)%nat then [] else [(p, h p)]) (seq a m).
Proof. induction m as [|m IH]; intros a; cbn [seq map sparse flat_map]; [reflexivity|]. rewrite IH. destruct (h a =? 0)%nat; reflexivity. Qed.

Lemma unfold_dense types ds : forall a,
  unfold_plan a (map fst types) (dense a (map (@length Q) (map snd types)) ds) =
  (flat_map (fun r => repeat (fst (snd r)) (type_draws (fst r) ds)) (combine (seq a (length types)) types),
   flat_map (fun r => flat_map (fun p => if (pair_draws (fst r) p ds =? 0)%nat then [] else [(fst r, p, pair_draws (fst r) p ds)])
                               (seq 0 (length (snd (snd r)))))
            (combine (seq a (length types)) types)).
Proof.
  induction types as [|[ty ws] types IH]; intros a; cbn [map length seq combine flat_map dense fst snd]; [reflexivity|].
  fold (dense (S a) (map (@length Q) (map snd types)) ds). cbn [unfold_plan]. rewrite IH. cbn [fst snd]. f_equal. f_equal.
  rewrite sparse_seq. generalize (seq 0 (length ws)). clear. induction l as [|p l IH]; cbn [flat_map map]; [reflexivity|].
  rewrite map_app, IH. destruct (pair_draws a p ds =? 0)%nat; reflexivity.
Qed.

(** C21: the plan is distributed as independent draws of a type and a partition. *)
Theorem plan_law (types : list (Z * list Q)) size (f : res (list Z * list (nat * nat * nat)) -> Q) :
  Forall (fun t => Forall (fun w => 0 <= w) (snd t) /\ snd t <> []) types -> 0 < grand (map snd types) ->
  ex (law (sample_plan true types size)) f == ex (draws size (pick_pair (map snd types))) (fun ds => f (Ok (plan_of types ds))).
Proof.
  intros H T. unfold sample_plan.
  replace (length types =? 0)%nat with false by (destruct types; [cbn in T; lra|reflexivity]).
  replace (existsb _ types) with false.
  2:{ symmetry. apply not_true_iff_false. intros C. apply existsb_exists in C as (t & Ht & Hl). apply Nat.eqb_eq in Hl.
      rewrite Forall_forall in H. destruct (H t Ht) as [_ Hn]. destruct (snd t); [congruence|discriminate]. }
  cbn [orb]. fold (entry types). rewrite law_types, dtypes_draws.
  - apply ex_ext_all. intros ds. now rewrite unfold_dense.
  - apply Forall_map. eapply Forall_impl; [|exact H]. cbn. tauto.
  - exact T.
Qed.

(** One draw. *)
Theorem pick_probability tws i p ws w : nth_error tws i = Some ws -> nth_error ws p = Some w ->
  pr (pick_pair tws) (pair_is i p) == w / grand tws.
Proof.
  intros Hi Hp. unfold pr. rewrite ex_pick_pair. apply Qmult_comp; [|reflexivity].
  assert (G1 : forall ws p, nth_error ws p = Some w -> forall a, wsum ws (fun j => ind (pair_is a p (a, j))) == w).
  { clear. induction ws as [|v ws IH]; intros [|p] H a; cbn [nth_error] in H; try discriminate; cbn [wsum].
    - injection H as ->. unfold pair_is at 1. cbn [fst snd]. rewrite !Nat.eqb_refl. cbn [andb ind].
      assert (Z : forall ws k, wsum ws (fun j => ind (pair_is a 0 (a, S (k + j)))) == 0).
      { clear. induction ws as [|v ws IH]; intros k; cbn [wsum]; [reflexivity|].
        rewrite (wsum_ext ws _ (fun j => ind (pair_is a 0 (a, S (S k + j))))) by (intros j; rewrite Nat.add_succ_r; reflexivity).
        rewrite IH. unfold pair_is. cbn [fst snd Nat.eqb]. rewrite andb_false_r. cbn [ind]. ring. }
      rewrite (Z ws 0%nat). ring.
    - unfold pair_is at 1. cbn [fst snd Nat.eqb]. rewrite andb_false_r. cbn [ind].
      rewrite (wsum_ext ws _ (fun j => ind (pair_is a p (a, j)))) by (intros j; reflexivity). rewrite (IH p H a). ring. }
  assert (G0 : forall ws a b, (a =? b)%nat = false -> wsum ws (fun j => ind (pair_is a p (b, j))) == 0).
  { clear. intros ws a b E. assert (G : forall (g : nat -> Q), (forall j, g j == 0) -> wsum ws g == 0).
    { induction ws as [|v ws IH]; intros g Hg; cbn [wsum]; [reflexivity|]. rewrite Hg, IH by auto. ring. }
    apply G. intros j. unfold pair_is. cbn [fst]. rewrite Nat.eqb_sym, E. reflexivity. }
  assert (H2 : forall tws i, nth_error tws i = Some ws -> forall a, wsum2 tws (fun d => ind (pair_is (a + i) p ((a + fst d)%nat, snd d))) == w).
  { clear - G1 G0 Hp.
    assert (Z : forall tws a k, wsum2 tws (fun d => ind (pair_is a p ((a + S (k + fst d))%nat, snd d))) == 0).
    { induction tws as [|vs tws IH]; intros a k; cbn [wsum2]; [reflexivity|]. cbn [fst snd].
      rewrite (G0 vs a (a + S (k + 0))%nat) by (apply Nat.eqb_neq; lia).
      rewrite (wsum2_ext tws _ (fun d => ind (pair_is a p ((a + S (S k + fst d))%nat, snd d)))).
      - rewrite IH. ring.
      - intros d. cbn [fst snd]. now replace (k + S (fst d))%nat with (S k + fst d)%nat by lia. }
    induction tws as [|vs tws IH]; intros [|i] H a; cbn [nth_error] in H; try discriminate; cbn [wsum2 fst snd].
    - injection H as ->. rewrite Nat.add_0_r. rewrite (G1 ws p Hp a). rewrite (wsum2_ext tws _ (fun d => ind (pair_is a p ((a + S (0 + fst d))%nat, snd d)))) by (intros; reflexivity).
      rewrite Z. ring.
    - rewrite (G0 vs (a + S i)%nat (a + 0)%nat) by (apply Nat.eqb_neq; lia).
      rewrite (wsum2_ext tws _ (fun d => ind (pair_is (S a + i) p ((S a + fst d)%nat, snd d)))).
      + rewrite (IH i H (S a)). ring.
      + intros d. cbn [fst snd]. replace (a + S i)%nat with (S a + i)%nat by lia. now replace (a + S (fst d))%nat with (S a + fst d)%nat by lia. }
  rewrite <- (H2 tws i Hi 0%nat). apply wsum2_ext. intros [a b]. reflexivity.
Qed.
