(** Finite probability distributions over the rationals.  Used to state what a randomised
    procedure does when its random numbers are ideal; the random generators themselves are
    not modelled here. *)
From Coq Require Export QArith.
From Coq Require Import Lqa Permutation.
From Verif Require Import Base.
Local Open Scope Q_scope.

Fixpoint qsum {A} (f : A -> Q) (l : list A) : Q :=
  match l with [] => 0 | a :: t => f a + qsum f t end.

Definition qnat (n : nat) : Q := inject_Z (Z.of_nat n).

(** A distribution is a list of outcomes with their probabilities. *)
Definition dist (A : Type) : Type := list (A * Q).
Definition dret {A} (a : A) : dist A := [(a, 1)].
Definition dbind {A B} (d : dist A) (k : A -> dist B) : dist B :=
  flat_map (fun x => map (fun y => (fst y, snd x * snd y)) (k (fst x))) d.
Definition dmap {A B} (f : A -> B) (d : dist A) : dist B := map (fun x => (f (fst x), snd x)) d.

(** Expectation and probability. *)
Definition ex {A} (d : dist A) (f : A -> Q) : Q := qsum (fun x => snd x * f (fst x)) d.
Definition ind (b : bool) : Q := if b then 1 else 0.
Definition pr {A} (d : dist A) (p : A -> bool) : Q := ex d (fun a => ind (p a)).

(** A fair choice of one of [0..n-1] and a biased coin. *)
Definition duniform (n : nat) : dist nat := map (fun i => (i, 1 / qnat n)) (seq 0 n).
Definition dflip (p : Q) : dist bool := [(true, p); (false, 1 - p)].

(** Non negative and of total mass one. *)
Definition proper {A} (d : dist A) : Prop := Forall (fun x => 0 <= snd x) d /\ ex d (fun _ => 1) == 1.

(** ** Sums *)
Lemma qsum_ext {A} (f g : A -> Q) l : (forall a, In a l -> f a == g a) -> qsum f l == qsum g l.
Proof. induction l as [|a l IH]; intros H; cbn [qsum]; [reflexivity|].
  rewrite (H a) by now left. rewrite IH by (intros; apply H; now right). reflexivity. Qed.
Lemma qsum_app {A} (f : A -> Q) a b : qsum f (a ++ b) == qsum f a + qsum f b.
Proof. induction a as [|x a IH]; cbn [qsum app]; [ring|]. rewrite IH. ring. Qed.
Lemma qsum_map {A B} (f : B -> Q) (g : A -> B) l : qsum f (map g l) = qsum (fun a => f (g a)) l.
Proof. induction l as [|x l IH]; cbn [qsum map]; [reflexivity|]. now rewrite IH. Qed.
Lemma qsum_plus {A} (f g : A -> Q) l : qsum (fun a => f a + g a) l == qsum f l + qsum g l.
Proof. induction l as [|x l IH]; cbn [qsum]; [ring|]. rewrite IH. ring. Qed.
Lemma qsum_scale {A} (c : Q) (f : A -> Q) l : qsum (fun a => c * f a) l == c * qsum f l.
Proof. induction l as [|x l IH]; cbn [qsum]; [ring|]. rewrite IH. ring. Qed.
Lemma qsum_scale_r {A} (c : Q) (f : A -> Q) l : qsum (fun a => f a * c) l == qsum f l * c.
Proof. induction l as [|x l IH]; cbn [qsum]; [ring|]. rewrite IH. ring. Qed.
Lemma qsum_zero {A} (f : A -> Q) l : (forall a, In a l -> f a == 0) -> qsum f l == 0.
Proof. intros H. rewrite (qsum_ext f (fun _ => 0)) by exact H. clear. induction l as [|a l IH]; cbn [qsum]; [reflexivity|]. rewrite IH. ring. Qed.
Lemma qnat_S n : qnat (S n) == qnat n + 1.
Proof. unfold qnat. rewrite Nat2Z.inj_succ. unfold Z.succ. rewrite inject_Z_plus. reflexivity. Qed.
Lemma qnat_add n m : qnat (n + m) == qnat n + qnat m.
Proof. unfold qnat. rewrite Nat2Z.inj_add, inject_Z_plus. reflexivity. Qed.
Lemma qnat_mul n m : qnat (n * m) == qnat n * qnat m.
Proof. unfold qnat. rewrite Nat2Z.inj_mul, inject_Z_mult. reflexivity. Qed.
Lemma qnat_0 : qnat 0 == 0. Proof. reflexivity. Qed.
Lemma qnat_nonneg n : 0 <= qnat n.
Proof. unfold qnat. replace 0 with (inject_Z 0) by reflexivity. rewrite <- Zle_Qle. lia. Qed.
Lemma qnat_pos n : (0 < n)%nat -> 0 < qnat n.
Proof. intros H. unfold qnat. replace 0 with (inject_Z 0) by reflexivity. rewrite <- Zlt_Qlt. lia. Qed.
Lemma qnat_le n m : (n <= m)%nat -> qnat n <= qnat m.
Proof. intros. unfold qnat. rewrite <- Zle_Qle. lia. Qed.
Lemma qnat_sub n m : (m <= n)%nat -> qnat (n - m) == qnat n - qnat m.
Proof. intros H. replace n with (n - m + m)%nat at 2 by lia. rewrite qnat_add. ring. Qed.
Lemma qnat_inj n m : qnat n == qnat m -> n = m.
Proof. unfold qnat. rewrite inject_Z_injective. lia. Qed.
Lemma qsum_const {A} (c : Q) (l : list A) : qsum (fun _ => c) l == qnat (length l) * c.
Proof. induction l as [|x l IH]; cbn [qsum length]; [rewrite qnat_0; ring|]. rewrite IH, qnat_S. ring. Qed.
Lemma qsum_nonneg {A} (f : A -> Q) l : (forall a, In a l -> 0 <= f a) -> 0 <= qsum f l.
Proof. induction l as [|x l IH]; intros H; cbn [qsum]; [lra|].
  specialize (IH (fun a h => H a (or_intror h))). specialize (H x (or_introl eq_refl)). lra. Qed.
Lemma qsum_le {A} (f g : A -> Q) l : (forall a, In a l -> f a <= g a) -> qsum f l <= qsum g l.
Proof. induction l as [|x l IH]; intros H; cbn [qsum]; [lra|].
  specialize (IH (fun a h => H a (or_intror h))). specialize (H x (or_introl eq_refl)). lra. Qed.
Lemma qsum_perm {A} (f : A -> Q) l l' : Permutation l l' -> qsum f l == qsum f l'.
Proof. induction 1; cbn [qsum]; [reflexivity|rewrite IHPermutation; reflexivity|ring|now rewrite IHPermutation1]. Qed.
Lemma qsum_swap {A B} (f : A -> B -> Q) l m :
  qsum (fun a => qsum (f a) m) l == qsum (fun b => qsum (fun a => f a b) l) m.
Proof. induction l as [|a l IH]; cbn [qsum].
  - symmetry. now apply qsum_zero.
  - rewrite IH. rewrite <- qsum_plus. apply qsum_ext. intros; reflexivity. Qed.
Lemma qsum_filter {A} (f : A -> Q) (p : A -> bool) l :
  qsum f (filter p l) == qsum (fun a => ind (p a) * f a) l.
Proof. induction l as [|a l IH]; cbn [qsum filter]; [reflexivity|]. unfold ind. destruct (p a); cbn [qsum]; rewrite IH; unfold ind; ring. Qed.
Lemma qsum_flat_map {A B} (f : B -> Q) (g : A -> list B) l :
  qsum f (flat_map g l) == qsum (fun a => qsum f (g a)) l.
Proof. induction l as [|a l IH]; cbn [qsum flat_map]; [reflexivity|]. rewrite qsum_app, IH. reflexivity. Qed.
(** Exactly one element of a duplicate free list is selected. *)
Lemma qsum_one {A} (eqb : A -> A -> bool) (f : A -> Q) (x : A) l :
  (forall a b, eqb a b = true <-> a = b) -> NoDup l -> In x l ->
  qsum (fun a => ind (eqb a x) * f a) l == f x.
Proof. intros He. induction 1 as [|a l Ha Hn IH]; intros Hin; [destruct Hin|]. cbn [qsum].
  destruct Hin as [->|Hin].
  - replace (eqb x x) with true by (symmetry; now apply He).
    rewrite qsum_zero; [unfold ind; ring|]. intros b Hb.
    destruct (eqb b x) eqn:E; [apply He in E; subst; contradiction|unfold ind; ring].
  - rewrite (IH Hin). destruct (eqb a x) eqn:E; [apply He in E; subst; contradiction|unfold ind; ring]. Qed.
Lemma qsum_pick (f : nat -> Q) (x n : nat) : (x < n)%nat ->
  qsum (fun a => ind (a =? x)%nat * f a) (seq 0 n) == f x.
Proof. intros H. apply (qsum_one Nat.eqb); [intros; apply Nat.eqb_eq|apply seq_NoDup|apply in_seq; lia]. Qed.
Lemma qsum_nth {A} (f : A -> Q) (d : A) l : qsum f l == qsum (fun i => f (nth i l d)) (seq 0 (length l)).
Proof. induction l as [|a l IH]; cbn [length seq qsum]; [reflexivity|].
  cbn [nth]. rewrite <- seq_shift, qsum_map. cbn [nth]. now rewrite IH. Qed.

(** ** Distributions *)
Lemma ex_ext {A} (d : dist A) f g : (forall a, In a (map fst d) -> f a == g a) -> ex d f == ex d g.
Proof. intros H. apply qsum_ext. intros x Hx. rewrite (H (fst x)) by now apply in_map. reflexivity. Qed.
Lemma ex_ext_all {A} (d : dist A) f g : (forall a, f a == g a) -> ex d f == ex d g.
Proof. intros H. apply ex_ext. intros; apply H. Qed.
Lemma ex_ret {A} (a : A) f : ex (dret a) f == f a.
Proof. unfold ex, dret. cbn [qsum fst snd]. ring. Qed.
Lemma ex_bind {A B} (d : dist A) (k : A -> dist B) f : ex (dbind d k) f == ex d (fun a => ex (k a) f).
Proof. unfold ex, dbind. rewrite qsum_flat_map. apply qsum_ext. intros x _. rewrite qsum_map.
  cbn [fst snd]. rewrite <- qsum_scale. apply qsum_ext. intros; ring. Qed.
Lemma ex_map {A B} (d : dist A) (g : A -> B) f : ex (dmap g d) f == ex d (fun a => f (g a)).
Proof. unfold ex, dmap. rewrite qsum_map. reflexivity. Qed.
Lemma ex_flip p f : ex (dflip p) f == p * f true + (1 - p) * f false.
Proof. unfold ex, dflip. cbn [qsum fst snd]. ring. Qed.
Lemma ex_uniform n f : ex (duniform n) f == (1 / qnat n) * qsum f (seq 0 n).
Proof. unfold ex, duniform. rewrite qsum_map. cbn [fst snd]. now rewrite qsum_scale. Qed.
Lemma ex_plus {A} (d : dist A) f g : ex d (fun a => f a + g a) == ex d f + ex d g.
Proof. unfold ex. rewrite <- qsum_plus. apply qsum_ext. intros; ring. Qed.
Lemma ex_scale {A} (d : dist A) c f : ex d (fun a => c * f a) == c * ex d f.
Proof. unfold ex. rewrite <- qsum_scale. apply qsum_ext. intros; ring. Qed.
Lemma ex_scale_r {A} (d : dist A) c f : ex d (fun a => f a * c) == ex d f * c.
Proof. unfold ex. rewrite <- qsum_scale_r. apply qsum_ext. intros; ring. Qed.
Lemma ex_const {A} (d : dist A) c : proper d -> ex d (fun _ => c) == c.
Proof. intros [_ H]. transitivity (ex d (fun _ => c * 1)); [apply ex_ext_all; intros; ring|].
  rewrite ex_scale, H. ring. Qed.
Lemma ex_qsum {A B} (d : dist A) (f : B -> A -> Q) l : ex d (fun a => qsum (fun b => f b a) l) == qsum (fun b => ex d (f b)) l.
Proof. unfold ex. rewrite <- qsum_swap. apply qsum_ext. intros x _. rewrite <- qsum_scale. reflexivity. Qed.
Lemma ex_nonneg {A} (d : dist A) f : proper d -> (forall a, 0 <= f a) -> 0 <= ex d f.
Proof. intros [H _] Hf. apply qsum_nonneg. intros x Hx. rewrite Forall_forall in H.
  apply Qmult_le_0_compat; [now apply H|apply Hf]. Qed.

Lemma proper_ret {A} (a : A) : proper (dret a).
Proof. split; [repeat constructor; discriminate|]. rewrite ex_ret. reflexivity. Qed.
Lemma proper_bind {A B} (d : dist A) (k : A -> dist B) :
  proper d -> (forall a, In a (map fst d) -> proper (k a)) -> proper (dbind d k).
Proof. intros [Hd Ht] Hk. split.
  - unfold dbind. rewrite Forall_forall in *. intros y Hy. apply in_flat_map in Hy as (x & Hx & Hy).
    apply in_map_iff in Hy as (z & <- & Hz). cbn [snd]. destruct (Hk (fst x) (in_map fst d x Hx)) as [Hkx _].
    rewrite Forall_forall in Hkx. apply Qmult_le_0_compat; auto.
  - rewrite ex_bind. rewrite <- Ht. apply ex_ext. intros a Ha. now apply Hk. Qed.
Lemma proper_map {A B} (f : A -> B) d : proper d -> proper (dmap f d).
Proof. intros [H1 H2]. split; [|rewrite ex_map; exact H2]. unfold dmap. rewrite Forall_forall in *.
  intros x Hx. apply in_map_iff in Hx as (y & <- & Hy). now apply H1. Qed.
Lemma proper_flip p : 0 <= p <= 1 -> proper (dflip p).
Proof. intros H. split; [repeat constructor; cbn [snd]; lra|]. rewrite ex_flip. ring. Qed.
Lemma proper_uniform n : (0 < n)%nat -> proper (duniform n).
Proof. intros H. assert (P := qnat_pos n H). split.
  - unfold duniform. rewrite Forall_forall. intros x Hx. apply in_map_iff in Hx as (i & <- & _). cbn [snd].
    apply Qle_shift_div_l; [exact P|]. lra.
  - rewrite ex_uniform, qsum_const, seq_length. field. lra. Qed.
Lemma pr_uniform n i : (i < n)%nat -> pr (duniform n) (fun j => j =? i)%nat == 1 / qnat n.
Proof. intros H. unfold pr. rewrite ex_uniform.
  rewrite (qsum_ext _ (fun j => ind (j =? i)%nat * 1)) by (intros; ring).
  rewrite qsum_pick by exact H. ring. Qed.
