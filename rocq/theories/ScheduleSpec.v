(** Shapes of schedules. *)
From Coq Require Import QArith.
From Verif Require Import Base.

Definition within01 (f : Q -> Q) : Prop := forall s, 0 <= s -> 0 <= f s <= 1.
(** From zero to one in [w] steps on a straight line. *)
Definition warms (f : Q -> Q) (w : Q) : Prop := forall s, s < w -> 1 <= w -> f s * w == s.
Definition falls (f : Q -> Q) (a b : Q) : Prop := forall s t, a <= s -> s <= t -> t <= b -> f t <= f s.
Definition ends (f : Q -> Q) (n v : Q) : Prop := forall s, n <= s -> f s == v.

(** What is known about cos (pi * x) and about powers. *)
Definition good_cos (c : Q -> Q) : Prop :=
  (forall x y, x == y -> c x == c y) /\ (forall x, -1 <= c x <= 1) /\ c 0 == 1 /\ c 1 == -1 /\ c 2 == 1 /\
  (forall x y, 0 <= x -> x <= y -> y <= 1 -> c y <= c x).
Definition good_pow (pw : Q -> Q) : Prop :=
  (forall x y, x == y -> pw x == pw y) /\ pw 0 == 0 /\ pw 1 == 1 /\
  (forall x y, 0 <= x -> x <= y -> y <= 1 -> pw x <= pw y).
