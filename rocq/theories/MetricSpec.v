(** Ranks by counting. *)
From Coq Require Import QArith Permutation.
From Verif Require Import Base Dist.

(** Indices in descending order of the values. *)
Definition descending (ord : list Q -> list nat) : Prop :=
  forall s, Permutation (ord s) (seq 0 (length s)) /\
    forall a b, (a < b)%nat -> (b < length s)%nat -> nth (nth b (ord s) 0%nat) s 0 <= nth (nth a (ord s) 0%nat) s 0.
(** How many have a greater score than [p], and how many others do not have a smaller one. *)
Definition above (s : list Q) (p : nat) : nat := length (filter (fun j => negb (Qle_bool (nth j s 0) (nth p s 0))) (seq 0 (length s))).
Definition not_below (s : list Q) (p : nat) : nat :=
  length (filter (fun j => negb (j =? p)%nat && Qle_bool (nth p s 0) (nth j s 0)) (seq 0 (length s))).
Definition ranked (s : list Q) (p : nat) (r : nat) : Prop := (above s p <= r <= not_below s p)%nat.
Definition distinct (s : list Q) : Prop := forall i j, (i < length s)%nat -> (j < length s)%nat -> nth i s 0 == nth j s 0 -> i = j.
Definition one_hot (n p : nat) : list Q := map (fun i => if (i =? p)%nat then 1 else 0) (seq 0 n).
(** The mean of the reciprocal ranks [rs], counted from one. *)
Definition is_mrr (v : Q) (rs : list nat) : Prop := v * qnat (length rs) == qsum (fun r => 1 / qnat (r + 1)) rs.
(** The first of the greatest values. *)
Definition first_max (l : list Q) (i : nat) : Prop :=
  (i < length l)%nat /\ (forall j, (j < length l)%nat -> nth j l 0 <= nth i l 0) /\ (forall j, (j < i)%nat -> nth j l 0 < nth i l 0).

(** A row of scores with the index of the positive one, as a matrix with one row and in a batch. *)
Definition matrix_of (c : list Q * nat) : list (list Q) * list (list Q) := ([fst c], [one_hot (length (fst c)) (snd c)]).
Definition batch_of (cs : list (list Q * nat)) : list (list Q) * list (list Q) :=
  (map fst cs, map (fun c => one_hot (length (fst c)) (snd c)) cs).
(** Ascending order is descending order of the opposites. *)
Definition signed (asc : bool) (s : list Q) : list Q := if asc then map (fun x => - (1) * x) s else s.
Definition chosen {A} (mask : option (list bool)) (l : list A) : list A :=
  match mask with None => l | Some m => map snd (filter fst (combine m l)) end.
