(** What attention is, without matrices. *)
From Coq Require Import QArith.
From Verif Require Import Base Dist AttModel.

(** The exponential of floats: exp 0 = 1, nothing is negative, small numbers underflow to zero. *)
Definition good_exp (ex : Q -> Q) : Prop :=
  (forall x, 0 <= ex x) /\ ex 0 == 1 /\ (forall x y, x == y -> ex x == ex y) /\ (forall x, x <= - (1000) -> ex x == 0).

(** [y] is the mean of the values of [ns], each weighted by the exponential of its score. *)
Definition attends (ex : Q -> Q) (ns : list nat) (sc val : nat -> Q) (y : Q) : Prop :=
  exists m, (exists j, In j ns /\ sc j == m) /\ (forall j, In j ns -> sc j <= m) /\
    y * qsum (fun j => ex (sc j - m)) ns == qsum (fun j => ex (sc j - m) * val j) ns.

(** The neighbors of [i] in a matrix and in a list of edges. *)
Definition cell (m : list (list Q)) (i k : nat) : Q := nth k (nth i m []) 0.
Definition nbrs_dense (adj : list (list Q)) (i : nat) : list nat :=
  filter (fun j => Qeq_bool (cell adj i j) 1) (seq 0 (length adj)).
Definition nbrs_sparse (edges : list (nat * nat)) (i : nat) : list nat :=
  map snd (filter (fun e => fst e =? i)%nat edges).
Definition binary (adj : list (list Q)) : Prop := Forall (Forall (fun x => x == 0 \/ x == 1)) adj.
Definition shape (n d : nat) (m : list (list Q)) : Prop := length m = n /\ Forall (fun r => length r = d) m.

(** The score of a pair of nodes; the slope of the leaky ReLU is an argument. *)
Definition lrelu (slope x : Q) : Q := if Qle_bool 0 x then x else slope * x.
Definition score (slope : Q) (l r : list Q -> Q) (fts : list (list Q)) (i j : nat) : Q :=
  lrelu slope (l (nth i fts []) + r (nth j fts [])).
(** Scores are far from the mask. *)
Definition moderate (sc : nat -> nat -> Q) (n : nat) : Prop :=
  forall i j, (i < n)%nat -> (j < n)%nat -> - (400000000) <= sc i j <= 400000000.

(** The transformed features, the scores of a head, and widths that fit. *)
Definition fts_of (h : head) (feat : list (list Q)) : list (list Q) := map (h_w h) feat.
Definition sc_head (h : head) (feat : list (list Q)) : nat -> nat -> Q := score (1 # 5) (h_al h) (h_ar h) (fts_of h feat).
Definition fits (h : head) (feat : list (list Q)) : Prop :=
  Forall (fun r => length (h_w h r) = h_dim h) feat /\ length (h_bias h) = h_dim h.
