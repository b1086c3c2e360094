(** Convolutions without matrices and tensors. *)
From Coq Require Import QArith Permutation Sorted.
From Verif Require Import Base Dist AttSpec TfSageSpec.

(** ** Symmetric normalisation: D^-1/2 A D^-1/2 *)
Definition deg (adj : list (list Q)) (i : nat) : Q := qsum (fun j => cell adj i j) (seq 0 (length adj)).
Definition isqrt (rs : Q -> Q) (d : Q) : Q := if Qeq_bool d 0 then 0 else rs d.
Definition norm (rs : Q -> Q) (adj : list (list Q)) (i j : nat) : Q :=
  isqrt rs (deg adj i) * cell adj i j * isqrt rs (deg adj j).
Definition proper (rs : Q -> Q) : Prop := forall x y, x == y -> rs x == rs y.
(** One convolution with weights [w i j]: sum of the transformed rows, and the bias. *)
Definition convolve (ns : list nat) (w : nat -> Q) (fts : list (list Q)) (k : nat) : Q :=
  qsum (fun j => w j * cell fts j k) ns.
Definition edges_of (entries : list (nat * nat * Q)) : list (nat * nat) := map fst entries.
(** Degrees of a sparse matrix and the bias of a feature. *)
Definition sdeg (entries : list (nat * nat * Q)) (i : nat) : Q := qsum snd (filter (fun e => fst (fst e) =? i)%nat entries).
Definition bias_at (bias : option (list Q)) (k : nat) : Q := match bias with None => 0 | Some b => nth k b 0 end.

(** ** The greatest values of every column *)
Definition col (j : nat) (rows : list (list Z)) : list Z := map (fun r => nth j r 0%Z) rows.
Definition greatest (k : nat) (all kept : list Z) : Prop :=
  length kept = k /\ StronglySorted Z.ge kept /\
  exists rest, Permutation (kept ++ rest) all /\ forall a b, In a kept -> In b rest -> (b <= a)%Z.
Definition top_rows (k w : nat) (rows kept : list (list Z)) : Prop :=
  length kept = k /\ Forall (fun r => length r = w) kept /\
  forall j, (j < w)%nat -> greatest k (col j rows) (col j kept).

(** ** LGCL on trees: every node has as many children as the fanout of its hop *)
Definition full (fanouts : list nat) (t : tree) : Prop := sampled (fun _ _ _ => True) (map (fun f => (0%nat, f)) fanouts) t.
(** The nodes of hop [h], those with the same parent next to each other. *)
Fixpoint hop_nodes (h : nat) (ts : list tree) : list tree :=
  match h with O => ts | S h' => flat_map children (hop_nodes h' ts) end.
Fixpoint vsum (a b : list Z) : list Z :=
  match a, b with x :: a', y :: b' => (x + y)%Z :: vsum a' b' | _, _ => [] end.
Section Learn.
Variables (feat : Z -> list Z) (conv : nat -> nat -> list (list Z) -> list Z) (residual : nat -> list Z -> list Z)
          (best : nat -> nat -> list (list Z) -> list (list Z)) (ks : nat -> nat) (width : nat -> nat).
(** [l] layers for a node of hop [hop]: the convolution of its own row and the greatest values among
    its neighbors, and what is left of its own row. *)
Fixpoint learn (l hop : nat) (t : tree) : list Z :=
  match l with
  | O => feat (root t)
  | S l' => let x := learn l' hop t in
            vsum (conv l' hop (x :: best (ks hop) (width l') (map (learn l' (S hop)) (children t)))) (residual l' x)
  end.
End Learn.
Definition width_at (in_features : nat) (hidden : list nat) (l : nat) : nat :=
  match l with O => in_features | S l' => nth l' hidden 0%nat end.
(** The own row is added, after a linear layer when the width changes. *)
Definition residual (width : nat -> nat) (lin : nat -> list Z -> list Z) (l : nat) (x : list Z) : list Z :=
  if (width l =? width (S l))%nat then x else lin l x.
