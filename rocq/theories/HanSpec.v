(** What a heterogeneous graph attention network computes. *)
From Coq Require Import QArith.
From Verif Require Import Base Dist AttModel AttSpec.
Local Open Scope nat_scope.

(** [y] is reached from [x] by one hop for each list of edge types; [R types dflt] says what one hop may
    answer. *)
Inductive walk (R : list Z -> Z -> Z -> Z -> Prop) (dflt : Z) : list (list Z) -> Z -> Z -> Prop :=
| walk_here : forall x, walk R dflt [] x x
| walk_hop : forall types rest x y z, R types dflt x y -> walk R dflt rest y z -> walk R dflt (types :: rest) x z.
(** The edge types of the m-th metapath of [hop] hops. *)
Definition path_types (types : list (list Z)) (hop m : nat) : list (list Z) :=
  map (fun s => nth (m * hop + s) types []) (seq 0 hop).
(** Sampling answers [count] nodes for every node, in the order of the nodes. *)
Definition samples (smp : nat -> list Z -> list Z -> nat -> Z -> list Z) (R : list Z -> Z -> Z -> Z -> Prop) : Prop :=
  forall k nodes types count dflt,
    length (smp k nodes types count dflt) = length nodes * count /\
    forall j, j < length nodes * count ->
      R types dflt (nth (j / count) nodes 0%Z) (nth j (smp k nodes types count dflt) 0%Z).

(** M metapaths, N nodes and T neighbors of each. *)
Definition shaped (M N T : nat) (nodes : list mat) (nbrs : list (list mat)) : Prop :=
  length nodes = M /\ length nbrs = M /\ forall m, m < M ->
    length (nth m nodes []) = N /\ length (nth m nbrs []) = N /\ Forall (fun g => length g = T) (nth m nbrs []).
Definition times (l : list nat) : nat := fold_right Nat.mul 1 l.
Definition plus_all (l : list nat) : nat := fold_right Nat.add 0 l.

(** F1 of counts of true positives, false negatives and false positives. *)
Definition exact_f1 (tp fn fp : nat) : Q := (qnat (2 * tp) / qnat (2 * tp + fn + fp))%Q.
Definition true_pos (p : Z * Z) : bool := negb (fst p =? 0)%Z && negb (snd p =? 0)%Z.
Definition false_neg (p : Z * Z) : bool := negb (fst p =? 0)%Z && (snd p =? 0)%Z.
Definition false_pos (p : Z * Z) : bool := (fst p =? 0)%Z && negb (snd p =? 0)%Z.
Definition number {A} (f : A -> bool) (l : list A) : nat := length (filter f l).
