(** What the interface promises (graph_engine/_base.py 68-111): arrays of the shape
    [len(nodes), count], one cell for every sampled neighbor, defaults where there is none. *)
From Verif Require Import Base FacadeModel.
From Coq Require Import Sorting.Sorted.
Local Open Scope Z_scope.

Section Spec.
Context {W : Type}.
Definition cell_of {A} (f : edge W -> A) (d : A) (o : option (edge W)) : A := match o with Some e => f e | None => d end.
(** Cell [j] of row [i]. *)
Definition holds {A} (a : nd A) (n count : nat) (want : nat -> nat -> A) : Prop :=
  a_shape a = [n; count] /\ length (a_cells a) = (n * count)%nat /\
  forall i j, (i < n)%nat -> (j < count)%nat -> nth_error (a_cells a) (i * count + j) = Some (Some (want i j)).
Definition slot (rows : list (list (option (edge W)))) (i j : nat) : option (edge W) := nth j (nth i rows []) None.
(** The engine answers every node with [count] slots. *)
Definition answers (engine : strategy -> request -> list (list (option (edge W)))) : Prop :=
  forall s q, length (engine s q) = length (q_nodes q) /\ Forall (fun r => length r = q_count q) (engine s q).
End Spec.

(** Strategies that work with the arguments: all know whether the graph has timestamps, one is
    given for every node. *)
Definition callable (s : strategy) (temporal : bool) (nodes : list Z) (ts : option (list Z)) (ret : bool) : Prop :=
  s <> STopK /\
  (match ts with Some l => length l = length nodes | None => True end) /\
  (ret = true -> s <> SPpr -> temporal = true) /\
  (s = SLastN -> temporal = true /\ ts <> None) /\
  (ret = true -> s = SRandom \/ s = SWithout -> ts <> None).

(** The types of an argument; what reaches the engine. *)
Definition list_of (t : types_arg) : list Z := match t with TInt t => [t] | TArr l => l | TOther _ => [] end.
Definition asked (nodes types : list Z) (count : nat) (ts : option (list Z)) (q : request) : Prop :=
  q_nodes q = nodes /\ q_count q = count /\ StronglySorted Z.lt (q_types q) /\ (forall t, In t (q_types q) <-> In t types) /\
  (nodes <> [] -> q_ts q = ts).

(** Nodes whose type is asked for. *)
Definition mem (t : Z) (l : list Z) : bool := existsb (Z.eqb t) l.
Definition hits (ntypes l : list Z) : Z := Z.of_nat (length (filter (fun t => mem t l) ntypes)).
