(** GraphSAGE example without labels: examples/pytorch/sage.py.

    Answers of the engine and of numpy's generator are arguments: [draw c nodes count] is the answer
    of the c-th call of sample_neighbors, flattened row by row (count ids for every node, -1 if a node
    has no neighbours), [rnd] are raw values of the generator.  Not modelled: the layers of GraphSAGE
    (torch_geometric), the optimiser, logistic regression, values of the loss. *)
From Coq Require Import List Arith ZArith Bool.
From Verif Require Import Base GraphOpsModel.
Import ListNotations.
Open Scope list_scope.

(** ** numpy *)

(** a.repeat(c). *)
Definition repeat_each {A} (c : nat) (l : list A) : list A := flat_map (fun x => repeat x c) l.
(** np.unique(axis=0) of pairs of ids. *)
Definition zpair_ltb (a b : Z * Z) : bool := ((fst a <? fst b) || ((fst a =? fst b) && (snd a <? snd b)))%Z.
Definition zpair_eqb (a b : Z * Z) : bool := ((fst a =? fst b) && (snd a =? snd b))%Z.
Fixpoint insert_zpair (t : Z * Z) (l : list (Z * Z)) : list (Z * Z) :=
  match l with
  | [] => [t]
  | x :: r => if zpair_ltb t x then t :: l else if zpair_eqb t x then l else x :: insert_zpair t r
  end.
Definition unique_zpairs (l : list (Z * Z)) : list (Z * Z) := fold_right insert_zpair [] l.
(** values[np.argsort(keys)] for pairs of a key and a value. *)
Fixpoint insert_key (t : nat * Z) (l : list (nat * Z)) : list (nat * Z) :=
  match l with [] => [t] | x :: r => if fst t <=? fst x then t :: l else x :: insert_key t r end.
Definition by_key (l : list (nat * Z)) : list Z := map snd (fold_right insert_key [] l).

(** ** SageDataset *)

(** batch_size is 256 whatever the argument, 33; __iter__, 39-41: starts of range(0, edge_count, batch_size). *)
Definition batch_size (argument : nat) : nat := 256.
Definition batch_ids (argument edge_count : nat) : list nat :=
  map (fun i => i * batch_size argument) (seq 0 ((edge_count + (batch_size argument - 1)) / batch_size argument)).

(** Unique elements in the order of first occurrences, 73-75. *)
Definition first_order (edges : list Z) : list Z :=
  let unique_nodes := np_unique edges in
  by_key (combine (map (fun x => position x edges) unique_nodes) unique_nodes).
(** _make_edge_index, 43-82. *)
Definition edge_lists (draw : nat -> list Z -> nat -> list Z) (f0 f1 : nat) (seed : list Z) : list Z :=
  let fst_hop := draw 0 seed f0 in
  let fst_unique := np_unique fst_hop in
  let snd_hop := draw 1 fst_unique f1 in
  let snd_edges := unique_zpairs (combine (repeat_each f1 fst_unique) snd_hop) in
  repeat_each f0 seed ++ map fst snd_edges ++ fst_hop ++ map snd snd_edges.
Definition make_edge_index (draw : nat -> list Z -> nat -> list Z) (f0 f1 : nat) (seed : list Z)
    : list Z * list nat * list nat :=
  let edges := edge_lists draw f0 f1 seed in
  let nodes := first_order edges in
  let inverse := map (fun x => position x nodes) edges in
  let edge_len := length edges / 2 in
  (nodes, firstn edge_len inverse, skipn edge_len inverse).

(** np.random.randint(0, num_nodes - 1, size): the upper bound is exclusive; None is ValueError, 95. *)
Definition randint (rnd : nat -> nat) (num_nodes size : nat) : option (list Z) :=
  if num_nodes <=? 1 then None
  else Some (map (fun k => Z.of_nat (rnd k mod (num_nodes - 1))) (seq 0 size)).

Record sub := { nodes : list Z; cols : list nat; rows : list nat; label_src : list nat; label_dst : list nat; label : list bool }.
(** query, 84-110; [positive] are the sampled edges. *)
Definition query (draw : nat -> list Z -> nat -> list Z) (rnd : nat -> nat) (num_nodes f0 f1 : nat) (positive : list (Z * Z))
    : option sub :=
  let src := map fst positive in
  let dst := map snd positive in
  let num_pos := length src in
  match randint rnd num_nodes (2 * num_pos) with
  | None => None
  | Some neg =>
      let ends := src ++ firstn num_pos neg ++ dst ++ skipn num_pos neg in
      let seed := np_unique ends in
      let inverse := map (fun x => position x seed) ends in
      let half := length ends / 2 in
      let '(n, c, r) := make_edge_index draw f0 f1 seed in
      Some {| nodes := n; cols := c; rows := r; label_src := firstn half inverse; label_dst := skipn half inverse;
              label := repeat true num_pos ++ repeat false num_pos |}
  end.

(** ** Messages: a pair (a, b) of edge_index sends from a to b. *)

(** train, 119-126: cols and rows of the batch change places. *)
Definition train_edges (s : sub) : list (nat * nat) := combine (rows s) (cols s).
(** _prepare_evaluation_data, 146-159; [nbrs] is the answer of neighbors for one node. *)
Definition eval_edges (nbrs : Z -> list Z) (num_nodes : nat) : list (Z * Z) :=
  let input := map Z.of_nat (seq 0 num_nodes) in
  combine (flat_map (fun n => repeat n (length (nbrs n))) input) (flat_map nbrs input).
