(** C111: GCN and GAT examples predict each node of a batch, from the sub-graph around the batch. *)
From Coq Require Import List Arith ZArith Bool Sorted Permutation.
From Verif Require Import Base WriterModel LoaderModel GraphModel GraphSpec AnswerProofs Float32 Demo GraphOpsModel GraphOpsProofs
  GnnExModel GnnExSpec GnnExProofs.
Import ListNotations.
Open Scope list_scope.
Local Open Scope nat_scope.

(** ** Queries *)
Theorem C111_mask : forall n idx k, k < n -> (nth k (mask_of n idx) false = true <-> In k idx).
Proof. exact mask_nth. Qed.
Theorem C111_mask_length : forall n idx, length (mask_of n idx) = n.
Proof. exact mask_length. Qed.
Theorem C111_query : forall fadd fsub wval wm parts g, converted fadd wval wm parts g ->
  forall F (feat : Z -> F) types hops inputs, guarded fadd fsub types parts -> 1 <= hops ->
  exists nodes edges mask, query fsub g feat types hops inputs = Ok (nodes, map feat nodes, mask, Edges edges) /\
  distinct_of inputs (select nodes mask) /\ length mask = length nodes /\
  StronglySorted Z.lt nodes /\ (forall x, In x nodes <-> within parts types inputs hops x) /\
  (forall i j, In (i, j) edges -> i < length nodes /\ j < length nodes) /\
  (forall i, i < length nodes -> In (i, i) edges) /\
  (forall i j, In (i, j) edges -> In (j, i) edges) /\
  exists inner, StronglySorted Z.lt inner /\ (forall x, In x inner <-> within parts types inputs (hops - 1) x) /\
  forall i j, i < length nodes -> j < length nodes ->
    (In (i, j) edges <-> wanted parts types inner nodes true i j \/ i = j).
Proof. exact @query_ok. Qed.
(** Every different node of a batch gets its row of the output, in the order of ids. *)
Theorem C111_predict_partial : forall fadd fsub wval wm parts g, converted fadd wval wm parts g ->
  forall F E (feat : Z -> F) (model : list F -> adjacency -> list E) types hops inputs,
  guarded fadd fsub types parts -> 1 <= hops -> (forall x a, length (model x a) = length x) ->
  exists ns es nodes edges, predict fsub g feat model types hops inputs = Ok (ns, es) /\
  distinct_of inputs ns /\ length es = length ns /\
  (forall x, In x nodes <-> within parts types inputs hops x) /\ StronglySorted Z.lt nodes /\
  (exists mask, query fsub g feat types hops inputs = Ok (nodes, map feat nodes, mask, Edges edges)) /\
  forall n e, In (n, e) (combine ns es) -> In (n, e) (combine nodes (model (map feat nodes) (Edges edges))).
Proof. exact @predict_ok. Qed.
(** Edges 0->1, 1->2, 2->5. *)
Definition line : list (list (list record)) :=
  [ [ [nd 0 0 []; ed 0 1 0 one []]; [nd 1 0 []; ed 1 2 0 one []]; [nd 2 0 []; ed 2 5 0 one []] ] ].
Definition line_graph : graph := load_of None line.
(** Rows do not follow the order of the batch, and a node drawn twice has one row. *)
Theorem C111_rows_refuted : exists inputs ns es,
  converted f32_add wv None line line_graph /\
  predict f32_sub line_graph (fun n => n) (fun x _ => x) [0%Z] 1 inputs = Ok (ns, es) /\
  ns <> inputs /\ length es < length inputs.
Proof.
  exists [2; 0; 2]%Z. do 2 eexists. split; [apply load_of_converted; vm_compute; reflexivity|].
  split; [vm_compute; reflexivity|]. split; [discriminate|]. repeat constructor.
Qed.
Example C111_predict_example :
  query f32_sub line_graph (fun n => (10 * n)%Z) [0%Z] 1 [1; 0]%Z =
  Ok ([0; 1; 2]%Z, [0; 10; 20]%Z, [true; true; false], Edges [(0, 0); (0, 1); (1, 0); (1, 1); (1, 2); (2, 1); (2, 2)])
  /\ predict f32_sub line_graph (fun n => (10 * n)%Z) (fun x _ => map Z.succ x) [0%Z] 1 [1; 0]%Z = Ok ([0; 1]%Z, [1; 11]%Z).
Proof. vm_compute. auto. Qed.

(** ** The whole graph, examples/pytorch/gcn.py *)
Theorem C111_full_graph_partial : forall fadd fsub wval wm parts g, converted fadd wval wm parts g ->
  forall F (feat : Z -> F) types hops n, guarded fadd fsub types parts -> 1 <= hops ->
  (forall x y, linked parts types x y -> (0 <= x < Z.of_nat n)%Z -> (0 <= y < Z.of_nat n)%Z) ->
  exists edges mask, query fsub g feat types hops (arange n) = Ok (arange n, map feat (arange n), mask, Edges edges).
Proof. exact @full_graph. Qed.
Theorem C111_full_set : forall n ids, (forall i, In i ids -> i < n) ->
  distinct_of (map Z.of_nat ids) (select (arange n) (full_set n ids)).
Proof. exact full_set_ok. Qed.
(** With an edge to an id outside of the range there are more rows than bits in a mask. *)
Theorem C111_full_graph_refuted : exists n nodes x mask edges,
  converted f32_add wv None line line_graph /\
  query f32_sub line_graph (fun n => n) [0%Z] 1 (arange n) = Ok (nodes, x, mask, edges) /\
  length nodes <> length (full_set n []).
Proof.
  exists 3. do 4 eexists. split; [apply load_of_converted; vm_compute; reflexivity|].
  split; [vm_compute; reflexivity|]. discriminate.
Qed.
Example C111_full_set_example : select (arange 5) (full_set 5 [3; 1; 3]) = [1; 3]%Z.
Proof. vm_compute. reflexivity. Qed.

(** ** Batches, examples/pytorch/gat.py *)
Theorem C111_batches : forall A b (inputs : list A), 0 < b ->
  exists l, batches b inputs = Some l /\ concat l = whole b inputs /\ Forall (fun x => length x = b) l
  /\ length l = length inputs / b.
Proof. exact @batches_ok. Qed.
Theorem C111_workers : forall A b n (inputs : list A), 0 < b -> 0 < n ->
  exists l, dataset b None inputs = Some l /\ concat l = whole b inputs /\ Forall (fun x => length x = b) l /\
  Permutation (concat (map (fun i => match dataset b (Some (i, n)) inputs with Some x => x | None => [] end) (seq 0 n))) l.
Proof. exact @workers_cover. Qed.
(** A worker has batches i, i + n and so on. *)
Theorem C111_worker : forall A b i n (inputs : list A), 0 < b -> i < n ->
  exists l p, dataset b None inputs = Some l /\ dataset b (Some (i, n)) inputs = Some p /\
  forall k, i + k * n < length l -> nth k p [] = nth (i + k * n) l [].
Proof. exact @worker_batches. Qed.
Theorem C111_strided : forall A i n (l : list A) d k, i < n -> i + k * n < length l ->
  nth k (strided i n l) d = nth (i + k * n) l d.
Proof. exact @stride_nth. Qed.
Theorem C111_zero : forall A w (inputs : list A), dataset 0 w inputs = None.
Proof. exact @zero_batch. Qed.
Theorem C111_ranks : forall A b ranks (shuffled : nat -> list A), 0 < b ->
  exists l, epoch b ranks shuffled = Some l /\ map (@concat A) l = map (fun r => whole b (shuffled r)) (seq 0 ranks).
Proof. exact @epoch_ok. Qed.
(** Ranks do not share nodes out: with two ranks each node is in an epoch twice. *)
Theorem C111_ranks_refuted : exists (l : list (list (list Z))),
  epoch 2 2 (fun _ => [7; 8; 9; 10]%Z) = Some l /\ ~ NoDup (concat (map (@concat Z) l)).
Proof.
  eexists. split; [vm_compute; reflexivity|]. vm_compute. intros H. inversion H as [|? ? N _]; subst. apply N; simpl; auto.
Qed.
(** Last nodes of the array are in no batch. *)
Theorem C111_dropped_refuted : exists (inputs : list Z) l x,
  dataset 2 None inputs = Some l /\ In x inputs /\ ~ In x (concat l).
Proof. exists [7; 8; 9]%Z, [[7; 8]]%Z, 9%Z. split; [reflexivity|]. split; [simpl; auto|]. simpl. intuition discriminate. Qed.
Theorem C111_evaluated_partial : forall A b (inputs : list A), 0 < b ->
  evaluated b inputs = if b <=? length inputs then Some (firstn b inputs) else None.
Proof. exact @evaluated_first. Qed.
(** Evaluation looks at the first batch only. *)
Theorem C111_evaluated_refuted : exists (inputs x : list Z) n, evaluated 2 inputs = Some x /\ In n (whole 2 inputs) /\ ~ In n x.
Proof. exists [7; 8; 9; 10]%Z, [7; 8]%Z, 9%Z. split; [reflexivity|]. split; [simpl; auto|]. simpl. intuition discriminate. Qed.
Example C111_batches_example : dataset 2 None [1; 2; 3; 4; 5; 6; 7] = Some [[1; 2]; [3; 4]; [5; 6]]
  /\ dataset 2 (Some (0, 2)) [1; 2; 3; 4; 5; 6; 7] = Some [[1; 2]; [5; 6]]
  /\ dataset 2 (Some (1, 2)) [1; 2; 3; 4; 5; 6; 7] = Some [[3; 4]].
Proof. vm_compute. auto. Qed.

(** ** Shapes *)
Theorem C111_shapes_partial : forall n f x, forward_shapes n f x = ([n; f], [2; x], [n]) <-> n <> 1 /\ f <> 1 /\ x <> 1.
Proof. exact squeeze_iff. Qed.
(** A sub-graph of one node: features lose the axis of nodes and the mask has no axes. *)
Theorem C111_shapes_refuted : exists n f x, 0 < n /\ 1 < f /\ 0 < x /\ forward_shapes n f x = ([f], [2], []).
Proof. exists 1, 5, 1. vm_compute. repeat split; repeat constructor. Qed.
Example C111_shapes_example : forward_shapes 4 5 6 = ([4; 5], [2; 6], [4]).
Proof. vm_compute. reflexivity. Qed.

(** ** Training of GCN *)
Theorem C111_train_partial : forall n, train (S n) =
  {| mode := negb (n mod 10 =? 0); steps := S n; acc := Some {| training := true; version := 10 * (n / 10) |} |}.
Proof. exact train_state. Qed.
(** Accuracy is of an output with dropout and of parameters before the last steps. *)
Theorem C111_accuracy_refuted : exists n o, acc (train n) = Some o /\ training o = true /\ version o < steps (train n).
Proof. exists 15. eexists. split; [vm_compute; reflexivity|]. split; [reflexivity|]. vm_compute. repeat constructor. Qed.
Example C111_train_example : acc (train 21) = Some {| training := true; version := 20 |} /\ mode (train 21) = false /\ acc (train 0) = None.
Proof. vm_compute. auto. Qed.

Print Assumptions C111_mask.
Print Assumptions C111_mask_length.
Print Assumptions C111_query.
Print Assumptions C111_predict_partial.
Print Assumptions C111_rows_refuted.
Print Assumptions C111_full_graph_partial.
Print Assumptions C111_full_set.
Print Assumptions C111_full_graph_refuted.
Print Assumptions C111_batches.
Print Assumptions C111_workers.
Print Assumptions C111_worker.
Print Assumptions C111_strided.
Print Assumptions C111_zero.
Print Assumptions C111_ranks.
Print Assumptions C111_ranks_refuted.
Print Assumptions C111_dropped_refuted.
Print Assumptions C111_evaluated_partial.
Print Assumptions C111_evaluated_refuted.
Print Assumptions C111_shapes_partial.
Print Assumptions C111_shapes_refuted.
Print Assumptions C111_train_partial.
Print Assumptions C111_accuracy_refuted.
