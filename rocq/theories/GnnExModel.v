(** GCN and GAT examples: examples/tensorflow/gcn/gcn.py, examples/tensorflow/gat/gat.py (query and
    predict_step), examples/pytorch/gat.py (GATDataset, the squeezes of forward, _train_func) and
    examples/pytorch/gcn.py (_train_func).

    Sub-graphs are sub_graph of GraphOpsModel.  Rows of features and of the output of a model are
    functions of the node.  Not modelled: the layers (ConvModel, AttModel), Ray, optimisers, metrics
    (MetricModel). *)
From Coq Require Import List Arith ZArith Bool.
From Verif Require Import Base WriterModel LoaderModel GraphModel GraphOpsModel.
Import ListNotations.
Open Scope list_scope.

(** ** Queries *)

(** input_mask = zeros; input_mask[src_idx] = True: gcn.py 54-55, gat.py 51-52. *)
Definition mask_of (n : nat) (src_idx : list nat) : list bool :=
  fold_left (fun m i => update i (fun _ => true) m) src_idx (repeat false n).
(** tf.boolean_mask, and x[mask] of torch. *)
Definition select {A} (l : list A) (mask : list bool) : list A :=
  map fst (filter snd (combine l mask)).

(** query_training, gcn.py 41-80 and gat.py 38-76, and query of examples/pytorch/gcn.py, 33-71, without the mask: nodes, rows of features, mask, edges. *)
Definition query {F} (fsub : N -> N -> N) (g : graph) (feat : Z -> F) (types : list Z) (hops : nat) (inputs : list Z)
    : res (list Z * list F * list bool * adjacency) :=
  do r <- sub_graph fsub g inputs types hops true true true ;;
  let '(nodes, edges, src_idx) := r in
  Ok (nodes, map feat nodes, mask_of (length nodes) src_idx, edges).
(** predict_step: [model] gives a row for every row of features, gcn.py 119-130 and 171-175, gat.py 125-137 and 178-182. *)
Definition predict {F E} (fsub : N -> N -> N) (g : graph) (feat : Z -> F) (model : list F -> adjacency -> list E)
    (types : list Z) (hops : nat) (inputs : list Z) : res (list Z * list E) :=
  do r <- query fsub g feat types hops inputs ;;
  let '(nodes, x, mask, edges) := r in
  Ok (select nodes mask, select (model x edges) mask).

(** ** GATDataset of examples/pytorch/gat.py *)

(** __iter__, 59-78; [inputs] is the array after the shuffle.  None is ZeroDivisionError. *)
Fixpoint chunk {A} (n b : nat) (l : list A) : list (list A) :=
  match n with O => [] | S n' => firstn b l :: chunk n' b (skipn b l) end.
Definition batches {A} (b : nat) (inputs : list A) : option (list (list A)) :=
  if b =? 0 then None
  else
    let last_elements := length inputs mod b in
    let l := if 0 <? last_elements then firstn (length inputs - last_elements) inputs else inputs in
    Some (chunk (length l / b) b l).
(** l[i::n]. *)
Definition strided {A} (i n : nat) (l : list A) : list A :=
  map fst (filter (fun p => (i <=? snd p) && ((snd p - i) mod n =? 0)) (combine l (seq 0 (length l)))).
Definition dataset {A} (b : nat) (worker : option (nat * nat)) (inputs : list A) : option (list (list A)) :=
  match batches b inputs with
  | None => None
  | Some l => Some (match worker with None => l | Some (i, n) => strided i n l end)
  end.
(** Training of _train_func, 185-199: every rank of Ray reads all of train.nodes; [shuffled] is
    the array of a rank in an epoch. *)
Definition epoch {A} (b : nat) (ranks : nat) (shuffled : nat -> list A) : option (list (list (list A))) :=
  fold_right (fun r acc => match dataset b None (shuffled r), acc with Some x, Some l => Some (x :: l) | _, _ => None end)
             (Some []) (seq 0 ranks).
(** Evaluation, 201-203: next(iter(eval_dataloader)); None is also StopIteration. *)
Definition evaluated {A} (b : nat) (inputs : list A) : option (list A) :=
  match dataset b None inputs with Some (x :: _) => Some x | _ => None end.

(** torch.squeeze, 139-143: DataLoader puts an axis of size 1 in front, squeeze removes all of them. *)
Definition squeeze (shape : list nat) : list nat := filter (fun d => negb (d =? 1)) shape.
Definition forward_shapes (n f x : nat) : list nat * list nat * list nat :=
  (squeeze [1; n; f], squeeze [1; 2; x], squeeze [1; n]).

(** ** _train_func of examples/pytorch/gcn.py *)

(** Rows of full_set[nodes] = True, 161-167. *)
Definition full_set (n : nat) (ids : list nat) : list bool := mask_of n ids.

(** What an output was computed with: the mode of the model and the number of steps of the
    optimizer before. *)
Record out := { training : bool; version : nat }.
Record state := { mode : bool; steps : nat; acc : option out }.
(** The loop, 173-191: [acc] is the output from which accuracy was computed last. *)
Definition run_epoch (epoch : nat) (s : state) : state :=
  let o := {| training := true; version := steps s |} in
  let s1 := {| mode := true; steps := S (steps s); acc := acc s |} in
  if epoch mod 10 =? 0 then {| mode := false; steps := steps s1; acc := Some o |} else s1.
Definition train (epochs : nat) : state :=
  fold_left (fun s e => run_epoch e s) (seq 0 epochs) {| mode := true; steps := 0; acc := None |}.
