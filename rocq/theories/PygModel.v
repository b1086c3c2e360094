(** A graph for PyTorch Geometric: /repo/examples/pytorch/pyg_interface.py 21-135.

    torch.Tensor(l).long() goes through binary32: [f32_of_int] rounds to the nearest of 24 bits, ties
    to even (no overflow for 64 bit ids up to 2^63 - 2^39, which round to less than 2^63).  Losses and
    predictions are rationals.  Not modelled: the loader, the layers, [squeeze] on more than two
    dimensions. *)
From Verif Require Import Base LoaderModel GraphModel.
From Coq Require Import QArith.
Local Open Scope Z_scope.

Definition f32_of_int (x : Z) : Z :=
  let m := Z.abs x in
  if m <? 2 ^ 24 then x
  else
    let u := 2 ^ (Z.log2 m - 23) in
    let q := m / u in
    let r := m mod u in
    let q' := if (u <? 2 * r) || ((u =? 2 * r) && Z.odd q) then q + 1 else q in
    Z.sgn x * (q' * u).

(** DeepGNNGraphStore._get_edge_index 62-75: srcs.extend([node_ids[i]] * e). *)
Definition sources (node_ids : list Z) (counts : list nat) : list Z :=
  flat_map (fun x => repeat (fst x) (snd x)) (combine node_ids counts).
Definition edge_index (fsub : N -> N -> N) (g : graph) (node_ids : list Z) (t : Z) : res (list Z * list Z) :=
  do e <- neighbors fsub g node_ids [t] None ;;
  Ok (map f32_of_int (sources node_ids (snd e)), map f32_of_int (map (fun x => fst (fst (fst x))) (fst e))).

(** DeepGNNFeatureStore._get_tensor 31-36: shape of what node_features gives, after squeeze. *)
Definition tensor_shape (n : nat) (is_x : bool) : list nat := filter (fun d => negb (d =? 1)%nat) [n; if is_x then 121%nat else 1%nat].

(** train 99-122: [batches] are the mean loss and the number of predictions of each. *)
Definition train_loss (batches : list (Q * nat)) : Q :=
  (fold_left (fun s b => s + fst b * inject_Z (Z.of_nat (snd b))) batches 0 /
   inject_Z (Z.of_nat (fold_left (fun n b => (n + snd b)%nat) batches 0%nat)))%Q.
(** test 125-135: predictions and labels of the first batch of the loader, which is that of
    training; the test loader is not used. *)
Definition hits (batch : list (Q * bool)) : nat := length (filter (fun x => Bool.eqb (negb (Qle_bool (fst x) 0)) (snd x)) batch).
Definition test_score (loader test_loader : list (list (Q * bool))) : option Q :=
  match loader with [] => None | b :: _ => Some (inject_Z (Z.of_nat (hits b)) / inject_Z (Z.of_nat (length b)))%Q end.
