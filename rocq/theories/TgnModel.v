(** Learning from timestamped interactions: /repo/examples/pytorch/tgn.py
    make_train_val_test_batches 74-97, predict 100-179, train 182-212, test 215-237.

    The graph is queried with the last-N sampler of LastNModel.  Not modelled (arguments, or left
    out): the memory of torch_geometric (only what is read of it and what is fed to it), the
    attention layer, the link predictor, edge features, rounding of quantiles, the device. *)
From Verif Require Import Base WriterModel LoaderModel GraphModel LastNModel.
From Coq Require Import QArith Qround.
Local Open Scope Z_scope.

(** A row of the file: source, destination, time. *)
Definition row : Type := Z * Z * Z.
Definition r_src (r : row) : Z := fst (fst r).
Definition r_dst (r : row) : Z := snd (fst r).
Definition r_time (r : row) : Z := snd r.

(** ** The split *)
Fixpoint insert_time (x : Z) (l : list Z) : list Z :=
  match l with [] => [x] | y :: t => if x <=? y then x :: l else y :: insert_time x t end.
Definition sort_times (l : list Z) : list Z := fold_right insert_time [] l.
(** np.quantile: between the sorted values at the floor of q * (n - 1) and the next one. *)
Definition quantile (l : list Z) (q : Q) : res Q :=
  match l with
  | [] => Fail EIndex
  | _ =>
      if Qle_bool 0 q && Qle_bool q 1 then
        let s := sort_times l in
        let v := (q * inject_Z (Z.of_nat (length l) - 1))%Q in
        let k := Z.to_nat (Qfloor v) in
        let a := nth k s 0 in
        let b := nth (Nat.min (S k) (length l - 1)) s 0 in
        Ok (inject_Z a + inject_Z (b - a) * (v - inject_Z (Qfloor v)))%Q
      else Fail EAssert
  end.
Definition count_until (rows : list row) (v : Q) : nat := length (filter (fun r => Qle_bool (inject_Z (r_time r)) v) rows).
(** 87-97; the ratios are those of val_ratio and test_ratio. *)
Definition split_rows (val test : Q) (rows : list row) : res (list row * list row * list row) :=
  do v <- quantile (map r_time rows) (1 - test - val)%Q ;;
  do w <- quantile (map r_time rows) (1 - test)%Q ;;
  let test_idx := count_until rows w in
  let val_idx := count_until rows v in
  Ok (firstn val_idx rows, skipn val_idx (firstn test_idx rows), skipn test_idx rows).

(** ** One batch *)
(** np.unique with return_index: the distinct values in order, and where each occurs first. *)
Fixpoint index_of (x : Z) (l : list Z) : nat :=
  match l with [] => 0 | y :: t => if x =? y then 0 else S (index_of x t) end.
Definition unique_index (l : list Z) : list (Z * nat) := map (fun x => (x, index_of x l)) (make_sorted_list l).
(** 116-120. *)
Definition batch_nodes (batch : list row) (neg : list Z) : list (Z * Z) :=
  let times := map r_time batch ++ repeat 1 (length batch) ++ repeat 1 (length neg) in
  map (fun x => (fst x, nth (snd x) times 0 - 1)) (unique_index (map r_src batch ++ map r_dst batch ++ neg)).

(** l[nbs > -1]. *)
Definition masked {A} (nbs : list Z) (l : list A) : list A := map snd (filter (fun x => -1 <? fst x) (combine nbs l)).
(** A tensor indexed by node ids after table[ids] = arange. *)
Definition assign (table : Z -> nat) (ids : list Z) (x : Z) : nat := if existsb (Z.eqb x) ids then index_of x ids else table x.

(** What a batch reads and feeds: the nodes whose memory is read, the edges between their positions
    (neighbor, node) with times, the positions of sources, destinations and negatives, and the
    interactions (node, neighbor, time) the memory is updated with. *)
Record inputs := Inputs {
  i_nodes : list Z; i_edges : list (nat * nat); i_times : list Z;
  i_src : list nat; i_dst : list nat; i_neg : list nat; i_fed : list row }.

Definition nbr_id (x : nbr) : Z := fst (fst (fst x)).
Definition no_nbr : nbr := (-1, -1, 0%N, -1).

Section Predict.
Variable fsub : N -> N -> N.
Variable g : graph.
Variable count : nat.

(** 100-179; None is (None, None).  The two tables hold what earlier batches left. *)
Definition predict (last_n_assoc assoc : Z -> nat) (batch : list row) (neg : list Z) : res (option inputs * (Z -> nat) * (Z -> nat)) :=
  let nt := batch_nodes batch neg in
  let n_id := map fst nt in
  do rows <- lastn_neighbors fsub g n_id [0] (map snd nt) count no_nbr ;;
  let flat := concat rows in
  let nbs := map nbr_id flat in
  let dst_ids := masked nbs nbs in
  let src_np := masked nbs (flat_map (fun n => repeat n count) n_id) in
  let dst_ts := masked nbs (map snd flat) in
  let final := make_sorted_list (n_id ++ dst_ids) in
  let last_n_assoc := assign last_n_assoc final in
  match src_np with
  | [] => Ok (None, last_n_assoc, assoc)
  | _ =>
      let assoc := assign assoc final in
      Ok (Some (Inputs final (combine (map last_n_assoc dst_ids) (map last_n_assoc src_np)) dst_ts
                       (map (fun r => assoc (r_src r)) batch) (map (fun r => assoc (r_dst r)) batch) (map assoc neg)
                       (combine (combine src_np dst_ids) dst_ts)), last_n_assoc, assoc)
  end.

(** The batches of an epoch in order. *)
Fixpoint epoch (last_n_assoc assoc : Z -> nat) (batches : list (list row * list Z)) : res (list (option inputs)) :=
  match batches with
  | [] => Ok []
  | (b, neg) :: rest =>
      do x <- predict last_n_assoc assoc b neg ;;
      let '(o, l, a) := x in
      do os <- epoch l a rest ;; Ok (o :: os)
  end.
End Predict.

(** ** Loss and evaluation *)
(** 195-212: [losses] has None for a batch without inputs.  len(train_loader) is the number of batches. *)
Definition train_loss (batch_size : nat) (losses : list (option Q)) : Q :=
  let total := fold_left (fun acc l => match l with Some x => (acc + x * inject_Z (Z.of_nat batch_size))%Q | None => acc end) losses 0%Q in
  (total / inject_Z (Z.of_nat (length losses) * Z.of_nat batch_size))%Q.
(** 225-237: torch.cat of None raises. *)
Definition test_scores {A} (score : inputs -> A) (outs : list (option inputs)) : res (list A) :=
  mapM (fun o => match o with Some i => Ok (score i) | None => Fail EAssert end) outs.
