(** Metrics: src/python/deepgnn/pytorch/common/metrics.py (MRR), pytorch/modeling/base_model.py
    compute_metric, pytorch/training/trainer.py _evaluate, tf/nn/metrics.py masked_accuracy and
    _calc_mrr of examples/tensorflow/sage/sage_unsupervised.py.

    Scores are rationals.  [ord] are the indices that torch.topk(s, k=len(s)) and tf.nn.top_k return,
    in descending order of the values; which of equal values comes first is left open. *)
From Coq Require Import QArith.
From Verif Require Import Base Dist.

Definition mean (l : list Q) : res Q :=
  match l with [] => Fail EUB | _ => Ok (qsum (fun x => x) l / qnat (length l)) end.
Section Ord.
Variable ord : list Q -> list nat.
(** MRR.compute 68-69, _calc_mrr: topk twice. *)
Definition ranks (s : list Q) : list nat := ord (map (fun i => - qnat i) (ord s)).
Definition dot (r : list nat) (l : list Q) : Q := qsum (fun p => qnat (fst p) * snd p) (combine r l).
(** One matrix of scores and labels: matmul(ranks, transpose(labels)) + 1, reciprocals of all cells. *)
Definition mrr_cells (asc : bool) (scores labels : list (list Q)) : list Q :=
  let scores := if asc then map (map (fun x => - (1) * x)) scores else scores in
  flat_map (fun s => map (fun l => 1 / (dot (ranks s) l + 1)) labels) scores.
(** MRR.compute 60-74 for tensors with any leading dimensions: the matrices one after another. *)
Definition same_size (p : list (list Q) * list (list Q)) : bool :=
  (length (fst p) =? length (snd p)) && forallb (fun q => length (fst q) =? length (snd q)) (combine (fst p) (snd p)).
Definition mrr (asc : bool) (ms : list (list (list Q) * list (list Q))) : res Q :=
  if forallb same_size ms then mean (flat_map (fun p => mrr_cells asc (fst p) (snd p)) ms) else Fail EAssert.

(** BaseModel.compute_metric 93-99 with MRR: cat and unsqueeze(1), one matrix with one row each. *)
Definition batch := (list (list Q) * list (list Q))%type.
Definition compute_metric (bs : list batch) : res Q :=
  match bs with
  | [] => Fail EAssert                                        (* torch.cat of no tensors *)
  | _ =>
      let preds := flat_map fst bs in
      let labels := flat_map snd bs in
      if (length preds =? length labels)%nat
      then mrr false (map (fun q => ([fst q], [snd q])) (combine preds labels))
      else Fail EAssert
  end.
(** _evaluate 296-323: the metric. *)
Definition eval_metric (per_step : bool) (bs : list batch) : res Q :=
  if per_step then
    do l <- mapM (fun b => compute_metric [b]) bs ;;
    match l with [] => Ok 0 | _ => mean l end
  else compute_metric bs.

(** _calc_mrr: the affinity of the positive node is the last one. *)
Definition tf_mrr (neg : list (list Q)) (pos : list Q) : res Q :=
  if (length neg =? length pos)%nat then
    mean (map (fun p => 1 / qnat (last (ranks (fst p ++ [snd p])) 0%nat + 1)) (combine neg pos))
  else Fail EAssert.
End Ord.

(** masked_accuracy 21-36; argmax is the first of the greatest. *)
Fixpoint argmax_from (i besti : nat) (best : Q) (l : list Q) : nat :=
  match l with
  | [] => besti
  | x :: t => if Qle_bool x best then argmax_from (S i) besti best t else argmax_from (S i) i x t
  end.
Definition argmax (l : list Q) : res nat := match l with [] => Fail EAssert | x :: t => Ok (argmax_from 1 0 x t) end.
Definition masked {A} (mask : option (list bool)) (l : list A) : res (list A) :=
  match mask with
  | None => Ok l
  | Some m => if (length m =? length l)%nat then Ok (map snd (filter fst (combine m l))) else Fail EAssert
  end.
Definition masked_accuracy (preds labels : list (list Q)) (mask : option (list bool)) : res Q :=
  do p <- masked mask preds ;;
  do l <- masked mask labels ;;
  do ap <- mapM argmax p ;;
  do al <- mapM argmax l ;;
  if (length ap =? length al)%nat
  then mean (map (fun q => if (fst q =? snd q)%nat then 1 else 0) (combine ap al)) else Fail EAssert.
