(** Triples of nodes of several types: /repo/examples/pytorch/hetgnn/sampler.py 10-117 and
    /repo/examples/pytorch/hetgnn/model.py forward 209-232, cross_entropy_loss 181-207,
    query_inference 296-302.

    Sampling of nodes and of neighbors are arguments: [start k] are the nodes a walk of type [k]
    starts with (sample_nodes, or the first batch of the file sampler: next(iter(sampler)) makes a
    new iterator each time), [hop k h] one answer of sample_neighbors with count 1 (node and edge
    type per node; -1 for both if there is none), [negs i n] are [n] nodes of type i mod types.  The
    embeddings of a triple and log(sigmoid(x)) are arguments too.  Not modelled: the layers. *)
From Verif Require Import Base.
From Coq Require Import QArith.
Local Open Scope Z_scope.

Definition triple : Type := Z * Z * Z.
(** list[i].append(x): negative indices count from the end. *)
Definition append_at {A} (l : list (list A)) (i : Z) (x : A) : res (list (list A)) :=
  let n := Z.of_nat (length l) in
  let j := if i <? 0 then i + n else i in
  if (0 <=? j) && (j <? n) then
    let k := Z.to_nat j in Ok (firstn k l ++ (nth k l [] ++ [x]) :: skipn (S k) l)
  else Fail EIndex.
Fixpoint append_all {A} (l : list (list A)) (xs : list (Z * A)) : res (list (list A)) :=
  match xs with [] => Ok l | (i, x) :: t => do l' <- append_at l i x ;; append_all l' t end.

Section Walk.
Variable types : nat.
Variable walk_length : nat.
Variable start : nat -> list Z.
Variable hop : nat -> nat -> list Z -> list (Z * Z).
Variable negs : nat -> nat -> list Z.

(** 64-72: the answers of the hops from [h] on. *)
Fixpoint hops (k : nat) (h n : nat) (nodes : list Z) : list (list (Z * Z)) :=
  match n with
  | O => []
  | S m => let a := hop k h nodes in a :: hops k (S h) m (map fst a)
  end.
(** 60-77: one row per start node: the node itself and what each hop found. *)
Definition rows (k : nat) : list (list (Z * Z)) :=
  let c_nodes := start k in
  let cols := map (fun c => (c, Z.of_nat k)) c_nodes :: hops k 0 walk_length c_nodes in
  map (fun j => map (fun col => nth j col (0, 0)) cols) (seq 0 (length c_nodes)).
(** 79-92 for one row. *)
Definition row_triples (row : list (Z * Z)) : list (Z * triple) :=
  match row with
  | [] => []
  | (c, ct) :: rest => flat_map (fun x => if snd x =? -1 then [] else [(ct * Z.of_nat types + snd x, (c, fst x, 0))]) rest
  end.
(** 94-102. *)
Definition set_negatives (i : nat) (l : list triple) : list triple :=
  if (0 <? length l)%nat then map (fun x => (fst (fst (fst x)), snd (fst (fst x)), snd x)) (combine l (negs i (length l))) else l.
(** _generate_random_walk 47-104. *)
Definition generate : res (list (list triple)) :=
  let events := flat_map (fun k => flat_map row_triples (rows k)) (seq 0 types) in
  do l <- append_all (repeat [] (types * types)) events ;;
  Ok (map (fun x => set_negatives (fst x) (snd x)) (combine (seq 0 (types * types)) l)).
End Walk.

(** __iter__, __next__ 106-117: how many batches an epoch has; [fuel] bounds the loop. *)
Fixpoint batches (fuel : nat) (nodes_left batch_size : Z) : res nat :=
  if nodes_left <=? 0 then Ok O
  else match fuel with O => Fail EFuel | S f => do n <- batches f (nodes_left - batch_size) batch_size ;; Ok (S n) end.
(** __len__: int((num_nodes + batch_size - 1) / batch_size). *)
Definition sampler_len (num_nodes batch_size : Z) : Z := Z.quot (num_nodes + batch_size - 1) batch_size.

(** ** The loss *)
Section Loss.
Variable log_sigmoid : Q -> Q.
Definition vec := list Q.
Definition dot (a b : vec) : Q := fold_right Qplus 0%Q (map (fun x => (fst x * snd x)%Q) (combine a b)).
(** forward: rows of zeros where a list has fewer triples than the longest. *)
Definition padded (d size : nat) (l : list (vec * vec * vec)) : list (vec * vec * vec) :=
  let z := repeat 0%Q d in l ++ repeat (z, z, z) (size - length l).
Definition out_pair (x : vec * vec * vec) : Q * Q := (- dot (fst (fst x)) (snd x), dot (fst (fst x)) (snd (fst x)))%Q.
Definition qmean (l : list Q) : Q := (fold_right Qplus 0 l / inject_Z (Z.of_nat (length l)))%Q.
Definition max_len {A} (l : list (list A)) : nat := fold_right Nat.max 0%nat (map (@length A) l).
(** The loss, and scores (negative, positive); labels are (0, 1). *)
Definition het_forward (d : nat) (embs : list (list (vec * vec * vec))) : Q * list (Q * Q) :=
  let all := concat (map (padded d (max_len embs)) embs) in
  (qmean (map (fun x => - (log_sigmoid (snd (out_pair x)) + log_sigmoid (fst (out_pair x))))%Q all), map out_pair all).
End Loss.

(** query_inference: one type for the whole batch, that of its first row. *)
Definition inference_type (inputs : list (Z * Z)) : res Z := match inputs with [] => Fail EIndex | x :: _ => Ok (snd x) end.
(** sampler.py 53-54 with sample files: next(iter(sampler)) for batch number [step]; the iterator is
    a new one each time (samplers.py 487), so it starts with the first batch. *)
Definition file_start (bs : list (list Z)) (step : nat) : res (list Z) := match bs with [] => Fail EFatal | b :: _ => Ok b end.
