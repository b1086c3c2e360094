(** Citation datasets: /repo/src/python/deepgnn/graph_engine/data/citation.py (sample_mask
    29-33, load_data 82-116, random_split 156-180, get_node_types 260-274, _write_node_files
    318-327, CitationGraph._build_graph 224-258).
    A matrix is a list of rows (any type, with a zero row).  Indices are natural numbers
    (numpy would count negative ones from the end).  np.random.permutation is an argument.
    Not modelled: pickles, adjacency, preprocess_features, the width of rows, copy_tree. *)
From Coq Require Import Permutation.
From Verif Require Import Base.

(** a[i] = x, raising outside. *)
Fixpoint put {A} (i : nat) (x : A) (l : list A) : res (list A) :=
  match l, i with
  | [], _ => Fail EIndex
  | _ :: t, O => Ok (x :: t)
  | y :: t, S i' => do t' <- put i' x t ;; Ok (y :: t')
  end.
(** a[idx, :] = rows: as many rows as indices, written in order. *)
Fixpoint scatter {A} (l : list A) (idx : list nat) (rows : list A) : res (list A) :=
  match idx, rows with
  | [], [] => Ok l
  | i :: idx', x :: rows' => do l' <- put i x l ;; scatter l' idx' rows'
  | _, _ => Fail EAssert
  end.
(** a[idx, :], raising outside. *)
Definition row_at {A} (l : list A) (i : nat) : res A := match nth_error l i with Some x => Ok x | None => Fail EIndex end.
Definition gather {A} (l : list A) (idx : list nat) : res (list A) := mapM (row_at l) idx.

(** np.sort 83, min and max 88. *)
Fixpoint insert_nat (x : nat) (l : list nat) : list nat :=
  match l with [] => [x] | y :: t => if x <=? y then x :: l else y :: insert_nat x t end.
Definition sort_nat (l : list nat) : list nat := fold_right insert_nat [] l.
Definition list_min (l : list nat) : nat := match l with [] => 0 | x :: t => fold_left Nat.min t x end.
Definition list_max (l : list nat) : nat := fold_left Nat.max l 0.

(** 85-94: rows of the test nodes at their places, zero rows in the gaps.  min() of an empty
    list raises. *)
Definition extend {A} (zero : A) (reorder : list nat) (tx : list A) : res (list A) :=
  match reorder with
  | [] => Fail EFatal
  | _ =>
      let lo := list_min reorder in
      scatter (repeat zero (list_max reorder + 1 - lo)) (map (fun i => i - lo) (sort_nat reorder)) tx
  end.
(** 96-97 and 100-101 for one matrix. *)
Definition arrange {A} (zero : A) (citeseer : bool) (reorder : list nat) (allx tx : list A) : res (list A) :=
  do tx <- (if citeseer then extend zero reorder tx else Ok tx) ;;
  let all := allx ++ tx in
  do rows <- gather all (sort_nat reorder) ;;
  scatter all reorder rows.

(** sample_mask 29-33 *)
Definition sample_mask (idx : list nat) (size : nat) : res (list bool) :=
  scatter (repeat false size) idx (repeat true (length idx)).
(** 103-109: [ny] is len(y), [n] the number of label rows. *)
Definition public_masks (ny : nat) (reorder : list nat) (n : nat) : res (list bool * list bool * list bool) :=
  do train <- sample_mask (seq 0 ny) n ;;
  do val <- sample_mask (seq ny 500) n ;;
  do test <- sample_mask (sort_nat reorder) n ;;
  Ok (train, val, test).

(** mask.nonzero()[0] *)
Fixpoint nonzero (i : nat) (l : list bool) : list nat :=
  match l with [] => [] | b :: t => (if b then [i] else []) ++ nonzero (S i) t end.
(** random_split: [perm k l] is the k-th call of np.random.permutation.  Line 164 overwrites
    the argument [per_class]. *)
Definition random_split (perm : nat -> list nat -> list nat) (labels : list nat) (classes per_class num_val num_test : nat)
  : res (list bool * list bool * list bool) :=
  let per_class := 20 in
  let n := length labels in
  let train_idx := flat_map (fun cl => firstn per_class (perm cl (nonzero 0 (map (Nat.eqb cl) labels)))) (seq 0 classes) in
  if classes =? 0 then Fail EFatal (* np.concatenate of nothing *)
  else
    do train <- sample_mask train_idx n ;;
    let remaining := perm classes (nonzero 0 (map negb train)) in
    let val_idx := firstn num_val remaining in
    let test_idx := firstn num_test (skipn num_val remaining) in
    do val <- sample_mask val_idx n ;;
    do test <- sample_mask test_idx n ;;
    Ok (train, val, test).

(** get_node_types 263-274 *)
Inductive ntype := Train | Val | Test | Other.
Fixpoint node_types (train val test : list bool) : res (list ntype) :=
  match train with
  | [] => Ok []
  | a :: train' =>
      match a, val, test with
      | true, _, _ => do r <- node_types train' (tl val) (tl test) ;; Ok (Train :: r)
      | false, b :: _, _ =>
          if b then do r <- node_types train' (tl val) (tl test) ;; Ok (Val :: r)
          else match test with
               | c :: _ => do r <- node_types train' (tl val) (tl test) ;; Ok ((if c then Test else Other) :: r)
               | [] => Fail EIndex
               end
      | false, [], _ => Fail EIndex
      end
  end.
(** _write_node_files 318-327: the numbers in train.nodes and test.nodes. *)
Fixpoint node_file (want : ntype -> bool) (i : nat) (ts : list ntype) : list nat :=
  match ts with [] => [] | t :: ts' => (if want t then [i] else []) ++ node_file want (S i) ts' end.
Definition is_train (t : ntype) : bool := match t with Train => true | _ => false end.
Definition is_test (t : ntype) : bool := match t with Test => true | _ => false end.

(** CitationGraph._build_graph 224-258: the body that splits and converts is a string
    literal; what is loaded is the content of the archive. *)
Inductive split_arg := Public | RandomSplit.
Definition build_graph {G} (archive : G) (split : split_arg) : G := archive.
