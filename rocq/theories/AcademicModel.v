(** The graph in memory of HetGNN and the tasks it is evaluated on:
    /repo/examples/pytorch/hetgnn/graph.py 15-216, main.py a_a_collaborate_train_test 218-293 and
    a_class_cluster_feature_setting 387-409, evaluation.py 26-118.

    Random choices are arguments.  A set turned into a list (main.py 258-260) keeps one of equal
    elements; its order is not specified in python and the statements do not use it.

    Simplifications: ids in files are numbers already parsed; lists of authors hold ids below the
    number of authors or the program stops with an IndexError; positions fit int32. *)
From Verif Require Import Base.
From Coq Require Import QArith.
Local Open Scope Z_scope.

(** ** MockGraph *)
Definition base : Z := 1000000.
(** _map_node_id 77-83; types a, p, v are 0, 1, 2. *)
Definition map_node_id (x : nat * Z) : Z := snd x + base * (Z.of_nat (fst x) + 1).
(** l[i] of python, negative from the end. *)
Definition py_item {A} (l : list A) (i : Z) : res A :=
  let j := if i <? 0 then i + Z.of_nat (length l) else i in
  if (0 <=? j) && (j <? Z.of_nat (length l)) then match nth_error l (Z.to_nat j) with Some x => Ok x | None => Fail EIndex end
  else Fail EIndex.

(** One type of nodes: rows of features and intervals of neighbors (None: not initialised, np.empty),
    and the neighbors of all nodes one after another. *)
Record side := Side { s_feat : list (option (list Z)); s_int : list (option (nat * nat)); s_nbs : list Z }.
(** __init__ 47-61. *)
Fixpoint intervals (start : nat) (adj : list (list (nat * Z))) : list (option (nat * nat)) :=
  match adj with [] => [] | l :: t => Some (start, start + length l)%nat :: intervals (start + length l) t end.
Definition build_side (n : nat) (feat : list (option (list Z))) (adj : list (list (nat * Z))) : res side :=
  if (n <? length adj)%nat then Fail EIndex
  else Ok (Side feat (intervals 0 adj ++ repeat None (n - length adj)) (flat_map (map map_node_id) adj)).
Fixpoint build (sizes : list nat) (feats : list (list (option (list Z)))) (adjs : list (list (list (nat * Z)))) : res (list side) :=
  match sizes, feats, adjs with
  | n :: ns, f :: fs, a :: r => do s <- build_side n f a ;; do t <- build ns fs r ;; Ok (s :: t)
  | _, _, _ => Ok []
  end.

(** sample_nodes 63-75 with hard coded ranges 32-36. *)
Definition type_ranges : list (Z * Z) := [(base, base + 2000); (base * 2, base * 2 + 2000); (base * 3, base * 3 + 10)].

(** sample_neighbors 85-134 for one node; [pick k n] is the k-th choice among n. *)
Definition sample_one (pick : nat -> nat -> nat) (g : list side) (node : Z) (count : nat) : res (list Z * list Z * nat) :=
  if node =? -1 then Ok (repeat (-1) count, repeat (-1) count, O)
  else
    let t := node / base - 1 in
    let id := node mod base in
    do s <- py_item g t ;;
    do iv <- py_item (s_int s) id ;;
    match iv with
    | None => Fail EUB
    | Some (a, b) =>
        if (a =? b)%nat then Ok (repeat (-1) count, repeat (-1) count, O)
        else
          let l := skipn a (firstn b (s_nbs s)) in
          let r := map (fun k => nth (pick k (length l)) l 0) (seq 0 count) in
          Ok (r, map (fun v => if v =? -1 then -1 else v / base - 1) r, count)
    end.

(** node_features 136-153 for one node, rows [dim] wide. *)
Definition feature_one (g : list side) (dim : nat) (node : Z) : res (list Z) :=
  let t := node / base - 1 in
  let key := node mod base in
  if node =? -1 then Ok (repeat 0 dim)
  else
    do s <- py_item g t ;;
    if Z.of_nat (length (s_feat s)) <? key then Ok (repeat 0 dim)
    else do r <- py_item (s_feat s) key ;; match r with Some row => Ok row | None => Fail EUB end.

(** ** MockHetGnnFileNodeLoader.__next__ 203-216 in state cur_batch = k. *)
Definition load_next {A} (nodes : list A) (b k : nat) : res (option (list A)) :=
  let n := length nodes in
  if (n <=? k * b)%nat then Ok None
  else
    let start_pos := (k * b)%nat in
    let end_pos := (S k * b)%nat in
    let l := if (n <=? end_pos)%nat then skipn start_pos (firstn (n - 1) nodes) else skipn start_pos (firstn end_pos nodes) in
    match l with [] => Fail EIndex | _ => Ok (Some l) end.
(** All batches from state [k] on, and the state at the end. *)
Fixpoint load_all {A} (fuel : nat) (nodes : list A) (b k : nat) : res (list (list A) * nat) :=
  match fuel with
  | O => Fail EFuel
  | S f =>
      do o <- load_next nodes b k ;;
      match o with
      | None => Ok ([], k)
      | Some l => do r <- load_all f nodes b (S k) ;; Ok (l :: fst r, snd r)
      end
  end.

(** ** Collaborations: a_a_collaborate_train_test 218-260 *)
Definition push (l : list (list nat)) (i x : nat) : res (list (list nat)) :=
  if (i <? length l)%nat then Ok (firstn i l ++ (nth i l [] ++ [x]) :: skipn (S i) l) else Fail EIndex.
(** for j, for k in range(j + 1, ...). *)
Fixpoint pairs {A} (l : list A) : list (A * A) :=
  match l with [] => [] | x :: t => map (fun y => (x, y)) t ++ pairs t end.
Fixpoint train_lists (acc : list (list nat)) (ps : list (nat * nat)) : res (list (list nat)) :=
  match ps with
  | [] => Ok acc
  | (a, b) :: t => do x <- push acc a b ;; do y <- push x b a ;; train_lists y t
  end.
Definition mem (x : nat) (l : list nat) : bool := existsb (Nat.eqb x) l.
Definition get (l : list (list nat)) (i : nat) : res (list nat) :=
  match nth_error l i with Some x => Ok x | None => Fail EIndex end.
Fixpoint test_lists (train acc : list (list nat)) (ps : list (nat * nat)) : res (list (list nat)) :=
  match ps with
  | [] => Ok acc
  | (a, b) :: t =>
      do ta <- get train a ;;
      do tb <- get train b ;;
      match ta, tb with
      | _ :: _, _ :: _ =>
          do x <- (if mem b ta then Ok acc else push acc a b) ;;
          do y <- (if mem a tb then Ok x else push x b a) ;;
          test_lists train y t
      | _, _ => test_lists train acc t
      end
  end.
Definition collaborations (n : nat) (train_papers test_papers : list (list nat)) : res (list (list nat) * list (list nat)) :=
  do tr <- train_lists (repeat [] n) (flat_map pairs train_papers) ;;
  do te <- test_lists tr (repeat [] n) (flat_map pairs test_papers) ;;
  Ok (map (nodup Nat.eq_dec) tr, map (nodup Nat.eq_dec) te).

(** 262-292: lines of the files; [draw i j k] is the k-th random author for the j-th of author i. *)
Fixpoint reject (fuel : nat) (draws : nat -> nat) (k : nat) (bad : nat -> bool) : res nat :=
  match fuel with
  | O => Fail EFuel
  | S f => if bad (draws k) then reject f draws (S k) bad else Ok (draws k)
  end.
Definition lines_of (fuel : nat) (draw : nat -> nat -> nat -> nat) (bad : nat -> nat -> bool) (lists : list (list nat)) : res (list (nat * nat * nat)) :=
  do r <- mapM (fun i =>
            let l := nth i lists [] in
            do ls <- mapM (fun j => do v <- reject fuel (draw i j) 0 (bad i) ;; Ok [(i, nth j l O, 1%nat); (i, v, O)]) (seq 0 (length l)) ;;
            Ok (concat ls)) (seq 0 (length lists)) ;;
  Ok (concat r).
Definition train_lines fuel draw (tr : list (list nat)) := lines_of fuel draw (fun i v => mem v (nth i tr [])) tr.
Definition test_lines fuel draw (tr te : list (list nat)) :=
  lines_of fuel draw (fun i v => mem v (nth i te []) || mem v (nth i tr []) || (length (nth i tr []) =? 0)%nat) te.

(** ** Venues of authors: 387-409 *)
Fixpoint list_max' (l : list nat) : nat := match l with [] => O | x :: t => Nat.max x (list_max' t) end.
Fixpoint index (l : list nat) (x : nat) : nat := match l with [] => O | y :: t => if (y =? x)%nat then O else S (index t x) end.
Definition a_v_num (v_n : nat) (venues : list nat) : list nat := map (fun v => length (filter (Nat.eqb v) venues)) (seq 0 v_n).
Definition a_max_v (v_n : nat) (p_v : list nat) (papers : list nat) : nat :=
  let num := a_v_num v_n (map (fun p => nth p p_v O) papers) in index num (list_max' num).
(** 416-464: the class of an author with papers. *)
Definition class_of (v : nat) : option nat :=
  if mem v [17; 4; 1]%nat then Some 0%nat else if mem v [16; 2; 3]%nat then Some 1%nat
  else if mem v [9; 13; 6]%nat then Some 2%nat else if mem v [12; 10; 5]%nat then Some 3%nat else None.

(** ** evaluation.py *)
(** 28, 40, 60, 74: columns [k:-1] of a row. *)
Definition feature_columns {A} (k : nat) (row : list A) : list A := skipn k (firstn (length row - 1) row).
(** 90-118. *)
Definition count2 (p t : bool) (l : list (bool * bool)) : nat := length (filter (fun x => Bool.eqb (fst x) p && Bool.eqb (snd x) t) l).
Definition pydiv (a b : Q) : res Q := if Qeq_bool b 0 then Fail EAssert else Ok (a / b)%Q.
Definition qn (n : nat) : Q := inject_Z (Z.of_nat n).
Definition f1 (l : list (bool * bool)) : res Q :=
  let tp := qn (count2 true true l) in
  let fp := qn (count2 true false l) in
  let fn := qn (count2 false true l) in
  do precision <- pydiv tp (tp + fp) ;;
  do recall <- pydiv tp (tp + fn) ;;
  pydiv (2 * precision * recall) (precision + recall).
