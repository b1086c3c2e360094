(** Operations composed from queries: /repo/src/python/deepgnn/graph_engine/graph_ops.py
    (get_skipgrams_size 59-67, gen_skipgrams 70-92, sub_graph 95-179) and multihop.py
    (sample_fanout 10-51, _full_neighbor 54-78, get_neighbor 81-149) over the local graph.
    Simplifications: timestamps are not passed (the code does not); np.zeros/np.empty arrays
    that are filled row after row are built as lists; float32 0, 1 and 2 in the adjacency
    matrix are natural numbers. *)
From Coq Require Import Permutation.
From Verif Require Import Base WriterModel LoaderModel GraphModel.

(** ** Skip-grams; windows are not negative. *)
Definition skipgrams_size (len l r : nat) : nat :=
  fold_left Nat.add (map (fun i => (i - (i - l)) + (Nat.min (len - 1) (i + r) - i)) (seq 0 len)) 0.
(** The rows written for one path, lines 80-91 (the right end uses the left window). *)
Definition path_pairs (path : list Z) (len l : nat) : list (Z * Z) :=
  flat_map (fun j =>
    let left_start := j - l in
    let right_end := Nat.min (len - 1) (j + l) in
    flat_map (fun k => if k =? j then [] else [(nth j path 0%Z, nth k path 0%Z)])
             (seq left_start (right_end + 1 - left_start))) (seq 0 len).
(** Rows of np.empty that are never written hold garbage: [None]; writing past the end is an
    IndexError. *)
Definition gen_skipgrams (paths : list (list Z)) (len l r : nat) : res (list (option (Z * Z))) :=
  if len =? 0 then Fail EAssert
  else
    let total := length paths * skipgrams_size len l r in
    let written := flat_map (fun p => path_pairs p len l) paths in
    if total <? length written then Fail EIndex
    else Ok (map Some written ++ repeat None (total - length written)).

(** ** np.unique *)
Definition np_unique (l : list Z) : list Z := make_sorted_list l.
Fixpoint position (x : Z) (l : list Z) : nat :=
  match l with [] => 0 | y :: t => if (x =? y)%Z then 0 else S (position x t) end.
(** np.unique(axis=0) of index pairs: lexicographic order. *)
Definition pair_ltb (a b : nat * nat) : bool := (fst a <? fst b) || ((fst a =? fst b) && (snd a <? snd b)).
Definition pair_eqb (a b : nat * nat) : bool := (fst a =? fst b) && (snd a =? snd b).
Fixpoint insert_pair (t : nat * nat) (l : list (nat * nat)) : list (nat * nat) :=
  match l with
  | [] => [t]
  | x :: r => if pair_ltb t x then t :: l else if pair_eqb t x then l else x :: insert_pair t r
  end.
Definition unique_pairs (l : list (nat * nat)) : list (nat * nat) := fold_right insert_pair [] l.

Definition nb_id (x : nbr) : Z := let '(d, _, _, _) := x in d.
Definition nb_weight (x : nbr) : N := let '(_, _, w, _) := x in w.

Fixpoint update {A} (i : nat) (f : A -> A) (l : list A) : list A :=
  match l, i with
  | [], _ => []
  | x :: t, O => f x :: t
  | x :: t, S i' => x :: update i' f t
  end.

Section Ops.
Variable fsub : N -> N -> N.
Variable g : graph.

(** ** sub_graph *)
(** 123-127: the unique neighbors of the seeds, of those, and so on. *)
Fixpoint hop_nodes (k : nat) (cur types : list Z) : res (list Z) :=
  match k with
  | O => Ok []
  | S k' =>
      do r <- neighbors fsub g cur types None ;;
      let tmp := np_unique (map nb_id (fst r)) in
      do rest <- hop_nodes k' tmp types ;;
      Ok (tmp ++ rest)
  end.
Inductive adjacency := Edges (l : list (nat * nat)) | Matrix (m : list (list nat)).
Definition mset (i j v : nat) (m : list (list nat)) : list (list nat) := update i (update j (fun _ => v)) m.
Definition sub_graph (src types : list Z) (hops : nat) (self_loop undirected return_edges : bool)
  : res (list Z * adjacency * list nat) :=
  do inner <- hop_nodes (hops - 1) src types ;;
  let unodes := np_unique (src ++ inner) in
  do r <- neighbors fsub g unodes types None ;;
  let '(nb, cnt) := r in
  (* 135-142; edges[:, 1] = nb needs as many rows *)
  let us := flat_map (fun x => repeat (fst x) (snd x)) (combine unodes cnt) in
  if negb (length nb =? length us) then Fail EAssert
  else
    let edges := combine us (map nb_id nb) in
    let all_nodes := src ++ flat_map (fun e => [fst e; snd e]) edges in
    let unique_nodes := np_unique all_nodes in
    let idx := fun x => position x unique_nodes in
    let src_idx := map idx src in
    let edge_idx := map (fun e => (idx (fst e), idx (snd e))) edges in
    let n := length unique_nodes in
    if return_edges then
      let e1 := if undirected then edge_idx ++ map (fun e => (snd e, fst e)) edge_idx else edge_idx in
      let e2 := if self_loop then e1 ++ map (fun i => (i, i)) (seq 0 n) else e1 in
      Ok (unique_nodes, Edges (if self_loop || undirected then unique_pairs e2 else e2), src_idx)
    else
      let m0 := repeat (repeat 0 n) n in
      let m1 := fold_left (fun m e => mset (fst e) (snd e) 1 m) edge_idx m0 in
      let m2 := if undirected then fold_left (fun m e => mset (snd e) (fst e) 1 m) edge_idx m1 else m1 in
      let m3 := if self_loop then fold_left (fun m i => update i (update i S) m) (seq 0 n) m2 else m2 in
      Ok (unique_nodes, Matrix m3, src_idx).

(** ** get_neighbor *)
(** _full_neighbor: neighbor ids, weights and [node index, neighbor index] pairs. *)
Definition hop_neighbors (nodes types : list Z) : res (list Z * list N * list (nat * nat)) :=
  match nodes with
  | [] => Ok ([], [], [])
  | _ =>
      do r <- neighbors fsub g nodes types None ;;
      let '(nb, cnt) := r in
      Ok (map nb_id nb, map nb_weight nb,
          flat_map (fun x => map (fun k => (fst x, k)) (seq 0 (snd x))) (combine (seq 0 (length cnt)) cnt))
  end.
Record sparse := Sparse { s_indices : list (nat * nat); s_values : list N; s_shape : nat * nat; s_len : nat }.
(** One hop: [prev] is the padded node list, [cnt] the number of real nodes in it. *)
Definition get_neighbor_hop (prev : list Z) (cnt : nat) (types : list Z) (max : nat) : res (list Z * nat * sparse) :=
  let real := firstn cnt prev in
  do r <- hop_neighbors real types ;;
  let '(values, weights, indices) := r in
  let next := np_unique values in
  let next_idx := map (fun x => position x next) values in
  let pairs := combine (map fst indices) next_idx in
  let len := length pairs in
  let size := max * length prev in
  if size <? len then Fail EFatal
  else
    Ok (next ++ repeat 0%Z (size - length next), length next,
        Sparse (pairs ++ repeat (0, 0) (size - len)) (weights ++ repeat 0%N (size - len))
               (length real, length next) len).
Fixpoint get_neighbor_loop (prev : list Z) (cnt : nat) (path : list (list Z)) (max : nat)
  : res (list (list Z * nat) * list sparse) :=
  match path with
  | [] => Ok ([(prev, cnt)], [])
  | types :: path' =>
      do h <- get_neighbor_hop prev cnt types max ;;
      let '(next, c, adj) := h in
      do r <- get_neighbor_loop next c path' max ;;
      Ok ((prev, cnt) :: fst r, adj :: snd r)
  end.
Definition get_neighbor (nodes : list Z) (path : list (list Z)) (max : nat) : res (list (list Z * nat) * list sparse) :=
  get_neighbor_loop nodes (length nodes) path max.
End Ops.

(** ** sample_fanout *)
(** The entries of the hops after the first.  [sample types count n r]: [r] is a possible result of sampling
    [count] neighbors of [n]; the nodes of one call draw from one generator, so any
    combination of possible results is possible. *)
Fixpoint fanout {X} (id : X -> Z) (sample : list Z -> nat -> Z -> res (list X) -> Prop)
    (nodes : list Z) (path : list (list Z * nat)) (out : res (list (list X))) : Prop :=
  match path with
  | [] => out = Ok []
  | (types, count) :: path' =>
      exists rs, Forall2 (sample types count) nodes rs /\
      match mapM (fun r => r) rs with
      | Fail e => out = Fail e
      | Ok ls =>
          exists rest, fanout id sample (map id (concat ls)) path' rest /\
          out = do l <- rest ;; Ok (concat ls :: l)
      end
  end.
