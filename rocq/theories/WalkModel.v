(** Random walks: RandomWalk of /repo/src/cc/lib/py_graph.cc 882-1022 (client.py 1262-1316).
    Simplifications: quotients and sums of weights are exact; the row of a node is kept as a list
    instead of a part of one array. *)
From Verif Require Import Base Dist LoaderModel GraphModel NeighborModel.
Local Open Scope Z_scope.

(** One row: past_nodes, curr_nodes, t_nbs and the nodes visited, the last one first. *)
Record wrow := WR { w_past : Z; w_curr : Z; w_t : list (Z * N); w_hist : list Z }.

(** t_nbs is a map; emplace keeps the first weight of a node. *)
Fixpoint find_nbr (n : Z) (t : list (Z * N)) : option N :=
  match t with [] => None | (m, w) :: t' => if m =? n then Some w else find_nbr n t' end.

(** The parts of an answer that belong to the nodes (nb_offset). *)
Fixpoint split_counts {A} (cs : list nat) (l : list A) : res (list (list A)) :=
  match cs with
  | [] => Ok []
  | c :: cs' => if (length l <? c)%nat then Fail EUB else do r <- split_counts cs' (skipn c l) ;; Ok (firstn c l :: r)
  end.

Definition nbr_node (x : nbr) : Z * N := let '(d, _, w, _) := x in (d, w).

Section Walk.
Variable qval : N -> Q.
Variables p q : Q.
Variable default : Z.
Variable distributed : bool.

(** 945-972: transition_node_prob. *)
Definition candidates (past curr : Z) (t nbs : list (Z * N)) : list (Z * Q) :=
  match find_nbr curr t with Some w => [(past, (qval w / p)%Q)] | None => [] end ++
  flat_map (fun x => if fst x =? past then []
                     else match find_nbr (fst x) t with Some _ => [(fst x, qval (snd x))] | None => [(fst x, (qval (snd x) / q)%Q)] end) nbs.
(** 982-987: std::sort of pairs, for servers only. *)
Definition pair_ltb (a b : Z * Q) : bool := (fst a <? fst b) || ((fst a =? fst b) && negb (Qle_bool (snd b) (snd a))).
Fixpoint insert_pair (x : Z * Q) (l : list (Z * Q)) : list (Z * Q) :=
  match l with [] => [x] | y :: t => if pair_ltb x y then x :: l else y :: insert_pair x t end.
Definition sort_pairs (l : list (Z * Q)) : list (Z * Q) := fold_right insert_pair [] l.
Definition arranged (l : list (Z * Q)) : list (Z * Q) := if distributed then sort_pairs l else l.
(** 996-1002. *)
Fixpoint partial_sums (a : Q) (l : list (Z * Q)) : list Q :=
  match l with [] => [] | x :: t => (a + snd x)%Q :: partial_sums (a + snd x)%Q t end.
(** 1004-1006: a number in [0, total), and the first partial sum that is not below it. *)
Definition pick_next (l : list (Z * Q)) : rprog Z :=
  RPick 0 (qsum snd l) (partial_sums 0 l) (fun i => rlift (do x <- get l i ;; Ok (fst x))).
(** 941-1018 for one row. *)
Definition walk_row (r : wrow) (nbs : list (Z * N)) : rprog wrow :=
  match candidates (w_past r) (w_curr r) (w_t r) nbs with
  | [] => RRet (WR (w_curr r) default (w_t r) (default :: w_hist r))
  | c => rbind (pick_next (arranged c)) (fun n => RRet (WR (w_curr r) n nbs (n :: w_hist r)))
  end.
Fixpoint walk_rows (rs : list wrow) (ns : list (list (Z * N))) : rprog (list wrow) :=
  match rs, ns with
  | r :: rs', n :: ns' => rbind (walk_row r n) (fun r' => rbind (walk_rows rs' ns') (fun l => RRet (r' :: l)))
  | [], _ => RRet []
  | _, _ => RErr EUB
  end.

(** 931-1020; [query k nodes] is the answer of GetNeighborsInternal in step [k] (its error code
    is not looked at; the theorems are about queries that succeed). *)
Variable query : nat -> list Z -> res (list nbr * list nat).
Definition walk_step (k : nat) (rs : list wrow) : rprog (list wrow) :=
  rbind (rlift (do x <- query k (map w_curr rs) ;; split_counts (snd x) (map nbr_node (fst x)))) (fun ns => walk_rows rs ns).
Fixpoint walk_steps (k len : nat) (rs : list wrow) : rprog (list wrow) :=
  match len with
  | O => RRet rs
  | S m => rbind (walk_step k rs) (fun rs' => walk_steps (S k) m rs')
  end.
Definition start_row (n : Z) : wrow := WR n n [] [n].
Definition random_walk (nodes : list Z) (len : nat) : rprog (list (list Z)) :=
  rbind (walk_steps 0 len (map start_row nodes)) (fun rs => RRet (map (fun r => rev (w_hist r)) rs)).
End Walk.
