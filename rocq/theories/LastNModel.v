(** Most recently created neighbors:
    /repo/src/cc/lib/graph/partition.cc LastNCreatedNeighbors 832-883,
    /repo/src/cc/lib/graph/graph.cc Graph::LastNCreated 552-626,
    /repo/src/python/deepgnn/graph_engine/snark/client.py lastn_neighbors 1165-1237.
    Modelled with return_edge_created_ts set (the other columns do not depend on it) on a
    graph with a watermark (asserted at client.py 1197). *)
From Verif Require Import Base WriterModel LoaderModel GraphModel.
Local Open Scope Z_scope.

(** partition.h 29-30: priority_queue of (created, position) with [std::greater]; the top is
    the least pair.  Kept as an ascending list. *)
Definition pair_lt (a b : Z * nat) : bool := (fst a <? fst b) || ((fst a =? fst b) && (snd a <? snd b)%nat).
Fixpoint emplace (x : Z * nat) (q : list (Z * nat)) : list (Z * nat) :=
  match q with
  | [] => [x]
  | y :: r => if pair_lt y x then y :: emplace x r else x :: q
  end.

(** Assignment to the spans at [pos]. *)
Definition store {A} (l : list A) (pos : nat) (x : A) : res (list A) :=
  if (pos <? length l)%nat then Ok (firstn pos l ++ x :: skipn (S pos) l) else Fail EUB.

(** Lines 849-876 for an edge that passed the time check; [snd x] is its created time. *)
Definition lastn_push (count : nat) (x : nbr) (st : list (Z * nat) * list nbr) : res (list (Z * nat) * list nbr) :=
  let '(q, out) := st in
  let c := snd x in
  if (length q =? count)%nat then
    match q with
    | [] => Fail EUB
    | top :: q' =>
        if c <=? fst top then Ok st
        else do out' <- store out (snd top) x ;; Ok (emplace (c, snd top) q', out')
    end
  else do out' <- store out (length q) x ;; Ok (emplace (c, length q) q, out').

Fixpoint foldR {A S} (f : A -> S -> res S) (l : list A) (s : S) : res S :=
  match l with [] => Ok s | a :: t => do s' <- f a s ;; foldR f t s' end.

Section LastN.
Variable fsub : N -> N -> N.

(** Condition at 844. *)
Definition lastn_skip (x : Z * Z) (t : Z) : bool :=
  (negb (snd x =? -1) && (snd x <? t)) || (t <? fst x).

(** The lambda 839-877. *)
Definition lastn_group (p : partition) (t : Z) (count : nat) (g : nat * nat * nat)
    (st : list (Z * nat) * list nbr) : res (list (Z * nat) * list nbr) :=
  let '(start, last, i) := g in
  foldR (fun index st =>
    do x <- get (p_ts p) index ;;
    if lastn_skip x t then Ok st
    else
      do d <- get (p_dst p) index ;;
      do ty <- get (p_etypes p) i ;;
      do w <- edge_weight_at fsub p start index ;;
      lastn_push count (d, ty, w, fst x) st) (seq start (last - start)) st.

Definition lastn_partition (p : partition) (id : nat) (t : Z) (types : list Z) (count : nat)
    (st : list (Z * nat) * list nbr) : res (list (Z * nat) * list nbr) :=
  do gs <- nii p id types ;;
  foldR (lastn_group p t count) gs st.

(** One node of Graph::LastNCreated 575-620.  [init] is what the output spans hold before the
    call; the number of neighbors found is the size of the queue (882, 603). *)
Definition g_lastn (g : graph) (types : list Z) (count : nat) (default : nbr) (init : list nbr) (n t : Z)
  : res (list nbr) :=
  do o <- occurrences g n ;;
  match o with
  | None => Ok (repeat default count)
  | Some os =>
      do st <- foldR (fun x st => lastn_partition (fst x) (snd x) t types count st) os ([], init) ;;
      let found := length (fst st) in
      Ok (firstn found (snd st) ++ repeat default (count - found))
  end.

(** client.py lastn_neighbors: the spans are filled with the defaults before the call. *)
Definition lastn_neighbors (g : graph) (nodes : list Z) (types : list Z) (ts : list Z) (count : nat) (default : nbr)
  : res (list (list nbr)) :=
  mapM (fun x => g_lastn g (make_sorted_list types) count default (repeat default count) (fst x) (snd x)) (combine nodes ts).
End LastN.
