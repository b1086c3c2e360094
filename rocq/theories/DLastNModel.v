(** Most recently created neighbors through servers:
    /repo/src/cc/lib/distributed/graph_engine.cc GetLastNCreatedNeighbors 517-567,
    /repo/src/cc/lib/graph/merger.h MergeLastNCreatedNeighbors 169-243,
    /repo/src/cc/lib/distributed/client.cc LastNCreated 592-630.
    As in LastNModel return_edge_created_ts is set and the graphs have a watermark
    (asserted at graph_engine.cc 522). *)
From Verif Require Import Base WriterModel LoaderModel GraphModel LastNModel ServerModel.
Local Open Scope Z_scope.

(** The rows of a reply start as -1, -1, -1.f (0xbf800000) and PLACEHOLDER_TIMESTAMP. *)
Definition blank : nbr := (-1, -1, 3212836864%N, -1).

Section Serve.
Variable fsub : N -> N -> N.

(** One node, 539-563: its row of the reply and neighbor_counts.  LastNCreatedNeighbors
    returns the size of the queue, which does not shrink from one partition to the next
    (560: the maximum is the last). *)
Definition serve_lastn_node (g : graph) (types : list Z) (count : nat) (n t : Z) : res (list nbr * nat) :=
  do o <- occurrences g n ;;
  match o with
  | None => Ok (repeat blank count, 0%nat)
  | Some os =>
      do st <- foldR (fun x st => lastn_partition fsub (fst x) (snd x) t types count st) os ([], repeat blank count) ;;
      Ok (snd st, length (fst st))
  end.

(** The reply: all rows one after the other, and the counts. *)
Definition serve_lastn (g : graph) (types : list Z) (count : nat) (nodes ts : list Z) : res (list nbr * list nat) :=
  do rs <- mapM (fun x => serve_lastn_node g types count (fst x) (snd x)) (combine nodes ts) ;;
  Ok (concat (map fst rs), map snd rs).
End Serve.

(** merger.h 197-229: the entries of one reply for the node at [k].  The loop body 208-228
    repeats partition.cc 849-876. *)
Definition merge_lastn_reply (count k : nat) (r : list nbr * list nat) (st : list (Z * nat) * list nbr)
  : res (list (Z * nat) * list nbr) :=
  do c <- get (snd r) k ;;
  foldR (fun i st => do x <- get (fst r) i ;; lastn_push count x st) (seq (k * count) c) st.

(** 183-241: one node; [row] is its part of the output spans. *)
Definition merge_lastn_node (count : nat) (default : nbr) (replies : list (list nbr * list nat)) (k : nat) (row : list nbr)
  : res (list nbr) :=
  do st <- foldR (merge_lastn_reply count k) replies ([], row) ;;
  let found := length (fst st) in
  Ok (firstn found (snd st) ++ repeat default (count - found)).

Definition merge_lastn (count : nat) (default : nbr) (replies : list (list nbr * list nat)) (out : res (list (list nbr)))
  : res (list (list nbr)) :=
  do o <- out ;;
  mapM (fun x => merge_lastn_node count default replies (fst x) (snd x)) (indexed_from 0 o).

(** client.py fills the spans with the defaults. *)
Definition client_lastn (n count : nat) (default : nbr) (served : list (list nbr * list nat)) (es : list event)
  : res (list (list nbr)) :=
  snd (run_call ([], []) served (last_call (merge_lastn count default)) es
         (length served, Ok (repeat (repeat default count) n))).

Definition d_lastn (fsub : N -> N -> N) (gs : list graph) (nodes types ts : list Z) (count : nat) (default : nbr)
    (es : list event) : res (list (list nbr)) :=
  do rs <- mapM (fun g => serve_lastn fsub g (make_sorted_list types) count nodes ts) gs ;;
  client_lastn (length nodes) count default rs es.
