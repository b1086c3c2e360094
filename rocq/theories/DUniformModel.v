(** Uniform neighbor sampling through servers:
    /repo/src/cc/lib/distributed/graph_engine.cc UniformSampleNeighbors 626-688,
    /repo/src/cc/lib/distributed/client.cc UniformSampleNeighbor 771-885.
    The callbacks of the requests are empty and the merge starts after WaitForFutures (813):
    the order of the replies cannot matter.  Random numbers of different servers and of the
    client are independent here (they come from generators with different seeds, 781, 800).
    As in NeighborModel an edge or a row at which the code only may look is always read. *)
From Verif Require Import Base Dist WriterModel LoaderModel GraphModel ReservoirModel NeighborModel FeatureModel ServerModel.
Local Open Scope nat_scope.

(** UniformSampleNeighborsReply: node_ids, shard_counts; neighbor_ids, neighbor_types and
    timestamps together. *)
Record ureply := UR { ur_nodes : list Z; ur_counts : list nat; ur_slots : list slot }.

(** 642-680: one entry per position of the request whose node is known ([Some]: number of
    edges to choose from, row of [count] slots). *)
Fixpoint reply_of (nodes : list Z) (rows : list (option (nat * list slot))) : ureply :=
  match nodes, rows with
  | n :: ns, Some (c, row) :: rs =>
      let r := reply_of ns rs in UR (n :: ur_nodes r) (c :: ur_counts r) (row ++ ur_slots r)
  | _ :: ns, None :: rs => reply_of ns rs
  | _, _ => UR [] [] []
  end.

Definition server_batches (wor : bool) (g : graph) (types nodes : list Z) (ts : option (list Z))
  : res (list (option (list (list slot)))) :=
  mapM (fun x => node_batches wor g types (fst x) (snd x)) (stamps nodes ts).

(** Without replacement: AlgorithmL per node (651); [skip], [pick] as there. *)
Definition row_without (skip pick : nat -> nat) (count : nat) (default : slot) (o : option (list (list slot)))
  : res (option (nat * list slot)) :=
  match o with
  | None => Ok None
  | Some bs =>
      do r <- lrun skip pick count bs linit (repeat None count) ;;
      Ok (Some (length (concat bs), or_default default (snd r)))
  end.
Definition serve_without (skip pick : nat -> nat -> nat) (g : graph) (types nodes : list Z) (ts : option (list Z))
    (count : nat) (default : slot) : res ureply :=
  do os <- server_batches true g types nodes ts ;;
  do rows <- mapM (fun x => row_without (skip (fst x)) (pick (fst x)) count default (snd x)) (indexed_from 0 os) ;;
  Ok (reply_of nodes rows).

(** With replacement: WithReplacement per node (652). *)
Definition row_with (count : nat) (default : slot) (o : option (list (list slot))) : dist (option (nat * list slot)) :=
  match o with
  | None => dret None
  | Some bs => dmap (fun r => Some (length (concat bs), or_default default r)) (wr_run 0 bs (repeat None count))
  end.
Fixpoint dlist {A} (ds : list (dist A)) : dist (list A) :=
  match ds with [] => dret [] | d :: t => dbind d (fun a => dmap (cons a) (dlist t)) end.

(** Client 851-859: the entry of one reply for the node at hand, and the iterator after it. *)
Definition node_entry (count : nat) (n : Z) (r : ureply) (it : nat) : res (option (nat * list slot) * nat) :=
  match nth_error (ur_nodes r) it with
  | None => Ok (None, it)
  | Some m =>
      if (m =? n)%Z then
        do w <- get (ur_counts r) it ;;
        if count * it + count <=? length (ur_slots r)
        then Ok (Some (w, slice (ur_slots r) (count * it) count), S it)
        else Fail EUB
      else Ok (None, it)
  end.
Definition present {A} (l : list (option A)) : list A := flat_map (fun o => match o with Some x => [x] | None => [] end) l.

(** 833-883: for every node the entries of the replies, in order. *)
Fixpoint client_entries (count : nat) (nodes : list Z) (rs : list ureply) (its : list nat)
  : res (list (list (nat * list slot))) :=
  match nodes with
  | [] => Ok []
  | n :: t =>
      do x <- mapM (fun p => node_entry count n (fst p) (snd p)) (combine rs its) ;;
      do rest <- client_entries count t rs (map snd x) ;;
      Ok (present (map fst x) :: rest)
  end.

(** WithoutReplacementMerge; the offsets are taken modulo [count] (863). *)
Fixpoint merge_without (k seen : nat) (es : list (nat * list slot)) (r : list (option slot)) : dist (res (list (option slot))) :=
  match es with
  | [] => dret (Ok r)
  | (n, batch) :: t =>
      dbind (madd k n seen) (fun x =>
      match (do us <- snd x ;; updates batch (map (fun u => (fst u, snd u mod k)) us) r) with
      | Ok r' => merge_without k (fst x) t r'
      | Fail e => dret (Fail e)
      end)
  end.

(** WithReplacement::add(w, update), update as in 860-871. *)
Definition mw_slot (k seen : nat) (e : nat * list slot) (x : option slot) : dist (option slot) :=
  match fst e with
  | O => dret x
  | S _ => dbind (dflip (qnat (fst e) / qnat (seen + fst e))%Q) (fun b =>
           if b then dbind (duniform (fst e)) (fun j => dret (nth_error (snd e) (j mod k))) else dret x)
  end.
Fixpoint mw_slots (k seen : nat) (e : nat * list slot) (r : list (option slot)) : dist (list (option slot)) :=
  match r with
  | [] => dret []
  | x :: t => dbind (mw_slot k seen e x) (fun x' => dbind (mw_slots k seen e t) (fun t' => dret (x' :: t')))
  end.
Fixpoint merge_with (k seen : nat) (es : list (nat * list slot)) (r : list (option slot)) : dist (list (option slot)) :=
  match es with
  | [] => dret r
  | e :: t => dbind (mw_slots k seen e r) (fun r' => merge_with k (seen + fst e) t r')
  end.

(** py_graph.cc 820 makes a span of [out_size] times from a null pointer when no timestamps
    are given (client.py 1092-1099); client.cc 818 fills it. *)
Definition fills_null (ret : bool) (nodes : list Z) (ts : option (list Z)) (count : nat) : bool :=
  ret && (match ts with None => true | Some _ => false end) && negb (length nodes * count =? 0).

Definition d_entries (ret : bool) (nodes : list Z) (ts : option (list Z)) (count : nat) (rs : list ureply)
  : res (list (list (nat * list slot))) :=
  if fills_null ret nodes ts count then Fail EUB else client_entries count nodes rs (map (fun _ => 0) rs).

Fixpoint sequence {A} (l : list (res A)) : res (list A) :=
  match l with [] => Ok [] | a :: t => do x <- a ;; do y <- sequence t ;; Ok (x :: y) end.

(** [skip s i], [pick s i]: random numbers of server [s] for position [i]. *)
Definition d_uniform_without (skip pick : nat -> nat -> nat -> nat) (ret : bool) (gs : list graph) (nodes types : list Z)
    (ts : option (list Z)) (count : nat) (default : slot) : dist (res (list (list slot))) :=
  match (do rs <- mapM (fun x => serve_without (skip (fst x)) (pick (fst x)) (snd x) (make_sorted_list types) nodes ts count default)
                       (indexed_from 0 gs) ;;
         d_entries ret nodes ts count rs) with
  | Fail e => dret (Fail e)
  | Ok ess =>
      dmap (fun rows => do l <- sequence rows ;; Ok (map (or_default default) l))
        (dlist (map (fun es => merge_without count 0 es (repeat None count)) ess))
  end.

Definition d_uniform_with (ret : bool) (gs : list graph) (nodes types : list Z) (ts : option (list Z)) (count : nat) (default : slot)
  : dist (res (list (list slot))) :=
  match mapM (fun g => server_batches false g (make_sorted_list types) nodes ts) gs with
  | Fail e => dret (Fail e)
  | Ok oss =>
      dbind (dlist (map (fun os => dlist (map (row_with count default) os)) oss)) (fun rowss =>
      match d_entries ret nodes ts count (map (reply_of nodes) rowss) with
      | Fail e => dret (Fail e)
      | Ok ess => dmap (fun rows => Ok (map (or_default default) rows))
                    (dlist (map (fun es => merge_with count 0 es (repeat None count)) ess))
      end)
  end.
