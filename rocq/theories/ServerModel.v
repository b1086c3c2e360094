(** Queries through servers: the handlers of /repo/src/cc/lib/distributed/graph_engine.cc
    (GetNodeTypes 94-121, GetNodeFeatures 123-173, GetEdgeFeatures 175-228,
    GetNodeSparseFeatures 230-273, GetNodeStringFeatures 327-371, GetNeighborCounts 423-456,
    GetNeighbors 458-515) and the client /repo/src/cc/lib/distributed/client.cc
    (GetNodeType 232-282, GetNodeFeature 284-388, GetEdgeFeature 390-467,
    GetSparseFeature 57-106, GetStringFeature 108-155, NeighborCount 541-590,
    FullNeighbor 632-716) with /repo/src/cc/lib/graph/merger.h (ExtractFeatures 32-54,
    ExtractStringFeatures 57-76, UpdateSparseFeatureIndex 79-133,
    UpdateStringFeatureIndex 136-166).
    A server holds a [graph]: its constructor and ReadNodeMap (34-92, 724-783) repeat the
    code of graph.cc.  A request reaches every server; server [i] answers with reply [i].
    Replies are protocol buffer messages: the repeated fields are lists here. *)
From Coq Require Import Permutation.
From Verif Require Import Base WriterModel LoaderModel GraphModel FeatureModel.
Local Open Scope Z_scope.

(** ** Schedules *)

(** A call sends one request per server.  gRPC fills replies[shard] ([Fill]) and afterwards
    a thread of the completion queue runs the callback of that shard ([Call], client.cc
    196-218).  Callbacks are atomic here: the ones that merge take a mutex or use the
    atomic counter; GetNodeType and GetEdgeFeature, which do not, are treated below. *)
Inductive event := Fill (shard : nat) | Call (shard : nat).

Definition schedule (n : nat) (es : list event) : Prop :=
  Permutation es (map Fill (seq 0 n) ++ map Call (seq 0 n)) /\
  forall i l1 l2, es = l1 ++ Call i :: l2 -> In (Fill i) l1.

Fixpoint set_nth {A} (i : nat) (x : A) (l : list A) : list A :=
  match l, i with
  | [], _ => []
  | _ :: t, O => x :: t
  | a :: t, S j => a :: set_nth j x t
  end.

(** [cb shard replies acc]: what the callback of [shard] does to the variables captured by
    reference, seeing the replies filled so far. *)
Definition run_event {R A} (served : list R) (cb : nat -> list R -> A -> A) (st : list R * A) (e : event)
  : list R * A :=
  match e with
  | Fill i => match nth_error served i with
              | Some r => (set_nth i r (fst st), snd st)
              | None => st
              end
  | Call i => (fst st, cb i (fst st) (snd st))
  end.
Definition run_call {R A} (empty : R) (served : list R) (cb : nat -> list R -> A -> A) (es : list event) (a : A) : A :=
  snd (fold_left (run_event served cb) es (repeat empty (length served), a)).

(** A callback that only reads its own reply. *)
Definition own {R A} (f : nat -> R -> res A -> res A) (i : nat) (rs : list R) (a : res A) : res A :=
  match nth_error rs i with Some r => f i r a | None => Fail EUB end.

(** Callbacks that wait for the last reply: responses_left.fetch_sub(1) > 1 returns. *)
Definition last_call {R A} (merge : list R -> res A -> res A) (i : nat) (rs : list R) (st : nat * res A)
  : nat * res A :=
  ((fst st - 1)%nat, if (1 <? fst st)%nat then snd st else merge rs (snd st)).

(** ** Node types *)

Fixpoint indexed_from {A} (k : nat) (l : list A) : list (nat * A) :=
  match l with [] => [] | a :: t => (k, a) :: indexed_from (S k) t end.

(** GetNodeTypes 94-121: the reply lists (offset, type) of the nodes with a type. *)
Definition serve_types (g : graph) (nodes : list Z) : res (list (nat * Z)) :=
  do ls <- mapM (fun x =>
      do o <- occurrences g (snd x) ;;
      match o with
      | None => Ok []
      | Some os => do ty <- first_type os (-1) ;; Ok (if ty =? -1 then [] else [(fst x, ty)])
      end) (indexed_from 0 nodes) ;;
  Ok (concat ls).

(** Client 250-281.  The callbacks take no lock: [ws] are the single writes
    output[index] = type, found[index] = true of all replies in any order. *)
Definition write_type (out : list (option Z)) (w : nat * Z) : list (option Z) := set_nth (fst w) (Some (snd w)) out.
Definition client_types (n : nat) (ws : list (nat * Z)) (default : Z) : list Z :=
  map (fun o => match o with Some t => t | None => default end) (fold_left write_type ws (repeat None n)).

(** ** Neighbor counts *)
Definition serve_counts (g : graph) (types : list Z) (nodes : list Z) (ts : option (list Z)) : res (list nat) :=
  per_node (g_neighbor_count g types) nodes ts.

(** std::transform 568-580 over the shorter of output and reply. *)
Fixpoint add_counts (out reply : list nat) : list nat :=
  match out, reply with
  | o :: out', r :: reply' => (r + o)%nat :: add_counts out' reply'
  | _, _ => out
  end.
Definition merge_counts (replies : list (list nat)) (out : res (list nat)) : res (list nat) :=
  do o <- out ;; Ok (fold_left add_counts replies o).
Definition client_counts (n : nat) (served : list (list nat)) (es : list event) : res (list nat) :=
  snd (run_call [] served (last_call merge_counts) es (length served, Ok (repeat 0%nat n))).

(** ** Neighbors *)
Section Neighbors.
Variable fsub : N -> N -> N.

Definition serve_neighbors (g : graph) (types : list Z) (nodes : list Z) (ts : option (list Z))
  : res (list nbr * list nat) :=
  do ls <- per_node (g_full_neighbor fsub g types) nodes ts ;;
  do cs <- per_node (g_full_neighbor_count fsub g types) nodes ts ;;
  Ok (concat ls, cs).
End Neighbors.

(** Inner loop 672-709: one node, all replies; [offs] is reply_offsets. *)
Fixpoint merge_node (curr : nat) (replies : list (list nbr * list nat)) (offs : list nat) : res (list nbr * nat * list nat) :=
  match replies, offs with
  | [], _ => Ok ([], 0%nat, [])
  | r :: replies', off :: offs' =>
      do x <- merge_node curr replies' offs' ;;
      let '(nbs, total, offs2) := x in
      match nth_error (snd r) curr with
      | None => Ok (nbs, total, off :: offs2)                     (* short reply: logged and skipped *)
      | Some O => Ok (nbs, total, off :: offs2)
      | Some count =>
          if (off + count <=? length (fst r))%nat
          then Ok (slice (fst r) off count ++ nbs, (count + total)%nat, (off + count)%nat :: offs2)
          else Fail EUB
      end
  | _ :: _, [] => Fail EUB
  end.

(** Outer loop 670-711; [counts] is output_neighbor_counts, zeroed by the caller
    (py_graph.cc 640). *)
Fixpoint merge_nodes (curr : nat) (replies : list (list nbr * list nat)) (offs : list nat) (counts : list nat)
  : res (list nbr * list nat) :=
  match counts with
  | [] => Ok ([], [])
  | c :: counts' =>
      do x <- merge_node curr replies offs ;;
      let '(nbs, total, offs') := x in
      do r <- merge_nodes (S curr) replies offs' counts' ;;
      Ok (nbs ++ fst r, (c + total)%nat :: snd r)
  end.
Definition merge_neighbors (replies : list (list nbr * list nat)) (out : res (list nbr * list nat))
  : res (list nbr * list nat) :=
  do o <- out ;;
  do r <- merge_nodes 0 replies (repeat 0%nat (length replies)) (snd o) ;;
  Ok (fst o ++ fst r, snd r).
Definition client_neighbors (n : nat) (served : list (list nbr * list nat)) (es : list event) : res (list nbr * list nat) :=
  snd (run_call ([], []) served (last_call merge_neighbors) es (length served, Ok ([], repeat 0%nat n))).

(** The calls of client.py through servers. *)
(** [out] is a possible answer of node_types. *)
Definition d_node_types (gs : list graph) (nodes : list Z) (default : Z) (out : list Z) : Prop :=
  exists rs ws, mapM (fun g => serve_types g nodes) gs = Ok rs /\ Permutation ws (concat rs) /\
                out = client_types (length nodes) ws default.
Definition d_neighbor_counts (gs : list graph) (nodes types : list Z) (ts : option (list Z)) (es : list event)
  : res (list nat) :=
  do rs <- mapM (fun g => serve_counts g (make_sorted_list types) nodes ts) gs ;;
  client_counts (length nodes) rs es.
Definition d_neighbors (fsub : N -> N -> N) (gs : list graph) (nodes types : list Z) (ts : option (list Z)) (es : list event)
  : res (list nbr * list nat) :=
  do rs <- mapM (fun g => serve_neighbors fsub g (make_sorted_list types) nodes ts) gs ;;
  client_neighbors (length nodes) rs es.

(** ** Dense features *)

(** NodeFeaturesReply: offsets, timestamps and feature_values. *)
Record freply := FR { fr_off : list nat; fr_ts : list Z; fr_val : list N }.
Definition no_freply := FR [] [] [].

Definition add_freply (k : nat) (st : list Z * list N) (r : freply) : freply :=
  if existsb (fun t => 0 <=? t) (fst st)
  then FR (k :: fr_off r) (fst st ++ fr_ts r) (snd st ++ fr_val r) else r.

(** Loop 138-166; elements without any value leave no trace in the reply (the buffer is
    reused or trimmed, 142/169). *)
Fixpoint serve_rows {X} (q : X -> option Z -> res (option (list Z * list N))) (k : nat) (xs : list (X * option Z))
  : res freply :=
  match xs with
  | [] => Ok no_freply
  | (x, t) :: xs' =>
      do o <- q x t ;;
      do r <- serve_rows q (S k) xs' ;;
      Ok (match o with None => r | Some st => add_freply k st r end)
  end.

Definition serve_node_features (g : graph) (fs : list (Z * nat)) (nodes : list Z) (ts : option (list Z)) : res freply :=
  serve_rows (fun n t =>
    do o <- occurrences g n ;;
    match o with
    | None => Ok None
    | Some os => do st <- foldM (fun x st => part_node_feature (fst x) (snd x) t fs st) os
                            (map (fun _ => -1) fs, zeros (total_size fs)) ;;
                 Ok (Some st)
    end) 0 (stamps nodes ts).

(** GetEdgeFeatures 190-226. *)
Definition serve_edge_features (g : graph) (fs : list (Z * nat)) (edges : list (Z * Z * Z)) (ts : option (list Z)) : res freply :=
  serve_rows (fun e t =>
    let '(src, dst, ty) := e in
    do o <- occurrences g src ;;
    match o with
    | None => Ok None
    | Some os => do st <- foldM (fun x st => part_edge_feature (fst x) (snd x) dst ty t fs st) os
                            (map (fun _ => -1) fs, zeros (total_size fs)) ;;
                 Ok (Some st)
    end) 0 (stamps edges ts).

(** response_index entry: (shard, node_index in the reply, timestamp). *)
Definition rentry : Type := Z * Z * Z.
Definition re_ts (e : rentry) : Z := snd e.

(** Callback 318-346: inner loop over features from entry [index]. *)
Fixpoint note_features (shard node_index : nat) (count : nat) (index : nat) (ts : list Z) (ri : list rentry)
  : res (list Z * list rentry) :=
  match count with
  | O => Ok (ts, ri)
  | S c =>
      match ts with
      | [] => Fail EUB
      | t :: ts' =>
          do e <- get ri index ;;
          note_features shard node_index c (S index) ts'
            (if re_ts e <=? t then set_nth index (Z.of_nat shard, Z.of_nat node_index, t) ri else ri)
      end
  end.
Fixpoint note_nodes (shard node_index : nat) (nf : nat) (offs : list nat) (ts : list Z) (ri : list rentry) : res (list rentry) :=
  match offs with
  | [] => Ok ri
  | o :: offs' =>
      do r <- note_features shard node_index nf (o * nf) ts ri ;;
      note_nodes shard (S node_index) nf offs' (fst r) (snd r)
  end.
Definition note_reply (nf : nat) (shard : nat) (r : freply) (ri : res (list rentry)) : res (list rentry) :=
  do l <- ri ;; note_nodes shard 0 nf (fr_off r) (fr_ts r) l.

(** Final loop 366-387 for one entry; [prefix] is feature_len_prefix. *)
Definition read_entry (served : list freply) (fv_size : nat) (f : nat * nat) (e : rentry) : res (list N) :=
  let '(shard, sub, t) := e in
  let '(prefix, size) := f in
  if 0 <=? t then
    if (0 <=? shard) && (0 <=? sub) then
      do r <- get served (Z.to_nat shard) ;;
      let start := (Z.to_nat sub * fv_size + prefix)%nat in
      if (start + size <=? length (fr_val r))%nat then Ok (slice (fr_val r) start size) else Fail EUB
    else Fail EUB
  else Ok (zeros size).

Fixpoint prefixes (p : nat) (fs : list (Z * nat)) : list (nat * nat) :=
  match fs with [] => [] | (_, s) :: t => (p, s) :: prefixes (p + s) t end.

Definition client_node_features (n : nat) (fs : list (Z * nat)) (served : list freply) (es : list event)
  : res (list (list N)) :=
  let nf := length fs in
  do ri <- run_call no_freply served (own (note_reply nf)) es (Ok (repeat (-1, -1, -1) (n * nf))) ;;
  mapM (fun i => do ls <- mapM (fun x => do e <- get ri (i * nf + fst x) ;; read_entry served (total_size fs) (snd x) e)
                               (indexed_from 0 (prefixes 0 fs)) ;;
                 Ok (concat ls)) (seq 0 n).

Definition d_node_features (gs : list graph) (nodes : list Z) (fs : list (Z * nat)) (ts : option (list Z)) (es : list event)
  : res (list (list N)) :=
  do rs <- mapM (fun g => serve_node_features g fs nodes ts) gs ;;
  client_node_features (length nodes) fs rs es.

(** GetEdgeFeature 424-466: whole rows are copied as replies arrive; found[index]. *)
Fixpoint copy_rows (size : nat) (offs : list nat) (vals : list N) (out : list (option (list N))) : res (list (option (list N))) :=
  match offs with
  | [] => Ok out
  | o :: offs' =>
      if (size <=? length vals)%nat
      then copy_rows size offs' (skipn size vals) (set_nth o (Some (firstn size vals)) out)
      else Fail EUB
  end.
Definition client_edge_features (n : nat) (fs : list (Z * nat)) (served : list freply) (es : list event)
  : res (list (list N)) :=
  let size := total_size fs in
  do out <- run_call no_freply served
              (own (fun _ r o => do l <- o ;; copy_rows size (fr_off r) (fr_val r) l)) es (Ok (repeat None n)) ;;
  Ok (map (fun o => match o with Some bs => bs | None => zeros size end) out).
Definition d_edge_features (gs : list graph) (edges : list (Z * Z * Z)) (fs : list (Z * nat)) (ts : option (list Z))
    (es : list event) : res (list (list N)) :=
  do rs <- mapM (fun g => serve_edge_features g fs edges ts) gs ;;
  client_edge_features (length edges) fs rs es.

(** ** String features *)

(** StringFeaturesReply: dimensions (one per element and feature), timestamps and values. *)
Record streply := SR { sr_dims : list Z; sr_ts : list Z; sr_val : list N }.
Definition no_streply := SR [] [] [].

Fixpoint serve_strings {X} (nf : nat)
    (q : X -> option Z -> list N -> res (option (list Z * list Z * list N)))
    (xs : list (X * option Z)) (out : list N) : res streply :=
  match xs with
  | [] => Ok (SR [] [] out)
  | (x, t) :: xs' =>
      do o <- q x t out ;;
      match o with
      | None => do r <- serve_strings nf q xs' out ;; Ok (SR (repeat 0 nf ++ sr_dims r) (sr_ts r) (sr_val r))
      | Some (flags, dims, out') =>
          do r <- serve_strings nf q xs' out' ;;
          Ok (SR (dims ++ sr_dims r) ((if existsb (fun t => 0 <=? t) flags then flags else []) ++ sr_ts r) (sr_val r))
      end
  end.
Definition serve_node_strings (g : graph) (fs : list Z) (nodes : list Z) (ts : option (list Z)) : res streply :=
  serve_strings (length fs) (fun n t out =>
    do o <- occurrences g n ;;
    match o with
    | None => Ok None
    | Some os => do st <- foldM (fun x st => part_node_string (fst x) (snd x) t fs st) os
                            (map (fun _ => -1) fs, map (fun _ => 0) fs, out) ;;
                 Ok (Some st)
    end) (stamps nodes ts) [].

(** UpdateStringFeatureIndex 136-166; [st] = (response_index, out_dimensions). *)
Fixpoint note_strings (shard : nat) (k : nat) (dims : list Z) (ts : list Z) (off : Z) (st : list rentry * list Z)
  : res (list rentry * list Z) :=
  match dims with
  | [] => Ok st
  | d :: dims' =>
      if d =? 0 then note_strings shard (S k) dims' ts off st
      else
        match ts with
        | [] => Fail EUB
        | t :: ts' =>
            do e <- get (fst st) k ;;
            note_strings shard (S k) dims' ts' (off + d)
              (if re_ts e <=? t then (set_nth k (Z.of_nat shard, off, t) (fst st), set_nth k d (snd st)) else st)
        end
  end.
Definition note_string_reply (shard : nat) (r : streply) (st : res (list rentry * list Z)) : res (list rentry * list Z) :=
  do s <- st ;;
  match sr_val r with [] => Ok s | _ => note_strings shard 0 (sr_dims r) (sr_ts r) 0 s end.

(** ExtractStringFeatures 57-76. *)
Fixpoint extract_strings (served : list streply) (ri : list rentry) (dims : list Z) : res (list N) :=
  match ri, dims with
  | [], _ => Ok []
  | (shard, off, _) :: ri', d :: dims' =>
      do r <- get served (Z.to_nat shard) ;;
      do bs <- sread (sr_val r) off d ;;
      do rest <- extract_strings served ri' dims' ;;
      Ok (bs ++ rest)
  | _, [] => Fail EUB
  end.
Definition client_strings (n nf : nat) (served : list streply) (es : list event) : res (list Z * list N) :=
  do st <- run_call no_streply served (own note_string_reply) es
             (Ok (repeat (0, 0, -1) (n * nf), repeat 0 (n * nf))) ;;
  do vs <- extract_strings served (fst st) (snd st) ;;
  Ok (snd st, vs).
Definition d_node_strings (gs : list graph) (nodes fs : list Z) (ts : option (list Z)) (es : list event)
  : res (list Z * list N) :=
  do rs <- mapM (fun g => serve_node_strings g fs nodes ts) gs ;;
  client_strings (length nodes) (length fs) rs es.

(** ** Sparse features *)

(** SparseFeaturesReply: dimensions, timestamps, indices and values of all features one
    after another, and their numbers per feature. *)
Record spreply := SPR { spr_dims : list Z; spr_ts : list Z; spr_idx : list Z; spr_val : list N;
                        spr_ic : list Z; spr_vc : list Z }.
Definition no_spreply := SPR [] [] [] [] [] [].

(** GetNodeSparseFeatures 241-262: the timestamps of every node are kept. *)
Fixpoint serve_sparse_loop {X} (nf : nat)
    (q : X -> option Z -> Z -> list sparse -> res (option (list Z * list sparse))) (k : Z)
    (xs : list (X * option Z)) (ss : list sparse) : res (list Z * list sparse) :=
  match xs with
  | [] => Ok ([], ss)
  | (x, t) :: xs' =>
      do o <- q x t k ss ;;
      match o with
      | None => do r <- serve_sparse_loop nf q (k + 1) xs' ss ;; Ok (repeat (-1) nf ++ fst r, snd r)
      | Some st => do r <- serve_sparse_loop nf q (k + 1) xs' (snd st) ;; Ok (fst st ++ fst r, snd r)
      end
  end.
Definition serve_node_sparse (g : graph) (fs : list Z) (nodes : list Z) (ts : option (list Z)) : res spreply :=
  do r <- serve_sparse_loop (length fs) (fun n t k ss =>
      do o <- occurrences g n ;;
      match o with
      | None => Ok None
      | Some os => do st <- foldM (fun x st => part_node_sparse (fst x) (snd x) t k fs st) os (map (fun _ => -1) fs, ss) ;;
                   Ok (Some st)
      end) 0 (stamps nodes ts) (no_sparse fs) ;;
  let ss := snd r in
  Ok (SPR (map sp_dim ss) (fst r) (flat_map sp_idx ss) (flat_map sp_val ss)
          (map (fun s => Z.of_nat (length (sp_idx s))) ss) (map (fun s => Z.of_nat (length (sp_val s))) ss)).

(** SparseFeatureIndex: shard, index offset/count, value offset/count; the timestamp field
    is never assigned and stays -1. *)
Record spentry := SE { se_shard : Z; se_io : Z; se_ic : Z; se_vo : Z; se_vc : Z; se_ts : Z }.
Definition no_spentry := SE (-1) 0 0 0 0 (-1).

(** Loop 110-131 over the coordinates of one feature. *)
Fixpoint note_coords (fuel : nat) (r : spreply) (shard : nat) (nf fi : nat) (dim inc stop : Z) (no vo : Z)
    (ri : list spentry) : res (Z * Z * list spentry) :=
  if no <? stop then
    match fuel with
    | O => Fail EFuel
    | S fuel' =>
        if no <? 0 then Fail EUB else
        do item <- get (spr_idx r) (Z.to_nat no) ;;
        if item <? 0 then Fail EUB else
        let at_ := (Z.to_nat item * nf + fi)%nat in
        do e <- get ri at_ ;;
        do t <- get (spr_ts r) at_ ;;
        note_coords fuel' r shard nf fi dim inc stop (no + dim) (vo + inc)
          (if (t <=? se_ts e) || ((0 <=? se_shard e) && negb (se_shard e =? Z.of_nat shard)) then ri
           else
             let e := if se_ic e =? 0 then SE (Z.of_nat shard) no (se_ic e) vo (se_vc e) (se_ts e) else e in
             set_nth at_ (SE (se_shard e) (se_io e) (se_ic e + dim) (se_vo e) (se_vc e + inc) (se_ts e)) ri)
    end
  else Ok (no, vo, ri).

(** Loop 92-132 over the features; [st] = (response_index, out_dimensions). *)
Fixpoint note_sparse (r : spreply) (shard nf fi : nat) (dims : list Z) (no vo cum : Z) (st : list spentry * list Z)
  : res (list spentry * list Z) :=
  match dims with
  | [] => Ok st
  | d :: dims' =>
      let dim := d + 1 in
      if dim =? 1 then note_sparse r shard nf (S fi) dims' no vo cum st
      else
        do od <- get (snd st) fi ;;
        if negb (od =? 0) && negb (d =? 0) && negb (od =? d) then Fail EFatal
        else
          do ic <- get (spr_ic r) fi ;;
          do vc <- get (spr_vc r) fi ;;
          if ic =? 0 then Fail EUB       (* integer division by zero *)
          else
            let inc := vc * dim / ic in
            do x <- note_coords (length (spr_idx r)) r shard nf fi dim inc (cum + ic) no vo (fst st) ;;
            let '(no', vo', ri') := x in
            note_sparse r shard nf (S fi) dims' no' vo' (cum + ic) (ri', set_nth fi d (snd st))
  end.
Definition note_sparse_reply (nf : nat) (shard : nat) (r : spreply) (st : res (list spentry * list Z))
  : res (list spentry * list Z) :=
  do s <- st ;;
  match spr_idx r with [] => Ok s | _ => note_sparse r shard nf 0 (spr_dims r) 0 0 0 s end.

(** ExtractFeatures 32-54: indices and values of one feature. *)
Definition extract_sparse (served : list spreply) (n nf fi : nat) (ri : list spentry) : res (list Z * list N) :=
  do ls <- mapM (fun i =>
      do e <- get ri (i * nf + fi) ;;
      if se_shard e <? 0 then Ok ([], [])
      else
        do r <- get served (Z.to_nat (se_shard e)) ;;
        match spr_idx r with
        | [] => Ok ([], [])
        | _ =>
            if (0 <=? se_io e) && (0 <=? se_ic e) && (se_io e + se_ic e <=? Z.of_nat (length (spr_idx r))) then
              do vs <- sread (spr_val r) (se_vo e) (se_vc e) ;;
              Ok (slice (spr_idx r) (Z.to_nat (se_io e)) (Z.to_nat (se_ic e)), vs)
            else Fail EUB
        end) (seq 0 n) ;;
  Ok (flat_map fst ls, flat_map snd ls).
Definition client_sparse (n nf : nat) (served : list spreply) (es : list event) : res (list (Z * list Z * list N)) :=
  do st <- run_call no_spreply served (own (note_sparse_reply nf)) es (Ok (repeat no_spentry (n * nf), repeat 0 nf)) ;;
  mapM (fun fi =>
      do d <- get (snd st) fi ;;
      do x <- extract_sparse served n nf fi (fst st) ;;
      Ok (d, fst x, snd x)) (seq 0 nf).
Definition d_node_sparse (gs : list graph) (nodes fs : list Z) (ts : option (list Z)) (es : list event)
  : res (list (Z * list Z * list N)) :=
  do rs <- mapM (fun g => serve_node_sparse g fs nodes ts) gs ;;
  client_sparse (length nodes) (length fs) rs es.

(** ** String and sparse features of edges *)

(** GetEdgeStringFeatures (graph_engine.cc 373-422): as for nodes, found by the source. *)
Definition serve_edge_strings (g : graph) (fs : list Z) (edges : list (Z * Z * Z)) (ts : option (list Z)) : res streply :=
  serve_strings (length fs) (fun e t out =>
    let '(src, dst, ty) := e in
    do o <- occurrences g src ;;
    match o with
    | None => Ok None
    | Some os => do st <- foldM (fun x st => part_edge_string (fst x) (snd x) dst ty t fs st) os
                            (map (fun _ => -1) fs, map (fun _ => 0) fs, out) ;;
                 Ok (Some st)
    end) (stamps edges ts) [].

(** GetEdgeStringFeature (client.cc 521-539) runs the same template as for nodes. *)
Definition d_edge_strings (gs : list graph) (edges : list (Z * Z * Z)) (fs : list Z) (ts : option (list Z)) (es : list event)
  : res (list Z * list N) :=
  do rs <- mapM (fun g => serve_edge_strings g fs edges ts) gs ;;
  client_strings (length edges) (length fs) rs es.

(** GetEdgeSparseFeatures (graph_engine.cc 276-324). *)
Definition serve_edge_sparse (g : graph) (fs : list Z) (edges : list (Z * Z * Z)) (ts : option (list Z)) : res spreply :=
  do r <- serve_sparse_loop (length fs) (fun e t k ss =>
      let '(src, dst, ty) := e in
      do o <- occurrences g src ;;
      match o with
      | None => Ok None
      | Some os => do st <- foldM (fun x st => part_edge_sparse (fst x) (snd x) dst ty t k fs st) os (map (fun _ => -1) fs, ss) ;;
                   Ok (Some st)
      end) 0 (stamps edges ts) (no_sparse fs) ;;
  let ss := snd r in
  Ok (SPR (map sp_dim ss) (fst r) (flat_map sp_idx ss) (flat_map sp_val ss)
          (map (fun s => Z.of_nat (length (sp_idx s))) ss) (map (fun s => Z.of_nat (length (sp_val s))) ss)).

(** GetEdgeSparseFeature (client.cc 488-507) does not clear the dimensions it is given; its
    caller (py_graph.cc 537) passes zeros. *)
Definition d_edge_sparse (gs : list graph) (edges : list (Z * Z * Z)) (fs : list Z) (ts : option (list Z)) (es : list event)
  : res (list (Z * list Z * list N)) :=
  do rs <- mapM (fun g => serve_edge_sparse g fs edges ts) gs ;;
  client_sparse (length edges) (length fs) rs es.
