(** Neighbor sampling: /repo/src/cc/lib/graph/partition.cc (SampleNeighbor 1102-1349,
    UniformSampleNeighbor 1351-1593), /repo/src/cc/lib/graph/graph.cc (SampleNeighbor 428-477,
    UniformSampleNeighbor 479-550), the entry points in py_graph.cc 730-830 and
    /repo/src/python/deepgnn/graph_engine/snark/client.py 948-1110.
    Simplifications: the product and sum that scale a random number are exact; the loop over
    the types of a node is the one of [nii] (the three copies 1131-1147, 1214-1232 and
    advance_edge_types 1374-1397 visit the same groups); an edge at which the code only may
    look is always read here. *)
From Verif Require Import Base Dist WriterModel LoaderModel GraphModel AliasModel ReservoirModel SamplerModel.
Local Open Scope nat_scope.

(** ** Edges alive at a time *)
(** The loop over find_start and find_last (1164-1195, 1243-1312, 1424-1459, 1507-1541): position in
    the group, distance from the start of the current span, length. *)
Fixpoint streams (fuel : nat) (span : list (Z * Z)) (ts : Z) (pos : nat) : res (list (nat * nat * nat)) :=
  let it := find_start span ts in
  match nth_error span it with
  | None => Ok []
  | Some x =>
      if (snd x =? -1)%Z && (ts <? fst x)%Z then Ok []
      else match fuel with
           | O => Fail EFuel
           | S f =>
               let ll := find_last (skipn it span) ts in
               let adv := if ll =? 0 then 1 else ll in
               do rest <- streams f (skipn (it + adv) span) ts (pos + it + adv) ;;
               Ok ((pos + it, it, ll) :: rest)
           end
  end.

Definition group_streams (p : partition) (ts : Z) (s l : nat) : res (list (nat * nat * nat)) :=
  if length (p_ts p) <? l then Fail EUB else streams (l - s) (slice (p_ts p) s (l - s)) ts 0.

(** ** Uniform sampling *)
(** A slot of the output: neighbor, type and creation time. *)
Definition slot : Type := Z * Z * Z.

(** [dst_span], [ts_span] of [len] edges at [at]; without a timestamp the creation time is not
    written. *)
Definition read_slots (p : partition) (ts : option Z) (i at_ len : nat) : res (list slot) :=
  mapM (fun k =>
    do d <- get (p_dst p) k ;;
    do t <- get (p_etypes p) i ;;
    do c <- match ts with None => Ok (-1)%Z | Some _ => do x <- get (p_ts p) k ;; Ok (fst x) end ;;
    Ok (d, t, c)) (seq at_ len).

(** The batches passed to [add] for one group; [wor] selects the copy of the loop. *)
Definition uniform_group (wor : bool) (p : partition) (ts : option Z) (g : nat * nat * nat) : res (list (list slot)) :=
  let '(s, l, i) := g in
  match (match p_ts p with [] => None | _ => ts end) with
  | None => do b <- read_slots p None i s (l - s) ;; Ok [b]
  | Some t =>
      do ss <- group_streams p t s l ;;
      (* 1437 adds the position, 1524 only the distance from the current span *)
      mapM (fun x => let '(pos, it, ll) := x in read_slots p (Some t) i (s + (if wor then it else pos)) ll) ss
  end.
Definition uniform_batches (wor : bool) (p : partition) (id : nat) (ts : option Z) (types : list Z) : res (list (list slot)) :=
  do gs <- nii p id types ;;
  do bs <- mapM (uniform_group wor p ts) gs ;;
  Ok (concat bs).

Definition node_batches (wor : bool) (g : graph) (types : list Z) (n : Z) (ts : option Z) : res (option (list (list slot))) :=
  do o <- occurrences g n ;;
  match o with
  | None => Ok None
  | Some os => do bs <- mapM (fun x => uniform_batches wor (fst x) (snd x) ts types) os ;; Ok (Some (concat bs))
  end.

(** client.py 1092-1099 passes no array for the creation times without timestamps, graph.cc
    503-506 and 539-543 write to it. *)
Definition writes_null (ret : bool) (ts : option Z) (count : nat) : bool :=
  ret && (match ts with None => true | Some _ => false end) && negb (count =? 0).

Definition or_default {A} (d : A) (l : list (option A)) : list A := map (fun o => match o with Some x => x | None => d end) l.

(** graph.cc 494-545 for one node without replacement; [temporal] is m_watermark >= 0. *)
Definition g_uniform_without (skip pick : nat -> nat) (temporal ret : bool) (g : graph) (types : list Z) (count : nat)
    (default : slot) (n : Z) (ts : option Z) : res (list slot) :=
  do o <- node_batches true g types n ts ;;
  match o with
  | None => if writes_null ret ts count then Fail EUB else Ok (repeat default count)
  | Some bs =>
      do r <- lrun skip pick count bs linit (repeat None count) ;;
      let total := length (concat bs) in
      if writes_null (temporal && ret) ts count then Fail EUB
      else Ok (or_default default (firstn total (snd r)) ++ repeat default (count - total))
  end.

(** With replacement: the random numbers are ideal. *)
Definition g_uniform_with (temporal ret : bool) (g : graph) (types : list Z) (count : nat)
    (default : slot) (n : Z) (ts : option Z) : dist (res (list slot)) :=
  match node_batches false g types n ts with
  | Fail e => dret (Fail e)
  | Ok None => dret (if writes_null ret ts count then Fail EUB else Ok (repeat default count))
  | Ok (Some bs) =>
      if length (concat bs) =? 0
      then dret (if writes_null (temporal && ret) ts count then Fail EUB else Ok (repeat default count))
      else dbind (wr_run 0 bs (repeat None count)) (fun r => dret (Ok (or_default default r)))
  end.

(** ** Weighted sampling *)
(** Programs that draw binomial numbers, toss coins and pick an edge by weight. *)
Inductive rprog (A : Type) : Type :=
| RRet : A -> rprog A
| RErr : err -> rprog A
| RBin : nat -> Q -> (nat -> rprog A) -> rprog A
| RCoin : Q -> (bool -> rprog A) -> rprog A
| RPick : Q -> Q -> list Q -> (nat -> rprog A) -> rprog A.
Arguments RRet {A}. Arguments RErr {A}. Arguments RBin {A}. Arguments RCoin {A}. Arguments RPick {A}.

Fixpoint rbind {A B} (m : rprog A) (f : A -> rprog B) : rprog B :=
  match m with
  | RRet a => f a
  | RErr e => RErr e
  | RBin n p k => RBin n p (fun c => rbind (k c) f)
  | RCoin p k => RCoin p (fun b => rbind (k b) f)
  | RPick b w l k => RPick b w l (fun i => rbind (k i) f)
  end.
Definition rlift {A} (r : res A) : rprog A := match r with Ok a => RRet a | Fail e => RErr e end.

(** [std::lower_bound] for the number [b + w * u], [u] in [0, 1). *)
Definition picked (b w : Q) (l : list Q) (u : Q) : nat := bound (fun x => negb (Qle_bool (b + w * u) x)) l.

(** All results of a program. *)
Fixpoint routcome {A} (m : rprog A) (r : res A) : Prop :=
  match m with
  | RRet a => r = Ok a
  | RErr e => r = Fail e
  | RBin n p k => exists c, possible n p c /\ routcome (k c) r
  | RCoin p k => exists b, ((1 <= p)%Q -> b = true) /\ routcome (k b) r
  | RPick b w l k => exists u, (0 <= u /\ u < 1)%Q /\ routcome (k (picked b w l u)) r
  end.

(** The distribution of the results: index [i] of a non decreasing list is picked for a set of
    [u] of length (l_i - l_(i-1)) / w (NeighborProofs.picked_interval). *)
Fixpoint gaps (b : Q) (l : list Q) : list Q :=
  match l with [] => [] | x :: t => (x - b)%Q :: gaps x t end.
Definition dpick (b w : Q) (l : list Q) : dist nat := combine (seq 0 (length l)) (map (fun d => (d / w)%Q) (gaps b l)).
Fixpoint rlaw {A} (m : rprog A) : dist (res A) :=
  match m with
  | RRet a => dret (Ok a)
  | RErr e => dret (Fail e)
  | RBin n p k => dbind (dbinom n p) (fun c => rlaw (k c))
  | RCoin p k => dbind (dflip p) (fun b => rlaw (k b))
  | RPick b w l k => dbind (dpick b w l) (fun i => rlaw (k i))
  end.

Section Weighted.
Variables fadd fsub : N -> N -> N.
Variable qval : N -> Q.
Definition feq (a b : N) : bool := Qeq_bool (qval a) (qval b).

(** What a group offers: its first edge, its number and the ranges [local_offset, length]. *)
Record wgroup := WG { wg_first : nat; wg_index : nat; wg_ranges : list (nat * nat) }.
Definition weighted_group (p : partition) (ts : option Z) (g : nat * nat * nat) : res wgroup :=
  let '(s, l, i) := g in
  match ts with
  | None => if l <=? s then Fail EUB else Ok (WG s i [(s, l - s)])
  | Some t => do ss <- group_streams p t s l ;; Ok (WG s i (map (fun x => let '(pos, _, ll) := x in (s + pos, ll)) ss))
  end.

(** 1152-1155 and 1173-1184. *)
Definition add_range (p : partition) (first : nat) (r : nat * nat) (total : N) : res N :=
  let '(lo, len) := r in
  if lo + len =? 0 then do w <- get (p_wts p) 0 ;; Ok (fadd total w)
  else
    do w <- get (p_wts p) (lo + len - 1) ;;
    if lo =? first then Ok (fadd total w)
    else do v <- get (p_wts p) (lo - 1) ;; Ok (fsub (fadd total w) v).
(** 1254-1262; 1317 is the same for a whole group. *)
Definition range_weight (p : partition) (first : nat) (r : nat * nat) : res N :=
  let '(lo, len) := r in
  do w <- get (p_wts p) (if lo + len =? 0 then 0 else lo + len - 1) ;;
  if lo =? first then Ok w else do v <- get (p_wts p) (lo - 1) ;; Ok (fsub w v).
Definition range_base (p : partition) (first lo : nat) : res Q :=
  if lo =? first then Ok 0%Q else do v <- get (p_wts p) (lo - 1) ;; Ok (qval v).

Fixpoint foldN {A} (f : A -> N -> res N) (l : list A) (x : N) : res N :=
  match l with [] => Ok x | a :: t => do y <- f a x ;; foldN f t y end.
Definition total_of (p : partition) (gs : list wgroup) : res N :=
  foldN (fun g t => foldN (add_range p (wg_first g)) (wg_ranges g) t) gs 0%N.

(** The edge written to a slot (1289-1299, 1335-1339). *)
Definition edge_at (p : partition) (ts : option Z) (first i k : nat) : res nbr :=
  do d <- get (p_dst p) k ;;
  do t <- get (p_etypes p) i ;;
  do w <- (if k =? first then get (p_wts p) k
           else do a <- get (p_wts p) k ;; do b <- get (p_wts p) (k - 1) ;; Ok (fsub a b)) ;;
  do c <- match ts with None => Ok (-1)%Z | Some _ => do x <- get (p_ts p) k ;; Ok (fst x) end ;;
  Ok (d, t, w, c).

(** The loops 1267-1301 and 1321-1341: the edges written; a slot that is not overwritten does
    not advance [pos]. *)
Fixpoint draw_edges (p : partition) (ts : option Z) (rate : Q) (first i lo len : nat) (base w : Q) (cums : list Q) (n : nat)
  : rprog (list nbr) :=
  match n with
  | O => RRet []
  | S m =>
      RCoin rate (fun keep =>
        if keep then
          RPick base w cums (fun k =>
          rbind (rlift (edge_at p ts first i (lo + k))) (fun e =>
          rbind (draw_edges p ts rate first i lo len base w cums m) (fun l => RRet (e :: l))))
        else draw_edges p ts rate first i lo len base w cums m)
  end.

(** The ranges of a group; [left] is left_over_neighbors. *)
Fixpoint range_loop (p : partition) (ts : option Z) (rate : Q) (first i : nat) (rs : list (nat * nat)) (total : N) (left : nat)
  : rprog (list nbr * N * nat) :=
  match rs with
  | [] => RRet ([], total, left)
  | (lo, len) :: t =>
      rbind (rlift (range_weight p first (lo, len))) (fun tw =>
      rbind (rlift (range_base p first lo)) (fun base =>
      rbind (rlift (mapM (get (p_wts p)) (seq lo len))) (fun cums =>
      rbind (if feq tw total then RRet left else RBin left (qval tw / qval total) (fun c => RRet c)) (fun c =>
      rbind (draw_edges p ts rate first i lo len base (qval tw) (map qval cums) c) (fun es =>
      rbind (range_loop p ts rate first i t (fsub total tw) (left - c)) (fun r =>
      let '(es', total', left') := r in RRet (es ++ es', total', left')))))))
  end.
Fixpoint group_loop (p : partition) (ts : option Z) (rate : Q) (gs : list wgroup) (total : N) (left : nat) : rprog (list nbr) :=
  match gs with
  | [] => RRet []
  | g :: t =>
      if feq total 0%N || (left =? 0) then RRet []
      else
        rbind (range_loop p ts rate (wg_first g) (wg_index g) (wg_ranges g) total left) (fun r =>
        let '(es, total', left') := r in
        rbind (group_loop p ts rate t total' left') (fun es' => RRet (es ++ es')))
  end.

(** Partition::SampleNeighbor; the state is the output and [out_partition]. *)
Definition sample_partition (p : partition) (id : nat) (ts : option Z) (types : list Z) (count : nat) (default : nbr)
    (st : list nbr * N) : rprog (list nbr * N) :=
  let '(out, acc) := st in
  rbind (rlift (nii p id types)) (fun gs =>
  rbind (rlift (mapM (weighted_group p ts) gs)) (fun wgs =>
  rbind (rlift (total_of p wgs)) (fun total =>
  let acc' := fadd acc total in
  if feq total 0%N then RRet (if feq acc' 0%N then repeat default count else out, acc')
  else
    rbind (group_loop p ts (qval total / qval acc') wgs total count) (fun es =>
    RRet (es ++ skipn (length es) out, acc'))))).

Fixpoint sample_partitions (os : list (partition * nat)) (ts : option Z) (types : list Z) (count : nat) (default : nbr)
    (st : list nbr * N) : rprog (list nbr * N) :=
  match os with
  | [] => RRet st
  | (p, id) :: t => rbind (sample_partition p id ts types count default st) (fun st' => sample_partitions t ts types count default st')
  end.

(** One node of Graph::SampleNeighbor 442-472; the arrays hold the defaults before the call
    (client.py 983-985) and the weights start at 0 (py_graph.cc 743). *)
Definition g_sample (g : graph) (types : list Z) (count : nat) (default : nbr) (n : Z) (ts : option Z) : rprog (list nbr) :=
  rbind (rlift (occurrences g n)) (fun o =>
  match o with
  | None => RRet (repeat default count)
  | Some os => rbind (sample_partitions os ts types count default (repeat default count, 0%N)) (fun st => RRet (fst st))
  end).
End Weighted.
