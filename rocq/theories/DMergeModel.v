(** Sampling through servers: WeightedSampleNeighbors of
    /repo/src/cc/lib/distributed/graph_engine.cc 568-624, WeightedSampleNeighbor, CreateSampler,
    SampleNodes and SampleEdges of /repo/src/cc/lib/distributed/client.cc 718-769 and 887-1032,
    MergeWeightedSampledNeighbors of /repo/src/cc/lib/graph/merger.h 249-351,
    graph_sampler.cc 43-103 and the empty sampler of server.cc 21-39.
    Simplifications: the random numbers of the servers and of the client are independent.  In
    the code all come from one engine, which the thread that sends the requests and the threads
    that merge replies use without synchronisation.  Quotients of weights are exact.  Callbacks
    hold a mutex, so merging is atomic and only the order of the replies matters. *)
From Verif Require Import Base Dist WriterModel LoaderModel GraphModel FeatureModel NeighborModel SamplerModel.
Local Open Scope nat_scope.

Section Merge.
Variables fadd fsub : N -> N -> N.
Variable qval : N -> Q.

(** ** Server, one node: nothing if it is unknown, otherwise its weight and [count] neighbors. *)
Definition serve_one (g : graph) (types : list Z) (count : nat) (default : nbr) (n : Z) (ts : option Z) : rprog (option (N * list nbr)) :=
  rbind (rlift (occurrences g n)) (fun o =>
  match o with
  | None => RRet None
  | Some os => rbind (sample_partitions fadd fsub qval os ts types count default (repeat default count, 0%N)) (fun st => RRet (Some (snd st, fst st)))
  end).
Definition wreply : Type := list (Z * (N * list nbr)).
Fixpoint serve_weighted (g : graph) (types : list Z) (count : nat) (default : nbr) (xs : list (Z * option Z)) : rprog wreply :=
  match xs with
  | [] => RRet []
  | (n, t) :: xs' =>
      rbind (serve_one g types count default n t) (fun o =>
      rbind (serve_weighted g types count default xs') (fun r =>
      RRet (match o with None => r | Some c => (n, c) :: r end)))
  end.

(** ** Client *)
(** 318-341: slot by slot; a slot is overwritten unless the rate is below 1 and the random
    number above it. *)
Fixpoint mix (rate : Q) (old new : list nbr) : rprog (list nbr) :=
  match old, new with
  | [], [] => RRet []
  | x :: old', y :: new' => RCoin rate (fun b => rbind (mix rate old' new') (fun l => RRet ((if b then y else x) :: l)))
  | _, _ => RErr EUB
  end.
(** 296-341; a cell is an element of shard_weights and the slots of a node. *)
Definition merge_cell (count : nat) (default : nbr) (c : N * list nbr) (r : N * list nbr) : rprog (N * list nbr) :=
  let a := fadd (fst c) (fst r) in
  if feq qval a 0%N then RRet (a, repeat default count)
  else rbind (mix (qval (fst r) / qval a)%Q (snd c) (snd r)) (fun l => RRet (a, l)).
(** 281-346: the nodes of the reply are matched with the requested ones from left to right. *)
Fixpoint merge_reply (count : nat) (default : nbr) (nodes : list Z) (cells : list (N * list nbr)) (reply : wreply) {struct reply} : rprog (list (N * list nbr)) :=
  match reply with
  | [] => RRet cells
  | (id, r) :: reply' =>
      (fix go (nodes : list Z) (cells : list (N * list nbr)) : rprog (list (N * list nbr)) :=
        match nodes, cells with
        | n :: nodes', c :: cells' =>
            if (n =? id)%Z
            then rbind (merge_cell count default c r) (fun c' => rbind (merge_reply count default nodes' cells' reply') (fun l => RRet (c' :: l)))
            else rbind (go nodes' cells') (fun l => RRet (c :: l))
        | _, _ => RErr EUB
        end) nodes cells
  end.
(** The servers in the order in which their replies are merged. *)
Fixpoint merge_servers (gs : list graph) (types : list Z) (count : nat) (default : nbr) (xs : list (Z * option Z)) (cells : list (N * list nbr))
  : rprog (list (N * list nbr)) :=
  match gs with
  | [] => RRet cells
  | g :: gs' =>
      rbind (serve_weighted g types count default xs) (fun r =>
      rbind (merge_reply count default (map fst xs) cells r) (fun cells' => merge_servers gs' types count default xs cells'))
  end.
(** The output holds the defaults before the call (client.py 983-985). *)
Definition d_sample (gs : list graph) (types : list Z) (count : nat) (default : nbr) (nodes : list Z) (ts : option (list Z)) : rprog (list (list nbr)) :=
  let xs := stamps nodes ts in
  rbind (merge_servers gs (make_sorted_list types) count default xs (repeat (0%N, repeat default count) (length xs)))
        (fun cells => RRet (map snd cells)).
End Merge.

(** ** Node and edge samplers *)
(** A server without sampler answers Create with weight 0 and empty_sampler_id; any other has a
    sampler, of weight 0 when it has no element of the types. *)
Inductive shard := NoSampler | HasSampler (w : Q).
Definition shard_weight (s : shard) : Q := match s with NoSampler => 0%Q | HasSampler w => w end.
(** conditional_probabilities (sampler.cc 631-652); [None] is the NaN of 0 / 0. *)
Fixpoint shares (ss : list shard) : list (shard * option Q) :=
  match ss with
  | [] => []
  | s :: t =>
      let sum := qsum shard_weight (s :: t) in
      (s, if Qeq_bool sum 0 then None else Some (shard_weight s / sum)%Q) :: shares t
  end.
(** 950-978: what each server is asked for, [None] for no request.  boost's binomial
    distribution requires a probability. *)
Fixpoint node_requests (ss : list (shard * option Q)) (left : nat) : prog (list (option nat)) :=
  match ss with
  | [] => Ret []
  | (NoSampler, _) :: t => pbind (node_requests t left) (fun l => Ret (None :: l))
  | (HasSampler _, None) :: t => Err EUB
  | (HasSampler _, Some p) :: t => Bin left p (fun c => pbind (node_requests t (left - c)) (fun l => Ret (Some c :: l)))
  end.
(** 1005-1029.  A server without sampler is asked too; the error its empty sampler returns
    (server.cc 31-37) is dropped by SampleElementsCallData (call_data.cc 263-266), so the client
    gets an empty reply and its callback reads [c] ids from it (1018-1021). *)
Fixpoint edge_requests (ss : list (shard * option Q)) (left : nat) : prog (list (option nat)) :=
  match ss with
  | [] => Ret []
  | (s, p) :: t =>
      if left =? 0 then pbind (edge_requests t left) (fun l => Ret (None :: l))
      else
        match p with
        | None => Err EUB
        | Some q => Bin left q (fun c =>
            match s, c with
            | NoSampler, S _ => Err EUB
            | _, _ => pbind (edge_requests t (left - c)) (fun l => Ret (Some c :: l))
            end)
        end
  end.

(** Replies and their copies: [pos] is position, the output starts without values. *)
Definition write_at {A} (pos : nat) (l : list A) (out : list (option A)) : list (option A) :=
  firstn pos out ++ map Some l ++ skipn (pos + length l) out.
(** graph_sampler.cc 71-103 and the callbacks 967-972: [draw i c] is what server [i] samples. *)
Fixpoint fill_nodes {A} (draw : nat -> nat -> list A) (i pos : nat) (reqs : list (option nat)) (out : list (option A)) : list (option A) :=
  match reqs with
  | [] => out
  | None :: t => fill_nodes draw (S i) pos t out
  | Some c :: t => fill_nodes draw (S i) (pos + c) t (write_at pos (draw i c) out)
  end.
(** Edges (1016-1022): the reply has the sources and then the destinations in one list. *)
Definition edge_reply (draw : nat -> nat -> list (Z * Z)) (i c : nat) : list Z := map fst (draw i c) ++ map snd (draw i c).
Fixpoint fill_edges (draw : nat -> nat -> list (Z * Z)) (i pos : nat) (reqs : list (option nat)) (out : list (option Z) * list (option Z))
  : list (option Z) * list (option Z) :=
  match reqs with
  | [] => out
  | None :: t => fill_edges draw (S i) pos t out
  | Some c :: t =>
      let ids := edge_reply draw i c in
      fill_edges draw (S i) (pos + c) t (write_at pos (firstn c ids) (fst out), write_at pos (firstn c (skipn c ids)) (snd out))
  end.
