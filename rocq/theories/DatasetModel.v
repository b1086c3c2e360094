(** Datasets: src/python/deepgnn/graph_engine/graph_dataset.py, pytorch/common/dataset.py and
    tf/common/dataset.py, with the signatures of the samplers of graph_engine/samplers.py.

    A dataset builds its sampler from the names of the parameters of the sampler class: the graph,
    then the keyword arguments of the dataset, then the attributes of the dataset, then the default.
    [Some (id, n)] for a worker of a torch DataLoader is its worker_info, [None] the main process.

    Simplifications: values are numbers, truth values, the graph and [VOther]; a query of the graph
    for a batch is not modelled (a dataset yields one result per batch of the sampler), prefetching
    is in PrefetchModel.v; a DataLoader worker has its own copy of the dataset. *)
From Coq Require Import String.
From Verif Require Import Base IterModel.

Inductive value := VNum (n : Z) | VBool (b : bool) | VGraph | VOther.
Definition env := list (string * value).
Fixpoint lookup (k : string) (e : env) : option value :=
  match e with
  | [] => None
  | (k', v) :: t => if String.eqb k k' then Some v else lookup k t
  end.

(** A parameter of a sampler: its name, whether it is annotated as Graph, its default. *)
Record param := Param { p_name : string; p_graph : bool; p_default : option value }.

(** graph_dataset.py 105-111: the entry of sampler_args, if any. *)
Definition sampler_arg (graph : option value) (kwargs attrs : env) (p : param) : res (option value) :=
  if p_graph p then match graph with Some g => Ok (Some g) | None => Fail EAssert end
  else match lookup (p_name p) kwargs with
       | Some v => Ok (Some v)
       | None => Ok (lookup (p_name p) attrs)
       end.
(** 113: a parameter without argument and default is a TypeError. *)
Definition bind_param (p : param) (a : option value) : res value :=
  match a, p_default p with
  | Some v, _ => Ok v
  | None, Some v => Ok v
  | None, None => Fail EAssert
  end.
(** init_sampler 96-113: the values of all parameters of the sampler. *)
Definition init_sampler (params : list param) (graph : option value) (kwargs attrs : env) : res env :=
  mapM (fun p => do a <- sampler_arg graph kwargs attrs p ;;
                 do v <- bind_param p a ;; Ok (p_name p, v)) params.

(** The attributes set by __init__ 75-84. *)
Record options := Options { o_workers : nat; o_worker : nat; o_batch : nat; o_epochs : nat; o_prefetch : bool }.
Local Open Scope string_scope.
Definition num (n : nat) : value := VNum (Z.of_nat n).
Definition attributes (o : options) : env :=
  [("num_workers", num (o_workers o)); ("sampler_class", VOther); ("backend", VOther);
   ("worker_index", num (o_worker o)); ("batch_size", num (o_batch o)); ("epochs", num (o_epochs o));
   ("query_fn", VOther); ("enable_prefetch", VBool (o_prefetch o)); ("collate_fn", VOther); ("kwargs", VOther)].

(** ** TorchDeepGNNDataset *)
Record torch := Torch { t_kwargs : env; t_sampler : option env }.
(** _torch_init_sampler 71-80 (pytorch/common/dataset.py 69-81) and __iter__ 83-86. *)
Definition worker_kwargs (info : option (nat * nat)) (kwargs : env) : env :=
  match info with
  | Some (id, n) => ("data_parallel_index", num id) :: ("data_parallel_num", num n) :: kwargs    (* dict.update *)
  | None => kwargs
  end.
Definition torch_iter (params : list param) (o : options) (info : option (nat * nat)) (t : torch) : res torch :=
  let kw := worker_kwargs info (t_kwargs t) in
  do s <- init_sampler params (Some VGraph) kw (("graph", VGraph) :: attributes o) ;;
  Ok (Torch kw (Some s)).
(** __len__ of the base class: self.sampler exists only after __iter__. *)
Definition torch_len (len : env -> nat) (t : torch) : res nat :=
  match t_sampler t with Some s => Ok (len s) | None => Fail EAssert end.

(** ** Signatures of the samplers *)
Definition req (k : string) : param := Param k false None.
Definition opt (k : string) (v : value) : param := Param k false (Some v).
Definition dp : list param := [opt "data_parallel_num" (num 1); opt "data_parallel_index" (num 0)].
Definition workers : list param := [opt "worker_index" (num 0); opt "num_workers" (num 1)].
Definition invalid : value := VNum (-1).
Definition false_ : value := VBool false.
(* samplers.py 130-141, 187-198 *)
Definition ge_node : list param :=
  [Param "graph" true None; req "node_types"; req "batch_size"; req "epochs"; opt "sample_num" invalid;
   opt "num_workers" (num 1); opt "strategy" VOther] ++ dp.
Definition ge_edge : list param :=
  [Param "graph" true None; req "edge_types"; req "batch_size"; req "epochs"; opt "sample_num" invalid;
   opt "num_workers" (num 1); opt "strategy" VOther] ++ dp.
(* 314-330 *)
Definition file_edge : list param :=
  [req "edge_type"; req "sample_files"; req "batch_size"; opt "epochs" (num 1); opt "shuffle" false_; opt "delimeter" VOther;
   opt "feature_dim" (num 0); opt "feature_type" VOther; opt "drop_last" false_; opt "backfill_id" invalid] ++ workers ++ dp.
(* 445-457 *)
Definition file_node : list param :=
  [req "sample_files"; req "batch_size"; opt "epochs" (num 1); opt "shuffle" false_; opt "drop_last" false_;
   opt "backfill_id" invalid] ++ workers ++ dp.
(* 555-565, 643-654 *)
Definition range_node : list param :=
  [req "first"; req "last"; req "batch_size"; req "worker_index"; req "num_workers"; req "backfill_id"] ++ dp.
Definition range_edge : list param :=
  [req "edge_type"; req "first"; req "last"; req "batch_size"; req "worker_index"; req "num_workers"; req "backfill_id"] ++ dp.
(* 685-692 *)
Definition csv_node : list param := [req "batch_size"; req "sample_file"; opt "epoch" (num 1)] ++ dp.
(* 751-763, 963-979 *)
Definition file_tuple : list param :=
  [req "filename"; req "batch_size"; opt "epochs" (num 1); opt "shuffle" false_; opt "drop_last" false_; opt "backfill" invalid]
  ++ workers ++ dp.
Definition file_tuple2 : list param :=
  [req "filename"; req "batch_size"; opt "epochs" (num 1); opt "shuffle" false_; opt "drop_last" false_; opt "backfill" invalid]
  ++ workers ++ [opt "line_parser_func" VOther] ++ dp.
(* 841-857 *)
Definition text_file : list param :=
  [req "store_name"; req "filename"; opt "adl_config" VOther; opt "batch_size" (num 512); opt "buffer_size" (num 1024);
   opt "epochs" (num 1); opt "shuffle" false_; opt "drop_last" false_] ++ workers ++
  [opt "read_block_in_M" (num 50); opt "buffer_queue_size" (num 3)] ++ dp.
Definition all_samplers : list (list param) :=
  [ge_node; ge_edge; file_edge; file_node; range_node; range_edge; csv_node; file_tuple; file_tuple2; text_file].

(** ** FileNodeSampler of a dataset *)
Definition nat_arg (k : string) (e : env) : nat := match lookup k e with Some (VNum n) => Z.to_nat n | _ => 0 end.
Definition z_arg (k : string) (e : env) : Z := match lookup k e with Some (VNum n) => n | _ => 0%Z end.
Definition bool_arg (k : string) (e : env) : bool := match lookup k e with Some (VBool b) => b | _ => false end.
(** samplers.py 479-485, 487-498 and the iteration; [files] are the numbers in the sorted files,
    [perm] the index drawn with shuffle. *)
Definition file_node_batches (files : list (list Z)) (perm : list nat) (e : env) (fuel : nat) : res (option (list (list Z))) :=
  do mine <- worker_files files (nat_arg "worker_index" e) (nat_arg "num_workers" e) ;;
  let nodes := List.concat mine in
  let n := List.length nodes in
  let E := nat_arg "epochs" e in
  let B := nat_arg "batch_size" e in
  if (n =? 0)%nat then Fail EAssert                                    (* 251 *)
  else
    let idx := if bool_arg "shuffle" e then perm else List.concat (repeat (seq 0 n) E) in
    Ok (drain (np_next nodes idx (E * n) B (nat_arg "data_parallel_num" e) (bool_arg "drop_last" e) (z_arg "backfill_id" e))
              fuel (np_start (nat_arg "data_parallel_index" e) B)).
(** One process of the training: rank [w], and worker [info] of its DataLoader. *)
Definition process (files : list (list Z)) (perm : list nat) (o : options) (info : option (nat * nat)) (kwargs : env) (fuel : nat)
  : res (option (list (list Z))) :=
  do t <- torch_iter file_node o info (Torch kwargs None) ;;
  match t_sampler t with Some e => file_node_batches files perm e fuel | None => Fail EAssert end.

(** ** create_tf_dataset (tf/common/dataset.py 68-91)
    The first batch is queried for its shapes with next(iter(sampler)); then every pass over the
    tf.data.Dataset calls iter(dataset), which calls iter(sampler). *)
(** Samplers whose __iter__ creates an iterator. *)
Fixpoint tf_fresh {S B} (next : S -> option (B * S)) (s0 : S) (fuel k : nat) : option (list (list B)) :=
  match next s0 with
  | None => None
  | Some _ =>
      match k with
      | O => Some []
      | Datatypes.S k' => match drain next fuel s0, tf_fresh next s0 fuel k' with
                | Some b, Some bs => Some (b :: bs)
                | _, _ => None
                end
      end
  end.
(** Samplers whose __iter__ returns the sampler itself (CSVNodeSampler 715-717). *)
Definition tf_self {S B} (next : S -> option (B * S)) (s0 : S) (fuel k : nat) : option (list (list B)) :=
  match next s0 with
  | None => None
  | Some (_, s1) => passes next fuel k s1
  end.
