(** The graph interface of models: /repo/src/python/deepgnn/graph_engine/snark/local.py Client
    (__check_types 54-59, sample_neighbors 97-187, random_walk 211-239, node_count and edge_count
    299-311), the array handling of snark/client.py weighted_sample_neighbors 948-1025,
    uniform_sample_neighbors 1027-1105, ppr_neighbors 1107-1163, lastn_neighbors 1165-1237,
    get_node_type_count 1244-1251, and graph_ops.py sample_out_edges 9-54.

    The engine is an argument: for a strategy and a request it gives every node a row of slots, a
    slot is an edge or nothing (what it samples is in NeighborModel.v, PprModel.v, LastNModel.v).
    An array is its shape and its cells, [None] is a cell of np.empty that was never written.
    Weights are opaque.  Not modelled: dtypes, logging, the retries of a request. *)
From Verif Require Import Base GraphModel.
Local Open Scope Z_scope.

Inductive strategy := SByWeight | SRandom | SWithout | SPpr | SLastN | STopK.

(** int, numpy array (flattened), or anything else such as a numpy scalar (local.py 54-59). *)
Inductive types_arg := TInt (t : Z) | TArr (l : list Z) | TOther (t : Z).
Definition check_types (t : types_arg) : res (list Z) :=
  match t with TInt t => Ok [t] | TArr l => Ok l | TOther _ => Fail EAssert end.

Record nd (A : Type) := Arr { a_shape : list nat; a_cells : list (option A) }.
Arguments Arr {A} _ _.
Arguments a_shape {A} _.
Arguments a_cells {A} _.
Definition full {A} (sh : list nat) (a : A) : nd A := Arr sh (repeat (Some a) (fold_right Nat.mul 1%nat sh)).
Definition empty {A} (sh : list nat) : nd A := Arr sh (repeat None (fold_right Nat.mul 1%nat sh)).

Section Facade.
Context {W : Type}.
Record edge := Edge { e_id : Z; e_w : W; e_type : Z; e_ts : Z }.

Record request := Request {
  q_nodes : list Z; q_types : list Z; q_count : nat;
  q_ts : option (list Z); q_ret : bool }.
Variable engine : strategy -> request -> list (list (option edge)).
(** watermark >= 0: the graph has timestamps. *)
Variable temporal : bool.

(** numpy array of nodes: shape and data. *)
Record nodes_arg := Nodes { n_shape : list nat; n_data : list Z }.
Definition len (n : nodes_arg) : res nat := match n_shape n with [] => Fail EAssert | a :: _ => Ok a end.

(** np.full((len(nodes), count), default) that the engine overwrites slot by slot: one slot more
    than the array has is a write beyond its end; slots without edge hold the default of the
    request. *)
Definition column {A} (f : edge -> A) (default : A) (n : nat) (count : nat) (rows : list (list (option edge))) : res (nd A) :=
  let cells := map (fun o => Some (match o with Some e => f e | None => default end)) (concat rows) in
  if (n * count <? length cells)%nat then Fail EUB
  else Ok (Arr [n; count] (cells ++ repeat (Some default) (n * count - length cells))).

(** None and an array without elements mean that there are no timestamps; the engine reads one for
    every node. *)
Definition given (ts : option (list Z)) : option (list Z) := match ts with Some [] => None | _ => ts end.
Definition read_ts (nodes : list Z) (ts : option (list Z)) : res (option (list Z)) :=
  match given ts with
  | None => Ok None
  | Some l => if (length l <? length nodes)%nat then Fail EUB else Ok (Some l)
  end.

Definition weighted (n : nodes_arg) (types : list Z) (count : nat) (dn : Z) (dw : W) (dt : Z) (ts : option (list Z)) (ret : bool)
  : res (nd Z * nd W * nd Z * option (nd Z)) :=
  do k <- len n ;;
  if ret && negb temporal then Fail EAssert
  else
    do ts <- read_ts (n_data n) ts ;;
    let rows := engine SByWeight (Request (n_data n) (make_sorted_list types) count ts ret) in
    do ids <- column e_id dn k count rows ;;
    do ws <- column e_w dw k count rows ;;
    do tps <- column e_type dt k count rows ;;
    if ret then do c <- column e_ts (-1) k count rows ;; Ok (ids, ws, tps, Some c) else Ok (ids, ws, tps, None).
(** 1092-1099: without timestamps the engine gets no array for the creation times, but writes
    them. *)
Definition uniform (wo : bool) (n : nodes_arg) (types : list Z) (count : nat) (dn dt : Z) (ts : option (list Z)) (ret : bool)
  : res (nd Z * nd Z * option (nd Z)) :=
  do k <- len n ;;
  if ret && negb temporal then Fail EAssert
  else
    do ts <- read_ts (n_data n) ts ;;
    let rows := engine (if wo then SWithout else SRandom) (Request (n_data n) (make_sorted_list types) count ts ret) in
    do ids <- column e_id dn k count rows ;;
    do tps <- column e_type dt k count rows ;;
    if ret then
      match ts with
      | None => if (length (n_data n) * count =? 0)%nat then Ok (ids, tps, Some (full [k; count] (-1))) else Fail EUB
      | Some _ => do c <- column e_ts (-1) k count rows ;; Ok (ids, tps, Some c)
      end
    else Ok (ids, tps, None).
Definition ppr (n : nodes_arg) (types : list Z) (count : nat) (dn : Z) (dw : W) (ts : option (list Z)) : res (nd Z * nd W) :=
  do k <- len n ;;
  do ts <- read_ts (n_data n) ts ;;
  let rows := engine SPpr (Request (n_data n) (make_sorted_list types) count ts false) in
  do ids <- column e_id dn k count rows ;;
  do ws <- column e_w dw k count rows ;;
  Ok (ids, ws).
(** np.array(None) has no length (TypeError). *)
Definition lastn (n : nodes_arg) (types : list Z) (count : nat) (dn : Z) (dw : W) (dt : Z) (ts : option (list Z)) (ret : bool)
  : res (nd Z * nd W * nd Z * option (nd Z)) :=
  if negb temporal then Fail EAssert
  else
    match ts with
    | None => Fail EAssert
    | Some l =>
        do k <- len n ;;
        if negb (k =? length l)%nat then Fail EAssert
        else if (length l <? length (n_data n))%nat then Fail EUB
        else
          let rows := engine SLastN (Request (n_data n) (make_sorted_list types) count ts ret) in
          do ids <- column e_id dn k count rows ;;
          do ws <- column e_w dw k count rows ;;
          do tps <- column e_type dt k count rows ;;
          if ret then do c <- column e_ts (-1) k count rows ;; Ok (ids, ws, tps, Some c) else Ok (ids, ws, tps, None)
    end.

(** The tuple a model gets; [o_ts] is [None] for a tuple of three. *)
Record out := Out { o_ids : nd Z; o_w : nd W; o_types : nd Z; o_ts : option (nd Z) }.
(** sample_neighbors 97-187. *)
Definition sample_neighbors (s : strategy) (n : nodes_arg) (types : types_arg) (count : nat) (dn : Z) (dw : W) (dt : Z)
  (ts : option (list Z)) (ret : bool) : res out :=
  match s with
  | SByWeight =>
      do t <- check_types types ;;
      do x <- weighted n t count dn dw (-1) ts ret ;;
      let '(ids, ws, tps, c) := x in
      if ret then Ok (Out ids ws tps c) else Ok (Out ids ws tps (Some (full (a_shape ids) (-1))))
  | SRandom | SWithout =>
      do t <- check_types types ;;
      do x <- uniform (match s with SWithout => true | _ => false end) n t count dn dt ts ret ;;
      let '(ids, tps, c) := x in
      Ok (Out ids (empty (a_shape ids)) tps (if ret then c else Some (full (a_shape ids) (-1))))
  | SPpr =>
      do t <- check_types types ;;
      do x <- ppr n t count dn dw ts ;;
      let '(ids, ws) := x in
      Ok (Out ids ws (empty [0%nat]) (Some (full (a_shape ids) (-1))))
  | SLastN =>
      do t <- check_types types ;;
      do x <- lastn n t count dn dw dt ts ret ;;
      let '(ids, ws, tps, c) := x in Ok (Out ids ws tps c)
  | STopK => Fail EAssert
  end.

(** sample_out_edges (graph_ops.py 9-54) up to the request for features; [zw] is the weight 0.  A
    column of another length than the array is a ValueError, unless it has length one. *)
Definition assign {A} (n : nat) (l : list (option A)) : res (list (option A)) :=
  if (length l =? n)%nat then Ok l else match l with [a] => Ok (repeat a n) | _ => Fail EAssert end.
Definition sample_out_edges (zw : W) (s : strategy) (n : nodes_arg) (types : types_arg) (count : nat)
  : res (list (option Z * option Z * option Z)) :=
  do r <- sample_neighbors s n types count (-1) zw (-1) None false ;;
  do k <- len n ;;
  match a_shape (o_ids r) with
  | [a; b] =>
      if negb ((a =? k)%nat && (b =? count)%nat) then Fail EAssert
      else
        do src <- assign (k * count) (flat_map (fun v => repeat (Some v) count) (n_data n)) ;;
        do dst <- assign (k * count) (a_cells (o_ids r)) ;;
        do tp <- assign (k * count) (a_cells (o_types r)) ;;
        Ok (combine (combine src dst) tp)
  | _ => Fail EAssert
  end.

(** random_walk 211-239 with client.py 1286: what reaches the engine of the metapath. *)
Definition walk_types (metapath : types_arg) : res (list Z) :=
  do t <- check_types metapath ;; Ok (make_sorted_list t).
End Facade.
Arguments edge : clear implicits.
Arguments out : clear implicits.

(** node_count 299-304 with client.py 1244-1251; [counts] is node_count_per_type.  tolist of a
    numpy scalar is a number without length. *)
Definition type_count (counts : list Z) (types : types_arg) : res Z :=
  match types with
  | TOther _ => Fail EAssert
  | TInt _ | TArr _ =>
      do l <- check_types types ;;
      match l with
      | [] => Fail EAssert
      | _ => Ok (fold_left (fun r t => if (0 <=? t) && (t <? Z.of_nat (length counts)) then r + nth (Z.to_nat t) counts 0 else r)
                   (make_sorted_list l) 0)
      end
  end.
