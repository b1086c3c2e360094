(** What feature queries should return, in terms of the input records only. *)
From Coq Require Import Sorting.Sorted.
From Verif Require Import Base WriterModel GraphSpec.
Local Open Scope Z_scope.

(** Feature [f] of a feature list; absent for a negative or too large id. *)
Definition value_at {A} (fs : list A) (f : Z) : option A :=
  if f <? 0 then None else nth_error fs (Z.to_nat f).
Definition opt_list {A} (o : option A) : list A := match o with Some a => [a] | None => [] end.
Definition bytes_of (v : option (list N)) : list N := match v with Some b => b | None => [] end.

(** Exactly [size] bytes: cut or padded with zero bytes. *)
Definition fixed (size : nat) (bs : list N) : list N := firstn size (bs ++ repeat 0%N size).

(** Every value the input gives for feature [f] of node [n], in input order.  A value may be
    an explicit "no value" ([None]), which is written when a later feature has one. *)
Definition node_values (parts : list (list (list record))) (n f : Z) : list (option (list N)) :=
  flat_map (fun r => if is_node r && (rsrc r =? n) then opt_list (value_at (rfeats r) f) else [])
           (concat (concat parts)).

(** Dense node feature without timestamps: the first value given. *)
Definition spec_node_feature (parts : list (list (list record))) (n : Z) (fs : Z * nat) : list N :=
  fixed (snd fs) (match node_values parts n (fst fs) with v :: _ => bytes_of v | [] => [] end).

(** The values given for feature [f] of edge (src, dst, ty): one candidate per block of
    records of [src], namely the first such edge of the block. *)
Definition same_edge (e : Z * Z * Z) (x : edge) : bool :=
  let '(_, dst, ty) := e in (e_typ x =? ty) && (e_dst x =? dst).
Definition edge_values (parts : list (list (list record))) (e : Z * Z * Z) (f : Z) : list (option (list N)) :=
  flat_map (fun r => if row_id r =? fst (fst e)
                     then match find (same_edge e) (row_edges r) with
                          | Some x => opt_list (value_at (e_feats x) f)
                          | None => []
                          end
                     else []) (flat_map rows parts).
Definition spec_edge_feature (parts : list (list (list record))) (e : Z * Z * Z) (fs : Z * nat) : list N :=
  fixed (snd fs) (match edge_values parts e (fst fs) with v :: _ => bytes_of v | [] => [] end).

(** String feature: the first value that is not empty. *)
Definition first_bytes (vs : list (option (list N))) : list N :=
  match filter (fun v => negb (length (bytes_of v) =? 0)%nat) vs with v :: _ => bytes_of v | [] => [] end.
Definition spec_node_string (parts : list (list (list record))) (n f : Z) : list N :=
  first_bytes (node_values parts n f).
Definition spec_edge_string (parts : list (list (list record))) (e : Z * Z * Z) (f : Z) : list N :=
  first_bytes (edge_values parts e f).

(** Temporal history of a value: entries (created_at, bytes). *)
Definition latest (t : Z) (h : list (Z * list N)) (x : Z * list N) : Prop :=
  In x h /\ fst x <= t /\ forall y, In y h -> fst y <= t -> fst y <= fst x.
Definition none_yet (t : Z) (h : list (Z * list N)) : Prop := forall y, In y h -> t < fst y.

(** The newest of several candidates, the earlier one on a tie. *)
Fixpoint newest_from (best : option (Z * list N)) (l : list (Z * list N)) : option (Z * list N) :=
  match l with
  | [] => best
  | x :: t => newest_from (match best with
                           | Some b => if fst b <? fst x then Some x else best
                           | None => Some x
                           end) t
  end.

(** Lookup condition for long groups of parallel edges: at most 16 edges of a type in a
    block, or destinations in increasing order, or no destination repeated. *)
Definition searchable (r : row) : Prop :=
  forall ty, let l := map e_dst (filter (fun e => e_typ e =? ty) (row_edges r)) in
    (length l <= 16)%nat \/ StronglySorted Z.le l \/ NoDup l.

(** Sparse result of one feature over the elements of a query: [vs] are the coordinate tuples
    and value bytes of each element ([None]: no value). *)
Fixpoint numbered {A} (k : Z) (xs : list A) : list (Z * A) :=
  match xs with [] => [] | x :: t => (k, x) :: numbered (k + 1) t end.
Definition spec_sparse_rows (vs : list (option (list (list Z) * list N))) : list (list Z) :=
  flat_map (fun x => match snd x with Some v => map (cons (fst x)) (fst v) | None => [] end) (numbered 0 vs).
Definition spec_sparse_values (vs : list (option (list (list Z) * list N))) : list N :=
  flat_map (fun v => match v with Some v => snd v | None => [] end) vs.
