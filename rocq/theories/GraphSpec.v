(** Specification of the converted graph in terms of the input records only: no
    file, offset, index or loader notion appears here. *)
From Verif Require Import Base WriterModel.
Local Open Scope Z_scope.

(** An edge with the life time it effectively has.  A missing (or zero) timestamp of an
    edge is inherited from its node, 0/-1 if the node has none (writers.py 90-92). *)
Record edge := Edge { e_src : Z; e_dst : Z; e_typ : Z; e_w : N; e_feats : list (option (list N)); e_c : Z; e_r : Z }.

Definition is_node (r : record) : bool := rdst r =? -1.

Definition inherit (x : option Z) (d : Z) : Z :=
  match x with Some v => if v =? 0 then d else v | None => d end.

(** The edges of a record stream in order, with effective timestamps. *)
Fixpoint batch_items (nc nr : Z) (rs : list record) : list (record * Z * Z) :=
  match rs with
  | [] => []
  | r :: t =>
      if is_node r then (r, 0, 0) :: batch_items (inherit (rcreated r) 0) (inherit (rremoved r) (-1)) t
      else (r, inherit (rcreated r) nc, inherit (rremoved r) nr) :: batch_items nc nr t
  end.
Definition items (bs : list (list record)) : list (record * Z * Z) := flat_map (batch_items 0 (-1)) bs.

Definition edge_of (x : record * Z * Z) : edge :=
  let '(r, c, d) := x in Edge (rsrc r) (rdst r) (rtyp r) (rweight r) (rfeats r) c d.

Definition item_edges (xs : list (record * Z * Z)) : list edge :=
  map edge_of (filter (fun x => negb (is_node (fst (fst x)))) xs).

(** All edges of a partition in input order. *)
Definition edges_of (bs : list (list record)) : list edge := item_edges (items bs).

Definition mem (t : Z) (T : list Z) : bool := existsb (Z.eqb t) T.

(** The neighbors of [n] along types [T]: the matching edges, partition by partition, in
    input order. *)
Definition spec_edges (parts : list (list (list record))) (T : list Z) (n : Z) : list edge :=
  filter (fun e => (e_src e =? n) && mem (e_typ e) T) (flat_map edges_of parts).

(** Alive at [t]: created at or before, not yet removed (-1 = never removed). *)
Definition alive (t : Z) (e : edge) : bool := (e_c e <=? t) && ((e_r e =? -1) || (t <? e_r e)).

(** Maximal blocks of records that belong to one node: a node record opens a block, an
    edge record of another source opens a block as well. *)
Record row := Row { row_id : Z; row_typ : Z; row_feats : list (option (list N)); row_edges : list edge }.

Definition add_edge_to (e : edge) (r : row) : row := Row (row_id r) (row_typ r) (row_feats r) (row_edges r ++ [e]).

(** Rows are kept newest first here. *)
Fixpoint rows_rev (acc : list row) (xs : list (record * Z * Z)) : list row :=
  match xs with
  | [] => acc
  | x :: t =>
      let r := fst (fst x) in
      rows_rev
        (if is_node r then Row (rsrc r) (rtyp r) (rfeats r) [] :: acc
         else match acc with
              | w :: rest => if row_id w =? rsrc r then add_edge_to (edge_of x) w :: rest
                             else Row (rsrc r) (-1) [] [edge_of x] :: acc
              | [] => [Row (rsrc r) (-1) [] [edge_of x]]
              end) t
  end.
Definition rows (bs : list (list record)) : list row := rev (rows_rev [] (items bs)).

(** What the records have to satisfy for the 64 bit files to represent them; nothing else
    is assumed about the input. *)
Definition rec_ok (r : record) : Prop :=
  rsrc r < 2 ^ 63 /\ rdst r < 2 ^ 63 /\ (rweight r < 2 ^ 32)%N /\
  (is_node r = false -> 0 <= rtyp r).

(** A requested type that is not stored in a block never separates a stored type that is
    not requested from a stored type that is requested. *)
Definition gap_free (T : list Z) (Gs : list Z) : Prop :=
  forall g1 t g2, In g1 Gs -> ~ In g1 T -> In t T -> ~ In t Gs -> In g2 Gs -> In g2 T -> ~ (g1 < t < g2).

(** Running sums of weights in storage precision can be undone exactly. *)
Fixpoint undo_ok (fadd fsub : N -> N -> N) (acc : N) (ws : list N) : Prop :=
  match ws with
  | [] => True
  | w :: t => fsub (fadd acc w) acc = w /\ undo_ok fadd fsub (fadd acc w) t
  end.
Definition exact_sums (fadd fsub : N -> N -> N) (ws : list N) : Prop :=
  match ws with
  | [] => True
  | w :: t => fadd 0%N w = w /\ undo_ok fadd fsub w t
  end.

Definition weights_of_type (r : row) (t : Z) : list N :=
  map e_w (filter (fun e => e_typ e =? t) (row_edges r)).

(** Type of a node: the first node record that gives it a type (-1 is not a type);
    -1 when no record does; [default] when the node is not mentioned at all. *)
Definition spec_node_type (parts : list (list (list record))) (default n : Z) : Z :=
  let rs := filter (fun r => rsrc r =? n) (concat (concat parts)) in
  match filter (fun r => is_node r && negb (rtyp r =? -1)) rs with
  | r :: _ => rtyp r
  | [] => match rs with [] => default | _ => -1 end
  end.
