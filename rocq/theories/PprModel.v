(** Personalised PageRank: PPRSampleNeighbor of /repo/src/cc/lib/py_graph.cc 1162-1288 with its
    cache 1024-1160 (client.py 1107-1163).  Simplifications: exact numbers instead of float;
    [ord] and [pord] are the orders in which a hash set and a hash map are visited. *)
From Verif Require Import Base Dist LoaderModel GraphModel NeighborModel WalkModel.
Local Open Scope Z_scope.

(** Keys of the cache: node and timestamp, -1 without timestamps. *)
Definition key : Type := Z * Z.
Definition key_eqb (a b : key) : bool := (fst a =? fst b) && (snd a =? snd b).
Fixpoint assoc {A} (k : key) (m : list (key * A)) : option A :=
  match m with [] => None | (k', a) :: t => if key_eqb k k' then Some a else assoc k t end.
(** Insertion in a set. *)
Definition has_key (k : key) (l : list key) : bool := existsb (key_eqb k) l.
Definition add_key (l : list key) (k : key) : list key := if has_key k l then l else l ++ [k].

(** lookup_neighbors and lookup_count; the newest entry is first. *)
Record cache := Cache { c_lists : list (key * list Z); c_counts : list (key * nat) }.

(** A map of nodes to numbers; operator[] inserts 0. *)
Definition qmap : Type := list (Z * Q).
Fixpoint qget (m : qmap) (n : Z) : Q := match m with [] => 0%Q | (k, x) :: t => if k =? n then x else qget t n end.
Fixpoint qput (m : qmap) (n : Z) (x : Q) : qmap :=
  match m with [] => [(n, x)] | (k, y) :: t => if k =? n then (k, x) :: t else (k, y) :: qput t n x end.

(** One input node: p, r and the queue q, its last element first. *)
Record prow := PR { pr_p : qmap; pr_r : qmap; pr_q : list Z }.

Definition update {A} (i : nat) (x : A) (l : list A) : list A := firstn i l ++ x :: skipn (S i) l.

Section Ppr.
Variable query : list Z -> option (list Z) -> res (list nbr * list nat).
Variable qcount : list Z -> option (list Z) -> res (list nat).
Variable ord : list key -> list key.
Variable pord : qmap -> qmap.

(** lookup_neighbor_counts 1046-1077: the nodes without a count, their number is the index at
    which their timestamp is stored. *)
Fixpoint missing_counts (counts : list (key * nat)) (i : nat) (nbs : list Z) (tss : option (list Z)) (seen : list key) (nodes : list Z)
  : res (list Z * option (list Z)) :=
  match nbs with
  | [] => Ok (nodes, tss)
  | n :: nbs' =>
      do t <- match tss with None => Ok (-1) | Some l => get l i end ;;
      match assoc (n, t) counts with
      | Some _ => missing_counts counts (S i) nbs' tss seen nodes
      | None =>
          if has_key (n, t) seen then missing_counts counts (S i) nbs' tss seen nodes
          else missing_counts counts (S i) nbs' (match tss with None => None | Some l => Some (update (length nodes) t l) end) ((n, t) :: seen) (nodes ++ [n])
      end
  end.
(** 1079-1100. *)
Definition lookup_counts (c : cache) (nbs : list Z) (tss : option (list Z)) : res cache :=
  do x <- missing_counts (c_counts c) 0 nbs tss [] [] ;;
  let '(nodes, tss') := x in
  match nodes with
  | [] => Ok c
  | _ =>
      do cs <- qcount nodes tss' ;;
      let ks := combine nodes (match tss' with None => repeat (-1) (length nodes) | Some l => l end) in
      Ok (Cache (c_lists c) (rev (combine ks cs) ++ c_counts c))
  end.
(** lookup_neighbor_lists 1103-1160. *)
Definition lookup_lists (temporal : bool) (c : cache) (input : list key) : res cache :=
  let new := filter (fun k => match assoc k (c_lists c) with None => true | Some _ => false end) (ord input) in
  match new with
  | [] => lookup_counts c [] (if temporal then Some [] else None)
  | _ =>
      let tss := if temporal then Some (map snd new) else None in
      do x <- query (map fst new) tss ;;
      do ls <- split_counts (snd x) (map (fun y => fst (nbr_node y)) (fst x)) ;;
      let nb := fold_left add_key (concat (map (fun y => map (fun n => (n, snd (fst y))) (snd y)) (combine new ls))) [] in
      lookup_counts (Cache (rev (combine new ls) ++ c_lists c) (rev (combine new (map (@length Z) ls)) ++ c_counts c)) (map fst (ord nb)) tss
  end.

(** 1217-1252 for one node: the lists and counts of the cache. *)
Definition list_of (c : cache) (k : key) : list Z := match assoc k (c_lists c) with Some l => l | None => [] end.
Definition count_in (c : cache) (k : key) : nat := match assoc k (c_counts c) with Some n => n | None => 0%nat end.
Definition in_queue (n : Z) (l : list Z) : bool := existsb (Z.eqb n) l.
Fixpoint push_all (alpha_eps val : Q) (deg : Z -> nat) (nbs : list Z) (r : qmap) (q : list Z) : qmap * list Z :=
  match nbs with
  | [] => (r, q)
  | v :: nbs' =>
      let r' := qput r v (qget r v + val)%Q in
      let q' := if Qle_bool (alpha_eps * qnat (deg v)) (qget r' v) then if in_queue v q then q else v :: q else q in
      push_all alpha_eps val deg nbs' r' q'
  end.
Definition push_row (alpha eps : Q) (adj : Z -> list Z) (deg : Z -> nat) (s : prow) : prow :=
  match pr_q s with
  | [] => s
  | u :: q' =>
      let res := qget (pr_r s) u in
      let nbs := adj u in
      let rq := push_all (alpha * eps)%Q ((1 - alpha) * res / qnat (length nbs))%Q deg nbs (qput (pr_r s) u 0%Q) q' in
      PR (qput (pr_p s) u (qget (pr_p s) u + res)%Q) (fst rq) (snd rq)
  end.
Definition stamp (ts : option (list Z)) (i : nat) : Z := match ts with None => -1 | Some l => nth i l 0 end.
Definition push_rows (alpha eps : Q) (c : cache) (ts : option (list Z)) (rows : list prow) : list prow :=
  map (fun x => push_row alpha eps (fun n => list_of c (n, stamp ts (fst x))) (fun n => count_in c (n, stamp ts (fst x))) (snd x))
      (combine (seq 0 (length rows)) rows).
(** 1201-1254. *)
Fixpoint ppr_loop (fuel : nat) (alpha eps : Q) (ts : option (list Z)) (c : cache) (rows : list prow) : res (list prow) :=
  if forallb (fun s => match pr_q s with [] => true | _ => false end) rows then Ok rows
  else
    match fuel with
    | O => Fail EFuel
    | S m =>
        let input := fold_left add_key (concat (map (fun x => map (fun n => (n, stamp ts (fst x))) (rev (pr_q (snd x)))) (combine (seq 0 (length rows)) rows))) [] in
        do c' <- lookup_lists (match ts with None => false | Some _ => true end) c input ;;
        ppr_loop m alpha eps ts c' (push_rows alpha eps c' ts rows)
    end.

(** 1256-1275: the queue pq as an ascending list of (score, node). *)
Definition score_ltb (a b : Q * Z) : bool := negb (Qle_bool (fst b) (fst a)) || (Qeq_bool (fst a) (fst b) && (snd a <? snd b)).
Fixpoint insert_score (x : Q * Z) (l : list (Q * Z)) : list (Q * Z) :=
  match l with [] => [x] | y :: t => if score_ltb x y then x :: l else y :: insert_score x t end.
Fixpoint best (count : nat) (m : qmap) (pq : list (Q * Z)) : res (list (Q * Z)) :=
  match m with
  | [] => Ok pq
  | (n, x) :: m' =>
      if (length pq <? count)%nat then best count m' (insert_score (x, n) pq)
      else
        match pq with
        | [] => Fail EUB
        | top :: rest => if negb (Qle_bool (fst top) x) then best count m' pq else best count m' (insert_score (x, n) rest)
        end
  end.
(** 1277-1293. *)
Definition row_answer (count : nat) (default : Q * Z) (s : prow) : res (list (Q * Z)) :=
  do pq <- best count (pord (pr_p s)) [] ;; Ok (firstn count pq ++ repeat default (count - length pq)).
Definition ppr (fuel : nat) (alpha eps : Q) (nodes : list Z) (ts : option (list Z)) (count : nat) (default : Q * Z) : res (list (list (Q * Z))) :=
  do rows <- ppr_loop fuel alpha eps ts (Cache [] []) (map (fun n => PR [] [(n, alpha)] [n]) nodes) ;;
  mapM (row_answer count default) rows.
End Ppr.
