(** What the files of embeddings should hold. *)
From Verif Require Import Base.
Local Open Scope Z_scope.

(** The records of a worker in the order they were computed: pairs of node and embedding,
    without the invalid node. *)
Definition records {A} (invalid : Z) (bs : list (list Z * list A)) : list (Z * A) :=
  filter (fun r => negb (fst r =? invalid)) (flat_map (fun b => combine (fst b) (snd b)) bs).

(** The last record of node n. *)
Fixpoint last_of {A} (n : Z) (l : list (Z * A)) : option A :=
  match l with
  | [] => None
  | (m, e) :: l' => match last_of n l' with Some x => Some x | None => if m =? n then Some e else None end
  end.

(** All records of a node agree. *)
Definition consistent {A} (l : list (Z * A)) : Prop :=
  forall n x y, In (n, x) l -> In (n, y) l -> x = y.
