(** What the typed arrays of the client should hold, in terms of the values that were given to
    the converter. *)
From Verif Require Import Base WriterModel GraphSpec FeatureSpec.
Local Open Scope Z_scope.

(** [size] values: cut or padded with 0. *)
Definition padded (size : nat) (vs : list Z) : list Z := firstn size (vs ++ repeat 0 size).

(** [vals] gives the values that were written as the given bytes.  The values behind the first
    entry, behind the first entry that is not empty, and behind a chosen entry of a history. *)
Definition first_values (vals : list N -> list Z) (l : list (option (list N))) : list Z :=
  match l with Some bs :: _ => vals bs | _ => [] end.
Definition first_given (vals : list N -> list Z) (l : list (option (list N))) : list Z :=
  first_values vals (filter (fun v => match v with Some (_ :: _) => true | _ => false end) l).
Definition values_of (vals : list N -> list Z) (x : option (Z * list N)) : list Z :=
  match x with Some y => vals (snd y) | None => [] end.

(** One row of a dense answer: for each requested (feature, size) so many values. *)
Definition spec_row (vals : Z -> list Z) (fs : list (Z * Z)) : list Z :=
  flat_map (fun f => padded (Z.to_nat (snd f)) (vals (fst f))) fs.

(** A sparse answer for one feature: [vs] are the coordinate tuples and values of each element. *)
Definition spec_coords (vs : list (option (list (list Z) * list Z))) : list (list Z) :=
  flat_map (fun x => match snd x with Some v => map (cons (fst x)) (fst v) | None => [] end) (numbered 0 vs).
Definition spec_values (vs : list (option (list (list Z) * list Z))) : list Z :=
  flat_map (fun v => match v with Some v => snd v | None => [] end) vs.
(** The number of coordinates of the first tuple. *)
Definition spec_dim (vs : list (option (list (list Z) * list Z))) : Z :=
  match flat_map (fun v => match v with Some v => fst v | None => [] end) vs with
  | t :: _ => Z.of_nat (length t)
  | [] => 0
  end.
