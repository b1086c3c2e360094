(** What the texts of the command line say, without reference to the conversions. *)
From Verif Require Import Base SetupModel DecoderModel ArgsModel.
Local Open Scope Z_scope.

(** Numbers written with commas; rows of numbers written with semicolons. *)
Definition written (l : list Z) : str := join 44 (map show_int l).
Definition written2 (rows : list (list Z)) : str := join 59 (map written rows).

(** The partitions 0 .. p-1. *)
Definition all_partitions (p : Z) : list Z := map Z.of_nat (seq 0 (Z.to_nat p)).
(** Partitions server i of n is responsible for. *)
Definition share (i n p : Z) : list Z := filter (fun x => x mod n =? i) (all_partitions p).

(** Two letters agree up to case. *)
Definition same_letter (c d : N) : Prop := c = d \/ (65 <= c <= 90 /\ d = c + 32)%N.
Definition same_word (s w : str) : Prop := Forall2 same_letter s w.

(** The partition an element of the list of partitions names: an int is one in the directory of
    meta.json. *)
Inductive loads (meta : str) : parg -> str * Z -> Prop :=
| LInt p : loads meta (PInt p) (meta, p)
| LPair d p : loads meta (PPair d p) (d, p).
Definition id_of (a : parg) : Z := match a with PInt p => p | PPair _ p => p | _ => 0 end.
