(** What layers should do, without the model's helpers. *)
From Coq Require Import Ascii String List Arith Bool Sorted.
From Verif Require Import Base FilesModel.
Import ListNotations.

(** Names of the variables of a layer: different, without a slash. *)
Definition plain_vars (vs : list nm) : Prop := NoDup vs /\ forall v, In v vs -> ~ In "/"%char v.

Definition upper_letters : list ascii := list_ascii_of_string "ABCDEFGHIJKLMNOPQRSTUVWXYZ".
Definition lower_letters : list ascii := list_ascii_of_string "abcdefghijklmnopqrstuvwxyz".

(** Row [i] of width [w] of a flat tensor. *)
Definition slice {V} (i w : nat) (data : list V) : list V := firstn w (skipn (i * w) data).
(** Number of values of a tensor. *)
Definition size (shape : list nat) : nat := fold_right Nat.mul 1 shape.

(** The shape of a tensor agrees with what was known of it when the graph was made. *)
Definition agrees (static : list (option nat)) (shape : list nat) : Prop :=
  Forall2 (fun s d => s = None \/ s = Some d) static shape.

Definition unknown_axes (static : list (option nat)) : nat :=
  length (filter (fun d => match d with None => true | _ => false end) static).

(** Ids of row [r] of a sparse tensor. *)
Definition ids_of (r : nat) (entries : list (nat * nat)) : list nat :=
  map snd (filter (fun e => fst e =? r) entries).
Definition ordered (entries : list (nat * nat)) : Prop := StronglySorted Peano.le (map fst entries).
