(** Eager trainers: what the logs, the summaries and the files of workers have to be. *)
From Verif Require Import Base FilesModel EagerModel.
From Coq Require Import Ascii String.
Import ListNotations.
Open Scope list_scope.

(** Batch [k] of an execution, counted over all epochs, is [x]; it ran in epoch [e]. *)
Definition ran {V} (run : list (list (batch V))) (k e : nat) (x : batch V) : Prop :=
  exists l b, nth_error run e = Some l /\ nth_error l b = Some x /\ k = List.length (List.concat (firstn e run)) + b.

(** The time before step [k] at which the last line was due, if every [n]-th step has one. *)
Definition last_line {V} (start : Z) (run : list (list (batch V))) (n k : nat) (t : Z) : Prop :=
  (k = 0 /\ t = start) \/
  (k <> 0 /\ n <= k /\ exists x, nth_error (List.concat run) (k - n) = Some x /\ t = fst x).

(** The steps a line at step [k] stands for. *)
Definition covered (n k : nat) : nat := if k =? 0 then 1 else n.

Definition relative (p : nm) : Prop := hd_error p <> Some "/"%char.

Definition keys {V} (s : list (nm * V * nat)) : list (nm * nat) := map (fun x => (fst (fst x), snd x)) s.
