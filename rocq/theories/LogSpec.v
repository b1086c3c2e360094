(** What a logger that is shared by threads promises. *)
From Verif Require Import Base LogModel.

Definition ended (p : pc) : bool := match p with Stop _ => true | _ => false end.
Definition inner (c : ctx) : bool := match c with Inner => true | User _ => false end.
(** Holding the lock. *)
Definition inside (p : pc) : bool :=
  match p with
  | Second | Inited | Assign | Release _ => true
  | Class_ c | Enable c | Config c | Azure c | Mark c => inner c
  | _ => false
  end.
Definition getters (progs : nat -> program) : Prop := forall i, progs i = Get \/ progs i = Nothing.
