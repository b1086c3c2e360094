(** Servers of the distributed client and the barrier of the Azure ML example: what is expected. *)
From Coq Require Import Ascii String.
From Verif Require Import Base FilesModel AmlModel.
Import ListNotations.
Open Scope list_scope.

(** A worker has set its lock; is or was in the context; has left it. *)
Definition has_set (p : place) : Prop := match p with Before | Told => False | _ => True end.
Definition has_entered (p : place) : Prop := match p with Before | Told | Polling => False | _ => True end.
Definition has_left (p : place) : Prop := match p with Leaving | Gone => True | _ => False end.

Definition finished (n : nat) (st : state) : Prop := forall i, i < n -> at_ st i = Gone.
(** The workers can all come to their end. *)
Definition can_finish (n : nat) (st : state) : Prop := exists es st', run n st es = Some st' /\ finished n st'.
(** One worker has left the context before another one has entered it. *)
Definition overtaken (n : nat) (st : state) : Prop := exists i j, i < n /\ j < n /\ ~ has_entered (at_ st i) /\ has_left (at_ st j).
