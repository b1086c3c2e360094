(** Addresses of remote files. *)
From Coq Require Import Ascii String.
From Verif Require Import Base FilesModel.
Import ListNotations.
Local Open Scope list_scope.

Definition free (c : ascii) (n : nm) : Prop := ~ In c n.
Definition rooted (path : nm) : Prop := path = [] \/ exists t, path = "/"%char :: t.
(** scheme://authority[:port]path *)
Definition address (scheme authority : nm) (port : option nat) (path : nm) : nm :=
  scheme ++ str "://" ++ authority ++ match port with Some p => ":"%char :: dec p | None => [] end ++ path.
Definition remote (scheme : nm) : Prop := scheme = str "adl" \/ scheme = str "hdfs".
Definition not_file (p : nm) : Prop := forall x y, p <> x ++ str "file:///" ++ y.

(** A schedule in which every process reads right after it wrote. *)
Definition in_turn (ps : list nat) : list nat := flat_map (fun p => [p; p]) ps.
