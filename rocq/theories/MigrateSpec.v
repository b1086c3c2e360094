(** What migrating scripts should do. *)
From Verif Require Import Base FilesModel CkptSpec MigrateModel.
From Coq Require Import Ascii String.
Import ListNotations.
Open Scope list_scope.

(** Pieces of text with a word between them. *)
Fixpoint glue (w : nm) (ps : list nm) : nm :=
  match ps with [] => [] | [p] => p | p :: ps' => p ++ w ++ glue w ps' end.
(** The word never overlaps itself. *)
Definition unbordered (w : nm) : Prop := forall u v x, w = u ++ v -> w = v ++ x -> u = [] \/ v = [].

(** Text with names of types in it: a piece, then names each followed by a piece. *)
Inductive kind := Float | Int64 | Binary.
Definition before (k : kind) : nm := str "FeatureType." ++ match k with Float => str "FLOAT" | Int64 => str "INT64" | Binary => str "BINARY" end.
Definition now (k : kind) : nm := str "np." ++ match k with Float => str "float32" | Int64 => str "int64" | Binary => str "uint8" end.
Fixpoint script (name : kind -> nm) (p : nm) (l : list (kind * nm)) : nm :=
  match l with [] => p | (k, q) :: l' => p ++ name k ++ script name q l' end.

(** A python file: any name before .py *)
Definition is_script (name : nm) : Prop := exists a, name = a ++ str ".py".
(** Text without carriage returns. *)
Definition unix (s : nm) : Prop := ~ In (ascii_of_nat 13) s.
(** What one file should become. *)
Definition migrated (text : nm -> option nm) (e e' : nm * node) : Prop :=
  fst e' = fst e /\
  ((~ is_script (fst e) /\ snd e' = snd e) \/
   (is_script (fst e) /\ exists s s', snd e = Text s /\ text (universal s) = Some s' /\ snd e' = Text s')).
(** A file at which the run stops. *)
Definition stops (text : nm -> option nm) (e : nm * node) : Prop :=
  is_script (fst e) /\ (snd e = Folder \/ exists s, snd e = Text s /\ text (universal s) = None).
