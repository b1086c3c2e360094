(** Migration of scripts: deepgnn/migrate/0_1_56.py and 0_1_57.py.

    A directory is the list of what is below it in the order of Path.glob, which is any; a file has
    a text.  Arguments: [pasta] is pasta.dump of pasta.parse, [renamed] is the same with
    rename.rename_external of FeatureType to numpy.dtype_temp in between; None for SyntaxError.
    Not modelled: encodings, links, permissions, interruptions. *)
From Verif Require Import Base FilesModel CkptModel.
From Coq Require Import Ascii String.
Import ListNotations.
Open Scope list_scope.

(** str.replace for a word that is not empty; [skip] characters belong to an occurrence. *)
Fixpoint go (old new : nm) (skip : nat) (s : nm) : nm :=
  match s with
  | [] => []
  | c :: t =>
      match skip with
      | S k => go old new k t
      | 0 => if starts old s then new ++ go old new (List.length old - 1) t else c :: go old new 0 t
      end
  end.
Definition replace (old new s : nm) : nm := go old new 0 s.

Definition cr : ascii := ascii_of_nat 13.
Definition lf : ascii := ascii_of_nat 10.
(** file.read() of a file opened with "r": every end of line becomes \n. *)
Fixpoint universal (s : nm) : nm :=
  match s with
  | [] => []
  | c :: t =>
      if Ascii.eqb c cr
      then match t with
           | d :: t' => if Ascii.eqb d lf then lf :: universal t' else lf :: universal t
           | [] => [lf]
           end
      else c :: universal t
  end.

(** 0_1_56.py 21-23 *)
Definition types56 (s : nm) : nm :=
  replace (str "FeatureType.BINARY") (str "np.uint8")
    (replace (str "FeatureType.INT64") (str "np.int64")
      (replace (str "FeatureType.FLOAT") (str "np.float32") s)).
(** 0_1_56.py 33-36 *)
Definition names56 (s : nm) : nm :=
  replace (str "dtype_temp") (str "np.dtype") (replace (str "from numpy import dtype_temp") (str "import numpy as np") s).
Definition text56 (renamed : nm -> option nm) (s : nm) : option nm := option_map names56 (renamed (types56 s)).
(** 0_1_57.py 20-24 *)
Definition text57 (pasta : nm -> option nm) (s : nm) : option nm :=
  option_map (replace (str "get_feature_type") (str "get_python_type")) (pasta s).

Inductive node := Text (s : nm) | Folder.
Inductive stop := IsDirectory | BadSyntax.
(** glob("**/*.py") *)
Definition py (name : nm) : bool := starts (rev (str ".py")) (rev name).
Fixpoint run (text : nm -> option nm) (l : list (nm * node)) : list (nm * node) * option stop :=
  match l with
  | [] => ([], None)
  | (n, x) :: t =>
      if py n
      then match x with
           | Folder => (l, Some IsDirectory)
           | Text s =>
               match text (universal s) with
               | None => (l, Some BadSyntax)
               | Some s' => let (t', e) := run text t in ((n, Text s') :: t', e)
               end
           end
      else let (t', e) := run text t in ((n, x) :: t', e)
  end.
