(** C106: migration of scripts. *)
From Verif Require Import Base FilesModel CkptModel CkptSpec CkptProofs MigrateModel MigrateSpec MigrateProofs.
From Coq Require Import Ascii String.
Import ListNotations.
Open Scope list_scope.

(** ** str.replace *)
(** Every text is pieces with the word between them, and the pieces stay. *)
Theorem C106_pieces : forall old, old <> [] -> forall s, exists ps, ps <> [] /\ s = glue old ps /\ Forall (fun p => ~ inside old p) ps.
Proof. exact pieces_of. Qed.
Print Assumptions C106_pieces.
Theorem C106_replace : forall old new ps, old <> [] -> unbordered old -> ps <> [] -> Forall (fun p => ~ inside old p) ps ->
  replace old new (glue old ps) = glue new ps.
Proof. exact replace_ok. Qed.
Print Assumptions C106_replace.
Example C106_replace_example : replace (str "ab") (str "x") (str "aababcb") = str "axxcb" /\ replace (str "aa") (str "a") (str "aaaaa") = str "aaa" /\
  unbordered (str "ab").
Proof.
  split; [vm_compute; reflexivity|]. split; [vm_compute; reflexivity|]. intros u v x E1 E2.
  destruct u as [|c [|d [|e u]]]; [now left| |destruct v; [now right|discriminate E1]|discriminate E1].
  destruct v as [|a v]; [now right|]. cbn in E1, E2. injection E1 as _ E1 _. injection E2 as E2 _. congruence.
Qed.

(** ** 0_1_57 *)
(** The text is what it was with the new name of the function. *)
Theorem C106_57 : forall pasta s, (forall t t', pasta t = Some t' -> t' = t) -> pasta s <> None ->
  exists ps, ps <> [] /\ s = glue (str "get_feature_type") ps /\ Forall (fun p => ~ inside (str "get_feature_type") p) ps /\
    text57 pasta s = Some (glue (str "get_python_type") ps).
Proof. exact text57_ok. Qed.
Print Assumptions C106_57.
(** Nothing of the old name is left, and a second run changes nothing. *)
Theorem C106_57_done : forall pasta s s', text57 pasta s = Some s' -> ~ inside (str "get_feature_type") s'.
Proof. exact text57_done. Qed.
Print Assumptions C106_57_done.
Theorem C106_57_again : forall pasta s s' s'', (forall t t', pasta t = Some t' -> t' = t) -> text57 pasta s = Some s' -> text57 pasta s' = Some s'' -> s'' = s'.
Proof. exact text57_again. Qed.
Print Assumptions C106_57_again.
Example C106_57_example : text57 (@Some nm) (str "t = m.get_feature_type(x) # get_feature_type") = Some (str "t = m.get_python_type(x) # get_python_type").
Proof. vm_compute. reflexivity. Qed.

(** ** 0_1_56 *)
(** Names of types become those of numpy, everything else stays. *)
Theorem C106_56_types : forall p l, ~ inside (str "FeatureType.") p -> Forall (fun e => ~ inside (str "FeatureType.") (snd e)) l ->
  types56 (script before p l) = script now p l.
Proof. exact types56_ok. Qed.
Print Assumptions C106_56_types.
(** In any text nothing of the old names is left. *)
Theorem C106_56_done : forall s k, ~ inside (before k) (types56 s).
Proof. exact types56_done. Qed.
Print Assumptions C106_56_done.
(** The renamed import and the renamed uses of the class. *)
Theorem C106_56_import : forall a b, ~ inside (str "dtype_temp") a -> ~ inside (str "dtype_temp") b ->
  names56 (a ++ str "from numpy import dtype_temp" ++ b) = a ++ str "import numpy as np" ++ b.
Proof. exact names56_import. Qed.
Print Assumptions C106_56_import.
Theorem C106_56_uses : forall ps, ps <> [] -> Forall (fun p => ~ inside (str "dtype_temp") p /\ ~ inside (str "from numpy import ") p) ps ->
  names56 (glue (str "dtype_temp") ps) = glue (str "np.dtype") ps.
Proof. exact names56_uses. Qed.
Print Assumptions C106_56_uses.
(** A script in which pasta has nothing to rename.  Missing for the full statement: the names are
    attributes of modules, or numpy is not imported (C106_module_refuted, C106_numpy_refuted). *)
Theorem C106_56_partial : forall renamed p l, let s := script now p l in ~ inside (str "FeatureType.") p -> Forall (fun e => ~ inside (str "FeatureType.") (snd e)) l ->
  renamed s = Some s -> ~ inside (str "dtype_temp") s -> text56 renamed (script before p l) = Some s.
Proof. exact text56_ok. Qed.
Print Assumptions C106_56_partial.
Example C106_56_example : script before (str "f(") [(Float, str ", "); (Binary, str ", "); (Int64, str ")")] = str "f(FeatureType.FLOAT, FeatureType.BINARY, FeatureType.INT64)" /\
  text56 (@Some nm) (str "f(FeatureType.FLOAT, FeatureType.BINARY, FeatureType.INT64)") = Some (str "f(np.float32, np.uint8, np.int64)") /\
  names56 (str "from numpy import dtype_temp; x: dtype_temp") = str "import numpy as np; x: np.dtype".
Proof. vm_compute. repeat split. Qed.

(** ** Files *)
(** A run that ends: scripts are migrated, other files stay. *)
Theorem C106_run : forall text l l', run text l = (l', None) -> Forall2 (migrated text) l l'.
Proof. exact run_ok. Qed.
Print Assumptions C106_run.
Theorem C106_run_total : forall text l, Forall (fun e => ~ stops text e) l -> snd (run text l) = None.
Proof. exact run_total. Qed.
Print Assumptions C106_run_total.
(** A run that stops: the files before are migrated, the others stay. *)
Theorem C106_run_stop : forall text l l' e, run text l = (l', Some e) -> exists done x rest done', l = done ++ x :: rest /\ l' = done' ++ x :: rest /\
  Forall2 (migrated text) done done' /\ stops text x.
Proof. exact run_stop. Qed.
Print Assumptions C106_run_stop.
Example C106_run_example :
  run (text57 (@Some nm)) [(str "a.py", Text (str "get_feature_type")); (str "d", Folder); (str "d/b.pyc", Text (str "get_feature_type")); (str "d/.py", Text (str "x"))] =
  ([(str "a.py", Text (str "get_python_type")); (str "d", Folder); (str "d/b.pyc", Text (str "get_feature_type")); (str "d/.py", Text (str "x"))], None).
Proof. vm_compute. reflexivity. Qed.
(** Ends of lines: texts of Unix stay, texts of Windows become texts of Unix. *)
Theorem C106_unix : forall s, unix s -> universal s = s.
Proof. exact universal_id. Qed.
Print Assumptions C106_unix.
Theorem C106_read : forall s, unix (universal s).
Proof. exact universal_unix. Qed.
Print Assumptions C106_read.
Theorem C106_windows : forall ls, Forall unix ls -> universal (glue [ascii_of_nat 13; ascii_of_nat 10] ls) = glue [ascii_of_nat 10] ls.
Proof. exact universal_crlf. Qed.
Print Assumptions C106_windows.
Example C106_old_mac : universal (str "a" ++ [cr] ++ str "b" ++ [cr; cr; lf] ++ str "c" ++ [cr]) = str "a" ++ [lf] ++ str "b" ++ [lf; lf] ++ str "c" ++ [lf].
Proof. vm_compute. reflexivity. Qed.

(** ** Refuted *)
(** Pasta has nothing to rename in a text without the name of the class. *)
Definition leaves (renamed : nm -> option nm) : Prop := forall s, ~ inside (str "FeatureType") s -> renamed s = Some s.
Lemma not_inside P s : contains P s = false -> ~ inside P s.
Proof. intros H I. apply contains_spec in I. congruence. Qed.
(** Parts of other names are renamed. *)
Theorem C106_names_refuted : exists s s', text57 (@Some nm) s = Some s' /\ s = str "budget_feature_types = 1" /\ s' = str "budget_python_types = 1".
Proof. eexists _, _. split; [|split; reflexivity]. vm_compute. reflexivity. Qed.
Print Assumptions C106_names_refuted.
(** The class as an attribute of a module: the new name is looked up in the module. *)
Theorem C106_module_refuted : exists s s', (forall renamed, leaves renamed -> text56 renamed s = Some s') /\
  s = str "import deepgnn.graph_engine as ge; x = ge.FeatureType.FLOAT" /\ s' = str "import deepgnn.graph_engine as ge; x = ge.np.float32".
Proof.
  eexists _, _. split; [|split; reflexivity]. intros renamed L. unfold text56.
  assert (E : types56 (str "import deepgnn.graph_engine as ge; x = ge.FeatureType.FLOAT") = str "import deepgnn.graph_engine as ge; x = ge.np.float32") by (vm_compute; reflexivity).
  rewrite E, L; [vm_compute; reflexivity|]. apply not_inside. vm_compute. reflexivity.
Qed.
Print Assumptions C106_module_refuted.
(** The class from an import of everything: numpy is not imported. *)
Theorem C106_numpy_refuted : exists s s', (forall renamed, leaves renamed -> text56 renamed s = Some s') /\
  s = str "from deepgnn.graph_engine import *; x = FeatureType.INT64" /\ s' = str "from deepgnn.graph_engine import *; x = np.int64" /\ ~ inside (str "numpy") s'.
Proof.
  eexists _, _. split; [|split; [reflexivity|split; [reflexivity|apply not_inside; vm_compute; reflexivity]]]. intros renamed L. unfold text56.
  assert (E : types56 (str "from deepgnn.graph_engine import *; x = FeatureType.INT64") = str "from deepgnn.graph_engine import *; x = np.int64") by (vm_compute; reflexivity).
  rewrite E, L; [vm_compute; reflexivity|]. apply not_inside. vm_compute. reflexivity.
Qed.
Print Assumptions C106_numpy_refuted.
(** Names of the script that contain the temporary name are changed. *)
Theorem C106_temp_refuted : exists s s', (forall renamed, leaves renamed -> text56 renamed s = Some s') /\ s = str "my_dtype_temp = 1" /\ s' = str "my_np.dtype = 1".
Proof.
  eexists _, _. split; [|split; reflexivity]. intros renamed L. unfold text56.
  assert (E : types56 (str "my_dtype_temp = 1") = str "my_dtype_temp = 1") by (vm_compute; reflexivity).
  rewrite E, L; [vm_compute; reflexivity|]. apply not_inside. vm_compute. reflexivity.
Qed.
Print Assumptions C106_temp_refuted.
(** A file without any of the names is changed: its ends of lines. *)
Theorem C106_lines_refuted : exists s s', run (text57 (@Some nm)) [(str "a.py", Text s)] = ([(str "a.py", Text s')], None) /\ ~ inside (str "get_feature_type") s /\ s <> s'.
Proof.
  exists (str "x = 1" ++ [cr; lf]), (str "x = 1" ++ [lf]). split; [vm_compute; reflexivity|]. split; [apply not_inside; vm_compute; reflexivity|discriminate].
Qed.
Print Assumptions C106_lines_refuted.
(** One script with an error, or a directory with the name of a script, and the result depends on
    the order of the directory. *)
Theorem C106_order_refuted : exists pasta a b c, let files := [a; b; c] in
  snd (run (text57 pasta) [a; b]) = Some BadSyntax /\ fst (run (text57 pasta) [a; b]) = [a; b] /\
  fst (run (text57 pasta) [b; a]) = [(str "b.py", Text (str "get_python_type")); a] /\
  run (text57 pasta) [c; b] = ([c; b], Some IsDirectory) /\ In b files /\ b = (str "b.py", Text (str "get_feature_type")).
Proof.
  exists (fun s => if contains (str "print x") s then None else Some s), (str "a.py", Text (str "print x")), (str "b.py", Text (str "get_feature_type")), (str "c.py", Folder).
  vm_compute. repeat split. tauto.
Qed.
Print Assumptions C106_order_refuted.
