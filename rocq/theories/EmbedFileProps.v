(** C89: embeddings written to files are the ones read back. *)
From Coq Require Import Permutation.
From Verif Require Import Base SetupModel DecoderModel EmbedFileModel EmbedFileSpec EmbedFileProofs.
Local Open Scope Z_scope.

(** Assumptions about formatting: a formatted number holds no tab, line feed or blank and is read
    as [rnd] of it, also in front of a line feed.  The table holds for every node the embedding
    computed last, rounded, and zeros for nodes without one. *)
Theorem C89_load_partial : forall (F G : Type) (fmt : F -> str) (pfloat : str -> res G) (zero : G) (rnd : F -> G),
  (forall x c, In c (fmt x) -> (c <> 9 /\ c <> 10 /\ c <> 32)%N) ->
  (forall x, pfloat (fmt x) = Ok (rnd x)) -> (forall x, pfloat (fmt x ++ [10%N]) = Ok (rnd x)) ->
  forall (num dim : nat) (invalid : Z) (files : list (list (list Z * list (list F)))),
  (0 < dim)%nat ->
  Forall (Forall (fun b => length (snd b) = length (fst b) /\ Forall (fun e => length e = dim) (snd b) /\
                           Forall (fun n => n = invalid \/ 0 <= n < Z.of_nat num) (fst b))) files ->
  exists texts, mapM (write_file fmt invalid) files = Ok texts /\
  exists t, load_embeddings pfloat zero num dim texts = Ok t /\ length t = num /\
    forall i, (i < num)%nat ->
      nth i t [] = match last_of (Z.of_nat i) (flat_map (records invalid) files) with
                   | Some e => map rnd e | None => repeat zero dim end.
Proof. exact @load_written. Qed.
Print Assumptions C89_load_partial.

(** If the records of a node agree, the order in which the files are listed does not matter. *)
Theorem C89_order_partial : forall (F G : Type) (fmt : F -> str) (pfloat : str -> res G) (zero : G) (rnd : F -> G),
  (forall x c, In c (fmt x) -> (c <> 9 /\ c <> 10 /\ c <> 32)%N) ->
  (forall x, pfloat (fmt x) = Ok (rnd x)) -> (forall x, pfloat (fmt x ++ [10%N]) = Ok (rnd x)) ->
  forall (num dim : nat) (invalid : Z) (files files' : list (list (list Z * list (list F)))),
  (0 < dim)%nat ->
  Forall (Forall (fun b => length (snd b) = length (fst b) /\ Forall (fun e => length e = dim) (snd b) /\
                           Forall (fun n => n = invalid \/ 0 <= n < Z.of_nat num) (fst b))) files ->
  Permutation files files' -> consistent (flat_map (records invalid) files) ->
  exists texts texts' t, mapM (write_file fmt invalid) files = Ok texts /\ mapM (write_file fmt invalid) files' = Ok texts' /\
    load_embeddings pfloat zero num dim texts = Ok t /\ load_embeddings pfloat zero num dim texts' = Ok t.
Proof. exact @load_any_order. Qed.
Print Assumptions C89_order_partial.

(** Whatever the id: it is written to the row it has modulo the number of nodes, or ends the
    reading. *)
Theorem C89_any_node : forall (F G : Type) (fmt : F -> str) (pfloat : str -> res G) (zero : G) (rnd : F -> G),
  (forall x c, In c (fmt x) -> (c <> 9 /\ c <> 10 /\ c <> 32)%N) ->
  (forall x, pfloat (fmt x) = Ok (rnd x)) -> (forall x, pfloat (fmt x ++ [10%N]) = Ok (rnd x)) ->
  forall (num dim : nat) (n : Z) (e : list F) (invalid : Z),
  (0 < dim)%nat -> length e = dim -> n <> invalid ->
  exists s, write_file fmt invalid [([n], [e])] = Ok s /\
    (- Z.of_nat num <= n < Z.of_nat num ->
      exists t, load_embeddings pfloat zero num dim [s] = Ok t /\ length t = num /\
        forall i, (i < num)%nat -> nth i t [] = if (n mod Z.of_nat num =? Z.of_nat i) then map rnd e else repeat zero dim) /\
    (~ - Z.of_nat num <= n < Z.of_nat num -> load_embeddings pfloat zero num dim [s] = Fail EIndex).
Proof. exact @one_line. Qed.
Print Assumptions C89_any_node.
Theorem C89_no_tab : forall (G : Type) (pfloat : str -> res G) (zero : G) (n : Z) (num dim : nat),
  load_embeddings pfloat zero num dim [show_int n ++ [10%N]] = Fail EIndex.
Proof. exact @no_tab. Qed.
Print Assumptions C89_no_tab.

(** Lines of a file are its pieces: nothing is lost and no piece holds two lines. *)
Theorem C89_lines : forall s : str, concat (lines_of s) = s.
Proof. exact lines_back. Qed.
Print Assumptions C89_lines.
Theorem C89_line_ends : forall ls : list str,
  Forall (fun l => exists b, l = b ++ [10%N] /\ ~ In 10%N b) ls -> lines_of (concat ls) = ls.
Proof. exact lines_of_concat. Qed.
Print Assumptions C89_line_ends.

(** Files of the torch trainer: one line for every embedding, "id v v ...". *)
Theorem C89_torch_partial : forall (F G : Type) (fmt : F -> str) (pfloat : str -> res G) (rnd : F -> G),
  (forall x c, In c (fmt x) -> (c <> 9 /\ c <> 10 /\ c <> 32)%N) ->
  (forall x, pfloat (fmt x) = Ok (rnd x)) -> (forall x, pfloat (fmt x ++ [10%N]) = Ok (rnd x)) ->
  forall (ids : list Z) (emb : list (list F)) (s : str),
  length emb = length ids -> ~ In [] emb -> output_embedding fmt (IBatch [ids]) emb = Ok s ->
  mapM (fun l => match split 32 l with
                 | n :: fs => do z <- parse_int n ;; do e <- mapM pfloat fs ;; Ok (z, e)
                 | [] => Fail EIndex end) (lines_of s)
  = Ok (combine ids (map (map rnd) emb)).
Proof. exact @torch_values. Qed.
Print Assumptions C89_torch_partial.
Theorem C89_torch_total : forall (F : Type) (fmt : F -> str) (ids : list Z) (emb : list (list F)),
  length emb = length ids ->
  torch_lines fmt ids emb = Ok (map (fun r => torch_line fmt (fst r) (snd r)) (combine ids emb)).
Proof. exact @torch_write. Qed.
Print Assumptions C89_torch_total.

(** Integers in the place of floats. *)
Example C89_case :
  exists a b, write_file show_int (-1) [([2; -1], [[7; 8]; [9; 9]]); ([0], [[1; -2]])] = Ok a /\
    write_file show_int (-1) [([0], [[5; 6]])] = Ok b /\
    a = [50; 9; 55; 32; 56; 10; 48; 9; 49; 32; 45; 50; 10]%N /\
    load_embeddings parse_int 0 4 2 [a; b] = Ok [[5; 6]; [0; 0]; [7; 8]; [0; 0]].
Proof. eexists. eexists. repeat split; vm_compute; reflexivity. Qed.
Example C89_formatting : forall x : Z,
  (forall c, In c (show_int x) -> (c <> 9 /\ c <> 10 /\ c <> 32)%N) /\ parse_int (show_int x) = Ok x.
Proof.
  intro x. split; [|apply DecoderProofs.parse_show]. intros c H.
  repeat split; intros ->; revert H; apply show_sep; tauto.
Qed.

(** Findings.  A node below zero that is not the invalid one is written and read into the last
    row; a node beyond the table ends the reading. *)
Theorem C89_outside_refuted : exists a b,
  write_file show_int 5 [([-1], [[7]])] = Ok a /\ load_embeddings parse_int 0 3 1 [a] = Ok [[0]; [0]; [7]] /\
  write_file show_int (-1) [([3], [[7]])] = Ok b /\ load_embeddings parse_int 0 3 1 [b] = Fail EIndex.
Proof. eexists. eexists. repeat split; vm_compute; reflexivity. Qed.
Print Assumptions C89_outside_refuted.
(** Two workers with different embeddings of a node: glob decides. *)
Theorem C89_glob_refuted : exists a b,
  write_file show_int (-1) [([0], [[7]])] = Ok a /\ write_file show_int (-1) [([0], [[8]])] = Ok b /\
  load_embeddings parse_int 0 1 1 [a; b] = Ok [[8]] /\ load_embeddings parse_int 0 1 1 [b; a] = Ok [[7]].
Proof. eexists. eexists. repeat split; vm_compute; reflexivity. Qed.
Print Assumptions C89_glob_refuted.
(** Embeddings without elements can be written but not read. *)
Theorem C89_no_width_refuted : exists a,
  write_file show_int (-1) [([0], [[]])] = Ok a /\ load_embeddings parse_int 0 1 0 [a] = Fail EFatal.
Proof. eexists. split; vm_compute; reflexivity. Qed.
Print Assumptions C89_no_width_refuted.
(** The number of steps is ignored by the TF1 trainer. *)
Theorem C89_steps_refuted : exists bs a b,
  tf1_inference show_int (-1) (Some 1%nat) bs = Ok a /\ tf2_inference show_int (-1) (Some 1%nat) bs = Ok b /\
  lines_of b = [[48; 9; 55; 10]]%N /\ lines_of a = [[48; 9; 55; 10]; [49; 9; 56; 10]]%N.
Proof. exists [([0], [[7]]); ([1], [[8]])]. eexists. eexists. repeat split; vm_compute; reflexivity. Qed.
Print Assumptions C89_steps_refuted.
(** Torch: a vector with one id is squeezed to a scalar and cannot be indexed; ids without an
    embedding are dropped; the other reader does not accept the file. *)
Theorem C89_scalar_refuted :
  output_embedding show_int (IVec [4]) [[7]] = Fail EIndex /\
  output_embedding show_int (IVec [4; 5]) [[7]; [8]] = Ok [52; 32; 55; 10; 53; 32; 56; 10]%N /\
  output_embedding show_int (IBatch [[4]]) [[7]] = Ok [52; 32; 55; 10]%N.
Proof. repeat split; vm_compute; reflexivity. Qed.
Print Assumptions C89_scalar_refuted.
Theorem C89_formats_refuted : exists s,
  output_embedding show_int (IBatch [[4; 5]]) [[7]] = Ok s /\ s = [52; 32; 55; 10]%N /\
  load_embeddings parse_int 0 9 1 [s] = Fail EFatal.
Proof. eexists. repeat split; vm_compute; reflexivity. Qed.
Print Assumptions C89_formats_refuted.
