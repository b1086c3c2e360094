(** Graphs built from downloaded files (C83, C84). *)
From Coq Require Import String Ascii Permutation Sorting.Sorted.
From Verif Require Import Base SetupModel MetaModel DecoderModel RawModel RawSpec RawGraphProofs RawLinkProofs.
Import ListNotations.
Open Scope nat_scope.

Definition txt (s : string) : str := map (fun c => N_of_ascii c) (list_ascii_of_string s).

(** ** C83: Cora and Citeseer *)
(** The records of the converter: every paper once, with the features and the number of its label,
    every citation in both directions and once, as an edge for training if and only if both papers
    are for training; the node files list the two sides of the split. *)
Theorem C83_graph : forall F (pfl : str -> res F) show conv pfloat one bits label_bits shuffle,
  pfloat one_text = Ok one -> (forall x, number_text (show x)) ->
  (forall xs, xs <> [] -> conv float32_text (map show xs) = Ok (bits xs)) ->
  (forall n, conv float32_text [show_int n] = Ok (label_bits n)) ->
  (forall l, Permutation (shuffle l) l) ->
  forall fdim strict random count content cites d,
  build pfl show shuffle fdim strict random count content cites = Ok d ->
  exists ps train (node : nat -> decoded) (out : nat -> list (Z * Z)),
    let n := List.length ps in
    Forall2 (describes fdim) content ps /\ NoDup (map name ps) /\ List.length train = n /\ split_ok random count train /\
    (forall i p, nth_error ps i = Some p -> exists xs k, mapM pfl (feats p) = Ok xs /\
       nth_error (firsts (map label ps)) k = Some (label p) /\
       node i = Decoded (id_of i) (-1) (if nth i train false then 0 else 1) one None None [FArray (bits xs); FArray (label_bits (Z.of_nat k))]) /\
    (forall i, StronglySorted before (out i)) /\
    (forall i t b, In (t, b) (out i) <-> exists j line, b = id_of j /\ In line cites /\ connects ps line i j /\
       t = if nth i train false && nth j train false then 0%Z else 1%Z) /\
    converts_to conv pfloat (graph_csv d)
      (flat_map (fun i => node i :: map (fun e => Decoded (id_of i) (snd e) (fst e) one None None []) (out i)) (seq 0 n)) /\
    train_file d = file_of (map (fun i => show_int (id_of i)) (filter (fun i => nth i train false) (seq 0 n))) /\
    test_file d = file_of (map (fun i => show_int (id_of i)) (filter (fun i => negb (nth i train false)) (seq 0 n))).
Proof. exact @graph_lemma. Qed.
Print Assumptions C83_graph.
(** It is built whenever the lines are as described, at least one paper is for training and, for
    Cora, the cited papers are known. *)
Theorem C83_builds_partial : forall F (pfl : str -> res F) show shuffle fdim strict random count content cites ps xss,
  (forall l, Permutation (shuffle l) l) -> 0 < fdim -> Forall2 (describes fdim) content ps -> NoDup (map name ps) ->
  mapM (fun p => mapM pfl (feats p)) ps = Ok xss -> (1 <= count <= Z.of_nat (List.length ps))%Z ->
  Forall (fun l => exists p q rest, spaced l (p :: q :: rest) /\ (strict = true -> In p (map name ps) /\ In q (map name ps))) cites ->
  exists d, build pfl show shuffle fdim strict random count content cites = Ok d.
Proof. exact @builds_lemma. Qed.
Print Assumptions C83_builds_partial.
(** What a client gets of the lines: those of the first partition, all of them if it is the only one. *)
Theorem C83_client_partial : forall n lines, 0 < n -> exists got, client_lines n lines = Ok got /\
  got = map snd (filter (fun p => fst p mod n =? 0) (combine (seq 0 (List.length lines)) lines)) /\ (n = 1 -> got = lines).
Proof.
  intros n lines H. destruct (client_lemma n lines H) as (got & E & D). exists got. split; [exact E|]. split; [exact D|].
  intros ->. rewrite client_all in E. now injection E as <-.
Qed.
Print Assumptions C83_client_partial.

Definition same {A} (x : A) : A := x.
Definition sample_content : list str := [txt "p31 0.5 1.0 Theory"; txt "p8 0 1 Networks "; txt "p100	1 1 Theory"].
Definition sample_cites : list str := [txt "p31 p8"; txt "p8 p100"; txt "p100 p8"; txt "p100 p100"].
Example C83_sample : build Ok (@same str) same 2 true false 2 sample_content sample_cites =
  Ok (Built (file_of (map txt
    ["1,-1,0,1.0,float32,2,0.5,1.0,float32,1,0"; "1,0,2,1.0";
     "2,-1,0,1.0,float32,2,0,1,float32,1,1"; "2,0,1,1.0"; "2,1,3,1.0";
     "3,-1,1,1.0,float32,2,1,1,float32,1,0"; "3,1,2,1.0"; "3,1,3,1.0"]%string))
    (file_of (map txt ["1"; "2"]%string)) (file_of (map txt ["3"]%string))).
Proof. vm_compute. reflexivity. Qed.

(** A dataset in two partitions: the client loads the first only, half of the lines are missing. *)
Theorem C83_partitions_refuted : exists lines got, client_lines 2 lines = Ok got /\ List.length lines = 8 /\ List.length got = 4 /\
  ~ In (txt "2,-1,0,1.0,float32,2,0,1,float32,1,1") got /\ In (txt "2,-1,0,1.0,float32,2,0,1,float32,1,1") lines.
Proof.
  exists (map txt ["1,-1,0,1.0,float32,2,0.5,1.0,float32,1,0"; "1,0,2,1.0";
     "1,1,3,1.0"; "2,-1,0,1.0,float32,2,0,1,float32,1,1"; "2,0,1,1.0"; 
     "3,-1,1,1.0,float32,2,1,1,float32,1,0"; "3,1,1,1.0"; "3,1,3,1.0"]%string).
  eexists. split; [vm_compute; reflexivity|]. split; [reflexivity|]. split; [reflexivity|]. split.
  - vm_compute. intros H. repeat (destruct H as [H|H]; [discriminate|]). exact H.
  - vm_compute. right. right. right. now left.
Qed.
Print Assumptions C83_partitions_refuted.
(** No paper for training: the files are written, then the log of the statistics raises. *)
Theorem C83_no_training_refuted : exists content ps, Forall2 (describes 2) content ps /\ NoDup (map name ps) /\
  forall strict random, build Ok (@same str) same 2 strict random 0 content [] = Fail EFatal.
Proof.
  exists [txt "p31 0.5 1.0 Theory"], [Paper (txt "p31") [txt "0.5"; txt "1.0"] (txt "Theory")]. split; [|split].
  - constructor; [|constructor]. split; [|reflexivity].
    change (spaced (txt "p31 0.5 1.0 Theory") (words (txt "p31 0.5 1.0 Theory"))). apply RawProofs.words_spaced.
  - constructor; [intros []|constructor].
  - intros [] []; vm_compute; reflexivity.
Qed.
Print Assumptions C83_no_training_refuted.
(** A citation of a paper without content raises for Cora, is skipped for Citeseer. *)
Theorem C83_unknown_refuted : exists cites, build Ok (@same str) same 2 true false 2 sample_content cites = Fail EFatal /\
  build Ok (@same str) same 2 false false 2 sample_content cites = build Ok (@same str) same 2 false false 2 sample_content (tl cites) /\
  exists d, build Ok (@same str) same 2 true false 2 sample_content (tl cites) = Ok d.
Proof.
  exists (txt "p31 p77" :: sample_cites). split; [vm_compute; reflexivity|]. split; [vm_compute; reflexivity|]. eexists. vm_compute. reflexivity.
Qed.
Print Assumptions C83_unknown_refuted.
(** A location with http: the file that is opened is never the one that was stored. *)
Theorem C83_http_refuted : forall location name, 2 <= List.length location -> opened true location name <> stored_as name.
Proof. intros location name H E. apply opened_lemma in E. subst. cbn in H. lia. Qed.
Print Assumptions C83_http_refuted.
Example C83_http : opened true (txt "https://host/data") (txt "cora.zip") = txt "https://host/data/cora.zip" /\ stored_as (txt "cora.zip") = txt "./cora.zip".
Proof. now split. Qed.

(** ** C84: PPI and Reddit *)
(** The records of the converter: every node with its number, type, label and features; as many
    edges between two nodes as there are links between them, in both directions, a loop once, of
    type 0 if and only if both are for training; [es] are the links with the numbers of the nodes. *)
Theorem C84_graph : forall K L F keqb, (forall a b : K, keqb a b = true <-> a = b) ->
  forall (show : F -> str) conv pfloat one bits label_bits,
  pfloat one_text = Ok one -> (forall x, number_text (show x)) ->
  (forall xs, xs <> [] -> conv float32_text (map show xs) = Ok (bits xs)) ->
  forall class_map, (forall a l, In (a, l) class_map -> l <> [] /\ Forall number_text l /\ conv float32_text l = Ok (label_bits l)) ->
  forall feats all_keys (resolve : L -> res nat) id_map gs links d,
  ppi_build keqb show all_keys resolve id_map gs links class_map feats = Ok d ->
  exists ns es (node : nat * nat -> decoded) (out : nat -> list (Z * Z)),
    Forall2 (fun g n => In (g_id g, fst n) id_map /\ typed g_test g_val g (snd n)) gs ns /\
    Forall2 (fun l e => resolve (fst l) = Ok (fst e) /\ resolve (snd l) = Ok (snd e)) links es /\
    (forall n, In n ns -> exists xs l, nth_error feats (fst n) = Some xs /\ In (fst n, l) class_map /\
       node n = Decoded (Z.of_nat (fst n)) (-1) (Z.of_nat (snd n)) one None None [FArray (label_bits l); FArray (bits xs)]) /\
    (forall a, StronglySorted not_after (out a)) /\
    (forall a e, In e (out a) -> (fst e = 0 \/ fst e = 1)%Z /\ exists b, snd e = Z.of_nat b) /\
    (forall a b (c : bool), times (if c then 0 else 1, Z.of_nat b)%Z (out a) =
       links_between (filter (fun e => Bool.eqb (in_train ns (fst e) && in_train ns (snd e)) c) es) a b) /\
    converts_up_to_blank conv pfloat (p_csv d)
      (flat_map (fun n => node n :: map (fun e => Decoded (Z.of_nat (fst n)) (snd e) (fst e) one None None []) (out (fst n))) ns) /\
    p_files d = map (fun t => file_of (map (fun p => show_int (Z.of_nat (fst p))) (filter (fun p => snd p =? t) ns))) [0; 1; 2] /\
    exists l, In (0, l) class_map /\ p_classes d = List.length l.
Proof. exact @ppi_inv. Qed.
Print Assumptions C84_graph.
Theorem C84_symmetric : forall links a b, links_between links a b = links_between links b a.
Proof. exact links_sym. Qed.
Print Assumptions C84_symmetric.
Theorem C84_builds : forall K L F keqb, (forall a b : K, keqb a b = true <-> a = b) ->
  forall (show : F -> str) class_map feats (all_keys : bool) (resolve : L -> res nat) id_map gs links es,
  (forall g, In g gs -> In (g_id g) (map fst id_map)) ->
  (forall k n, In (k, n) id_map -> n < (if all_keys then List.length id_map else List.length gs) /\ n < List.length feats /\ In n (map fst class_map)) ->
  (forall k n, In (k, n) id_map -> all_keys = false -> exists g, In g gs /\ klookup keqb (g_id g) id_map = Some n) ->
  In 0 (map fst class_map) -> Forall (fun xs => xs <> []) feats ->
  Forall2 (fun l e => resolve (fst l) = Ok (fst e) /\ resolve (snd l) = Ok (snd e)) links es ->
  Forall (fun e => In (fst e) (map snd id_map) /\ In (snd e) (map snd id_map)) es ->
  exists d, ppi_build keqb show all_keys resolve id_map gs links class_map feats = Ok d.
Proof. exact @ppi_ok. Qed.
Print Assumptions C84_builds.
(** Reddit takes positions in the list of nodes for their numbers: right if they are the same. *)
Theorem C84_positions_partial : forall K keqb (id_map : list (K * nat)) gs ns,
  (forall i g, nth_error gs i = Some g -> klookup keqb (g_id g) id_map = Some i) ->
  mapM (number keqb id_map) gs = Ok ns -> map fst ns = seq 0 (List.length gs).
Proof. exact @aligned. Qed.
Print Assumptions C84_positions_partial.
Theorem C84_onehot : forall v size, (0 <= v < Z.of_nat size)%Z -> exists l, onehot v size = Ok l /\ List.length l = size /\
  forall j, j < size -> nth_error l j = Some (if (Z.of_nat j =? v)%Z then single else zero_text).
Proof. exact onehot_lemma. Qed.
Print Assumptions C84_onehot.
Theorem C84_downsample : forall L keep (es : list (L * L)), masked keep es = map snd (filter fst (combine keep es)).
Proof. exact @masked_lemma. Qed.
Print Assumptions C84_downsample.

Definition ppi_nodes : list (@gnode nat) := [GNode 10 false false; GNode 11 true true; GNode 12 false true; GNode 13 false false].
Definition ppi_ids : list (nat * nat) := [(10, 0); (11, 1); (12, 2); (13, 3)].
Definition find_id (ids : list (nat * nat)) (k : nat) : res nat := or_raise (klookup Nat.eqb k ids).
Definition ppi_classes : list (nat * list str) := map (fun i => (i, [zero_text; single])) [0; 1; 2; 3].
Definition ppi_feats : list (list str) := map (fun s => [txt s]) ["0.5"; "1.5"; "2.5"; "3.5"]%string.
Example C84_sample : exists d, ppi_build Nat.eqb (@same str) false (find_id ppi_ids) ppi_ids ppi_nodes [(13, 10); (10, 13); (10, 10); (10, 11)] ppi_classes ppi_feats = Ok d /\
  split 10 (p_csv d) = map txt
    ["0,-1,0,1.0,float32,2,0,1,float32,1,0.5"; "0,0,0,1.0"; "0,0,3,1.0"; "0,0,3,1.0"; "0,1,1,1.0"; "";
     "1,-1,2,1.0,float32,2,0,1,float32,1,1.5"; "1,1,0,1.0"; "";
     "2,-1,1,1.0,float32,2,0,1,float32,1,2.5"; "";
     "3,-1,0,1.0,float32,2,0,1,float32,1,3.5"; "3,0,0,1.0"; "3,0,0,1.0"; ""; ""]%string /\
  p_files d = [file_of (map txt ["0"; "3"]%string); file_of [txt "2"]; file_of [txt "1"]] /\ p_classes d = 2.
Proof. eexists. split; [vm_compute; reflexivity|]. split; [vm_compute; reflexivity|]. now split. Qed.

(** Nodes in another order than their numbers: the link from the first to the second node becomes
    one between the nodes with the numbers 0 and 1, which are the second and the third. *)
Theorem C84_positions_refuted : exists ids gs d, map (number Nat.eqb ids) gs = map (@Ok (nat * nat)) [(2, 0); (0, 0); (1, 0)] /\
  ppi_build Nat.eqb (@same str) true Ok ids gs [(0, 1)] ppi_classes ppi_feats = Ok d /\
  split 10 (p_csv d) = map txt
    ["2,-1,0,1.0,float32,2,0,1,float32,1,2.5"; "";
     "0,-1,0,1.0,float32,2,0,1,float32,1,0.5"; "0,0,1,1.0"; "";
     "1,-1,0,1.0,float32,2,0,1,float32,1,1.5"; "1,0,0,1.0"; ""; ""]%string.
Proof.
  exists [(10, 2); (11, 0); (12, 1)], [GNode 10 false false; GNode 11 false false; GNode 12 false false]. eexists.
  split; [vm_compute; reflexivity|]. split; vm_compute; reflexivity.
Qed.
Print Assumptions C84_positions_refuted.
(** A node without classes: the line has an empty column in place of the label, and the features
    after it are lost. *)
Theorem C84_no_label_refuted : exists classes d, ppi_build Nat.eqb (@same str) false (find_id [(10, 0)]) [(10, 0)] [GNode 10 false false] [] classes [[txt "0.5"]] = Ok d /\
  split 10 (p_csv d) = [txt "0,-1,0,1.0,float32,0,,float32,1,0.5"; []; []] /\ (forall p, In p classes -> snd p = []) /\
  forall conv one, plain_decoder conv (fun _ => Ok one) (txt "0,-1,0,1.0,float32,0,,float32,1,0.5") = Ok [Decoded 0 (-1) 0 one None None [FNone]].
Proof.
  exists [(0, [])]. eexists. split; [vm_compute; reflexivity|]. split; [vm_compute; reflexivity|]. split; [intros p [<-|[]]; reflexivity|].
  intros conv one. vm_compute. reflexivity.
Qed.
Print Assumptions C84_no_label_refuted.
(** A label of -1 counts from the end. *)
Theorem C84_onehot_refuted : exists v l, (v < 0)%Z /\ onehot v 3 = Ok l /\ l = [zero_text; zero_text; single].
Proof. exists (-1)%Z. eexists. split; [lia|]. split; vm_compute; reflexivity. Qed.
Print Assumptions C84_onehot_refuted.
