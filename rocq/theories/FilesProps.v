From Coq Require Import Ascii String.
From Verif Require Import Base FilesModel FilesProofs.
Import ListNotations.
Open Scope list_scope.

(** A folder with meta.json and the files of the partitions [all], as the converter leaves it. *)
Definition as_converted {C} (st : store C) (l : loc) (w : conversion) (all : list nat) : Prop :=
  forall n, In n (listing st l) <-> n = meta_name \/ exists p, In p all /\ In n (written w p).
(** Contents that tell the file it comes from. *)
Definition folder (l : loc) (w : conversion) (all : list nat) : store (loc * nm) :=
  map (fun n => (l, n, (l, n))) (meta_name :: flat_map (written w) all).
Definition here : loc := (0, [str "graph"]).
Definition adl : loc := (1, [str "data"; str "graph"]).
Definition plain : conversion := Conversion false 2 1 false false.
Definition dated : conversion := Conversion true 1 1 false false.

(** C68: no two partitions of a conversion write the same file, whatever their numbers; a
    partition writes no file twice. *)
Theorem C68_apart :
  forall w w' p p' n, In n (written w p) -> In n (written w' p') -> p = p'.
Proof. exact written_apart. Qed.
Print Assumptions C68_apart.
Theorem C68_once :
  forall w p, NoDup (written w p).
Proof. exact written_once. Qed.
Print Assumptions C68_once.
Example C68_apart_names :
  written plain 11 = map str
    ["node_11_0.map"; "node_11_0.index"; "node_features_11_0.index"; "node_features_11_0.data"; "neighbors_11_0.index"; "edge_11_0.index";
     "edge_features_11_0.index"; "edge_features_11_0.data"; "node_0_11.alias"; "node_1_11.alias"; "edge_0_11.alias"]%string.
Proof. vm_compute. reflexivity. Qed.

(** C68: in a folder with nothing but a converted graph the engine finds one suffix for every
    partition, and what it reads in every role (node map, node index, node features, neighbors,
    edges, time stamps, edge features) is the file the converter wrote in this role; the alias
    tables of every type too, the ones of edges when the partition is in the folder of the
    metadata.  Missing: other folders, see C68_edge_alias_refuted and C68_stray_refuted. *)
Theorem C68_converted_partial :
  forall C (st : store C) md l w all p,
  NoDup (map fst st) -> (forall p, In p all -> (Z.of_nat p < 2 ^ 31)%Z) ->
  as_converted st l w all -> In p all ->
  ((0 <= watermark md)%Z -> temporal w = true) ->
  (exists cs, load st md l p = Ok [(dec p ++ str "_0", cs)] /\
     map Some cs = map (lookup st l) (flat_map named
       ([node_map p (Some 0); index NODE p (Some 0)]
        ++ (if node_features md =? 0 then [] else [features_index NODE p (Some 0); features_data NODE p (Some 0)])
        ++ [neighbors p (Some 0); index EDGE p (Some 0)]
        ++ (if (0 <=? watermark md)%Z then [timestamps EDGE p (Some 0)] else [])
        ++ (if edge_features md =? 0 then [] else [features_index EDGE p (Some 0); features_data EDGE p (Some 0)])
        ++ [node_map p (Some 0)]))) /\
  forall tp,
    (skip_nodes w = false -> tp < node_types w -> forall home, exists c, open_node_alias st home l p tp = Ok c /\
       map (lookup st l) (named (alias NODE (Some tp) p)) = [Some c]) /\
    (skip_edges w = false -> tp < edge_types w -> exists c, open_edge_alias st l l p tp = Ok c /\
       map (lookup st l) (named (alias EDGE (Some tp) p)) = [Some c]).
Proof.
  exact (fun C st md l w all p ND B H Hp Ht =>
    conj (loads_roles st md l w all p ND B H Hp Ht)
      (fun tp => conj (proj1 (finds_aliases st l w all p tp H Hp)) (fun Hs Hx => proj2 (finds_aliases st l w all p tp H Hp) Hs Hx l))).
Qed.
Print Assumptions C68_converted_partial.
Example C68_converted_two :
  let st := folder here plain [1; 11] in
  NoDup (map fst st) /\ as_converted st here plain [1; 11] /\
  load st (Metadata 1 0 (-1)) here 1 = Ok [(str "1_0", map (fun n => (here, str n))
    ["node_1_0.map"; "node_1_0.index"; "node_features_1_0.index"; "node_features_1_0.data"; "neighbors_1_0.index"; "edge_1_0.index"; "node_1_0.map"]%string)] /\
  open_edge_alias st here here 11 0 = Ok (here, str "edge_0_11.alias").
Proof.
  cbv zeta. split; [|split; [|split; [vm_compute; reflexivity|vm_compute; reflexivity]]].
  - apply NoDup_map_inv with (f := snd). vm_compute. repeat constructor; cbn [In]; intros H; repeat (destruct H as [H|H]; [discriminate H|]); exact H.
  - intros n. unfold folder, listing.
    assert (F : forall m : list nm, map (fun x : loc * nm * (loc * nm) => snd (fst x)) (filter (fun x => loc_eqb (fst (fst x)) here) (map (fun n => (here, n, (here, n))) m)) = m).
    { induction m as [|a m IH]; [reflexivity|]. cbn [map filter fst snd]. rewrite loc_eqb_refl. cbn [map fst snd]. now rewrite IH. }
    rewrite F. cbn [In]. rewrite in_flat_map. split; intros [H|H]; auto.
Qed.

(** C68: a graph in one remote folder (the metadata may be in another, some partitions may be
    local), not temporal or read without times: the download succeeds, and everything the engine
    then opens has the contents it has at the source.  Missing: temporal graphs
    (C68_temporal_refuted), several remote folders (C68_two_folders_refuted), a local partition
    at the end of the list (C68_last_local_refuted). *)
Theorem C68_download_partial :
  forall C (st : store C) md md' w all path l2 parts tmp,
  NoDup (map fst st) -> (forall p, In p all -> (Z.of_nat p < 2 ^ 31)%Z) -> as_converted st l2 w all ->
  is_local path = false -> is_local l2 = false ->
  (forall l p, In (l, p) parts -> (is_local l = true /\ l <> (0, tmp)) \/ (l = l2 /\ In p all)) ->
  (exists t p, parts = t ++ [(l2, p)]) ->
  (forall n, lookup st (0, tmp) n = None) ->
  lookup st path meta_name <> None ->
  (node_features md' <> 0 -> node_features md <> 0) -> (edge_features md' <> 0 -> edge_features md <> 0) -> (watermark md' < 0)%Z ->
  exists st', download st md path parts tmp = Ok (st', (0, tmp), map (fun x => if is_local (fst x) then x else ((0, tmp), snd x)) parts) /\
    lookup st' (0, tmp) meta_name = lookup st path meta_name /\
    (forall l n, l <> (0, tmp) -> lookup st' l n = lookup st l n) /\
    (forall l p, In (l, p) parts -> let l' := if is_local l then l else (0, tmp) in
       load st' md' l' p = load st md' l p /\
       forall home' home tp, open_node_alias st' home' l' p tp = open_node_alias st home l p tp) /\
    (forall p, In (l2, p) parts -> forall l' l tp, open_edge_alias st' (0, tmp) l' p tp = open_edge_alias st l2 l p tp).
Proof.
  intros C st md md' w all path l2 parts tmp ND B H Hpath Hl2 Hp Hlast Hf Hm Hn He Hw.
  destruct (downloads st md md' w all path l2 parts tmp ND B H Hpath Hl2 Hp Hlast Hf Hm Hn He Hw) as (st' & D & M & O & L & E).
  exists st'. split; [exact D|]. split; [exact M|]. split; [exact O|]. split; [|exact E].
  intros l p Hi l'. specialize (L l p Hi). unfold place in L. cbn [fst snd] in L. unfold l'. destruct (is_local l); exact L.
Qed.
Print Assumptions C68_download_partial.
Example C68_download_one :
  let st := folder adl plain [0; 1] in
  exists st', download st (Metadata 1 0 (-1)) adl [(here, 0); (adl, 1)] [str "tmp"] = Ok (st', (0, [str "tmp"]), [(here, 0); ((0, [str "tmp"]), 1)]) /\
    load st' (Metadata 1 0 (-1)) (0, [str "tmp"]) 1 = Ok [(str "1_0", map (fun n => (adl, str n))
      ["node_1_0.map"; "node_1_0.index"; "node_features_1_0.index"; "node_features_1_0.data"; "neighbors_1_0.index"; "edge_1_0.index"; "node_1_0.map"]%string)] /\
    open_edge_alias st' (0, [str "tmp"]) here 1 0 = Ok (adl, str "edge_0_1.alias").
Proof. cbv zeta. eexists. split; [vm_compute; reflexivity|]. split; vm_compute; reflexivity. Qed.

(** C68 fails for temporal graphs: the time stamps of the edges are never downloaded. *)
Theorem C68_temporal_refuted :
  let md := Metadata 1 1 7 in
  let st := folder adl dated [0] in
  (exists cs, load st md adl 0 = Ok [(str "0_0", cs)]) /\
  exists st' home parts, download st md adl [(adl, 0)] [str "tmp"] = Ok (st', home, parts) /\
    map (fun x => load st' md (fst x) (snd x)) parts = [Fail EFatal].
Proof. cbv zeta. split; [eexists; vm_compute; reflexivity|]. do 3 eexists. split; [vm_compute; reflexivity|]. vm_compute. reflexivity. Qed.
Print Assumptions C68_temporal_refuted.

(** C68 fails for partitions in two remote folders: the files land in two subfolders, the engine
    finds none and loads an empty graph. *)
Theorem C68_two_folders_refuted :
  let md := Metadata 1 1 (-1) in
  let a := (1, [str "a"]) in let b := (1, [str "b"]) in
  let st := folder a plain [0] ++ folder b plain [1] in
  (exists cs cs', map (fun x => load st md (fst x) (snd x)) [(a, 0); (b, 1)] = [Ok [(str "0_0", cs)]; Ok [(str "1_0", cs')]]) /\
  exists st' home parts, download st md a [(a, 0); (b, 1)] [str "tmp"] = Ok (st', home, parts) /\
    map (fun x => load st' md (fst x) (snd x)) parts = [Ok []; Ok []].
Proof. cbv zeta. split; [do 2 eexists; vm_compute; reflexivity|]. do 3 eexists. split; [vm_compute; reflexivity|]. vm_compute. reflexivity. Qed.
Print Assumptions C68_two_folders_refuted.

(** C68 fails when the last partition is local: the remote names are then looked up in the local
    filesystem; also when all partitions are local and only the metadata are remote. *)
Theorem C68_last_local_refuted :
  let md := Metadata 1 1 (-1) in
  let st := folder adl plain [0] ++ folder here plain [1] in
  (exists cs cs', map (fun x => load st md (fst x) (snd x)) [(adl, 0); (here, 1)] = [Ok [(str "0_0", cs)]; Ok [(str "1_0", cs')]]) /\
  (exists r, download st md adl [(here, 1); (adl, 0)] [str "tmp"] = Ok r) /\
  download st md adl [(adl, 0); (here, 1)] [str "tmp"] = Fail EFatal /\
  download st md adl [(here, 1)] [str "tmp"] = Fail EFatal.
Proof. cbv zeta. split; [do 2 eexists; vm_compute; reflexivity|]. split; [eexists; vm_compute; reflexivity|]. split; vm_compute; reflexivity. Qed.
Print Assumptions C68_last_local_refuted.

(** C68 fails for a partition in another folder than the metadata: the tables of its edges are
    looked up with the metadata (those of its nodes with the partition). *)
Theorem C68_edge_alias_refuted :
  let there := (0, [str "more"]) in
  let st := folder here plain [0] ++ folder there plain [1] in
  open_node_alias st here there 1 0 = Ok (there, str "node_0_1.alias") /\
  lookup st there (str "edge_0_1.alias") = Some (there, str "edge_0_1.alias") /\
  open_edge_alias st here there 1 0 = Fail EFatal.
Proof. vm_compute. repeat split. Qed.
Print Assumptions C68_edge_alias_refuted.

(** C68 fails with another file whose name starts with neighbors_: a copy makes the partition
    load twice, a name without a number stops the engine. *)
Theorem C68_stray_refuted :
  let md := Metadata 0 0 (-1) in
  let st := folder here plain [0] in
  let stray n := (here, str n, (here, str n)) in
  (exists cs, load (stray "neighbors_0_0.bak"%string :: st) md here 0 = Ok [(str "0_0", cs); (str "0_0", cs)]) /\
  load (stray "neighbors_backup.index"%string :: st) md here 0 = Fail EFatal.
Proof. cbv zeta. split; [eexists; vm_compute; reflexivity|vm_compute; reflexivity]. Qed.
Print Assumptions C68_stray_refuted.

(** C68: a folder of HDFS with a converted graph yields the suffixes of a local folder with the
    same files, when neighbors_ does not occur in its path.  Missing: such paths, see
    C68_hdfs_refuted. *)
Theorem C68_hdfs_partial :
  forall w all dir names p,
  (forall q, In q all -> (Z.of_nat q < 2 ^ 31)%Z) ->
  (forall a b, dir ++ str "/" <> a ++ str "neighbors_" ++ b) ->
  (forall n, In n names -> n = meta_name \/ exists q, In q all /\ In n (written w q)) ->
  hdfs_suffixes (dir ++ str "/") names p = suffixes names p.
Proof. exact (fun w all dir names p B D H => hdfs_same w all dir names p B (find_sub_none _ _ D) H). Qed.
Print Assumptions C68_hdfs_partial.
Example C68_hdfs_two :
  hdfs_suffixes (str "hdfs://host:9000/graph/") (meta_name :: written plain 1 ++ written plain 11) 11 = Ok [str "11_0"].
Proof. vm_compute. reflexivity. Qed.

(** C68 fails below a folder whose name contains neighbors_: the number is looked for in the
    name of the folder. *)
Theorem C68_hdfs_refuted :
  suffixes (written plain 1) 1 = Ok [str "1_0"] /\
  hdfs_suffixes (str "hdfs://host:9000/neighbors_graph/") (written plain 1) 1 = Fail EFatal /\
  hdfs_suffixes (str "hdfs://host:9000/neighbors_2/") (written plain 1) 1 = Ok [].
Proof. vm_compute. repeat split. Qed.
Print Assumptions C68_hdfs_refuted.
