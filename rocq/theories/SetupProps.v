(** C45 - C48 and C60: server placement, addresses, partitions of a client, samplers used. *)
From Coq Require Import Permutation Sorting.Sorted String Ascii.
From Verif Require Import Base WriterModel LoaderModel GraphModel GraphSpec LoaderProofs AnswerProofs Float32 Demo SetupModel SetupProofs.
Import ListNotations.

(** Text of the examples as code points. *)
Fixpoint text (s : string) : str :=
  match s with EmptyString => [] | String a s' => N_of_ascii a :: text s' end.

(** ** C45 *)
Theorem C45_host : forall w h, host_of w = h <-> is_host w h.
Proof.
  intros w h. split; [intros <-; apply host_of_spec|]. intro H. eapply is_host_unique; [apply host_of_spec|exact H].
Qed.
Print Assumptions C45_host.

(** Full statement: for every list of worker addresses.  It fails when an address is listed
    twice ([C45_duplicate_refuted]) and when the sorted list is used again
    ([C45_again_refuted]). *)
Theorem C45_one_per_host_partial :
  forall workers, NoDup workers ->
  exists ids, map (index_of_worker workers) (seq 0 (length workers)) = map Some ids /\
    Forall (fun z => (-1 <= z)%Z) ids /\
    exists hs, Permutation hs (nodup str_dec (map host_of workers)) /\
      Permutation (servers_of workers ids) (combine hs (map Z.of_nat (seq 0 (length hs)))).
Proof. exact server_indices. Qed.
Print Assumptions C45_one_per_host_partial.

(** The server of a host is started by the worker with the smallest address on it. *)
Theorem C45_smallest :
  forall workers i w z, nth_error workers i = Some w -> index_of_worker workers i = Some z -> (0 <= z)%Z ->
  forall v, In v workers -> host_of v = host_of w -> str_le w v.
Proof. exact starter_smallest. Qed.
Print Assumptions C45_smallest.

Definition workers_demo := map text ["b:1"; "a:12:7"; "b:2"; "a:12:3"; "c"]%string.
Example C45_case :
  map (index_of_worker workers_demo) (seq 0 5) = map Some [1; -1; -1; 0; 2]%Z /\
  servers_of workers_demo [1; -1; -1; 0; 2]%Z = [(text "b", 1); (text "a:12", 0); (text "c", 2)]%Z.
Proof. vm_compute. auto. Qed.

Theorem C45_ddp :
  forall hosts size, 0 < size ->
  flat_map (fun r => if (0 <=? ddp_index r (r mod size) size)%Z then [(r / size, ddp_index r (r mod size) size)] else [])
    (seq 0 (hosts * size)) =
  map (fun h => (h, Z.of_nat h)) (seq 0 hosts).
Proof. exact ddp_servers. Qed.
Print Assumptions C45_ddp.

Example C45_ddp_case : map (fun r => ddp_index r (r mod 3) 3) (seq 0 6) = [0; -1; -1; 1; -1; -1]%Z.
Proof. reflexivity. Qed.

(** Two workers with one address both start server 0. *)
Theorem C45_duplicate_refuted :
  exists workers, map (index_of_worker workers) (seq 0 (length workers)) = [Some 0; Some 0]%Z.
Proof. exists (map text ["a:1"; "a:1"]%string). vm_compute. reflexivity. Qed.
Print Assumptions C45_duplicate_refuted.

(** A second backend made from the same options finds the list sorted by the first one:
    every worker looks up another worker.  Two servers start on host b, none on host a. *)
Theorem C45_again_refuted :
  exists workers ids, NoDup workers /\
    map (fun i => match extract_server_index workers i with
                  | Ok (_, sorted) => index_of_worker sorted i
                  | Fail _ => None end) (seq 0 (length workers)) = map Some ids /\
    map fst (servers_of workers ids) = [text "b"; text "b"].
Proof.
  exists (map text ["b:1"; "b:2"; "a:1"]%string), [0; 1; -1]%Z. split.
  - repeat constructor; cbn; intuition discriminate.
  - vm_compute. auto.
Qed.
Print Assumptions C45_again_refuted.

(** Hosts with 1 and 2 workers: both start server 0. *)
Theorem C45_ddp_sizes_refuted :
  exists sizes : list nat,
    [ddp_index 0 0 (nth 0 sizes 0); ddp_index 1 0 (nth 1 sizes 0); ddp_index 2 1 (nth 1 sizes 0)] = [0; 0; -1]%Z.
Proof. exists [1; 2]. reflexivity. Qed.
Print Assumptions C45_ddp_sizes_refuted.

(** ** C46 *)
(** Full statement: for every listing.  It holds when the listing has the server indices in
    increasing order and fails otherwise ([C46_listing_refuted]). *)
Theorem C46_listen_partial :
  forall files n,
    filter (fun z => (0 <=? z)%Z) (map snd files) = map Z.of_nat (seq 0 n) ->
    forall a z, In (a, z) files -> (0 <= z)%Z -> listen_on (read_addresses files) z = Ok a.
Proof. exact read_addresses_ordered. Qed.
Print Assumptions C46_listen_partial.

Theorem C46_same_servers :
  forall files listing, Permutation listing files ->
    Permutation (read_addresses listing) (map fst (filter (fun f => (0 <=? snd f)%Z) files)).
Proof. exact read_addresses_perm. Qed.
Print Assumptions C46_same_servers.

Example C46_case :
  listen_on (read_addresses [(text "h0:1", 0); (text "h0:2", -1); (text "h1:5", 1)]%Z) 1 = Ok (text "h1:5").
Proof. reflexivity. Qed.

(** Eleven workers on eleven hosts, files listed by name: "10.servername" before
    "2.servername", so server 2 tries to listen on the address of host 10. *)
Theorem C46_listing_refuted :
  exists files listing, NoDup (map fst files) /\ map snd files = map Z.of_nat (seq 0 11) /\ Permutation listing files /\
    In (text "h2:1", 2%Z) files /\ listen_on (read_addresses listing) 2 = Ok (text "h10:1").
Proof.
  set (f := fun i h => (text h, Z.of_nat i)).
  exists [f 0 "h0:1"%string; f 1 "h1:1"%string; f 2 "h2:1"%string; f 3 "h3:1"%string; f 4 "h4:1"%string; f 5 "h5:1"%string;
          f 6 "h6:1"%string; f 7 "h7:1"%string; f 8 "h8:1"%string; f 9 "h9:1"%string; f 10 "h10:1"%string].
  exists [f 0 "h0:1"%string; f 1 "h1:1"%string; f 10 "h10:1"%string; f 2 "h2:1"%string; f 3 "h3:1"%string; f 4 "h4:1"%string;
          f 5 "h5:1"%string; f 6 "h6:1"%string; f 7 "h7:1"%string; f 8 "h8:1"%string; f 9 "h9:1"%string].
  split; [|split; [|split; [|split]]].
  - vm_compute. repeat (constructor; [intro H; repeat (destruct H as [H|H]; [discriminate|]); destruct H|]). constructor.
  - reflexivity.
  - do 2 constructor.
    change (Permutation ([f 10 "h10:1"%string] ++ [f 2 "h2:1"%string; f 3 "h3:1"%string; f 4 "h4:1"%string;
          f 5 "h5:1"%string; f 6 "h6:1"%string; f 7 "h7:1"%string; f 8 "h8:1"%string; f 9 "h9:1"%string])
        ([f 2 "h2:1"%string; f 3 "h3:1"%string; f 4 "h4:1"%string;
          f 5 "h5:1"%string; f 6 "h6:1"%string; f 7 "h7:1"%string; f 8 "h8:1"%string; f 9 "h9:1"%string] ++ [f 10 "h10:1"%string])).
    apply Permutation_app_comm.
  - right. right. left. reflexivity.
  - vm_compute. reflexivity.
Qed.
Print Assumptions C46_listing_refuted.

(** ** C60 *)
(** The number of servers is never found: json.dumps writes no line break, so meta.json is
    one line and the eighth does not exist. *)
Theorem C60_auto_servers_refuted :
  forall parse meta, ~ In newline meta -> auto_servers parse meta = Fail EIndex.
Proof. exact auto_servers_fails. Qed.
Print Assumptions C60_auto_servers_refuted.

Example C60_case :
  auto_servers (fun _ => Ok 2%Z) (text "{""node_count"": 2, ""partitions"": {}}") = Fail EIndex /\
  auto_servers (fun l => Ok (Z.of_N (hd 0%N l) - 48)%Z) (List.concat (List.map (fun s => text s ++ [newline]) ["v1"; "9"; "8"; "1"; "1"; "0"; "0"; "2"]%string)) = Ok 2%Z.
Proof. vm_compute. auto. Qed.

(** ** C47 *)
(** Full statement: for every list of partition numbers.  Only 0 .. n-1 are ever loaded, so it
    holds exactly when those were asked for. *)
Theorem C47_client_loads_partial :
  forall fadd wval wm all ps m sel,
    convert wval wm all = Ok (ps, m) -> Forall fits ps -> Forall rec_ok (List.concat (List.concat all)) ->
    sel <> [] -> sel = seq 0 (length sel) ->
    exists g, load_graph fadd m (List.map (fun f => [f]) (pick ps (client_partitions sel))) = Ok g /\
              converted fadd wval wm (pick all sel) g.
Proof. exact client_loads. Qed.
Print Assumptions C47_client_loads_partial.

Theorem C47_exactly_when :
  forall sel, sel <> [] ->
    (Permutation (client_partitions sel) sel <-> NoDup sel /\ Forall (fun p => p < length sel) sel).
Proof. exact client_partitions_perm. Qed.
Print Assumptions C47_exactly_when.

Theorem C47_default : client_partitions [] = [0].
Proof. reflexivity. Qed.
Print Assumptions C47_default.

Example C47_case : client_partitions [0; 1; 2] = [0; 1; 2].
Proof. reflexivity. Qed.

(** A client asked for partition 1 of the demonstration graph loads partition 0: the node
    type of node 5, stored in partition 1, is unknown, that of node 0 of partition 0 known. *)
Definition client_graph (sel : list nat) : graph :=
  match (do x <- convert wv None demo ;; load_graph f32_add (snd x) (List.map (fun f => [f]) (pick (fst x) sel))) with
  | Ok g => g | Fail _ => empty_graph end.
Theorem C47_refuted :
  exists sel, node_types (client_graph sel) [5; 0]%Z (-1) = Ok [2; -1]%Z /\
              node_types (client_graph (client_partitions sel)) [5; 0]%Z (-1) = Ok [-1; 1]%Z.
Proof. exists [1]. vm_compute. auto. Qed.
Print Assumptions C47_refuted.

(** ** C48 *)
(** Full statement: for all arrays of types.  Arrays of more than 1000 types are told apart
    only by their first and last three ([C48_long_refuted]). *)
Theorem C48_nodes_partial :
  forall counts calls, Forall (fun c => short (snd c)) calls ->
    history (node_sampler counts) [] calls = List.map (own_sampler counts) calls.
Proof. exact node_history. Qed.
Print Assumptions C48_nodes_partial.

(** Full statement: as for nodes.  The dictionary of edge samplers ignores the strategy
    ([C48_edges_refuted]); what holds is that the first call with these types decides. *)
Theorem C48_edges_first :
  forall counts calls, Forall (fun c => short (snd c)) calls ->
  forall i s t, nth_error calls i = Some (s, t) ->
  exists j s', j <= i /\ nth_error calls j = Some (s', t) /\
    nth_error (history (edge_sampler counts) [] calls) i = Some (own_sampler counts (s', t)).
Proof. exact edge_history. Qed.
Print Assumptions C48_edges_first.

Theorem C48_edges_partial :
  forall counts calls, Forall (fun c => short (snd c)) calls ->
    (forall s s' t, In (s, t) calls -> In (s', t) calls -> s = s') ->
    history (edge_sampler counts) [] calls = List.map (own_sampler counts) calls.
Proof. exact edge_history_fixed. Qed.
Print Assumptions C48_edges_partial.

(** What a new sampler samples from: the requested types that exist, each once. *)
Theorem C48_created :
  forall counts s ts s' l, create_sampler counts s ts = Ok (s', l) ->
  s' = s /\ (s = Weighted \/ s = Random \/ s = WithoutReplacement) /\ l <> [] /\ StronglySorted Z.lt l /\
  forall t, In t l <-> In t ts /\ (0 <= t)%Z /\ exists c, nth_error counts (Z.to_nat t) = Some c /\ (0 < c)%Z.
Proof. exact create_sampler_spec. Qed.
Print Assumptions C48_created.

Definition calls_demo :=
  [(Weighted, TInt 0); (Random, TInt 0); (TopK, TInt 0); (Random, TArray [0; 3; 1]); (Weighted, TArray [7]); (Random, TInt 0)]%Z.
Example C48_case :
  history (node_sampler [5; 2; 0; 4]%Z) [] calls_demo =
  [Ok (Weighted, [0]); Ok (Random, [0]); Fail EIndex; Ok (Random, [0; 1; 3]); Fail EAssert; Ok (Random, [0])]%Z.
Proof. vm_compute. reflexivity. Qed.

Theorem C48_edges_refuted :
  exists counts calls, Forall (fun c => short (snd c)) calls /\
    history (edge_sampler counts) [] calls = [Ok (Weighted, [0%Z]); Ok (Weighted, [0%Z])] /\
    List.map (own_sampler counts) calls = [Ok (Weighted, [0%Z]); Ok (Random, [0%Z])].
Proof.
  exists [5%Z], [(Weighted, TInt 0); (Random, TInt 0)]. split; [repeat constructor|]. vm_compute. auto.
Qed.
Print Assumptions C48_edges_refuted.

Definition long (t : Z) : list Z := repeat 0%Z 3 ++ [t] ++ repeat 0%Z 998.
Theorem C48_long_refuted :
  exists counts calls,
    history (node_sampler counts) [] calls = [Ok (Random, [0; 1]); Ok (Random, [0; 1])]%Z /\
    List.map (own_sampler counts) calls = [Ok (Random, [0; 1]); Ok (Random, [0; 2])]%Z.
Proof. exists [1; 1; 1]%Z, [(Random, TArray (long 1)); (Random, TArray (long 2))]. vm_compute. auto. Qed.
Print Assumptions C48_long_refuted.
