(** Properties C03, C04, C09, C41, C42, C56: features of converted graphs.
    Feature ids are 32 bit ([int32]); values are the byte strings given in the records. *)
From Coq Require Import Sorting.Sorted.
From Verif Require Import Base WriterModel LoaderModel GraphModel GraphSpec LoaderProofs GraphProofs ConvertProofs AnswerProofs Float32 Demo
  FeatureModel FeatureSpec FeatureProofs EdgeFeatureProofs TemporalProofs EdgeTemporalProofs StringProofs TemporalStringProofs SparseProofs.
From Coq Require Import ZifyBool ZifyNat ZifyN.
Local Open Scope Z_scope.

Ltac in_cases := repeat match goal with
  | H : In _ (_ :: _) |- _ => destruct H as [H|H]
  | H : In _ [] |- _ => contradiction
  end.

Ltac hist_tac := split; [discriminate|split; [vm_compute; reflexivity|split; [vm_compute; reflexivity|
  repeat (apply Forall_cons; [cbn; lia|]); apply Forall_nil]]].
Ltac explains_tac := split; [hist_tac|split; [repeat constructor; cbn; intuition lia|split; [repeat (apply Forall_cons; [cbn; lia|]); apply Forall_nil|reflexivity]]].

(** ** C03: dense node features *)
Theorem C03_node_features :
  forall fadd wval wm parts g nodes fs,
    converted fadd wval wm parts g -> Forall (fun f => int32 (fst f)) fs ->
    node_features g nodes fs None = Ok (map (fun n => concat (map (spec_node_feature parts n) fs)) nodes).
Proof. exact converted_node_features. Qed.
Print Assumptions C03_node_features.

Example C03_case : converted f32_add wv None demo demo_graph /\
  node_features demo_graph [9; 5; 77] [(0, 2%nat); (2, 3%nat); (1, 1%nat); (-1, 1%nat)] None =
  Ok [ [1; 2; 7; 0; 0; 0; 0]%N; [9; 0; 0; 0; 0; 0; 0]%N; [0; 0; 0; 0; 0; 0; 0]%N ].
Proof. split; [exact demo_converted|vm_compute; reflexivity]. Qed.

(** ** C04: dense edge features *)
(** Full statement: without [searchable].  False for more than 16 parallel edges of one type
    in a block with unsorted repeated destinations. *)
Theorem C04_edge_features_partial :
  forall fadd wval wm parts g edges fs,
    converted fadd wval wm parts g -> Forall (fun f => int32 (fst f)) fs ->
    (forall e r, In e edges -> In r (flat_map rows parts) -> row_id r = fst (fst e) -> searchable r) ->
    edge_features g edges fs None = Ok (map (fun e => concat (map (spec_edge_feature parts e) fs)) edges).
Proof. exact converted_edge_features. Qed.
Print Assumptions C04_edge_features_partial.

Lemma short_searchable r : (length (row_edges r) <= 16)%nat -> searchable r.
Proof.
  intros H ty. left. rewrite map_length.
  assert (L : forall l : list edge, (length (filter (fun e => (e_typ e =? ty)%Z) l) <= length l)%nat).
  { induction l as [|e l IH]; [reflexivity|]. cbn. destruct (e_typ e =? ty); cbn; lia. }
  specialize (L (row_edges r)). lia.
Qed.
Definition shortb (parts : list (list (list record))) : bool :=
  forallb (fun r => (length (row_edges r) <=? 16)%nat) (flat_map rows parts).
Lemma shortb_ok parts : shortb parts = true -> forall r, In r (flat_map rows parts) -> searchable r.
Proof. unfold shortb. rewrite forallb_forall. intros H r Hr. apply short_searchable. specialize (H r Hr). lia. Qed.

Example C04_case : converted f32_add wv None demo demo_graph /\
  (forall r, In r (flat_map rows demo) -> searchable r) /\
  edge_features demo_graph [(9, 0, 0); (9, 6, 2); (9, 7, 1); (9, 8, 1); (4, 4, 4)] [(0, 3%nat); (1, 1%nat)] None =
  Ok [ [5; 6; 0; 0]%N; [0; 0; 0; 8]%N; [0; 0; 0; 0]%N; [0; 0; 0; 0]%N; [0; 0; 0; 0]%N ].
Proof. split; [exact demo_converted|]. split; [apply shortb_ok; reflexivity|vm_compute; reflexivity]. Qed.

(** A block with 20 edges in increasing order: the binary search is used. *)
Definition wide : list (list (list record)) :=
  [ [ nd 1 0 [] :: map (fun k => ed 1 (2 * Z.of_nat k) 3 one [Some [N.of_nat k]]) (seq 0 20) ] ].
Definition wide_graph := load_of None wide.
Example C04_binary_search_case :
  converted f32_add wv None wide wide_graph /\ (forall r, In r (flat_map rows wide) -> searchable r) /\
  edge_features wide_graph [(1, 0, 3); (1, 22, 3); (1, 38, 3); (1, 7, 3)] [(0, 1%nat)] None = Ok [ [0]; [11]; [19]; [0] ]%N.
Proof.
  split; [apply load_of_converted; vm_compute; reflexivity|]. split; [|vm_compute; reflexivity].
  intros r Hr. replace (flat_map rows wide) with
    [Row 1 0 [] (map (fun k => Edge 1 (2 * Z.of_nat k) 3 one [Some [N.of_nat k]] 0 (-1)) (seq 0 20))] in Hr by (vm_compute; reflexivity).
  destruct Hr as [<-|[]]. intro ty. cbn [row_edges]. right. left.
  destruct (Z.eqb_spec ty 3) as [->|Hn].
  - vm_compute. repeat constructor; discriminate.
  - replace (filter _ _) with (@nil edge); [constructor|]. symmetry.
    assert (H : forall l : list nat, filter (fun e => e_typ e =? ty) (map (fun k => Edge 1 (2 * Z.of_nat k) 3 one [Some [N.of_nat k]] 0 (-1)) l) = []).
    { induction l as [|k l IH]; [reflexivity|]. cbn [map filter e_typ]. replace (3 =? ty) with false by lia. exact IH. }
    apply H.
Qed.

(** Finding: 17 edges to the same node after a larger one: the binary search lands on a later
    duplicate, the feature of the first edge to node 5 is [1], the answer is [9]. *)
Definition unsorted : list (list (list record)) :=
  [ [ nd 1 0 [] :: map (fun k => ed 1 (nth k [5; 9; 1; 1; 1; 1; 1; 1; 5; 7; 7; 7; 7; 7; 7; 7; 7] 0) 3 one [Some [N.of_nat (S k)]]) (seq 0 17) ] ].
Theorem C04_unsorted_duplicates_refuted :
  exists parts g e, converted f32_add wv None parts g /\
    edge_features g [e] [(0, 1%nat)] None = Ok [ [9%N] ] /\ spec_edge_feature parts e (0, 1%nat) = [1%N].
Proof.
  exists unsorted, (load_of None unsorted), (1, 5, 3). split; [apply load_of_converted; vm_compute; reflexivity|].
  split; vm_compute; reflexivity.
Qed.
Print Assumptions C04_unsorted_duplicates_refuted.

(** ** C09: temporal values *)

(** The reader applied to what the converter writes for the history [h], wherever it is
    stored: offset, size and time of an entry that is latest at [t]. *)
Theorem C09_lookup :
  forall h t, hist_ok h -> forall a b,
    let data := a ++ temporal_bytes h ++ b in
    (none_yet t h /\ temporal_feature data (Z.of_nat (length a)) t = Ok (Z.of_nat (length a), 0, -1)) \/
    (exists x a' b', latest t h x /\ data = a' ++ snd x ++ b' /\
       temporal_feature data (Z.of_nat (length a)) t = Ok (Z.of_nat (length a'), Z.of_nat (length (snd x)), fst x)).
Proof. exact temporal_at. Qed.
Print Assumptions C09_lookup.

Definition hist_demo : list (Z * list N) := [(5, [50; 51]%N); (1, [10]%N); (3, [])].
Example C09_lookup_case : hist_ok hist_demo /\
  map (temporal_feature ([7%N] ++ temporal_bytes hist_demo ++ [8%N]) 1) [0; 1; 2; 3; 4; 5; 100] =
  [Ok (1, 0, -1); Ok (61, 1, 1); Ok (61, 1, 1); Ok (62, 0, 3); Ok (62, 0, 3); Ok (62, 2, 5); Ok (62, 2, 5)].
Proof.
  split; [|vm_compute; reflexivity]. hist_tac.
Qed.

(** Node features of a graph whose stored values are histories: [hist] gives the history of a
    stored value, [spec_temporal] the newest entry not after [t] over all values given. *)
Theorem C09_node_features :
  forall fadd wval wm parts g nodes fs ts hist,
    converted fadd wval wm parts g -> Forall (fun f => int32 (fst f)) fs ->
    (forall n f v, In n nodes -> In f (map fst fs) -> In v (node_values parts n f) -> explains hist v) ->
    node_features g nodes fs (Some ts) =
    Ok (map (fun x => concat (map (fun f => fixed (snd f)
           (match spec_temporal hist (snd x) (node_values parts (fst x) (fst f)) with Some y => snd y | None => [] end)) fs))
            (combine nodes ts)).
Proof. exact converted_node_features_ts. Qed.
Print Assumptions C09_node_features.

(** [entry_at t h], from which [spec_temporal] is built, is the latest entry. *)
Theorem C09_entry : forall t h, match entry_at t h with Some x => latest t h x | None => none_yet t h end.
Proof. exact entry_at_spec. Qed.
Print Assumptions C09_entry.

(** Node 1 has a history in each of two partitions. *)
Definition hist2 : list (Z * list N) := [(2, [20]%N); (9, [90]%N)].
Definition tparts : list (list (list record)) :=
  [ [ [nd 1 0 [Some (temporal_bytes hist_demo)]; Rec 1 4 0 one (Some 0) (Some 9) [Some (temporal_bytes hist2)]] ];
    [ [nd 1 0 [Some (temporal_bytes hist2)]] ] ].
Definition tgraph := load_of (Some 10) tparts.
Definition bytes_eqb (a b : list N) : bool := if list_eq_dec N.eq_dec a b then true else false.
Definition thist (bs : list N) : list (Z * list N) :=
  if bytes_eqb bs (temporal_bytes hist_demo) then hist_demo else if bytes_eqb bs (temporal_bytes hist2) then hist2 else [].
Lemma thist_demo : explains thist (Some (temporal_bytes hist_demo)).
Proof.
  unfold explains. cbn [bytes_of]. replace (thist (temporal_bytes hist_demo)) with hist_demo by (vm_compute; reflexivity).
  cbv zeta. explains_tac.
Qed.
Lemma thist_two : explains thist (Some (temporal_bytes hist2)).
Proof.
  unfold explains. cbn [bytes_of]. replace (thist (temporal_bytes hist2)) with hist2 by (vm_compute; reflexivity).
  cbv zeta. explains_tac.
Qed.
Lemma tparts_explained n f v : In v (node_values tparts n f) -> explains thist v.
Proof.
  unfold node_values. replace (concat (concat tparts)) with
    [nd 1 0 [Some (temporal_bytes hist_demo)]; Rec 1 4 0 one (Some 0) (Some 9) [Some (temporal_bytes hist2)]; nd 1 0 [Some (temporal_bytes hist2)]]
    by reflexivity.
  intro H. apply in_flat_map in H. destruct H as (r & Hr & Hv). destruct (is_node r && (rsrc r =? n)) eqn:E; [|contradiction].
  destruct (value_at (rfeats r) f) as [w|] eqn:Ew; [|contradiction]. destruct Hv as [<-|[]].
  apply value_at_nth in Ew. destruct Ew as [_ Ew]. apply nth_error_In in Ew.
  destruct Hr as [<-|[<-|[<-|[]]]]; [|discriminate|]; destruct Ew as [<-|[]]; [exact thist_demo|exact thist_two].
Qed.
Example C09_case : converted f32_add wv (Some 10) tparts tgraph /\
  (forall n f v, In v (node_values tparts n f) -> explains thist v) /\
  node_features tgraph [1; 1; 1; 1; 1; 2] [(0, 2%nat)] (Some [0; 1; 2; 6; 9; 9]) =
  Ok [ [0; 0]; [10; 0]; [20; 0]; [50; 51]; [90; 0]; [0; 0] ]%N.
Proof.
  split; [apply load_of_converted; vm_compute; reflexivity|]. split; [exact tparts_explained|vm_compute; reflexivity].
Qed.

(** Only the requested features have to be histories: feature 0 here is not one. *)
Definition tmix : list (list (list record)) := [ [ [nd 1 0 [Some [7; 7]%N; Some (temporal_bytes hist2)]] ] ].
Example C09_mixed : converted f32_add wv (Some 10) tmix (load_of (Some 10) tmix) /\
  (forall n f v, In f [1] -> In v (node_values tmix n f) -> explains thist v) /\
  node_features (load_of (Some 10) tmix) [1; 1; 1] [(1, 1%nat)] (Some [1; 2; 9]) = Ok [ [0]; [20]; [90] ]%N.
Proof.
  split; [apply load_of_converted; vm_compute; reflexivity|]. split; [|vm_compute; reflexivity].
  intros n f v [<-|[]] H. unfold node_values in H. apply in_flat_map in H. destruct H as (r & [<-|[]] & H).
  destruct (is_node _ && _) in H; [|contradiction]. destruct H as [<-|[]]. exact thist_two.
Qed.

(** Edges.  Full statement: without the bound on the blocks that hold the edge. *)
Theorem C09_edge_features_partial :
  forall fadd wval wm parts g edges fs ts hist,
    converted fadd wval wm parts g -> Forall (fun f => int32 (fst f)) fs ->
    (forall e r, In e edges -> In r (flat_map rows parts) -> row_id r = fst (fst e) -> searchable r) ->
    (forall e, In e edges -> (length (holders parts e) <= 1)%nat) ->
    (forall e f v, In e edges -> In f (map fst fs) -> In v (edge_values parts e f) -> explains hist v) ->
    edge_features g edges fs (Some ts) =
    Ok (map (fun x => concat (map (fun f => fixed (snd f)
           (match spec_temporal hist (snd x) (edge_values parts (fst x) (fst f)) with Some y => snd y | None => [] end)) fs))
            (combine edges ts)).
Proof. exact converted_edge_features_ts. Qed.
Print Assumptions C09_edge_features_partial.

Example C09_edge_case : converted f32_add wv (Some 10) tparts tgraph /\
  (forall r, In r (flat_map rows tparts) -> searchable r) /\ (length (holders tparts (1, 4, 0)%Z) <= 1)%nat /\
  (forall v, In v (edge_values tparts (1, 4, 0) 0) -> explains thist v) /\
  edge_features tgraph [(1, 4, 0); (1, 4, 0); (1, 4, 0)] [(0, 2%nat)] (Some [1; 8; 9]) = Ok [ [0; 0]; [20; 0]; [90; 0] ]%N.
Proof.
  split; [apply load_of_converted; vm_compute; reflexivity|]. split; [apply shortb_ok; reflexivity|]. split; [vm_compute; lia|].
  split; [|vm_compute; reflexivity].
  replace (edge_values tparts (1, 4, 0) 0) with [Some (temporal_bytes hist2)] by (vm_compute; reflexivity).
  intros v [<-|[]]. exact thist_two.
Qed.

(** Finding: an edge stored in two blocks returns the value of the last block although the
    first one has a newer entry. *)
Definition etwo : list (list (list record)) :=
  [ [ [nd 1 0 []; Rec 1 4 0 one (Some 0) (Some 9) [Some (temporal_bytes hist_demo)]] ];
    [ [Rec 1 4 0 one (Some 0) (Some 9) [Some (temporal_bytes hist2)]] ] ].
Theorem C09_edge_in_two_blocks_refuted :
  exists parts g e t, converted f32_add wv (Some 10) parts g /\
    (forall v, In v (edge_values parts e 0) -> explains thist v) /\
    edge_features g [e] [(0, 1%nat)] (Some [t]) = Ok [ [20%N] ] /\
    spec_temporal thist t (edge_values parts e 0) = Some (5, [50; 51]%N).
Proof.
  exists etwo, (load_of (Some 10) etwo), (1, 4, 0), 6. split; [apply load_of_converted; vm_compute; reflexivity|].
  split; [|split; vm_compute; reflexivity].
  replace (edge_values etwo (1, 4, 0) 0) with [Some (temporal_bytes hist_demo); Some (temporal_bytes hist2)] by (vm_compute; reflexivity).
  intros v [<-|[<-|[]]]; [exact thist_demo|exact thist_two].
Qed.
Print Assumptions C09_edge_in_two_blocks_refuted.

(** Finding: entries with equal created_at: the first one is read at that time, the last one
    at any later time. *)
Theorem C09_equal_times_refuted :
  exists h, hist_ok h /\ sort_hist h = h /\
    temporal_feature (temporal_bytes h) 0 5 = Ok (44, 1, 5) /\ temporal_feature (temporal_bytes h) 0 6 = Ok (45, 1, 5).
Proof.
  exists [(5, [1]%N); (5, [2]%N)]. split; [hist_tac|]. split; [|split]; vm_compute; reflexivity.
Qed.
Print Assumptions C09_equal_times_refuted.

(** ** C42: string features *)

(** Full statement: without [unmixed] (one feature requested without timestamps, or at most
    one record of the node gives a value for a requested feature). *)
Theorem C42_node_strings_partial :
  forall fadd wval wm parts g nodes fs,
    converted fadd wval wm parts g -> Forall int32 fs ->
    (forall n, In n nodes -> unmixed None row_feats fs (node_rows n (map rows parts))) ->
    node_string_features g nodes fs None =
    Ok (map (fun n => map (fun f => Z.of_nat (length (spec_node_string parts n f))) fs) nodes,
        concat (map (fun n => concat (map (spec_node_string parts n) fs)) nodes)).
Proof. exact converted_node_strings. Qed.
Print Assumptions C42_node_strings_partial.

Lemma demo_unmixed n fs : unmixed None row_feats fs (node_rows n (map rows demo)).
Proof.
  right. unfold node_rows.
  assert (E : exists e1 e2 e3, concat (map rows demo) =
    [Row 9 0 [Some [1; 2; 3]%N; None; Some [7]%N] e1; Row 0 1 [] e2; Row 9 (-1) [] e3; Row 5 2 [Some [9]%N] []])
    by (do 3 eexists; vm_compute; reflexivity).
  destruct E as (e1 & e2 & e3 & ->).
  assert (G0 : gives fs [] = false).
  { unfold gives. induction fs as [|f fs IH]; [reflexivity|]. cbn [existsb]. now rewrite given_nil. }
  cbn [filter row_id].
  destruct (Z.eqb_spec 9 n); [destruct (Z.eqb_spec 0 n); [lia|]; destruct (Z.eqb_spec 5 n); [lia|]|
    destruct (Z.eqb_spec 0 n); [destruct (Z.eqb_spec 5 n); [lia|]|destruct (Z.eqb_spec 5 n)]];
    cbn [filter row_feats]; rewrite ?G0;
    repeat match goal with |- context [gives ?a ?b] => destruct (gives a b) end; cbn [length]; lia.
Qed.

Example C42_case : converted f32_add wv None demo demo_graph /\
  (forall n, unmixed None row_feats [0; 1; 2] (node_rows n (map rows demo))) /\
  node_string_features demo_graph [9; 77; 5] [0; 1; 2] None = Ok ([[3; 0; 1]; [0; 0; 0]; [1; 0; 0]], [1; 2; 3; 7; 9]%N).
Proof. split; [exact demo_converted|]. split; [intro; apply demo_unmixed|vm_compute; reflexivity]. Qed.

(** Full statement: without [searchable], [unmixed] and [readable]: no requirement that some edge
    of the converted graph has features. *)
Theorem C42_edge_strings_partial :
  forall fadd wval wm parts g edges fs,
    Forall int32 fs ->
    (forall e, In e edges -> readable fadd wval wm parts g (fst (fst e))) ->
    (forall e r, In e edges -> In r (flat_map rows parts) -> row_id r = fst (fst e) -> searchable r) ->
    (forall e, In e edges -> unmixed None (edge_row_feats e) fs (node_rows (fst (fst e)) (map rows parts))) ->
    edge_string_features g edges fs None =
    Ok (map (fun e => map (fun f => Z.of_nat (length (spec_edge_string parts e f))) fs) edges,
        concat (map (fun e => concat (map (spec_edge_string parts e) fs)) edges)).
Proof. exact converted_edge_strings. Qed.
Print Assumptions C42_edge_strings_partial.

Example C42_edge_case : converted f32_add wv None demo demo_graph /\
  readable f32_add wv None demo demo_graph 9 /\ readable f32_add wv None demo demo_graph 77 /\
  (forall r, In r (flat_map rows demo) -> searchable r) /\
  unmixed None (edge_row_feats (9, 6, 2)) [0; 1] (node_rows 9 (map rows demo)) /\
  edge_string_features demo_graph [(9, 6, 2); (9, 0, 0)] [0; 1] None = Ok ([[0; 1]; [2; 0]], [8; 5; 6]%N).
Proof.
  split; [exact demo_converted|].
  split; [apply load_of_readable; vm_compute; reflexivity|].
  split; [apply load_of_readable; vm_compute; reflexivity|].
  split; [apply shortb_ok; reflexivity|split; [right; vm_compute; lia|vm_compute; reflexivity]].
Qed.

Theorem C42_node_strings_ts_partial :
  forall fadd wval wm parts g nodes fs ts hist,
    converted fadd wval wm parts g -> Forall int32 fs ->
    (forall n, In n nodes -> (length (filter (fun r => gives fs (row_feats r)) (node_rows n (map rows parts))) <= 1)%nat) ->
    (forall n f v, In n nodes -> In f fs -> In v (node_values parts n f) -> explains hist v) ->
    node_string_features g nodes fs (Some ts) =
    Ok (map (fun x => map (fun f => Z.of_nat (length (entry_bytes hist (snd x) (node_values parts (fst x) f)))) fs) (combine nodes ts),
        concat (map (fun x => concat (map (fun f => entry_bytes hist (snd x) (node_values parts (fst x) f)) fs)) (combine nodes ts))).
Proof. exact converted_node_strings_ts. Qed.
Print Assumptions C42_node_strings_ts_partial.

Theorem C42_edge_strings_ts_partial :
  forall fadd wval wm parts g edges fs ts hist,
    Forall int32 fs ->
    (forall e, In e edges -> readable fadd wval wm parts g (fst (fst e))) ->
    (forall e r, In e edges -> In r (flat_map rows parts) -> row_id r = fst (fst e) -> searchable r) ->
    (forall e, In e edges -> (length (filter (fun r => gives fs (edge_row_feats e r)) (node_rows (fst (fst e)) (map rows parts))) <= 1)%nat) ->
    (forall e f v, In e edges -> In f fs -> In v (edge_values parts e f) -> explains hist v) ->
    edge_string_features g edges fs (Some ts) =
    Ok (map (fun x => map (fun f => Z.of_nat (length (entry_bytes hist (snd x) (edge_values parts (fst x) f)))) fs) (combine edges ts),
        concat (map (fun x => concat (map (fun f => entry_bytes hist (snd x) (edge_values parts (fst x) f)) fs)) (combine edges ts))).
Proof. exact converted_edge_strings_ts. Qed.
Print Assumptions C42_edge_strings_ts_partial.

Definition sparts : list (list (list record)) :=
  [ [ [nd 1 0 [Some (temporal_bytes hist_demo); Some (temporal_bytes hist2)];
       Rec 1 4 0 one (Some 0) (Some 9) [Some (temporal_bytes hist2)]] ] ].
Example C42_ts_case : converted f32_add wv (Some 10) sparts (load_of (Some 10) sparts) /\
  (length (filter (fun r => gives [0; 1]%Z (row_feats r)) (node_rows 1%Z (map rows sparts))) <= 1)%nat /\
  node_string_features (load_of (Some 10) sparts) [1; 1; 7] [0; 1] (Some [1; 6; 6]) = Ok ([[1; 0]; [2; 1]; [0; 0]], [10; 50; 51; 20]%N) /\
  edge_string_features (load_of (Some 10) sparts) [(1, 4, 0); (1, 4, 0)] [0] (Some [1; 8]) = Ok ([[0]; [1]], [20]%N).
Proof.
  split; [apply load_of_converted; vm_compute; reflexivity|]. split; [vm_compute; lia|]. split; vm_compute; reflexivity.
Qed.

(** Finding: a node whose features are spread over two partitions: the bytes come in storage
    order while the lengths are in request order, so the values are exchanged. *)
Definition spread : list (list (list record)) :=
  [ [ [nd 1 0 [None; Some [7; 8]%N]] ]; [ [nd 1 0 [Some [5]%N]] ] ].
Theorem C42_features_in_two_partitions_refuted :
  exists parts g n, converted f32_add wv None parts g /\
    node_string_features g [n] [0; 1] None = Ok ([[1; 2]], [7; 8; 5]%N) /\
    map (spec_node_string parts n) [0; 1] = [[5]; [7; 8]]%N.
Proof.
  exists spread, (load_of None spread), 1. split; [apply load_of_converted; vm_compute; reflexivity|]. split; vm_compute; reflexivity.
Qed.
Print Assumptions C42_features_in_two_partitions_refuted.

(** Finding: edge string features of a graph without edge features read outside of an empty
    vector. *)
Definition plain_edges : list (list (list record)) := [ [ [nd 1 0 [Some [7]%N]; ed 1 2 0 one []] ] ].
Theorem C42_no_edge_features_refuted :
  exists parts g e, converted f32_add wv None parts g /\ edge_string_features g [e] [0] None = Fail EUB.
Proof.
  exists plain_edges, (load_of None plain_edges), (1, 2, 0). split; [apply load_of_converted; vm_compute; reflexivity|]. vm_compute. reflexivity.
Qed.
Print Assumptions C42_no_edge_features_refuted.

(** Finding: with timestamps and several features the older value is not removed where it is:
    feature 0 of the second partition is newer, the end of the output is cut instead. *)
Definition hist3 : list (Z * list N) := [(4, [40]%N)].
Definition newer : list (list (list record)) :=
  [ [ [nd 1 0 [Some (temporal_bytes hist2); Some (temporal_bytes hist2)]] ]; [ [nd 1 0 [Some (temporal_bytes hist3)]] ] ].
Theorem C42_newer_value_refuted :
  exists parts g n t, converted f32_add wv (Some 10) parts g /\
    node_string_features g [n] [0; 1] (Some [t]) = Ok ([[1; 1]], [20; 40]%N) /\
    map (node_values parts n) [0; 1] =
      [[Some (temporal_bytes hist2); Some (temporal_bytes hist3)]; [Some (temporal_bytes hist2)]] /\
    map (entry_at t) [hist2; hist3] = [Some (2, [20]%N); Some (4, [40]%N)].
Proof.
  exists newer, (load_of (Some 10) newer), 1, 5. split; [apply load_of_converted; vm_compute; reflexivity|].
  split; [vm_compute; reflexivity|]. split; vm_compute; reflexivity.
Qed.
Print Assumptions C42_newer_value_refuted.

(** ** C41: sparse features *)

(** Writer and reader of one value, wherever it is stored.  [coords_ok]: one coordinate tuple
    per value, all of the same positive length, 64 bit coordinates. *)
Theorem C41_value_round_trip :
  forall c vs bs a b prefix s,
    coords_ok c vs -> convert_feature (FSparse c vs) = Ok (Some bs) ->
    read_sparse (a ++ bs ++ b) (Z.of_nat (length a)) (Z.of_nat (length bs)) prefix s =
    Ok (SP (Z.of_nat (coords_dim c)) (sp_idx s ++ flat_map (fun t => prefix :: t) (tuples c)) (sp_val s ++ concat vs)
           (Z.of_nat (length (concat vs)))).
Proof. exact sparse_round_trip. Qed.
Print Assumptions C41_value_round_trip.

Definition grid := Grid 2 [[3; 4]; [-1; 2 ^ 40]].
Example C41_value_case : coords_ok grid [[1; 2]; [3; 4]]%N /\
  (do o <- convert_feature (FSparse grid [[1; 2]; [3; 4]]%N) ;;
   match o with Some bs => read_sparse ([9%N] ++ bs ++ [9%N]) 1 (Z.of_nat (length bs)) 7 (SP 0 [] [] 0) | None => Fail EUB end) =
  Ok (SP 2 [7; 3; 4; 7; -1; 2 ^ 40] [1; 2; 3; 4]%N 4).
Proof.
  split; [|vm_compute; reflexivity]. unfold coords_ok, grid. cbn. repeat split; try lia; repeat constructor; lia.
Qed.

(** Whole graphs.  [dec] gives coordinates and values of a stored byte string; the answer has
    per feature the tuples prefixed with the position of the node, the values, and the
    dimension of the last value. *)
Theorem C41_node_sparse :
  forall fadd wval wm parts g nodes fs dec,
    converted fadd wval wm parts g -> Forall int32 fs ->
    (forall n f v, In n nodes -> In f fs -> In v (node_values parts n f) -> bytes_of v <> [] -> decodes dec (bytes_of v)) ->
    exists ss, node_sparse_features g nodes fs None = Ok ss /\
      sparse_answer dec (fun f => map (fun n => spec_node_string parts n f) nodes) fs ss.
Proof. exact converted_node_sparse. Qed.
Print Assumptions C41_node_sparse.

Theorem C41_edge_sparse_partial :
  forall fadd wval wm parts g edges fs dec,
    converted fadd wval wm parts g -> Forall int32 fs ->
    (forall e r, In e edges -> In r (flat_map rows parts) -> row_id r = fst (fst e) -> searchable r) ->
    (forall e f v, In e edges -> In f fs -> In v (edge_values parts e f) -> bytes_of v <> [] -> decodes dec (bytes_of v)) ->
    exists ss, edge_sparse_features g edges fs None = Ok ss /\
      sparse_answer dec (fun f => map (fun e => spec_edge_string parts e f) edges) fs ss.
Proof. exact converted_edge_sparse. Qed.
Print Assumptions C41_edge_sparse_partial.

Theorem C41_node_sparse_ts_partial :
  forall fadd wval wm parts g nodes fs ts hist dec,
    converted fadd wval wm parts g -> Forall int32 fs ->
    (forall n f, In n nodes -> In f fs -> (length (node_values parts n f) <= 1)%nat) ->
    (forall n f v, In n nodes -> In f fs -> In v (node_values parts n f) -> explains hist v) ->
    (forall n f v x, In n nodes -> In f fs -> In v (node_values parts n f) -> In x (hist (bytes_of v)) -> snd x = [] \/ decodes dec (snd x)) ->
    exists ss, node_sparse_features g nodes fs (Some ts) = Ok ss /\
      sparse_answer dec (fun f => map (fun x => entry_bytes hist (snd x) (node_values parts (fst x) f)) (combine nodes ts)) fs ss.
Proof. exact converted_node_sparse_ts. Qed.
Print Assumptions C41_node_sparse_ts_partial.

Theorem C41_edge_sparse_ts_partial :
  forall fadd wval wm parts g edges fs ts hist dec,
    converted fadd wval wm parts g -> Forall int32 fs ->
    (forall e r, In e edges -> In r (flat_map rows parts) -> row_id r = fst (fst e) -> searchable r) ->
    (forall e f, In e edges -> In f fs -> (length (edge_values parts e f) <= 1)%nat) ->
    (forall e f v, In e edges -> In f fs -> In v (edge_values parts e f) -> explains hist v) ->
    (forall e f v x, In e edges -> In f fs -> In v (edge_values parts e f) -> In x (hist (bytes_of v)) -> snd x = [] \/ decodes dec (snd x)) ->
    exists ss, edge_sparse_features g edges fs (Some ts) = Ok ss /\
      sparse_answer dec (fun f => map (fun x => entry_bytes hist (snd x) (edge_values parts (fst x) f)) (combine edges ts)) fs ss.
Proof. exact converted_edge_sparse_ts. Qed.
Print Assumptions C41_edge_sparse_ts_partial.

Definition enc (c : coords) (vs : list (list N)) : option (list N) :=
  match convert_feature (FSparse c vs) with Ok o => o | Fail _ => None end.
Definition flat := Flat [6; 8].
Definition spparts : list (list (list record)) :=
  [ [ [nd 1 0 [enc grid [[1; 2]; [3; 4]]%N]; ed 1 2 0 one [enc grid [[1; 2]; [3; 4]]%N] ];
      [nd 2 0 [None; enc flat [[5]; [6]]%N]]; [nd 3 0 [enc (Grid 2 [[0; 1]]) [[9; 9]]%N]] ] ].
Definition spgraph := load_of None spparts.
Example C41_case : converted f32_add wv None spparts spgraph /\
  node_sparse_features spgraph [3; 2; 1; 3] [0; 1] None =
  Ok [SP 2 [0; 0; 1; 2; 3; 4; 2; -1; 2 ^ 40; 3; 0; 1] [9; 9; 1; 2; 3; 4; 9; 9]%N 2; SP 1 [1; 6; 1; 8] [5; 6]%N 2] /\
  edge_sparse_features spgraph [(1, 2, 0)] [0] None = Ok [SP 2 [0; 3; 4; 0; -1; 2 ^ 40] [1; 2; 3; 4]%N 4].
Proof. split; [apply load_of_converted; vm_compute; reflexivity|]. split; vm_compute; reflexivity. Qed.

(** Finding: a flat coordinate of a single value (one point in two dimensions) is accepted by
    the converter and read back as two one dimensional points. *)
Theorem C41_flat_coordinate_refuted :
  exists bs, convert_feature (FSparse (Flat [6; 8]) [[5%N]]) = Ok (Some bs) /\
    read_sparse bs 0 (Z.of_nat (length bs)) 0 (SP 0 [] [] 0) = Ok (SP 1 [0; 6; 0; 8] [5%N] 1).
Proof. eexists. split; [vm_compute; reflexivity|]. vm_compute. reflexivity. Qed.
Print Assumptions C41_flat_coordinate_refuted.

(** Finding: an empty coordinate tuple is accepted and the reader divides by zero. *)
Theorem C41_empty_coordinate_refuted :
  exists bs, convert_feature (FSparse (Grid 0 [[]]) [[5; 6; 7; 8; 9]%N]) = Ok (Some bs) /\
    read_sparse bs 0 (Z.of_nat (length bs)) 0 (SP 0 [] [] 0) = Fail EUB.
Proof. eexists. split; [vm_compute; reflexivity|]. vm_compute. reflexivity. Qed.
Print Assumptions C41_empty_coordinate_refuted.

(** ** C56: reads stay inside the requested value *)

(** Two graphs that give the same values for the requested (node, feature) pairs answer alike
    whatever else they store. *)
Theorem C56_node_features_depend_on_own_value :
  forall fadd wval wm1 wm2 parts1 parts2 g1 g2 nodes fs,
    converted fadd wval wm1 parts1 g1 -> converted fadd wval wm2 parts2 g2 -> Forall (fun f => int32 (fst f)) fs ->
    (forall n f, In n nodes -> In f fs -> node_values parts1 n (fst f) = node_values parts2 n (fst f)) ->
    exists out, node_features g1 nodes fs None = Ok out /\ node_features g2 nodes fs None = Ok out.
Proof.
  intros fadd wval wm1 wm2 parts1 parts2 g1 g2 nodes fs C1 C2 Hi H. eexists. split.
  - apply (converted_node_features _ _ _ _ _ _ _ C1 Hi).
  - rewrite (converted_node_features _ _ _ _ _ nodes fs C2 Hi). f_equal. apply map_ext_in. intros n Hn. f_equal. apply map_ext_in.
    intros f Hf. unfold spec_node_feature. now rewrite (H n f Hn Hf).
Qed.
Print Assumptions C56_node_features_depend_on_own_value.

Theorem C56_edge_features_depend_on_own_value_partial :
  forall fadd wval wm1 wm2 parts1 parts2 g1 g2 edges fs,
    converted fadd wval wm1 parts1 g1 -> converted fadd wval wm2 parts2 g2 -> Forall (fun f => int32 (fst f)) fs ->
    (forall e r, In e edges -> In r (flat_map rows parts1 ++ flat_map rows parts2) -> row_id r = fst (fst e) -> searchable r) ->
    (forall e f, In e edges -> In f fs -> edge_values parts1 e (fst f) = edge_values parts2 e (fst f)) ->
    exists out, edge_features g1 edges fs None = Ok out /\ edge_features g2 edges fs None = Ok out.
Proof.
  intros fadd wval wm1 wm2 parts1 parts2 g1 g2 edges fs C1 C2 Hi HS H. eexists. split.
  - apply (converted_edge_features _ _ _ _ _ _ _ C1 Hi). intros e r He Hr. apply (HS e r He). apply in_or_app. now left.
  - rewrite (converted_edge_features _ _ _ _ _ edges fs C2 Hi).
    + f_equal. apply map_ext_in. intros n Hn. f_equal. apply map_ext_in.
      intros f Hf. unfold spec_edge_feature. now rewrite (H n f Hn Hf).
    + intros e r He Hr. apply (HS e r He). apply in_or_app. now right.
Qed.
Print Assumptions C56_edge_features_depend_on_own_value_partial.

Definition demo_other : list (list (list record)) :=
  [ [ [nd 0 1 [Some [200]%N]; ed 0 9 1 one []]; [nd 9 0 [Some [1; 2; 3]; Some [4; 4; 4]; Some [7]]%N] ]; [ [nd 5 2 [Some [9]; Some [8]]%N] ] ].
Example C56_case : converted f32_add wv None demo_other (load_of None demo_other) /\
  map (fun n => map (node_values demo_other n) [0; 2; 5]) [9; 5] = map (fun n => map (node_values demo n) [0; 2; 5]) [9; 5] /\
  node_features (load_of None demo_other) [9; 5] [(0, 5%nat); (2, 2%nat); (5, 1%nat)] None =
  node_features demo_graph [9; 5] [(0, 5%nat); (2, 2%nat); (5, 1%nat)] None.
Proof. split; [apply load_of_converted; vm_compute; reflexivity|]. split; vm_compute; reflexivity. Qed.

(** Finding: reading an empty value with a timestamp parses the bytes of the next feature.
    The two graphs differ in feature 1 only; feature 0 of node 1 is empty. *)
Definition leak (x : N) : list (list (list record)) :=
  [ [ [nd 1 0 [None; Some (temporal_bytes [(1, [x])])]; Rec 1 4 0 one (Some 0) (Some 9) []] ] ].
Theorem C56_temporal_empty_value_refuted :
  exists parts1 parts2 g1 g2 n f,
    converted f32_add wv (Some 10) parts1 g1 /\ converted f32_add wv (Some 10) parts2 g2 /\
    node_values parts1 n f = [None] /\ node_values parts2 n f = [None] /\
    node_features g1 [n] [(f, 1%nat)] (Some [5]) = Ok [ [77%N] ] /\
    node_features g2 [n] [(f, 1%nat)] (Some [5]) = Ok [ [88%N] ].
Proof.
  exists (leak 77), (leak 88), (load_of (Some 10) (leak 77)), (load_of (Some 10) (leak 88)), 1, 0.
  split; [apply load_of_converted; vm_compute; reflexivity|]. split; [apply load_of_converted; vm_compute; reflexivity|].
  repeat split; vm_compute; reflexivity.
Qed.
Print Assumptions C56_temporal_empty_value_refuted.
