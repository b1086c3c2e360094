(** Property C71: typed feature values come back through the Python client.
    Feature ids are 32 bit; [d] is the numpy item type, the same when converting and when
    querying; [vals] (or [tdec]) gives the values that were written as the given bytes. *)
From Coq Require Import Sorting.Sorted.
From Verif Require Import Base WriterModel LoaderModel GraphModel GraphSpec LoaderProofs GraphProofs ConvertProofs AnswerProofs Float32 Demo
  FeatureModel FeatureSpec FeatureProofs EdgeFeatureProofs TemporalProofs EdgeTemporalProofs StringProofs TemporalStringProofs SparseProofs
  TypedModel TypedSpec TypedProofs.
From Coq Require Import ZifyBool ZifyNat ZifyN.
Local Open Scope Z_scope.

(** ** Items and arrays *)
Theorem C71_array_round_trip : forall d vs, (0 < d_width d)%nat -> Forall (fits d) vs -> view d (tobytes d vs) = Ok vs.
Proof. exact view_tobytes. Qed.
Print Assumptions C71_array_round_trip.
Example C71_array_case :
  tobytes (DT Signed 2) [-2; 300] = [254; 255; 44; 1]%N /\ view (DT Signed 2) [254; 255; 44; 1]%N = Ok [-2; 300] /\
  view (DT Bits 2) [254; 255; 44; 1]%N = Ok [65534; 300] /\ view (DT Bits 2) [254; 255; 44]%N = Fail EAssert.
Proof. repeat split; vm_compute; reflexivity. Qed.

(** ** Dense features *)
(** Dense node features.  Full statement: for all sizes; false where [sized] fails, see below. *)
Theorem C71_node_features_partial :
  forall fadd wval wm parts g nodes fs d vals,
    converted fadd wval wm parts g -> Forall (fun f => int32 (fst f)) fs -> (0 < d_width d)%nat -> sized d fs ->
    (forall n f bs, In n nodes -> In f (map fst fs) -> In (Some bs) (node_values parts n f) -> holds d bs (vals bs)) ->
    py_node_features g nodes fs d None = Ok (map (fun n => spec_row (fun f => first_values vals (node_values parts n f)) fs) nodes).
Proof. exact typed_node_features. Qed.
Print Assumptions C71_node_features_partial.

(** With timestamps; at least as many as nodes, otherwise memory behind the array is read. *)
Theorem C71_node_features_ts_partial :
  forall fadd wval wm parts g nodes fs d vals ts hist,
    converted fadd wval wm parts g -> Forall (fun f => int32 (fst f)) fs -> (0 < d_width d)%nat -> sized d fs ->
    ts <> [] -> (length nodes <= length ts)%nat ->
    (forall n f v, In n nodes -> In f (map fst fs) -> In v (node_values parts n f) ->
       explains hist v /\ forall y, In y (hist (bytes_of v)) -> holds d (snd y) (vals (snd y))) ->
    py_node_features g nodes fs d (Some ts) =
    Ok (map (fun x => spec_row (fun f => values_of vals (spec_temporal hist (snd x) (node_values parts (fst x) f))) fs) (combine nodes ts)).
Proof. exact typed_node_features_ts. Qed.
Print Assumptions C71_node_features_ts_partial.

(** Dense edge features; [searchable] as in C04. *)
Theorem C71_edge_features_partial :
  forall fadd wval wm parts g src dst tp fs d vals,
    converted fadd wval wm parts g -> Forall (fun f => int32 (fst f)) fs -> (0 < d_width d)%nat -> sized d fs ->
    length dst = length src -> length tp = length src ->
    let edges := combine (combine src dst) tp in
    (forall e r, In e edges -> In r (flat_map rows parts) -> row_id r = fst (fst e) -> searchable r) ->
    (forall e f bs, In e edges -> In f (map fst fs) -> In (Some bs) (edge_values parts e f) -> holds d bs (vals bs)) ->
    py_edge_features g src dst tp fs d None = Ok (map (fun e => spec_row (fun f => first_values vals (edge_values parts e f)) fs) edges).
Proof. exact typed_edge_features. Qed.
Print Assumptions C71_edge_features_partial.

(** As in C09: at most one block holds the edge. *)
Theorem C71_edge_features_ts_partial :
  forall fadd wval wm parts g src dst tp fs d vals ts hist,
    converted fadd wval wm parts g -> Forall (fun f => int32 (fst f)) fs -> (0 < d_width d)%nat -> sized d fs ->
    length dst = length src -> length tp = length src ->
    let edges := combine (combine src dst) tp in
    ts <> [] -> (length edges <= length ts)%nat ->
    (forall e r, In e edges -> In r (flat_map rows parts) -> row_id r = fst (fst e) -> searchable r) ->
    (forall e, In e edges -> (length (holders parts e) <= 1)%nat) ->
    (forall e f v, In e edges -> In f (map fst fs) -> In v (edge_values parts e f) ->
       explains hist v /\ forall y, In y (hist (bytes_of v)) -> holds d (snd y) (vals (snd y))) ->
    py_edge_features g src dst tp fs d (Some ts) =
    Ok (map (fun x => spec_row (fun f => values_of vals (spec_temporal hist (snd x) (edge_values parts (fst x) f))) fs) (combine edges ts)).
Proof. exact typed_edge_features_ts. Qed.
Print Assumptions C71_edge_features_ts_partial.

Definition i16 := DT Signed 2.
Definition read16 (bs : list N) : list Z := match view i16 bs with Ok vs => vs | Fail _ => [] end.
Definition arr (vs : list Z) : option (list N) := Some (tobytes i16 vs).
Definition nums : list (list (list record)) :=
  [ [ [nd 1 0 [arr [5; -6; 7]; arr [-300]]; ed 1 2 0 one [arr [9; -9]]]; [nd 2 0 [arr [1]]; ed 2 2 0 one [arr [4]]] ] ].
Definition ngraph := load_of None nums.
Lemma read16_holds vs : Forall (fits i16) vs -> holds i16 (tobytes i16 vs) (read16 (tobytes i16 vs)).
Proof. intro H. unfold holds, read16. rewrite view_tobytes; [auto|cbn; lia|assumption]. Qed.
Ltac fit_tac := repeat (apply Forall_cons; [unfold fits; cbn; lia|]); apply Forall_nil.
Lemma nums_hold n f bs : In n [2; 1; 3] -> In f [0; 1] -> In (Some bs) (node_values nums n f) -> holds i16 bs (read16 bs).
Proof.
  intros Hn Hf. repeat destruct Hn as [<-|Hn]; try contradiction; repeat destruct Hf as [<-|Hf]; try contradiction;
    (intro H; vm_compute in H; repeat destruct H as [H|H]; try contradiction; injection H as <-).
  - apply (read16_holds [1]). fit_tac.
  - apply (read16_holds [5; -6; 7]). fit_tac.
  - apply (read16_holds [-300]). fit_tac.
Qed.
Example C71_case : converted f32_add wv None nums ngraph /\
  (forall n f bs, In n [2; 1; 3] -> In f [0; 1] -> In (Some bs) (node_values nums n f) -> holds i16 bs (read16 bs)) /\
  sized i16 [(0, 2); (1, 2); (0, 4)] /\
  py_node_features ngraph [2; 1; 3] [(0, 2); (1, 2); (0, 4)] i16 None =
    Ok [[1; 0; 0; 0; 1; 0; 0; 0]; [5; -6; -300; 0; 5; -6; 7; 0]; [0; 0; 0; 0; 0; 0; 0; 0]] /\
  py_edge_features ngraph [1; 2] [2; 2] [0; 0] [(0, 3)] i16 None = Ok [[9; -9; 0]; [4; 0; 0]] /\
  py_node_strings ngraph [2; 1; 3] [0; 1] i16 None = Ok ([1; 5; -6; 7; -300], [[1; 0]; [3; 1]; [0; 0]]) /\
  py_edge_strings ngraph [1; 2] [2; 2] [0; 0] [0] i16 None = Ok ([9; -9; 4], [[2]; [1]]).
Proof.
  split; [apply load_of_converted; vm_compute; reflexivity|]. split; [exact nums_hold|].
  split; [repeat constructor; cbn; lia|]. repeat split; vm_compute; reflexivity.
Qed.

(** With timestamps. *)
Definition story : list (Z * list N) := [(1, tobytes i16 [7; -7]); (5, tobytes i16 [300])].
Definition stories (bs : list N) : list (Z * list N) := if list_eq_dec N.eq_dec bs (temporal_bytes story) then story else [].
Definition tnums : list (list (list record)) := [ [ [nd 1 0 [Some (temporal_bytes story)]; Rec 1 4 0 one (Some 0) (Some 9) [Some (temporal_bytes story)]] ] ].
Lemma story_explains : explains stories (Some (temporal_bytes story)) /\
  forall y, In y (stories (temporal_bytes story)) -> holds i16 (snd y) (read16 (snd y)).
Proof.
  assert (E : stories (temporal_bytes story) = story) by (vm_compute; reflexivity). unfold explains. cbn [bytes_of]. rewrite E. split.
  - cbv zeta. split; [split; [discriminate|split; [vm_compute; reflexivity|split; [vm_compute; reflexivity|]]]|].
    + repeat (apply Forall_cons; [cbn; lia|]); apply Forall_nil.
    + split; [repeat constructor; cbn; intuition lia|]. split; [repeat (apply Forall_cons; [cbn; lia|]); apply Forall_nil|reflexivity].
  - intros y [<-|[<-|[]]]; cbn [snd]; apply read16_holds; fit_tac.
Qed.
Example C71_ts_case : converted f32_add wv (Some 10) tnums (load_of (Some 10) tnums) /\
  (forall v, In v (node_values tnums 1 0) -> explains stories v /\ forall y, In y (stories (bytes_of v)) -> holds i16 (snd y) (read16 (snd y))) /\
  py_node_features (load_of (Some 10) tnums) [1; 1; 1; 2] [(0, 2)] i16 (Some [0; 4; 5; 5]) = Ok [[0; 0]; [7; -7]; [300; 0]; [0; 0]] /\
  py_edge_features (load_of (Some 10) tnums) [1; 1] [4; 4] [0; 0] [(0, 1)] i16 (Some [4; 6]) = Ok [[7]; [300]] /\
  py_node_strings (load_of (Some 10) tnums) [1; 1] [0] i16 (Some [4; 5]) = Ok ([7; -7; 300], [[2]; [1]]) /\
  py_edge_strings (load_of (Some 10) tnums) [1; 1] [4; 4] [0; 0] [0] i16 (Some [4; 5]) = Ok ([7; -7; 300], [[2]; [1]]).
Proof.
  split; [apply load_of_converted; vm_compute; reflexivity|]. split.
  - intros v H. replace (node_values tnums 1 0) with [Some (temporal_bytes story)] in H by (vm_compute; reflexivity).
    destruct H as [<-|[]]. exact story_explains.
  - repeat split; vm_compute; reflexivity.
Qed.

(** ** String features *)
(** String features; [unmixed] as in C42.  The second array has the number of values, not of bytes. *)
Theorem C71_node_strings_partial :
  forall fadd wval wm parts g nodes fs d vals,
    converted fadd wval wm parts g -> Forall int32 fs -> (0 < d_width d)%nat ->
    (forall n, In n nodes -> unmixed None row_feats fs (node_rows n (map rows parts))) ->
    (forall n f bs, In n nodes -> In f fs -> In (Some bs) (node_values parts n f) -> holds d bs (vals bs)) ->
    py_node_strings g nodes fs d None =
    Ok (flat_map (fun n => flat_map (fun f => first_given vals (node_values parts n f)) fs) nodes,
        map (fun n => map (fun f => Z.of_nat (length (first_given vals (node_values parts n f)))) fs) nodes).
Proof. exact typed_node_strings. Qed.
Print Assumptions C71_node_strings_partial.

Theorem C71_node_strings_ts_partial :
  forall fadd wval wm parts g nodes fs d vals ts hist,
    converted fadd wval wm parts g -> Forall int32 fs -> (0 < d_width d)%nat -> ts <> [] -> (length nodes <= length ts)%nat ->
    (forall n, In n nodes -> (length (filter (fun r => gives fs (row_feats r)) (node_rows n (map rows parts))) <= 1)%nat) ->
    (forall n f v, In n nodes -> In f fs -> In v (node_values parts n f) ->
       explains hist v /\ forall y, In y (hist (bytes_of v)) -> holds d (snd y) (vals (snd y))) ->
    let cell x f := values_of vals (spec_temporal hist (snd x) (node_values parts (fst x) f)) in
    py_node_strings g nodes fs d (Some ts) =
    Ok (flat_map (fun x => flat_map (cell x) fs) (combine nodes ts), map (fun x => map (fun f => Z.of_nat (length (cell x f))) fs) (combine nodes ts)).
Proof. exact typed_node_strings_ts. Qed.
Print Assumptions C71_node_strings_ts_partial.

Theorem C71_edge_strings_partial :
  forall fadd wval wm parts g src dst tp fs d vals,
    Forall int32 fs -> (0 < d_width d)%nat -> length dst = length src -> length tp = length src ->
    let edges := combine (combine src dst) tp in
    (forall e, In e edges -> readable fadd wval wm parts g (fst (fst e))) ->
    (forall e r, In e edges -> In r (flat_map rows parts) -> row_id r = fst (fst e) -> searchable r) ->
    (forall e, In e edges -> unmixed None (edge_row_feats e) fs (node_rows (fst (fst e)) (map rows parts))) ->
    (forall e f bs, In e edges -> In f fs -> In (Some bs) (edge_values parts e f) -> holds d bs (vals bs)) ->
    py_edge_strings g src dst tp fs d None =
    Ok (flat_map (fun e => flat_map (fun f => first_given vals (edge_values parts e f)) fs) edges,
        map (fun e => map (fun f => Z.of_nat (length (first_given vals (edge_values parts e f)))) fs) edges).
Proof. exact typed_edge_strings. Qed.
Print Assumptions C71_edge_strings_partial.

Theorem C71_edge_strings_ts_partial :
  forall fadd wval wm parts g src dst tp fs d vals ts hist,
    Forall int32 fs -> (0 < d_width d)%nat -> length dst = length src -> length tp = length src ->
    let edges := combine (combine src dst) tp in
    ts <> [] -> (length edges <= length ts)%nat ->
    (forall e, In e edges -> readable fadd wval wm parts g (fst (fst e))) ->
    (forall e r, In e edges -> In r (flat_map rows parts) -> row_id r = fst (fst e) -> searchable r) ->
    (forall e, In e edges -> (length (filter (fun r => gives fs (edge_row_feats e r)) (node_rows (fst (fst e)) (map rows parts))) <= 1)%nat) ->
    (forall e f v, In e edges -> In f fs -> In v (edge_values parts e f) ->
       explains hist v /\ forall y, In y (hist (bytes_of v)) -> holds d (snd y) (vals (snd y))) ->
    let cell x f := values_of vals (spec_temporal hist (snd x) (edge_values parts (fst x) f)) in
    py_edge_strings g src dst tp fs d (Some ts) =
    Ok (flat_map (fun x => flat_map (cell x) fs) (combine edges ts), map (fun x => map (fun f => Z.of_nat (length (cell x f))) fs) (combine edges ts)).
Proof. exact typed_edge_strings_ts. Qed.
Print Assumptions C71_edge_strings_ts_partial.

(** ** Sparse features *)
(** Sparse features: coordinates with the index of the element in front, values and dimensions.
    [sparse_typed]: all values of one feature have the same number [dims f] of coordinates,
    coordinates are 64 bit. *)
Theorem C71_node_sparse_partial :
  forall fadd wval wm parts g nodes fs d tdec dims,
    converted fadd wval wm parts g -> Forall int32 fs -> (0 < d_width d)%nat ->
    (forall n f bs, In n nodes -> In f fs -> In (Some bs) (node_values parts n f) -> bs = [] \/ sparse_typed d tdec (dims f) bs) ->
    let cells f := map (fun n => tdecoded tdec (spec_node_string parts n f)) nodes in
    py_node_sparse g nodes fs d None = Ok (map (fun f => spec_coords (cells f)) fs, map (fun f => spec_values (cells f)) fs, map (fun f => spec_dim (cells f)) fs).
Proof. exact typed_node_sparse. Qed.
Print Assumptions C71_node_sparse_partial.

Theorem C71_edge_sparse_partial :
  forall fadd wval wm parts g src dst tp fs d tdec dims,
    converted fadd wval wm parts g -> Forall int32 fs -> (0 < d_width d)%nat -> length dst = length src -> length tp = length src ->
    let edges := combine (combine src dst) tp in
    (forall e r, In e edges -> In r (flat_map rows parts) -> row_id r = fst (fst e) -> searchable r) ->
    (forall e f bs, In e edges -> In f fs -> In (Some bs) (edge_values parts e f) -> bs = [] \/ sparse_typed d tdec (dims f) bs) ->
    let cells f := map (fun e => tdecoded tdec (spec_edge_string parts e f)) edges in
    py_edge_sparse g src dst tp fs d None = Ok (map (fun f => spec_coords (cells f)) fs, map (fun f => spec_values (cells f)) fs, map (fun f => spec_dim (cells f)) fs).
Proof. exact typed_edge_sparse. Qed.
Print Assumptions C71_edge_sparse_partial.

Theorem C71_node_sparse_ts_partial :
  forall fadd wval wm parts g nodes fs d tdec dims ts hist,
    converted fadd wval wm parts g -> Forall int32 fs -> (0 < d_width d)%nat -> ts <> [] -> (length nodes <= length ts)%nat ->
    (forall n f, In n nodes -> In f fs -> (length (node_values parts n f) <= 1)%nat) ->
    (forall n f v, In n nodes -> In f fs -> In v (node_values parts n f) ->
       explains hist v /\ forall y, In y (hist (bytes_of v)) -> snd y = [] \/ sparse_typed d tdec (dims f) (snd y)) ->
    let cells f := map (fun x => tdecoded tdec (entry_bytes hist (snd x) (node_values parts (fst x) f))) (combine nodes ts) in
    py_node_sparse g nodes fs d (Some ts) = Ok (map (fun f => spec_coords (cells f)) fs, map (fun f => spec_values (cells f)) fs, map (fun f => spec_dim (cells f)) fs).
Proof. exact typed_node_sparse_ts. Qed.
Print Assumptions C71_node_sparse_ts_partial.

Theorem C71_edge_sparse_ts_partial :
  forall fadd wval wm parts g src dst tp fs d tdec dims ts hist,
    converted fadd wval wm parts g -> Forall int32 fs -> (0 < d_width d)%nat -> length dst = length src -> length tp = length src ->
    let edges := combine (combine src dst) tp in
    ts <> [] -> (length edges <= length ts)%nat ->
    (forall e r, In e edges -> In r (flat_map rows parts) -> row_id r = fst (fst e) -> searchable r) ->
    (forall e f, In e edges -> In f fs -> (length (edge_values parts e f) <= 1)%nat) ->
    (forall e f v, In e edges -> In f fs -> In v (edge_values parts e f) ->
       explains hist v /\ forall y, In y (hist (bytes_of v)) -> snd y = [] \/ sparse_typed d tdec (dims f) (snd y)) ->
    let cells f := map (fun x => tdecoded tdec (entry_bytes hist (snd x) (edge_values parts (fst x) f))) (combine edges ts) in
    py_edge_sparse g src dst tp fs d (Some ts) = Ok (map (fun f => spec_coords (cells f)) fs, map (fun f => spec_values (cells f)) fs, map (fun f => spec_dim (cells f)) fs).
Proof. exact typed_edge_sparse_ts. Qed.
Print Assumptions C71_edge_sparse_ts_partial.


Definition tenc (c : coords) (vs : list Z) : option (list N) := match convert_sparse 8 i16 c vs with Ok o => o | Fail _ => None end.
Definition cells : list (list (list record)) :=
  [ [ [nd 1 0 [tenc (Grid 2 [[3; 4]; [-1; 2 ^ 40]]) [-5; 600]]; ed 1 2 0 one [tenc (Flat [8]) [44]] ];
      [nd 2 0 [None; tenc (Flat [6; 8]) [1; -2]]]; [nd 3 0 [tenc (Grid 2 [[0; 1]]) [9]]] ] ].
Definition cell_of (c : coords) (vs : list Z) (bs : list N) : bool :=
  match tenc c vs with Some b => if list_eq_dec N.eq_dec bs b then true else false | None => false end.
Definition known (bs : list N) : coords * list Z :=
  if cell_of (Grid 2 [[3; 4]; [-1; 2 ^ 40]]) [-5; 600] bs then (Grid 2 [[3; 4]; [-1; 2 ^ 40]], [-5; 600])
  else if cell_of (Flat [6; 8]) [1; -2] bs then (Flat [6; 8], [1; -2])
  else (Grid 2 [[0; 1]], [9]).
Definition cell_dims (f : Z) : nat := if f =? 0 then 2 else 1.
Ltac cell_tac := unfold sparse_typed; match goal with |- context [known ?b] => let e := eval vm_compute in (known b) in replace (known b) with e by (vm_compute; reflexivity) end;
  cbv zeta; cbn [fst snd]; refine (conj _ (conj _ (conj _ (conj _ (conj _ (conj _ (conj _ (conj _ (conj _ _)))))))));
  [vm_compute; reflexivity|vm_compute; lia|repeat (apply Forall_cons; [vm_compute; reflexivity|]); apply Forall_nil|
   cbn [coords_all concat app]; repeat (apply Forall_cons; [lia|]); apply Forall_nil|vm_compute; reflexivity|vm_compute; reflexivity|
   vm_compute; reflexivity|repeat (apply Forall_cons; [unfold fits; cbn; lia|]); apply Forall_nil|vm_compute; reflexivity|vm_compute; reflexivity].
Lemma cells_typed n f bs : In n [3; 2; 1; 3] -> In f [0; 1] -> In (Some bs) (node_values cells n f) ->
  bs = [] \/ sparse_typed i16 known (cell_dims f) bs.
Proof.
  intros Hn Hf. repeat destruct Hn as [<-|Hn]; try contradiction; repeat destruct Hf as [<-|Hf]; try contradiction;
    (intro H; vm_compute in H; repeat destruct H as [H|H]; try contradiction; try discriminate; injection H as <-; right; cell_tac).
Qed.
Example C71_sparse_case : converted f32_add wv None cells (load_of None cells) /\
  (forall n f bs, In n [3; 2; 1; 3] -> In f [0; 1] -> In (Some bs) (node_values cells n f) -> bs = [] \/ sparse_typed i16 known (cell_dims f) bs) /\
  py_node_sparse (load_of None cells) [3; 2; 1; 3] [0; 1; 2] i16 None =
    Ok ([[[0; 0; 1]; [2; 3; 4]; [2; -1; 2 ^ 40]; [3; 0; 1]]; [[1; 6]; [1; 8]]; []], [[9; -5; 600; 9]; [1; -2]; []], [2; 1; 0]) /\
  py_edge_sparse (load_of None cells) [1] [2] [0] [0] i16 None = Ok ([[[0; 8]]], [[44]], [1]).
Proof.
  split; [apply load_of_converted; vm_compute; reflexivity|]. split; [exact cells_typed|]. split; vm_compute; reflexivity.
Qed.

(** ** Findings *)

(** No timestamps and an empty array of timestamps mean the same. *)
Theorem C71_no_stamps : forall g nodes fs d, py_node_features g nodes fs d (Some []) = py_node_features g nodes fs d None.
Proof. reflexivity. Qed.
Print Assumptions C71_no_stamps.

(** Finding: an array of timestamps shorter than the array of nodes is read behind its end. *)
Theorem C71_short_stamps_refuted :
  exists parts g, converted f32_add wv (Some 10) parts g /\ py_node_features g [1; 1] [(0, 1)] i16 (Some [4]) = Fail EUB.
Proof. exists tnums, (load_of (Some 10) tnums). split; [apply load_of_converted; vm_compute; reflexivity|vm_compute; reflexivity]. Qed.
Print Assumptions C71_short_stamps_refuted.

(** Finding: a size of 2^30 values of four bytes is multiplied as a 32 bit integer and becomes 0:
    no byte of the feature is asked for, and the client returns zeros. *)
Theorem C71_size_wrap_refuted : exists d size, 0 <= size < 2 ^ 31 /\ d_width d = 4%nat /\ byte_size d size = 0 /\ 0 < size.
Proof. exists (DT Bits 4), (2 ^ 30). vm_compute. repeat split; congruence. Qed.
Print Assumptions C71_size_wrap_refuted.

(** Finding: a string feature whose bytes are no multiple of the item width is dropped without
    an error, and the dimensions do not say so. *)
Definition odd : list (list (list record)) := [ [ [nd 1 0 [Some [1; 2; 3; 4; 5]%N]] ] ].
Theorem C71_unaligned_string_refuted :
  exists parts g, converted f32_add wv None parts g /\ py_node_strings g [1] [0] i16 None = Ok ([], [[2]]).
Proof. exists odd, (load_of None odd). split; [apply load_of_converted; vm_compute; reflexivity|vm_compute; reflexivity]. Qed.
Print Assumptions C71_unaligned_string_refuted.

(** Finding: two nodes whose values of one sparse feature have different dimensions: the
    coordinates are regrouped by the dimension of the last one. *)
Definition mixed : list (list (list record)) :=
  [ [ [nd 1 0 [tenc (Grid 3 [[10; 11; 12]]) [7]]]; [nd 2 0 [tenc (Flat [20; 21]) [8; 9]]] ] ].
Theorem C71_mixed_dimensions_refuted :
  exists parts g, converted f32_add wv None parts g /\
    py_node_sparse g [1; 2] [0] i16 None = Ok ([[[0; 10]; [11; 12]; [1; 20]; [1; 21]]], [[7; 8; 9]], [1]).
Proof. exists mixed, (load_of None mixed). split; [apply load_of_converted; vm_compute; reflexivity|vm_compute; reflexivity]. Qed.
Print Assumptions C71_mixed_dimensions_refuted.

(** Finding: where they cannot be regrouped, the answer silently ends before the feature: the
    second feature is missing from both lists. *)
Definition broken : list (list (list record)) :=
  [ [ [nd 1 0 [tenc (Flat [20]) [8]; tenc (Flat [5]) [6]]]; [nd 2 0 [tenc (Grid 2 [[10; 11]]) [7]]] ] ].
Theorem C71_lost_features_refuted :
  exists parts g, converted f32_add wv None parts g /\ py_node_sparse g [1; 2] [0; 1] i16 None = Ok ([], [], [2; 1]).
Proof. exists broken, (load_of None broken). split; [apply load_of_converted; vm_compute; reflexivity|vm_compute; reflexivity]. Qed.
Print Assumptions C71_lost_features_refuted.

(** Finding: coordinates of another width than 64 bit are accepted and written as they are; the
    reader then takes coordinates out of the values. *)
Theorem C71_narrow_coordinates_refuted :
  exists bs, convert_sparse 4 (DT Signed 8) (Flat [6; 8]) [1; 2] = Ok (Some bs) /\
    read_sparse bs 0 (Z.of_nat (length bs)) 0 (SP 0 [] [] 0) = Ok (SP 1 [0; 6 + 8 * 2 ^ 32; 0; 1] [2; 0; 0; 0; 0; 0; 0; 0]%N 8).
Proof. eexists. split; [vm_compute; reflexivity|]. vm_compute. reflexivity. Qed.
Print Assumptions C71_narrow_coordinates_refuted.
