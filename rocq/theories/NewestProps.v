(** Properties C41 and C42: a node stored in several partitions with values of different times.
    [spec_temporal] (behind [entry_bytes]) is the newest entry over all of them. *)
From Coq Require Import Sorting.Sorted.
From Verif Require Import Base WriterModel LoaderModel GraphModel GraphSpec LoaderProofs GraphProofs ConvertProofs AnswerProofs Float32 Demo
  FeatureModel FeatureSpec FeatureProofs EdgeFeatureProofs TemporalProofs EdgeTemporalProofs StringProofs TemporalStringProofs SparseProofs
  NewestProofs.
From Coq Require Import ZifyBool ZifyNat ZifyN.
Local Open Scope Z_scope.

Ltac hist_tac := split; [discriminate|split; [vm_compute; reflexivity|split; [vm_compute; reflexivity|
  repeat (apply Forall_cons; [cbn; lia|]); apply Forall_nil]]].
Ltac explains_tac := split; [hist_tac|split; [repeat constructor; cbn; intuition lia|split; [repeat (apply Forall_cons; [cbn; lia|]); apply Forall_nil|reflexivity]]].

(** ** C42: one string feature *)

(** Full statement: for any list of features, see C42_newer_value_refuted. *)
Theorem C42_newest_string_partial :
  forall fadd wval wm parts g nodes f ts hist,
    converted fadd wval wm parts g -> int32 f ->
    (forall n v, In n nodes -> In v (node_values parts n f) -> explains hist v) ->
    node_string_features g nodes [f] (Some ts) =
    Ok (map (fun x => [Z.of_nat (length (entry_bytes hist (snd x) (node_values parts (fst x) f)))]) (combine nodes ts),
        concat (map (fun x => entry_bytes hist (snd x) (node_values parts (fst x) f)) (combine nodes ts))).
Proof. exact newest_node_string. Qed.
Print Assumptions C42_newest_string_partial.

(** Node 2, then node 1 of three partitions: replaced by a longer and by a shorter value. *)
Definition h1 : list (Z * list N) := [(1, [10; 11]%N); (6, [60]%N)].
Definition h2 : list (Z * list N) := [(2, [20; 21; 22]%N); (9, [])].
Definition h3 : list (Z * list N) := [(4, [40]%N)].
Definition three : list (list (list record)) :=
  [ [ [nd 1 0 [Some (temporal_bytes h1)]]; [nd 2 0 [Some (temporal_bytes h2)]] ];
    [ [nd 1 0 [Some (temporal_bytes h2)]] ]; [ [nd 1 0 [Some (temporal_bytes h3)]] ] ].
Definition bytes_eqb (a b : list N) : bool := if list_eq_dec N.eq_dec a b then true else false.
Definition hist_of (hs : list (list (Z * list N))) (bs : list N) : list (Z * list N) :=
  match find (fun h => bytes_eqb bs (temporal_bytes h)) hs with Some h => h | None => [] end.
Definition three_hist := hist_of [h1; h2; h3].
Lemma three_explained n v : In v (node_values three n 0) -> explains three_hist v.
Proof.
  unfold node_values. intro H. apply in_flat_map in H. destruct H as (r & Hr & Hv).
  destruct (is_node r && (rsrc r =? n)); [|contradiction].
  destruct (value_at (rfeats r) 0) as [w|] eqn:Ew; [|contradiction]. destruct Hv as [<-|[]].
  apply value_at_nth in Ew. destruct Ew as [_ Ew]. apply nth_error_In in Ew.
  assert (Hc : In w [Some (temporal_bytes h1); Some (temporal_bytes h2); Some (temporal_bytes h3)]).
  { cbn [concat three app] in Hr. destruct Hr as [<-|[<-|[<-|[<-|[]]]]]; cbn [nd rfeats] in Ew; destruct Ew as [<-|[]];
    auto using in_eq, in_cons. }
  destruct Hc as [<-|[<-|[<-|[]]]]; unfold explains; cbn [bytes_of].
  - replace (three_hist (temporal_bytes h1)) with h1 by (vm_compute; reflexivity). cbv zeta. explains_tac.
  - replace (three_hist (temporal_bytes h2)) with h2 by (vm_compute; reflexivity). cbv zeta. explains_tac.
  - replace (three_hist (temporal_bytes h3)) with h3 by (vm_compute; reflexivity). cbv zeta. explains_tac.
Qed.
Example C42_newest_case : converted f32_add wv (Some 10) three (load_of (Some 10) three) /\
  (forall n v, In v (node_values three n 0) -> explains three_hist v) /\
  node_string_features (load_of (Some 10) three) [2; 1; 1; 1; 1; 1; 2] [0] (Some [3; 1; 3; 5; 7; 9; 0]) =
  Ok ([[3]; [2]; [3]; [1]; [1]; [0]; [0]], [20; 21; 22; 10; 11; 20; 21; 22; 40; 60]%N).
Proof.
  split; [apply load_of_converted; vm_compute; reflexivity|]. split; [exact three_explained|vm_compute; reflexivity].
Qed.

(** ** C41: sparse features *)

(** [one_point]: the value has a single coordinate tuple.  Full statement: for values with any
    number of points; refuted below. *)
Theorem C41_newest_sparse_partial :
  forall fadd wval wm parts g nodes fs ts hist dec,
    converted fadd wval wm parts g -> Forall int32 fs ->
    (forall n f v, In n nodes -> In f fs -> In v (node_values parts n f) -> explains hist v) ->
    (forall n f v x, In n nodes -> In f fs -> In v (node_values parts n f) -> In x (hist (bytes_of v)) -> one_point dec (snd x)) ->
    exists ss, node_sparse_features g nodes fs (Some ts) = Ok ss /\
      sparse_answer dec (fun f => map (fun x => entry_bytes hist (snd x) (node_values parts (fst x) f)) (combine nodes ts)) fs ss.
Proof. exact newest_node_sparse. Qed.
Print Assumptions C41_newest_sparse_partial.

Definition enc (c : coords) (vs : list (list N)) : list N :=
  match convert_feature (FSparse c vs) with Ok (Some bs) => bs | _ => [] end.
(** Points of different dimension in two partitions. *)
Definition old_point := enc (Grid 2 [[3; 4]]) [[1; 2]]%N.
Definition new_point := enc (Grid 3 [[-1; 7; 2 ^ 40]]) [[8]]%N.
Definition dec_demo (bs : list N) : coords * list (list N) :=
  if bytes_eqb bs old_point then (Grid 2 [[3; 4]], [[1; 2]]%N) else (Grid 3 [[-1; 7; 2 ^ 40]], [[8]]%N).
Definition p1 : list (Z * list N) := [(1, old_point)].
Definition p2 : list (Z * list N) := [(4, new_point); (2, old_point)].
Definition points : list (list (list record)) :=
  [ [ [nd 1 0 [Some (temporal_bytes p1); Some (temporal_bytes p2)]]; [nd 2 0 [Some (temporal_bytes p1)]] ]; [ [nd 1 0 [Some (temporal_bytes p2); Some (temporal_bytes p1)]] ] ].
Lemma points_fit n f v : In v (node_values points n f) ->
  explains (hist_of [p1; p2]) v /\ forall x, In x (hist_of [p1; p2] (bytes_of v)) -> one_point dec_demo (snd x).
Proof.
  assert (P : forall b, In b [old_point; new_point] -> one_point dec_demo b).
  { intros b [<-|[<-|[]]]; (split; [split|vm_compute; reflexivity]); [|vm_compute; reflexivity| |vm_compute; reflexivity].
    - replace (dec_demo old_point) with (Grid 2 [[3; 4]], [[1; 2]]%N) by (vm_compute; reflexivity). cbn [fst snd].
      unfold coords_ok. cbn [coords_len coords_dim coords_all tuples length concat app]. repeat (split; [first [reflexivity|lia|repeat constructor; lia]|]); lia.
    - replace (dec_demo new_point) with (Grid 3 [[-1; 7; 2 ^ 40]], [[8]]%N) by (vm_compute; reflexivity). cbn [fst snd].
      unfold coords_ok. cbn [coords_len coords_dim coords_all tuples length concat app]. repeat (split; [first [reflexivity|lia|repeat constructor; lia]|]); lia. }
  unfold node_values. intro H. apply in_flat_map in H. destruct H as (r & Hr & Hv).
  destruct (is_node r && (rsrc r =? n)); [|contradiction].
  destruct (value_at (rfeats r) f) as [w|] eqn:Ew; [|contradiction]. destruct Hv as [<-|[]].
  apply value_at_nth in Ew. destruct Ew as [_ Ew]. apply nth_error_In in Ew.
  assert (Hc : In w [Some (temporal_bytes p1); Some (temporal_bytes p2)]).
  { cbn [concat points app] in Hr. destruct Hr as [<-|[<-|[<-|[]]]]; cbn [nd rfeats] in Ew;
    repeat (destruct Ew as [<-|Ew]; [auto using in_eq, in_cons|]); contradiction. }
  destruct Hc as [<-|[<-|[]]]; unfold explains; cbn [bytes_of].
  - replace (hist_of [p1; p2] (temporal_bytes p1)) with p1 by (vm_compute; reflexivity). cbv zeta. split; [explains_tac|].
    intros x [<-|[]]. apply P. now left.
  - replace (hist_of [p1; p2] (temporal_bytes p2)) with p2 by (vm_compute; reflexivity). cbv zeta. split; [explains_tac|].
    intros x [<-|[<-|[]]]; apply P; auto using in_eq, in_cons.
Qed.
Example C41_newest_case : converted f32_add wv (Some 10) points (load_of (Some 10) points) /\
  (forall n f v, In v (node_values points n f) ->
     explains (hist_of [p1; p2]) v /\ forall x, In x (hist_of [p1; p2] (bytes_of v)) -> one_point dec_demo (snd x)) /\
  node_sparse_features (load_of (Some 10) points) [2; 1] [0; 1] (Some [9; 9]) =
  Ok [SP 3 [0; 3; 4; 1; -1; 7; 2 ^ 40] [1; 2; 8]%N 1; SP 3 [1; -1; 7; 2 ^ 40] [8]%N 1] /\
  node_sparse_features (load_of (Some 10) points) [2; 1] [0; 1] (Some [1; 1]) =
  Ok [SP 2 [0; 3; 4; 1; 3; 4] [1; 2; 1; 2]%N 2; SP 2 [1; 3; 4] [1; 2]%N 2].
Proof.
  split; [apply load_of_converted; vm_compute; reflexivity|]. split; [exact points_fit|]. split; vm_compute; reflexivity.
Qed.

(** Finding: a replaced value of two points leaves the first point among the coordinates: two
    coordinate tuples for one value. *)
Definition pair_point := enc (Grid 2 [[3; 4]; [5; 6]]) [[1]; [2]]%N.
Definition single_point := enc (Grid 2 [[7; 8]]) [[9]]%N.
Definition shrunk : list (list (list record)) :=
  [ [ [nd 1 0 [Some (temporal_bytes [(1, pair_point)])]] ]; [ [nd 1 0 [Some (temporal_bytes [(4, single_point)])]] ] ].
Theorem C41_replaced_points_refuted :
  exists parts g n t, converted f32_add wv (Some 10) parts g /\
    map (entry_at t) [[(1, pair_point)]; [(4, single_point)]] = [Some (1, pair_point); Some (4, single_point)] /\
    node_values parts n 0 = [Some (temporal_bytes [(1, pair_point)]); Some (temporal_bytes [(4, single_point)])] /\
    node_sparse_features g [n] [0] (Some [t]) = Ok [SP 2 [0; 3; 4; 0; 7; 8] [9]%N 1].
Proof.
  exists shrunk, (load_of (Some 10) shrunk), 1, 5. split; [apply load_of_converted; vm_compute; reflexivity|].
  split; [vm_compute; reflexivity|]. split; vm_compute; reflexivity.
Qed.
Print Assumptions C41_replaced_points_refuted.

(** Finding: after an empty value the next replacement removes the value of the previous node
    of the query: node 2 loses its point; without a previous node the size underflows and
    resize throws. *)
Definition emptied : list (list (list record)) :=
  [ [ [nd 1 0 [Some (temporal_bytes [(1, old_point)])]]; [nd 2 0 [Some (temporal_bytes [(1, old_point)])]] ];
    [ [nd 1 0 [Some (temporal_bytes [(2, [])])]] ]; [ [nd 1 0 [Some (temporal_bytes [(4, single_point)])]] ] ].
Theorem C41_replaced_empty_refuted :
  exists parts g t, converted f32_add wv (Some 10) parts g /\
    node_sparse_features g [2] [0] (Some [t]) = Ok [SP 2 [0; 3; 4] [1; 2]%N 2] /\
    node_sparse_features g [2; 1] [0] (Some [t; t]) = Ok [SP 2 [1; 7; 8] [9]%N 1] /\
    node_sparse_features g [1] [0] (Some [t]) = Fail EFatal.
Proof.
  exists emptied, (load_of (Some 10) emptied), 5. split; [apply load_of_converted; vm_compute; reflexivity|].
  repeat split; vm_compute; reflexivity.
Qed.
Print Assumptions C41_replaced_empty_refuted.
