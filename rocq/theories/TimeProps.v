(** Properties C07 and C10: counting alive edges, most recently created neighbors. *)
From Verif Require Import Base WriterModel LoaderModel GraphModel GraphSpec LoaderProofs GraphProofs ConvertProofs AnswerProofs Float32 Demo
  CountProofs LastNModel LastNProofs.
From Coq Require Import Sorting.Sorted Permutation ZifyBool ZifyNat ZifyN.
Local Open Scope Z_scope.

(** ** C07: counts of temporal neighbors *)

(** The counting loop of one group of parallel edges. *)
Theorem C07_count_of_a_group_partial :
  forall fuel span t, (length span <= fuel)%nat -> int32 t -> StronglySorted not_before span ->
    count_loop fuel span t = Ok (length (filter (fun x => lives x t) span)).
Proof. exact count_loop_spec. Qed.
Print Assumptions C07_count_of_a_group_partial.

(** Full statement: without [ordered_lives] and [int32]; false, see below.  The guard: within
    a block the edges of one type are ordered by creation and by removal time (never removed
    last), and timestamps fit 32 bits. *)
Theorem C07_counts_partial :
  forall fadd fsub wval w parts g types nodes ts,
    0 <= w -> converted fadd wval (Some w) parts g -> ordered_lives parts -> Forall int32 ts ->
    exists ls, neighbors fsub g nodes types (Some ts) = Ok (concat ls, map (@length nbr) ls) /\
               neighbor_counts g nodes types (Some ts) = Ok (map (@length nbr) ls).
Proof. exact converted_counts_ts. Qed.
Print Assumptions C07_counts_partial.

Lemma demo_t_ordered : ordered_lives demo_t.
Proof.
  intros r ty Hr.
  assert (E : flat_map rows demo_t =
    [Row 1 0 [] [Edge 1 2 0 one [] 1 5; Edge 1 3 0 two [] 2 (-1); Edge 1 4 1 one [] 4 6]; Row 1 (-1) [] [Edge 1 8 0 one [] 3 9]])
    by (vm_compute; reflexivity).
  rewrite E in Hr. destruct Hr as [<-|[<-|[]]]; cbn [row_edges filter e_typ];
    destruct (Z.eqb_spec 0 ty); destruct (Z.eqb_spec 1 ty); try lia; cbn;
    repeat constructor; cbn; unfold life; cbn; lia.
Qed.
Example C07_case : converted f32_add wv (Some 10) demo_t demo_t_graph /\ ordered_lives demo_t /\
  neighbor_counts demo_t_graph [1; 1; 1; 1; 9] [0; 1] (Some [0; 4; 5; 9; 4]) = Ok [0; 4; 3; 1; 0]%nat /\
  (do x <- neighbors f32_sub demo_t_graph [1; 1; 1; 1; 9] [0; 1] (Some [0; 4; 5; 9; 4]) ;; Ok (snd x)) = Ok [0; 4; 3; 1; 0]%nat.
Proof. split; [exact demo_t_converted|]. split; [exact demo_t_ordered|]. split; vm_compute; reflexivity. Qed.

(** Finding: an edge that is removed before an earlier created one. *)
Definition nested : list (list (list record)) := [ [ [nd 1 0 []; edt 1 2 0 one 0 10; edt 1 3 0 one 1 2] ] ].
Theorem C07_removal_order_refuted :
  exists parts g n t, converted f32_add wv (Some 10) parts g /\
    neighbor_counts g [n] [0] (Some [t]) = Ok [2%nat] /\
    neighbors f32_sub g [n] [0] (Some [t]) = Ok ([(2, 0, one, 0)], [1%nat]).
Proof.
  exists nested, (load_of (Some 10) nested), 1, 3. split; [apply load_of_converted; vm_compute; reflexivity|].
  split; vm_compute; reflexivity.
Qed.
Print Assumptions C07_removal_order_refuted.

(** Finding: edges ordered by removal but not by creation. *)
Definition uncreated : list (list (list record)) :=
  [ [ [nd 1 0 []; edt 1 2 0 one 5 10; edt 1 3 0 one 0 10] ] ].
Theorem C07_creation_order_refuted :
  exists parts g n t, converted f32_add wv (Some 10) parts g /\
    neighbor_counts g [n] [0] (Some [t]) = Ok [0%nat] /\
    neighbors f32_sub g [n] [0] (Some [t]) = Ok ([(3, 0, one, 0)], [1%nat]).
Proof.
  exists uncreated, (load_of (Some 10) uncreated), 1, 3. split; [apply load_of_converted; vm_compute; reflexivity|].
  split; vm_compute; reflexivity.
Qed.
Print Assumptions C07_creation_order_refuted.

(** Finding: the comparison in find_start takes an [int]; with timestamps of more than 31 bits
    (milliseconds since 1970, say) a removed edge is counted. *)
Definition millis : list (list (list record)) :=
  [ [ [nd 1 0 []; edt 1 2 0 one 1600000000000 1600000001000; edt 1 3 0 one 1600000000000 (-1)] ] ].
Theorem C07_large_timestamps_refuted :
  exists parts g n t, converted f32_add wv (Some 1700000000000) parts g /\ ordered_lives parts /\
    neighbor_counts g [n] [0] (Some [t]) = Ok [2%nat] /\
    neighbors f32_sub g [n] [0] (Some [t]) = Ok ([(3, 0, one, 1600000000000)], [1%nat]).
Proof.
  exists millis, (load_of (Some 1700000000000) millis), 1, 1650000000000.
  split; [apply load_of_converted; vm_compute; reflexivity|]. split; [|split; vm_compute; reflexivity].
  intros r ty Hr.
  assert (E : flat_map rows millis =
    [Row 1 0 [] [Edge 1 2 0 one [] 1600000000000 1600000001000; Edge 1 3 0 one [] 1600000000000 (-1)]]) by (vm_compute; reflexivity).
  rewrite E in Hr. destruct Hr as [<-|[]]. cbn [row_edges filter e_typ].
  destruct (Z.eqb_spec 0 ty); cbn [map]; repeat constructor; cbn; lia.
Qed.
Print Assumptions C07_large_timestamps_refuted.

(** ** C10: the most recently created neighbors *)

(** [latest_of count all kept]: [kept] are min(count, |all|) elements of [all], each taken
    once, and none left out was created later than one kept.  [still t e]: created not after
    [t], removed not before [t].  Full statement: with [alive] in place of [still], without
    [guarded] (the limits of C01), and for [count = 0]. *)
Theorem C10_latest_neighbors_partial :
  forall fadd fsub wval w parts g types nodes ts count default,
    0 <= w -> (0 < count)%nat -> converted fadd wval (Some w) parts g -> guarded fadd fsub types parts ->
    exists outs, lastn_neighbors fsub g nodes types ts count default = Ok outs /\
      Forall2 (fun x out => exists kept, out = kept ++ repeat default (count - length kept) /\
                 latest_of count (map answer_ts (filter (still (snd x)) (spec_edges parts types (fst x)))) kept)
              (combine nodes ts) outs.
Proof. exact converted_lastn. Qed.
Print Assumptions C10_latest_neighbors_partial.

(** The choice does not depend on what the output buffers held before. *)
Theorem C10_buffers_do_not_matter_partial :
  forall fadd fsub wval w parts g types count default init n t,
    0 <= w -> (0 < count)%nat -> length init = count -> converted fadd wval (Some w) parts g -> guarded fadd fsub types parts ->
    exists kept, g_lastn fsub g (make_sorted_list types) count default init n t = Ok (kept ++ repeat default (count - length kept)) /\
      latest_of count (map answer_ts (filter (still t) (spec_edges parts types n))) kept.
Proof. exact node_lastn. Qed.
Print Assumptions C10_buffers_do_not_matter_partial.

(** At a time that is no removal time [still] and [alive] agree. *)
Theorem C10_still_is_alive : forall t e, e_r e <> t -> still t e = alive t e.
Proof. intros t e H. unfold still, alive. lia. Qed.
Print Assumptions C10_still_is_alive.

Definition dflt : nbr := (-1, -1, 0%N, -1).
Example C10_case : converted f32_add wv (Some 10) demo_t demo_t_graph /\ guarded f32_add f32_sub [0; 1] demo_t /\
  lastn_neighbors f32_sub demo_t_graph [1; 1; 7] [1; 0] [4; 3; 4] 2 dflt =
  Ok [[(4, 1, one, 4); (8, 0, one, 3)]; [(8, 0, one, 3); (3, 0, two, 2)]; [dflt; dflt]] /\
  lastn_neighbors f32_sub demo_t_graph [1] [1; 0] [2] 3 dflt = Ok [[(2, 0, one, 1); (3, 0, two, 2); dflt]].
Proof.
  split; [exact demo_t_converted|]. split; [apply guardb_ok; vm_compute; reflexivity|]. split; vm_compute; reflexivity.
Qed.

(** Finding: an edge removed exactly at [t] is returned although [neighbors] does not return it. *)
Theorem C10_removed_edge_refuted :
  exists parts g n t, converted f32_add wv (Some 10) parts g /\
    lastn_neighbors f32_sub g [n] [0] [t] 1 dflt = Ok [[(2, 0, one, 1)]] /\
    neighbors f32_sub g [n] [0] (Some [t]) = Ok ([], [0%nat]).
Proof.
  exists [ [ [nd 1 0 []; edt 1 2 0 one 1 5] ] ], (load_of (Some 10) [ [ [nd 1 0 []; edt 1 2 0 one 1 5] ] ]), 1, 5.
  split; [apply load_of_converted; vm_compute; reflexivity|]. split; vm_compute; reflexivity.
Qed.
Print Assumptions C10_removed_edge_refuted.

(** Finding: with [count = 0] the top of an empty queue is read. *)
Theorem C10_zero_count_refuted :
  exists parts g n t, converted f32_add wv (Some 10) parts g /\ lastn_neighbors f32_sub g [n] [0] [t] 0 dflt = Fail EUB.
Proof. exists demo_t, demo_t_graph, 1, 4. split; [exact demo_t_converted|]. vm_compute. reflexivity. Qed.
Print Assumptions C10_zero_count_refuted.
