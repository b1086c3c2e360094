(** Property C63: the most recently created neighbors through servers.
    [latest_of], [still], [dflt]: as for C10. *)
From Coq Require Import Permutation ZifyBool ZifyNat ZifyN.
From Verif Require Import Base WriterModel LoaderModel GraphModel GraphSpec LastNModel ServerModel DLastNModel
  LoaderProofs GraphProofs AnswerProofs LastNProofs ServerProofs DLastNProofs Float32 Demo NeighborProps TimeProps ServerProps.
Local Open Scope Z_scope.

(** The edges come from all servers, however the partitions are placed; the answer is the
    same for every order of the replies.  Full statement: with [alive] in place of [still],
    without [guarded] (the limits of C01), and for [count = 0]. *)
Theorem C63_latest_partial :
  forall fadd fsub wval w split gs types nodes ts count default,
    0 <= w -> (0 < count)%nat -> Forall2 (converted fadd wval (Some w)) split gs -> Forall (guarded fadd fsub types) split ->
    length ts = length nodes ->
    exists outs, (forall es, schedule (length gs) es -> d_lastn fsub gs nodes types ts count default es = Ok outs) /\
      Forall2 (fun x out => exists kept, out = kept ++ repeat default (count - length kept) /\
                 latest_of count (map answer_ts (filter (still (snd x)) (spec_edges (concat split) types (fst x)))) kept)
              (combine nodes ts) outs.
Proof. exact d_lastn_latest. Qed.
Print Assumptions C63_latest_partial.

(** The same creation times as a local graph with the same partitions.  Full statement: the
    same edges (false below, [C63_same_edges_refuted]). *)
Theorem C63_times_partial :
  forall fadd fsub wval w split gs all g types nodes ts count default es outs,
    0 <= w -> (0 < count)%nat -> Forall2 (converted fadd wval (Some w)) split gs -> converted fadd wval (Some w) all g ->
    Permutation (concat split) all -> guarded fadd fsub types all -> Forall (guarded fadd fsub types) split ->
    length ts = length nodes -> schedule (length gs) es ->
    d_lastn fsub gs nodes types ts count default es = Ok outs ->
    exists outs', lastn_neighbors fsub g nodes types ts count default = Ok outs' /\
      Forall2 (fun a b => Permutation (map snd a) (map snd b)) outs outs'.
Proof. exact d_lastn_times. Qed.
Print Assumptions C63_times_partial.

(** Node 1 on both servers, the latest edges on either. *)
Definition two_parts : list (list (list record)) :=
  [ [ [nd 1 0 []; edt 1 2 0 one 1 (-1); edt 1 3 0 two 4 (-1); edt 1 4 1 one 2 6] ];
    [ [nd 1 0 []; edt 1 5 0 half 3 (-1); edt 1 6 1 one 5 (-1)]; [nd 7 0 []; edt 7 8 0 one 2 (-1)] ] ].
Definition two_servers := servers (Some 10) two_parts [[0]; [1]]%nat.

Example C63_case :
  Forall2 (converted f32_add wv (Some 10)) (map (pick two_parts) [[0]; [1]]%nat) two_servers /\
  Forall (guarded f32_add f32_sub [0; 1]) (map (pick two_parts) [[0]; [1]]%nat) /\
  schedule 2 (replies_in [1; 0]%nat) /\
  d_lastn f32_sub two_servers [1; 7; 9; 1] [1; 0] [5; 5; 5; 4] 3 dflt (replies_in [1; 0]%nat) =
    Ok [[(5, 0, half, 3); (3, 0, two, 4); (6, 1, one, 5)]; [(8, 0, one, 2); dflt; dflt]; [dflt; dflt; dflt];
        [(5, 0, half, 3); (3, 0, two, 4); (4, 1, one, 2)]] /\
  d_lastn f32_sub two_servers [1] [0] [5] 1 dflt (replies_in [0; 1]%nat) = Ok [[(3, 0, two, 4)]].
Proof.
  split; [apply servers_converted; vm_compute; reflexivity|].
  split; [repeat (apply Forall_cons; [apply guardb_ok; vm_compute; reflexivity|]); apply Forall_nil|].
  split; [sched|]. split; vm_compute; reflexivity.
Qed.

(** Finding: among edges of the same time the choice depends on the placement of the
    partitions: here the local graph, the servers and the servers exchanged. *)
Theorem C63_same_edges_refuted :
  exists all g sels, convertible (Some 10) all = true /\ converted f32_add wv (Some 10) all g /\
    lastn_neighbors f32_sub g [1] [0] [5] 1 dflt = Ok [[(2, 0, one, 3)]] /\
    d_lastn f32_sub (servers (Some 10) all sels) [1] [0] [5] 1 dflt (replies_in [0; 1]%nat) = Ok [[(3, 0, one, 3)]] /\
    d_lastn f32_sub (servers (Some 10) all (rev sels)) [1] [0] [5] 1 dflt (replies_in [0; 1]%nat) = Ok [[(2, 0, one, 3)]].
Proof.
  set (all := [ [ [nd 1 0 []; edt 1 2 0 one 3 (-1)] ]; [ [nd 1 0 []; edt 1 3 0 one 3 (-1)] ] ]).
  exists all, (load_of (Some 10) all), [[1]; [0]]%nat. split; [vm_compute; reflexivity|].
  split; [apply load_of_converted; vm_compute; reflexivity|]. repeat split; vm_compute; reflexivity.
Qed.
Print Assumptions C63_same_edges_refuted.

(** Finding: as for C10 an edge removed exactly at [t] is returned. *)
Theorem C63_removed_edge_refuted :
  exists all sels n t, convertible (Some 10) all = true /\
    d_lastn f32_sub (servers (Some 10) all sels) [n] [0] [t] 1 dflt (replies_in [0]%nat) = Ok [[(2, 0, one, 1)]] /\
    d_neighbors f32_sub (servers (Some 10) all sels) [n] [0] (Some [t]) (replies_in [0]%nat) = Ok ([], [0%nat]).
Proof.
  exists [ [ [nd 1 0 []; edt 1 2 0 one 1 5] ] ], [[0%nat]], 1, 5. repeat split; vm_compute; reflexivity.
Qed.
Print Assumptions C63_removed_edge_refuted.

(** Finding: with [count = 0] the server reads the top of an empty queue. *)
Theorem C63_zero_count_refuted :
  exists all sels n t, convertible (Some 10) all = true /\
    serve_lastn f32_sub (server_of (Some 10) all sels) [0] 0 [n] [t] = Fail EUB.
Proof. exists two_parts, [0%nat], 1, 4. split; vm_compute; reflexivity. Qed.
Print Assumptions C63_zero_count_refuted.
