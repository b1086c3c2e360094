(** Property C66: string and sparse features of edges through servers.  [schedule] as in C22. *)
From Coq Require Import Permutation ZifyBool ZifyNat ZifyN.
From Verif Require Import Base WriterModel LoaderModel GraphModel GraphSpec FeatureModel FeatureSpec ServerModel
  LoaderProofs GraphProofs AnswerProofs FeatureProofs TemporalProofs StringProofs TemporalStringProofs
  ServerProofs ServerFeatureProofs ServerStringProofs SparseProofs EdgeTemporalProofs ServerEdgeProofs ServerSparseProofs
  ServerEdgeTextProofs Float32 Demo FeatureProps ServerProps.
Local Open Scope Z_scope.

Lemma server_of_readable wm all sel src : convertible wm all = true -> edge_features_in all || sourceless (pick all sel) src = true ->
  readable f32_add wv wm (pick all sel) (server_of wm all sel) src.
Proof.
  unfold convertible, server_of. destruct (convert wv wm all) as [[ps m]|e] eqn:E; [|discriminate].
  cbn [bind fst snd]. rewrite andb_true_iff, !forallb_forall. intros [H1 H2] Hs.
  assert (F : Forall fits ps) by (apply Forall_forall; intros f Hf; apply fitsb_ok; auto).
  assert (R : Forall rec_ok (concat (concat all))) by (apply Forall_forall; intros r Hr; apply rec_okb_ok; auto).
  destruct (selection_loads f32_add wv wm all ps m sel E F R) as (g & L). rewrite L. exists all, ps, m, sel.
  repeat (split; [assumption || reflexivity|]). now apply readable_cases.
Qed.

(** ** Strings *)

(** Full statement: the newest value over all servers, without [all_readable] (C42),
    [all_searchable] (C04), [edge_plain_rows] (C42) and [edge_single_holder]; without the last
    it is false, see [C66_missing_refuted].  Here every string is held by at most one server. *)
Theorem C66_strings_partial :
  forall fadd wval wm split gs edges fs ts hist es,
    Forall2 (all_readable fadd wval wm edges) split gs -> gs <> [] -> Forall int32 fs -> all_searchable (concat split) edges ->
    edge_explained hist (concat split) edges fs ts -> stamped edges ts ->
    (forall p, In p split -> edge_plain_rows p edges fs ts) -> edge_single_holder hist split edges fs ts ->
    schedule (length gs) es ->
    let val x f := concat (map (fun p => edge_string_of hist p x f) split) in
    d_edge_strings gs edges fs ts es =
    Ok (concat (map (fun x => map (fun f => Z.of_nat (length (val x f))) fs) (stamps edges ts)),
        concat (map (fun x => concat (map (val x) fs)) (stamps edges ts))).
Proof. exact d_edge_strings_holder. Qed.
Print Assumptions C66_strings_partial.

(** Full statement: as above; here at most one block per edge has the requested features. *)
Theorem C66_strings_local_partial :
  forall fadd wval wm split gs all g edges fs ts hist es,
    Forall2 (all_readable fadd wval wm edges) split gs -> gs <> [] -> all_readable fadd wval wm edges all g ->
    Permutation (concat split) all -> Forall int32 fs -> all_searchable all edges ->
    edge_explained hist all edges fs ts -> stamped edges ts ->
    (forall e, In e edges -> (length (edge_giving fs all e) <= 1)%nat) ->
    schedule (length gs) es ->
    exists dims vals, edge_string_features g edges fs ts = Ok (dims, vals) /\ d_edge_strings gs edges fs ts es = Ok (concat dims, vals).
Proof. exact d_edge_strings_local. Qed.
Print Assumptions C66_strings_local_partial.

(** The second partition has edges without features. *)
Definition etall : list (list (list record)) :=
  [ [ [nd 1 0 []; ed 1 2 0 one [Some [5; 6]; None; Some [7]]%N; ed 1 3 1 one []]; [nd 9 0 []; ed 9 2 0 one [Some [8]%N]] ];
    [ [nd 4 0 []; ed 4 1 0 one []] ] ].
Definition etedges : list (Z * Z * Z) := [(4, 1, 0); (1, 2, 0); (77, 1, 0); (1, 3, 1); (9, 2, 0)].
Example C66_strings_case :
  Forall2 (all_readable f32_add wv None etedges) (map (pick etall) [[1]; [0]]%nat) (servers None etall [[1]; [0]]%nat) /\
  all_readable f32_add wv None etedges etall (load_of None etall) /\
  all_searchable etall etedges /\
  (forall e, In e etedges -> (length (edge_giving [0; 2]%Z etall e) <= 1)%nat) /\
  d_edge_strings (servers None etall [[1]; [0]]%nat) etedges [0; 2] None (replies_in [1; 0]%nat) =
  Ok ([0; 0; 2; 1; 0; 0; 0; 0; 1; 0], [5; 6; 7; 8]%N).
Proof.
  split.
  { unfold servers. repeat constructor; intros e _; apply server_of_readable; vm_compute; reflexivity. }
  split; [intros e _; apply load_of_readable; vm_compute; reflexivity|].
  split; [intros e r _ Hr _; revert r Hr; apply shortb_ok; vm_compute; reflexivity|].
  split; [|vm_compute; reflexivity]. intros e He. repeat (destruct He as [<-|He]; [vm_compute; lia|]). contradiction.
Qed.

(** As for nodes, a feature missing in front shifts the timestamps. *)
Theorem C66_missing_refuted :
  exists all sels hist, convertible (Some 9) all = true /\
    (forall v, In v (edge_values all (1, 2, 0) 1) -> explains hist v) /\ entry_bytes hist 3 (edge_values all (1, 2, 0) 1) = [20]%N /\
    (forall es, In es [replies_in [0; 1]%nat; replies_in [1; 0]%nat] -> schedule 2 es /\
       d_edge_strings (servers (Some 9) all sels) [(1, 2, 0)] [0; 1] (Some [3]) es = Ok ([1; 1], [10; 10]%N)).
Proof.
  exists [ [ [Rec 1 2 0 one (Some 0) (Some 9) [None; at_ 2 20]] ]; [ [Rec 1 2 0 one (Some 0) (Some 9) [at_ 1 10; at_ 1 10]] ] ], [[0]; [1]]%nat, two_ages.
  split; [vm_compute; reflexivity|].
  split; [intros v Hv; apply two_ages_ok; change (In v [at_ 2 20; at_ 1 10]) in Hv; destruct Hv as [<-|[<-|[]]]; [right; now left|now left]|].
  split; [vm_compute; reflexivity|]. intros es [<-|[<-|[]]]; (split; [sched|vm_compute; reflexivity]).
Qed.
Print Assumptions C66_missing_refuted.

(** ** Sparse features *)

(** The first callback wins whatever the ages, and a local graph returns both values. *)
Theorem C66_sparse_refuted :
  exists all sels es es', convertible (Some 9) all = true /\ schedule 2 es /\ schedule 2 es' /\
    d_edge_sparse (servers (Some 9) all sels) [(1, 2, 0)] [0] (Some [3]) es = Ok [(1, [0; 7], [10]%N)] /\
    d_edge_sparse (servers (Some 9) all sels) [(1, 2, 0)] [0] (Some [3]) es' = Ok [(1, [0; 8], [20]%N)] /\
    edge_sparse_features (load_of (Some 9) all) [(1, 2, 0)] [0] (Some [3]) = Ok [SP 1 [0; 7; 0; 8] [10; 20]%N 1].
Proof.
  exists [ [ [Rec 1 2 0 one (Some 0) (Some 9) [at_point 1 7 10]] ]; [ [Rec 1 2 0 one (Some 0) (Some 9) [at_point 2 8 20]] ] ],
    [[0]; [1]]%nat, (replies_in [0; 1]%nat), (replies_in [1; 0]%nat).
  split; [vm_compute; reflexivity|]. split; [sched|]. split; [sched|]. conjs; vm_compute; reflexivity.
Qed.
Print Assumptions C66_sparse_refuted.

(** Full statement: the newest value over all servers; false, see [C66_sparse_refuted].  What
    holds for every order is as for nodes (C26). *)
Theorem C66_sparse_some_server_partial :
  forall fadd wval hist dec D w edges fs ts wm split gs es,
    Forall2 (converted fadd wval wm) split gs -> Forall int32 fs -> stamped edges ts ->
    (forall p, In p split -> all_searchable p edges /\ edge_sparse_values hist dec D w p edges fs ts /\ edge_one_value p edges fs ts) ->
    schedule (length gs) es ->
    exists ch, d_edge_sparse gs edges fs ts es = Ok (map (fun f => sparse_triple dec (map (fun x => ch x f) (stamps edges ts))) fs) /\
      forall x f, In x (stamps edges ts) -> In f fs ->
        (exists p, In p split /\ edge_string_of hist p x f <> [] /\ ch x f = edge_string_of hist p x f) \/
        ((forall p, In p split -> edge_string_of hist p x f = []) /\ ch x f = []).
Proof. exact d_edge_sparse_some. Qed.
Print Assumptions C66_sparse_some_server_partial.

(** Full statement: without the bound on the values of an edge and feature, and without
    [all_searchable]. *)
Theorem C66_sparse_local_partial :
  forall fadd wval hist dec D w edges fs ts wm split gs all g es,
    Forall2 (converted fadd wval wm) split gs -> converted fadd wval wm all g -> Permutation (concat split) all ->
    Forall int32 fs -> stamped edges ts -> all_searchable all edges -> edge_sparse_values hist dec D w all edges fs ts ->
    (forall e f, In e edges -> In f fs -> (length (edge_values all e f) <= 1)%nat) ->
    schedule (length gs) es ->
    exists ss, edge_sparse_features g edges fs ts = Ok ss /\
      d_edge_sparse gs edges fs ts es = Ok (map (fun s => (sp_dim s, sp_idx s, sp_val s)) ss).
Proof. exact d_edge_sparse_local. Qed.
Print Assumptions C66_sparse_local_partial.

Definition esall : list (list (list record)) :=
  [ [ [nd 1 0 []; ed 1 5 0 one [enc grid [[1; 2]; [3; 4]]%N]]; [nd 3 0 []; ed 3 1 0 one [enc (Grid 2 [[0; 1]]) [[9; 9]]%N]] ];
    [ [nd 2 0 []; ed 2 2 1 one [None; enc flat [[5]; [6]]%N; Some [7%N]]] ] ].
Definition esedges : list (Z * Z * Z) := [(3, 1, 0); (2, 2, 1); (77, 0, 0); (1, 5, 0); (1, 5, 1)].
Example C66_sparse_case :
  converted f32_add wv None esall (load_of None esall) /\
  Forall2 (converted f32_add wv None) (map (pick esall) [[1]; [0]]%nat) (servers None esall [[1]; [0]]%nat) /\
  all_searchable esall esedges /\
  edge_sparse_values (fun _ => []) spdec spD spD esall esedges [0; 1] None /\
  (forall e f, In e esedges -> In f [0; 1] -> (length (edge_values esall e f) <= 1)%nat) /\
  d_edge_sparse (servers None esall [[1]; [0]]%nat) esedges [0; 1] None (replies_in [1; 0]%nat) =
  Ok [(2, [0; 0; 1; 3; 3; 4; 3; -1; 2 ^ 40], [9; 9; 1; 2; 3; 4]%N); (1, [1; 6; 1; 8], [5; 6]%N)].
Proof.
  split; [apply load_of_converted; vm_compute; reflexivity|]. split; [apply servers_converted; vm_compute; reflexivity|].
  split; [intros e r _ Hr _; revert r Hr; apply shortb_ok; vm_compute; reflexivity|].
  split.
  - intros n f v Hn Hf Hv.
    destruct Hn as [<-|[<-|[<-|[<-|[<-|[]]]]]], Hf as [<-|[<-|[]]]; cbn in Hv; try contradiction; destruct Hv as [<-|[]]; try (now left);
      first [apply (spdec_ok (grid, [[1; 2]; [3; 4]]%N)) | apply (spdec_ok (Grid 2 [[0; 1]], [[9; 9]]%N)) | apply (spdec_ok (flat, [[5]; [6]]%N))];
      try reflexivity; cbn; auto; repeat constructor.
  - split; [|vm_compute; reflexivity]. intros n f Hn Hf.
    destruct Hn as [<-|[<-|[<-|[<-|[<-|[]]]]]], Hf as [<-|[<-|[]]]; vm_compute; lia.
Qed.
