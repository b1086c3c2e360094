(** C85: the graph built from the MOOC interactions. *)
From Coq Require Import Sorting.Sorted Sorting.Permutation.
From Verif Require Import Base WriterModel LoaderModel GraphModel GraphSpec FeatureModel FeatureSpec AnswerProofs TemporalProofs Float32 Demo
  MoocModel MoocSpec MoocProofs MoocReadProofs.
From Coq Require Import ZifyBool ZifyNat ZifyN.
Local Open Scope Z_scope.
Ltac hist_tac := split; [discriminate|split; [vm_compute; reflexivity|split; [vm_compute; reflexivity|
  repeat (apply Forall_cons; [cbn; lia|]); apply Forall_nil]]].

(** Full statement: [faithful file rs] for every file.  It holds exactly when the file has a
    single student. *)
Theorem C85_faithful_partial :
  forall file, rows_ok file ->
    exists rs, edge_iterator file = Ok rs /\ (faithful file rs <-> length (sources file) = 1%nat).
Proof. exact faithful_iff. Qed.
Print Assumptions C85_faithful_partial.

Definition one_file : list mrow := [MR 3 1 9 [91]%N; MR 3 0 5 [50]%N; MR 3 1 2 [21]%N].
Example C85_faithful_case : rows_ok one_file /\ length (sources one_file) = 1%nat /\
  edge_iterator one_file =
  Ok [student 3; Rec 3 7046 0 1065353216 (Some 5) (Some (-1)) [Some (temporal_bytes [(5, [50]%N)])];
      Rec 3 7047 0 1065353216 (Some 2) (Some (-1)) [Some (temporal_bytes [(9, [91]%N); (2, [21]%N)])]].
Proof. split; [split; [discriminate|repeat constructor; discriminate]|]. split; vm_compute; reflexivity. Qed.

(** Every student has exactly one node record; every further student loses one edge. *)
Theorem C85_counts :
  forall file, rows_ok file ->
    exists rs, edge_iterator file = Ok rs /\ Permutation (node_records rs) (map student (sources file)) /\
      (length (edge_records rs) + length (sources file) = length (pairs file) + 1)%nat.
Proof. exact iterator_counts. Qed.
Print Assumptions C85_counts.

Definition two_file : list mrow := [MR 1 5 7 [70]%N; MR 0 4 9 [90]%N; MR 0 3 8 [80]%N].
Example C85_counts_case : rows_ok two_file /\ sources two_file = [1; 0] /\ length (pairs two_file) = 3%nat /\
  map (fun r => (rsrc r, rdst r)) (match edge_iterator two_file with Ok rs => rs | Fail _ => [] end) =
  [(0, -1); (0, 7049); (1, -1); (1, 7051)].
Proof. split; [split; [discriminate|repeat constructor; discriminate]|]. repeat split; vm_compute; reflexivity. Qed.

(** No interaction is lost or repeated: the edges hold all of them. *)
Theorem C85_values :
  forall file, rows_ok file ->
    exists rs hs, edge_iterator file = Ok rs /\
      Forall2 (fun h r => exists ts v t, h = (ts, v) :: t /\ rcreated r = Some ts /\ rfeats r = [Some (in_order h)]) hs (edge_records rs) /\
      Permutation (concat hs) (map (fun r => (m_ts r, m_val r)) file).
Proof. exact iterator_values. Qed.
Print Assumptions C85_values.
Example C85_values_case :
  map rfeats (edge_records (match edge_iterator two_file with Ok rs => rs | Fail _ => [] end)) =
  [[Some (in_order [(8, [80]%N)])]; [Some (in_order [(9, [90]%N); (7, [70]%N)])]].
Proof. vm_compute. reflexivity. Qed.

(** The graph of one student, converted and loaded: the feature of an edge at time [t] is the
    newest interaction of the pair.  Full statement: for any number of students. *)
Theorem C85_read_partial :
  forall fadd wval wm file rs s d g size ts,
    rows_ok file -> sources file = [s] -> edge_iterator file = Ok rs ->
    converted fadd wval wm [[rs]] g ->
    In (s, d) (pairs file) -> hist_ok (interactions file s d) -> NoDup (map fst (interactions file s d)) ->
    Forall (fun x => 0 <= fst x) (interactions file s d) ->
    exists out, edge_features g (map (fun _ => (s, d + 7046, 0)) ts) [(0, size)] (Some ts) = Ok out /\
      Forall2 (fun t bs => answers size t (interactions file s d) bs) ts out.
Proof. exact read_back. Qed.
Print Assumptions C85_read_partial.

Definition one_recs : list record := match edge_iterator one_file with Ok rs => rs | Fail _ => [] end.
Example C85_read_case : rows_ok one_file /\ sources one_file = [3] /\ edge_iterator one_file = Ok one_recs /\
  converted f32_add wv (Some 0) [[one_recs]] (load_of (Some 0) [[one_recs]]) /\
  In (3, 1) (pairs one_file) /\ hist_ok (interactions one_file 3 1) /\
  edge_features (load_of (Some 0) [[one_recs]]) (map (fun _ => (3, 1 + 7046, 0)) [1; 2; 8; 9]) [(0, 1%nat)] (Some [1; 2; 8; 9]) =
  Ok [[0]; [21]; [21]; [91]]%N.
Proof.
  split; [split; [discriminate|repeat constructor; discriminate]|]. split; [vm_compute; reflexivity|]. split; [vm_compute; reflexivity|].
  split; [apply load_of_converted; vm_compute; reflexivity|]. split; [vm_compute; tauto|]. split; [hist_tac|vm_compute; reflexivity].
Qed.

(** Finding: with a second student the last edge of the first is given to the second. *)
Theorem C85_students_refuted :
  exists file rs, rows_ok file /\ edge_iterator file = Ok rs /\ In (0, 4) (pairs file) /\
    (forall r, In r rs -> (rsrc r, rdst r) <> (0, 4 + 7046)) /\
    edge_records rs = [Rec 1 7051 0 1065353216 (Some 9) (Some (-1)) [Some (in_order [(9, [90]%N); (7, [70]%N)])]].
Proof.
  exists [MR 0 4 9 [90]%N; MR 1 5 7 [70]%N].
  exists (match edge_iterator [MR 0 4 9 [90]%N; MR 1 5 7 [70]%N] with Ok rs => rs | Fail _ => [] end).
  split; [split; [discriminate|repeat constructor; discriminate]|]. split; [vm_compute; reflexivity|]. split; [vm_compute; tauto|].
  split; [|vm_compute; reflexivity]. intros r Hr. vm_compute in Hr. destruct Hr as [<-|[<-|[<-|[]]]]; discriminate.
Qed.
Print Assumptions C85_students_refuted.

(** Finding: such entries are stored out of time order, which std::lower_bound does not allow;
    run as the usual binary search, the reader returns an older value than the newest. *)
Theorem C85_order_refuted :
  exists h t, hist_ok h /\ latest t h (9, [90]%N) /\
    exists off, temporal_feature (in_order h) 0 t = Ok (off, 1, 7).
Proof.
  exists [(9, [90]%N); (7, [70]%N)], 10. split; [hist_tac|]. split; [|eexists; vm_compute; reflexivity].
  split; [now left|]. split; [discriminate|]. intros y [<-|[<-|[]]] H; cbn in *; discriminate.
Qed.
Print Assumptions C85_order_refuted.

(** Finding: the comment promises one edge per update (an edge at 24 and one at 57 beside the
    one at 1); only the first is made. *)
Theorem C85_updates_refuted :
  exists file rs, rows_ok file /\ length (sources file) = 1%nat /\ edge_iterator file = Ok rs /\
    map (fun r => (rsrc r, rcreated r)) rs = [(1, Some 0); (1, Some 1)] /\ map m_ts file = [1; 24; 57].
Proof.
  exists [MR 1 2 1 [1]%N; MR 1 2 24 [2]%N; MR 1 2 57 [3]%N]. eexists.
  split; [split; [discriminate|repeat constructor; discriminate]|]. split; [reflexivity|]. split; [vm_compute; reflexivity|].
  split; vm_compute; reflexivity.
Qed.
Print Assumptions C85_updates_refuted.

(** Finding: unit 0 gets the node number of student 7046. *)
Theorem C85_unit_refuted :
  exists file rs, rows_ok file /\ length (sources file) = 1%nat /\ edge_iterator file = Ok rs /\
    map (fun r => (rsrc r, rdst r)) rs = [(7046, -1); (7046, 7046)] /\ map m_dst file = [0].
Proof.
  exists [MR 7046 0 1 [1]%N]. eexists.
  split; [split; [discriminate|repeat constructor; discriminate]|]. split; [reflexivity|]. split; [vm_compute; reflexivity|].
  split; vm_compute; reflexivity.
Qed.
Print Assumptions C85_unit_refuted.

(** Finding: in a fresh directory the archive is not found; it opens exactly when a mooc.zip
    was already there. *)
Theorem C85_archive_refuted : exists dir, dir = [] /\ open_archive dir = Fail EFatal.
Proof. exists []. split; reflexivity. Qed.
Print Assumptions C85_archive_refuted.
