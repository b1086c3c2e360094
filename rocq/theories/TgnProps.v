(** C93: learning from timestamped interactions. *)
From Verif Require Import Base WriterModel LoaderModel GraphModel GraphSpec ConvertProofs AnswerProofs Float32 Demo LastNModel LastNProofs TgnModel TgnSpec TgnProofs.
From Coq Require Import QArith Qround Sorting.Sorted.
Local Open Scope Z_scope.

(** The embeddings of sources, destinations and negatives are computed from the latest interactions
    of each node before the first row of the batch with this source. *)
Theorem C93_latest_partial : forall (fadd fsub : N -> N -> N) (wval : N -> Z) (w : Z) (parts : list (list (list record))) (g : graph) (count : nat)
    (la asc : Z -> nat) (batch : list row) (neg : list Z),
  0 <= w -> (0 < count)%nat -> converted fadd wval (Some w) parts g -> guarded fadd fsub [0] parts ->
  exists o la' asc', predict fsub g count la asc batch neg = Ok (o, la', asc') /\ answered parts count batch neg o.
Proof. exact predict_right. Qed.
Print Assumptions C93_latest_partial.

(** Batches in order of time: a prediction uses only interactions of its source before it. *)
Theorem C93_past_partial : forall (fadd fsub : N -> N -> N) (wval : N -> Z) (w : Z) (parts : list (list (list record))) (g : graph) (count : nat)
    (la asc la' asc' : Z -> nat) (batch : list row) (neg : list Z) (i : inputs),
  0 <= w -> (0 < count)%nat -> converted fadd wval (Some w) parts g -> guarded fadd fsub [0] parts ->
  predict fsub g count la asc batch neg = Ok (Some i, la', asc') -> in_time batch ->
  forall k r p x c, nth_error batch k = Some r -> nth_error (i_src i) k = Some p -> In (x, c) (sees i p) ->
    c < r_time r /\ exists e, In e (spec_edges parts [0] (r_src r)) /\ e_dst e = x /\ e_c e = c.
Proof. exact predict_past. Qed.
Print Assumptions C93_past_partial.
(** Of a destination that is no source of the batch only what was created up to time 0 is used. *)
Theorem C93_destinations : forall (fadd fsub : N -> N -> N) (wval : N -> Z) (w : Z) (parts : list (list (list record))) (g : graph) (count : nat)
    (la asc la' asc' : Z -> nat) (batch : list row) (neg : list Z) (i : inputs),
  0 <= w -> (0 < count)%nat -> converted fadd wval (Some w) parts g -> guarded fadd fsub [0] parts ->
  predict fsub g count la asc batch neg = Ok (Some i, la', asc') ->
  forall k r p x c, nth_error batch k = Some r -> nth_error (i_dst i) k = Some p -> ~ In (r_dst r) (map r_src batch) -> In (x, c) (sees i p) -> c <= 0.
Proof. exact predict_dst. Qed.
Print Assumptions C93_destinations.

(** The memory that a batch reads was fed with interactions before all of its rows. *)
Theorem C93_memory : forall (fadd fsub : N -> N -> N) (wval : N -> Z) (w : Z) (parts : list (list (list record))) (g : graph) (count : nat)
    (batches : list (list row * list Z)) (la asc : Z -> nat) (os : list (option inputs)),
  0 <= w -> (0 < count)%nat -> converted fadd wval (Some w) parts g -> guarded fadd fsub [0] parts ->
  epoch fsub g count la asc batches = Ok os -> in_time (concat (map fst batches)) -> Forall (fun r => 1 <= r_time r) (concat (map fst batches)) ->
  forall k b x r, nth_error batches k = Some b -> In x (fed (firstn k os)) -> In r (fst b) -> r_time x < r_time r.
Proof. exact memory_right. Qed.
Print Assumptions C93_memory.
(** Tables of positions left by earlier batches do not matter: every batch is answered rightly. *)
Theorem C93_epoch_partial : forall (fadd fsub : N -> N -> N) (wval : N -> Z) (w : Z) (parts : list (list (list record))) (g : graph) (count : nat),
  0 <= w -> (0 < count)%nat -> converted fadd wval (Some w) parts g -> guarded fadd fsub [0] parts ->
  forall (batches : list (list row * list Z)) (la asc : Z -> nat),
  exists os, epoch fsub g count la asc batches = Ok os /\ Forall2 (fun b o => answered parts count (fst b) (snd b) o) batches os.
Proof. exact epoch_right. Qed.
Print Assumptions C93_epoch_partial.

(** Rows in order of time: training rows are those up to the time of row floor((1 - test - val) (n - 1)),
    test rows those after the time of row floor((1 - test) (n - 1)), the others are for validation. *)
Theorem C93_split_partial : forall (val test : Q) (rows : list row), rows <> [] -> in_time rows -> (0 <= val)%Q -> (0 <= test)%Q -> (val + test <= 1)%Q ->
  let k := share (1 - test - val) (length rows) in let j := share (1 - test) (length rows) in
  split_rows val test rows = Ok (until rows k, filter (fun r => r_time r <=? nth j (map r_time rows) 0) (after rows k), after rows j) /\
  until rows k ++ filter (fun r => r_time r <=? nth j (map r_time rows) 0) (after rows k) ++ after rows j = rows /\
  (k < length (until rows k))%nat /\ (j < length (until rows j))%nat.
Proof. exact split_right. Qed.
Print Assumptions C93_split_partial.

(** The loss of an epoch: the sum of the losses of batches with inputs over the number of all. *)
Theorem C93_loss : forall (bs : nat) (l : list (option Q)), (0 < bs)%nat -> l <> [] ->
  (train_loss bs l == fold_right Qplus 0 (some_losses l) / inject_Z (Z.of_nat (length l)))%Q.
Proof. exact loss_right. Qed.
Print Assumptions C93_loss.
Theorem C93_loss_mean_partial : forall (bs : nat) (l : list Q), (0 < bs)%nat -> l <> [] -> (train_loss bs (map Some l) == mean l)%Q.
Proof. exact loss_mean. Qed.
Print Assumptions C93_loss_mean_partial.
(** The model can be tested if every batch has inputs. *)
Theorem C93_test : forall (A : Type) (score : inputs -> A) (os : list (option inputs)), (exists l, test_scores score os = Ok l) <-> Forall (fun o => o <> None) os.
Proof. exact @test_iff. Qed.
Print Assumptions C93_test.

(** ** A graph of students 1 and 2 and units 7, 8 and 9 *)
Definition course : list (list (list record)) :=
  [ [ [nd 1 0 []; edt 1 7 0 one 2 (-1); edt 1 8 0 one 5 (-1); edt 1 9 0 one 6 (-1); nd 2 0 []; edt 2 9 0 one 3 (-1); edt 2 7 0 one 9 (-1)] ] ].
Definition course_graph : graph := load_of (Some 10) course.
Definition empty (_ : Z) : nat := O.
Example C93_case : converted f32_add wv (Some 10) course course_graph /\ guarded f32_add f32_sub [0] course /\
  (exists i la asc, predict f32_sub course_graph 2 empty empty [(1, 8, 5); (2, 7, 9)] [9; 8] = Ok (Some i, la, asc) /\
     i_nodes i = [1; 2; 7; 8; 9] /\ i_src i = [0; 1]%nat /\ i_dst i = [3; 2]%nat /\ i_neg i = [4; 3]%nat /\
     sees i 0 = [(7, 2)] /\ sees i 1 = [(9, 3)] /\ sees i 3 = [] /\ i_fed i = [(1, 7, 2); (2, 9, 3)]) /\
  in_time [(1, 8, 5); (2, 7, 9)] /\
  split_rows (1 # 10) (1 # 10) (map (fun z => (1, 7, z)) [1; 2; 3; 4; 5; 6; 7; 7; 8; 9; 10]) =
    Ok (map (fun z => (1, 7, z)) [1; 2; 3; 4; 5; 6; 7; 7; 8], [(1, 7, 9)], [(1, 7, 10)]).
Proof.
  split; [apply load_of_converted; vm_compute; reflexivity|]. split; [apply guardb_ok; vm_compute; reflexivity|].
  split; [eexists; eexists; eexists; split; [vm_compute; reflexivity|]; repeat split; vm_compute; reflexivity|].
    split; [repeat constructor; cbn; discriminate|vm_compute; reflexivity].
Qed.

(** Findings: a source that occurs again in the batch: its earlier row is not known to the later one. *)
Theorem C93_repeated_source_refuted : exists i la asc, predict f32_sub course_graph 2 empty empty [(1, 8, 5); (1, 9, 6)] [9; 9] = Ok (Some i, la, asc) /\
  nth_error (i_src i) 1 = Some 0%nat /\ sees i 0 = [(7, 2)] /\ exists e, In e (spec_edges course [0] 1) /\ e_dst e = 8 /\ e_c e < 6.
Proof.
  eexists. eexists. eexists. split; [vm_compute; reflexivity|]. split; [vm_compute; reflexivity|]. split; [vm_compute; reflexivity|].
  exists (nth 1 (spec_edges course [0] 1) (Edge 0 0 0 0%N [] 0 0)). split; [apply nth_In; vm_compute; lia|]. split; vm_compute; reflexivity.
Qed.
Print Assumptions C93_repeated_source_refuted.
(** Rows out of order: the earlier one is predicted from an interaction after it, even from itself. *)
Theorem C93_order_refuted : exists i la asc r, predict f32_sub course_graph 2 empty empty [(1, 9, 6); (1, 8, 5)] [9; 9] = Ok (Some i, la, asc) /\
  nth_error [(1, 9, 6); (1, 8, 5)] 1 = Some r /\ r_time r = 5 /\ In (8, 5) (sees i (nth 1 (i_src i) 0%nat)).
Proof. eexists. eexists. eexists. eexists. split; [vm_compute; reflexivity|]. split; [reflexivity|]. split; [reflexivity|]. vm_compute. tauto. Qed.
Print Assumptions C93_order_refuted.
(** A destination that is the source of a later row: interactions after the prediction are used. *)
Theorem C93_future_refuted : exists i la asc, in_time [(1, 2, 2); (2, 7, 9)] /\ predict f32_sub course_graph 2 empty empty [(1, 2, 2); (2, 7, 9)] [9; 9] = Ok (Some i, la, asc) /\
  sees i (nth 0 (i_dst i) 0%nat) = [(9, 3)] /\ 2 < 3.
Proof.
  eexists. eexists. eexists. split; [repeat constructor; cbn; discriminate|]. split; [vm_compute; reflexivity|]. split; vm_compute; reflexivity.
Qed.
Print Assumptions C93_future_refuted.
(** The memory gets one interaction several times, and the last ones never. *)
Theorem C93_fed_refuted : exists os, epoch f32_sub course_graph 2 empty empty [([(1, 8, 5)], [9]); ([(1, 9, 6)], [9]); ([(2, 7, 9)], [8])] = Ok os /\
  fed os = [(1, 7, 2); (1, 7, 2); (1, 8, 5); (2, 9, 3)] /\ ~ In (2, 7, 9) (fed os) /\ ~ In (1, 9, 6) (fed os).
Proof.
  eexists. split; [vm_compute; reflexivity|]. split; [vm_compute; reflexivity|].
  split; intros H; vm_compute in H; repeat destruct H as [H|H]; try discriminate; exact H.
Qed.
Print Assumptions C93_fed_refuted.
(** A batch of new students: no inputs, evaluation raises. *)
Theorem C93_new_students_refuted : exists os, epoch f32_sub course_graph 2 empty empty [([(1, 7, 2); (2, 9, 3)], [8; 8])] = Ok os /\ test_scores i_src os = Fail EAssert.
Proof. eexists. split; vm_compute; reflexivity. Qed.
Print Assumptions C93_new_students_refuted.
(** Skipped batches count as batches without loss. *)
Theorem C93_skipped_refuted : exists (l : list (option Q)), ~ (train_loss 2 l == mean (some_losses l))%Q.
Proof. exists [None; Some 1%Q]. vm_compute. discriminate. Qed.
Print Assumptions C93_skipped_refuted.
(** Rows out of order: the split is not one by time. *)
Theorem C93_unsorted_refuted : exists rows train valid test, split_rows (1 # 4) (1 # 4) rows = Ok (train, valid, test) /\ exists a b, In a train /\ In b test /\ r_time b < r_time a.
Proof.
  exists (map (fun z => (1, 7, z)) [9; 1; 2; 3; 4]). eexists. eexists. eexists. split; [vm_compute; reflexivity|].
  exists (1, 7, 9), (1, 7, 4). repeat split; [vm_compute; tauto|vm_compute; tauto].
Qed.
Print Assumptions C93_unsorted_refuted.
