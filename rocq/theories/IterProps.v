(** Properties C31-C34 and C55: coverage of file and range samplers, split of work, len(). *)
From Coq Require Import Permutation.
From Verif Require Import Base IterModel IterProofs.

(** ** C31: over the D data parallel indices, the rows of the data are produced [E] times each
    (every process draws the same index when shuffling, or none is drawn), whole batches, and
    at most one incomplete batch is padded. *)
Theorem C31_cover_partial : forall A shuffle E (data : list A) idx B D fill,
  index_of shuffle E (length data) idx -> 0 < B -> 0 < D ->
  exists batches pad,
    (forall i fuel, length idx < fuel ->
       drain (np_next data idx (E * length data) B D false fill) fuel (np_start i B) = Some (batches i)) /\
    (forall i b, In b (batches i) -> length b = B) /\
    Permutation (concat (flat_map batches (seq 0 D))) (concat (repeat data E) ++ repeat fill pad) /\ pad < B.
Proof. exact @np_cover. Qed.
(** Without shuffling the index is fixed, so the order is known: batch k of index i is chunk
    k*D+i of the repeated data, padded at the end only. *)
Theorem C31_batches : forall A E (data : list A) idx B D drop fill i fuel,
  index_of false E (length data) idx -> 0 < B -> 0 < D -> E * length data < fuel ->
  exists bs pad,
    drain (np_next data idx (E * length data) B D drop fill) fuel (np_start i B) = Some bs /\ pad < B /\
    forall k b, nth_error bs k = Some b ->
      b = slice (concat (repeat data E) ++ repeat fill pad) ((i + k * D) * B) B /\
      (drop = true -> (i + k * D) * B + B <= E * length data).
Proof. exact @np_batch. Qed.
(** drop_last: exactly the whole batches. *)
Theorem C31_drop_last : forall A E (data : list A) idx B D fill,
  index_of false E (length data) idx -> 0 < B -> 0 < D ->
  exists batches,
    (forall i fuel, length idx < fuel ->
       drain (np_next data idx (E * length data) B D true fill) fuel (np_start i B) = Some (batches i)) /\
    (forall i b, In b (batches i) -> length b = B) /\
    Permutation (concat (flat_map batches (seq 0 D)))
                (firstn (E * length data / B * B) (concat (repeat data E))).
Proof. exact @np_drop_cover. Qed.
(** With shuffle every process draws its own permutation (np.random is not seeded alike):
    some rows come out twice and others not at all. *)
Theorem C31_shuffle_refuted : exists (data : list nat) idx0 idx1 b0 b1,
  index_of true 1 (length data) idx0 /\ index_of true 1 (length data) idx1 /\
  drain (np_next data idx0 (length data) 1 2 false 99) 10 (np_start 0 1) = Some b0 /\
  drain (np_next data idx1 (length data) 1 2 false 99) 10 (np_start 1 1) = Some b1 /\
  concat (b0 ++ b1) = [5; 5] /\ data = [5; 6].
Proof.
  exists [5; 6], [0; 1], [1; 0], [[5]], [[5]]. split; [|split].
  - exists [[0; 1]]. repeat constructor.
  - exists [[1; 0]]. repeat constructor.
  - vm_compute. auto.
Qed.
Example C31_example :
  drain (np_next [5; 6; 7] (concat [[0; 1; 2]; [0; 1; 2]]) 6 4 2 false 99) 10 (np_start 0 4) = Some [[5; 6; 7; 5]] /\
  drain (np_next [5; 6; 7] (concat [[0; 1; 2]; [0; 1; 2]]) 6 4 2 false 99) 10 (np_start 1 4) = Some [[6; 7; 99; 99]] /\
  index_of false 2 3 (concat [[0; 1; 2]; [0; 1; 2]]).
Proof. repeat split. exists [[0; 1; 2]; [0; 1; 2]]. repeat constructor. Qed.
Example C31_drop_example :
  drain (np_next [5; 6; 7] [0; 1; 2] 3 2 1 true 99) 10 (np_start 0 2) = Some [[5; 6]].
Proof. reflexivity. Qed.

(** ** C32: without data parallel workers the range is covered exactly once, for any number
    of workers; workers whose first id is past the range fail to start and own no id. *)
Theorem C32_workers_partial : forall first last B W fill,
  0 < B -> 0 < W ->
  exists batches pad,
    (forall w fuel, Z.to_nat (last - first) < fuel ->
       worker_batches first last B W fill fuel w = Some (batches w)) /\
    (forall w b, In b (batches w) -> length b = B) /\
    Permutation (concat (flat_map batches (seq 0 W))) (ids first last ++ repeat fill pad) /\ pad < B.
Proof. exact range_cover. Qed.
(** With data parallel workers index i yields its ids in order, without the last one unless
    the rest of the range is a multiple of D. *)
Theorem C32_parallel_partial : forall first last B D fill i fuel,
  0 < B -> 0 < D -> (first + Z.of_nat i < last)%Z -> Z.to_nat (last - first) < fuel ->
  exists bs pad,
    drain (range_next last B 1 D fill) fuel (first + Z.of_nat i)%Z = Some bs /\
    concat bs = map (fun k => (first + Z.of_nat (i + k * D))%Z)
                    (seq 0 (Z.to_nat (last - first - Z.of_nat i) / D)) ++ repeat fill pad /\ pad <= B.
Proof. exact range_parallel. Qed.
(** An id lost: range 0..3 with batch 2 over two data parallel workers never yields 2. *)
Theorem C32_lost_refuted :
  drain (range_next 3 2 1 2 (-1)) 10 0%Z = Some [[0; -1]]%Z /\
  drain (range_next 3 2 1 2 (-1)) 10 1%Z = Some [[1; -1]]%Z.
Proof. vm_compute. auto. Qed.
(** An id twice: two workers and two data parallel workers, batch 1. *)
Theorem C32_twice_refuted :
  range_start 0 8 1 0 = Ok 0%Z /\ range_start 0 8 1 1 = Ok 1%Z /\
  drain (range_next 8 1 2 2 (-1)) 10 (0 + 1)%Z = Some [[1]; [5]]%Z /\
  drain (range_next 8 1 2 2 (-1)) 10 (1 + 0)%Z = Some [[1]; [5]]%Z.
Proof. vm_compute. auto. Qed.
Example C32_example :
  worker_batches 10 17 2 2 (-1) 20 0 = Some [[10; 11]; [14; 15]]%Z /\
  worker_batches 10 17 2 2 (-1) 20 1 = Some [[12; 13]; [16; -1]]%Z.
Proof. vm_compute. auto. Qed.

(** ** C33: files over workers, lines over workers, partitions over servers. *)
Theorem C33_files : forall A (files : list A) W,
  0 < W -> W <= length files ->
  exists shares, (forall w, worker_files files w W = Ok (shares w)) /\
                 Permutation (flat_map shares (seq 0 W)) files.
Proof.
  intros A files W HW HL. exists (fun w => pyslice files w (length files) W). split.
  - intros w. unfold worker_files. destruct (Nat.ltb_spec (length files) W); [lia|reflexivity].
  - rewrite flat_map_concat_map. now apply pyslice_partition.
Qed.
Theorem C33_too_few_files : forall A (files : list A) w W,
  length files < W -> worker_files files w W = Fail EFatal.
Proof. intros A files w W H. unfold worker_files. destruct (Nat.ltb_spec (length files) W); [reflexivity|lia]. Qed.
Theorem C33_lines : forall A (lines : list A) W,
  0 < W -> Permutation (flat_map (fun w => tuple_lines 0 lines w W) (seq 0 W)) lines.
Proof. intros. rewrite flat_map_concat_map. now apply tuple_lines_partition. Qed.
Theorem C33_servers : forall count total,
  0 < total -> Permutation (flat_map (fun s => server_partitions s count total) (seq 0 total)) (seq 0 count).
Proof. intros. rewrite flat_map_concat_map. now apply arange_partition. Qed.
(** Each share keeps the order of the files and shares differ in size by at most one. *)
Theorem C33_balanced : forall count total s,
  0 < total -> s < total ->
  count / total <= length (server_partitions s count total) <= count / total + 1.
Proof.
  intros count total s H Hs. unfold server_partitions. rewrite arange_length. unfold cdiv. split.
  - apply Nat.div_le_mono; lia.
  - replace (count / total + 1) with ((count + 1 * total) / total) by (rewrite Nat.div_add; lia).
    apply Nat.div_le_mono; lia.
Qed.
Example C33_example :
  worker_files [10; 11; 12; 13; 14] 1 2 = Ok [11; 13] /\ worker_files [10; 11; 12; 13; 14] 0 2 = Ok [10; 12; 14] /\
  tuple_lines 0 [10; 11; 12; 13; 14] 2 3 = [12] /\ server_partitions 1 5 3 = [1; 4].
Proof. vm_compute. auto. Qed.

(** ** C34: len() and the number of batches. *)
(** The number of batches of index i. *)
Theorem C34_yields : forall A shuffle E (data : list A) idx B D drop fill i fuel,
  index_of shuffle E (length data) idx -> 0 < B -> 0 < D -> i < D -> E * length data < fuel ->
  exists bs, drain (np_next data idx (E * length data) B D drop fill) fuel (np_start i B) = Some bs /\
    (if drop then np_len (E * length data) B D drop <= length bs <= np_len (E * length data) B D drop + 1
     else length bs <= np_len (E * length data) B D drop <= length bs + 1).
Proof.
  intros. destruct (np_yields shuffle E data idx B D drop fill i fuel) as (bs & Hd & Hl); try assumption.
  exists bs. split; [assumption|]. rewrite Hl. now apply np_len_bound.
Qed.
(** It is len() when there is one data parallel worker, or when the batches divide evenly. *)
Theorem C34_len_partial : forall A shuffle E (data : list A) idx B D drop fill i fuel,
  index_of shuffle E (length data) idx -> 0 < B -> 0 < D -> i < D -> E * length data < fuel ->
  D = 1 \/ (exists k, E * length data = k * (B * D)) ->
  exists bs, drain (np_next data idx (E * length data) B D drop fill) fuel (np_start i B) = Some bs /\
             length bs = np_len (E * length data) B D drop.
Proof.
  intros A shuffle E data idx B D drop fill i fuel HI HB HD Hi Hf HK.
  destruct (np_yields shuffle E data idx B D drop fill i fuel) as (bs & Hd & Hl); try assumption.
  exists bs. split; [assumption|]. rewrite Hl. apply np_len_exact; try assumption.
  destruct HK as [->|[k Hk]]; [now right|left]. exists k. rewrite Hk. unfold np_chunks.
  replace (k * (B * D)) with (k * D * B) by lia.
  destruct drop; [apply Nat.div_mul; lia|now apply cdiv_exact].
Qed.
Theorem C34_ge : forall A (sample : A) E num B W D fuel,
  ge_count E num B W D < fuel ->
  drain (ge_next sample) fuel (ge_count E num B W D) = Some (repeat sample (ge_count E num B W D)).
Proof. intros. now apply ge_yields. Qed.
(** All W * D workers together draw the requested number of nodes, and less than one round more. *)
Theorem C34_ge_enough : forall E num B W D, 0 < B -> 0 < W -> 0 < D ->
  E * num <= ge_count E num B W D * B * (W * D) /\ (0 < E * num -> ge_count E num B W D * B * (W * D) < E * num + B * (W * D)).
Proof.
  intros E num B W D HB HW HD. unfold ge_count. assert (HP : 0 < B * W * D) by nia.
  set (c := cdiv (E * num) (B * W * D)). pose proof (proj1 (cdiv_le (E * num) (B * W * D) c HP) (le_n _)) as H1.
  split; [nia|]. intro H. destruct c as [|k] eqn:Ec; [nia|].
  pose proof (proj1 (cdiv_lt (E * num) (B * W * D) k HP)) as H2. unfold c in Ec. rewrite Ec in H2.
  specialize (H2 (le_n _)). nia.
Qed.
Theorem C34_range_partial : forall start last B W fill fuel,
  0 < B -> 0 < W -> (start < last)%Z -> Z.to_nat (last - start) < fuel ->
  exists bs, drain (range_next last B W 1 fill) fuel (start + 0)%Z = Some bs /\
             length bs = range_len start last B W 1.
Proof. exact range_yields. Qed.
Theorem C34_file_refuted : exists idx,
  index_of false 1 1 idx /\ np_len 1 1 2 false = 1 /\
  drain (np_next [7] idx 1 1 2 false 0) 10 (np_start 1 1) = Some [].
Proof. exists [0]. split; [exists [[0]]; repeat constructor|vm_compute; auto]. Qed.
Theorem C34_drop_refuted : exists idx,
  index_of false 1 1 idx /\ np_len 1 1 2 true = 0 /\
  drain (np_next [7] idx 1 1 2 true 0) 10 (np_start 0 1) = Some [[7]].
Proof. exists [0]. split; [exists [[0]]; repeat constructor|vm_compute; auto]. Qed.
(** FileEdgeSampler with edge features forgets drop_last: one batch too many. *)
Theorem C34_edge_features_refuted : exists idx,
  index_of false 1 1 idx /\ np_len 1 2 1 true = 0 /\
  drain (np_next [7] idx 1 2 1 (edge_drop 3 true) 0) 10 (np_start 0 2) = Some [[7; 0]].
Proof. exists [0]. split; [exists [[0]]; repeat constructor|vm_compute; auto]. Qed.
Theorem C34_range_refuted :
  range_len 0 1 1 1 2 = 1 /\ drain (range_next 1 1 1 2 (-1)) 10 (0 + 1)%Z = Some [].
Proof. vm_compute. auto. Qed.
Example C34_example : np_len 7 2 1 false = 4 /\ np_len 7 2 1 true = 3 /\ range_len 0 7 2 2 1 = 2 /\ ge_count 2 7 3 1 2 = 3.
Proof. vm_compute. auto. Qed.

(** ** C55: one pass of CSVNodeSampler over all data parallel indices is the file. *)
Theorem C55_cover_partial : forall A (nodes : list A) B D,
  0 < B -> 0 < D ->
  exists batches,
    (forall i fuel, length nodes < fuel -> drain (csv_next nodes B D i) fuel 0 = Some (batches i)) /\
    (forall i b, In b (batches i) -> 0 < length b <= B) /\
    Permutation (concat (flat_map batches (seq 0 D))) nodes.
Proof. exact @csv_cover. Qed.
Theorem C55_len_partial : forall A (nodes : list A) B fuel,
  0 < B -> length nodes < fuel ->
  exists bs, drain (csv_next nodes B 1 0) fuel 0 = Some bs /\ length bs = csv_count (length nodes) B 1 1.
Proof. exact @csv_yields. Qed.
(** Every later pass over the same sampler is empty, while len() counts all epochs. *)
Theorem C55_later_passes_empty : forall A (nodes : list A) B D i fuel k,
  0 < B -> 0 < D -> length nodes < fuel ->
  exists bs, drain (csv_next nodes B D i) fuel 0 = Some bs /\
             passes (csv_next nodes B D i) fuel (S k) 0 = Some (bs :: repeat [] k).
Proof.
  intros A nodes B D i fuel k HB HD Hf. eexists. split; [now apply csv_drain|].
  apply passes_first. now apply csv_drain.
Qed.
Theorem C55_count_refuted :
  csv_count 1 1 2 1 = 0 /\ drain (csv_next [7] 1 2 0) 10 0 = Some [[7]] /\
  csv_count 4 2 1 2 = 4 /\ passes (csv_next [1; 2; 3; 4] 2 1 0) 10 2 0 = Some [[[1; 2]; [3; 4]]; []].
Proof. vm_compute. auto. Qed.
Example C55_example :
  drain (csv_next [1; 2; 3; 4; 5] 2 2 0) 10 0 = Some [[1; 3]; [5]] /\
  drain (csv_next [1; 2; 3; 4; 5] 2 2 1) 10 0 = Some [[2; 4]].
Proof. vm_compute. auto. Qed.

Print Assumptions C31_cover_partial.
Print Assumptions C31_batches.
Print Assumptions C31_drop_last.
Print Assumptions C31_shuffle_refuted.
Print Assumptions C32_workers_partial.
Print Assumptions C32_parallel_partial.
Print Assumptions C32_lost_refuted.
Print Assumptions C32_twice_refuted.
Print Assumptions C33_files.
Print Assumptions C33_too_few_files.
Print Assumptions C33_lines.
Print Assumptions C33_servers.
Print Assumptions C33_balanced.
Print Assumptions C34_yields.
Print Assumptions C34_len_partial.
Print Assumptions C34_ge.
Print Assumptions C34_ge_enough.
Print Assumptions C34_range_partial.
Print Assumptions C34_file_refuted.
Print Assumptions C34_drop_refuted.
Print Assumptions C34_edge_features_refuted.
Print Assumptions C34_range_refuted.
Print Assumptions C55_cover_partial.
Print Assumptions C55_len_partial.
Print Assumptions C55_later_passes_empty.
Print Assumptions C55_count_refuted.
