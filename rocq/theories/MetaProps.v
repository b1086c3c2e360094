(** C12, C38, C39, C53: metadata of conversions. *)
From Verif Require Import Base WriterModel GraphSpec MetaModel MetaSpec MetaProofs MergeProofs.
From Coq Require Import Permutation.
Local Open Scope list_scope.
Local Open Scope nat_scope.

(** * C12 *)

(** One converter with PipeDispatcher: whatever the number of workers and whatever the order
    in which they report, the totals are those of the input, and partition i lists the
    weights of the lines i, i+n, i+2n, ... *)
Theorem C12_metadata_totals :
  forall L (decode : L -> res (list record)) wval wm offset n lines batches m,
  0 < n -> mapM decode lines = Ok batches -> Forall (fun r => (0 <= rtyp r)%Z) (concat batches) ->
  pipe_meta wval decode wm offset n lines m ->
  totals wval wm (concat batches) m /\
  j_parts m = map (fun i =>
    (offset + i, (weight_table wval (j_ntypes m) (nodes_in (concat (share n i batches))),
                  weight_table wval (j_etypes m) (edges_in (concat (share n i batches)))))) (seq 0 n).
Proof. exact @pipe_totals. Qed.

(** The conversion does end with a metadata file when every worker can write its share. *)
Theorem C12_conversion_completes :
  forall L (decode : L -> res (list record)) wval wm offset n lines batches,
  0 < n -> mapM decode lines = Ok batches ->
  (forall i, i < n -> exists s, write_partition wval wm (share n i batches) = Ok s) ->
  exists m, pipe_meta wval decode wm offset n lines m.
Proof. exact @pipe_completes. Qed.

(** The shares of the workers are a partition of the lines. *)
Theorem C12_every_line_once : forall L n (lines : list L), 0 < n ->
  Permutation (concat (map (fun i => share n i lines) (seq 0 n))) lines.
Proof. exact @shares_perm. Qed.

(** QueueDispatcher with any partition function: same totals; only the partitions that got a
    line are listed. *)
Theorem C12_queue_totals :
  forall L (decode : L -> list record) wval wm f offset n (lines : list L) m,
  Forall (fun r => (0 <= rtyp r)%Z) (flat_map decode lines) ->
  queue_meta wval (fun l => Ok (decode l)) wm f offset n lines m ->
  totals wval wm (flat_map decode lines) m /\
  map fst (j_parts m) = map (fun i => offset + i) (filter (active f lines) (seq 0 n)).
Proof. exact @queue_totals. Qed.

Section Demo12.
Let node i t w := Rec i (-1) t w None None [Some [1%N]].
Let edge i j t w := Rec i j t w None None [].
Let lines : list (list record) :=
  [ [node 0 0 1; edge 0 1 0 2; edge 0 2 1 3]; [node 1 2 4]; [edge 2 0 3 5]; [node 3 0 7; edge 3 3 1 1] ]%Z.
Let dec (l : list record) : res (list record) := Ok l.

(** Two workers, the second reports first. *)
Example C12_example :
  exists ws o1 o2, pipe_workers 0 2 lines = Ok ws /\ mapM (worker dec Z.of_N None) ws = Ok [o1; o2] /\
  meta_of None [o2; o1] =
  MJ 2 3 4 3 4 1 0 [(0, ([1; 0; 0]%Z, [2; 3; 0; 5]%Z)); (1, ([7; 0; 4]%Z, [0; 1; 0; 0]%Z))]
     [2; 0; 1] [1; 2; 0; 1] (-1)%Z.
Proof. do 3 eexists. repeat (split; [vm_compute; reflexivity|]). vm_compute. reflexivity. Qed.

(** A node of type -1 is counted as a node of the last type known so far (negative list
    index), so the per type counts are wrong for such an input. *)
Let odd_lines : list (list record) := [ [node 0 0 1]; [node 1 1 1]; [node 2 (-1) 1] ]%Z.
Theorem C12_negative_type_refuted :
  exists ws outs, pipe_workers 0 1 odd_lines = Ok ws /\ mapM (worker dec Z.of_N None) ws = Ok outs /\
  j_npt (meta_of None outs) = [1; 2] /\
  length (of_type 1 (nodes_in (concat odd_lines))) = 1.
Proof. do 2 eexists. repeat (split; [vm_compute; reflexivity|]). vm_compute. reflexivity. Qed.

(** With QueueDispatcher and an unused partition the ids in meta.json have a gap, and the
    engine, which looks up 0..n-1, cannot load the file. *)
Theorem C12_queue_unused_partition_refuted :
  exists ws outs, queue_workers (fun _ => 1) 0 2 lines = Ok ws /\ mapM (worker dec Z.of_N None) ws = Ok outs /\
  map fst (j_parts (meta_of None outs)) = [1] /\
  read_meta (fun z => z) 2 false false (meta_of None outs) = Fail EFatal.
Proof. do 2 eexists. repeat (split; [vm_compute; reflexivity|]). vm_compute. reflexivity. Qed.
End Demo12.

(** * C38 *)

(** Converters with one partition each (at most ten of them, equal type and feature counts):
    the merged file is the file of a single conversion of all inputs. *)
Theorem C38_merge_one_partition_each_partial :
  forall L (decode : L -> res (list record)) wval wm K
    (lines : nat -> list L) (batches : nat -> list (list record)) (metas : nat -> mjson),
  0 < K <= 10 ->
  (forall k, k < K -> mapM decode (lines k) = Ok (batches k)) ->
  (forall k, k < K -> Forall (fun r => (0 <= rtyp r)%Z) (concat (batches k))) ->
  (forall k, k < K -> pipe_meta wval decode wm k 1 (lines k) (metas k)) ->
  (forall k, k < K -> j_ntypes (metas k) = j_ntypes (metas 0) /\ j_etypes (metas k) = j_etypes (metas 0) /\
                      j_nfeats (metas k) = j_nfeats (metas 0) /\ j_efeats (metas k) = j_efeats (metas 0)) ->
  exists m, merge_files (map metas (glob_order K)) = Ok m /\
    totals wval wm (concat (concat (map batches (seq 0 K)))) m /\
    j_parts m = map (fun k => (k, (weight_table wval (j_ntypes m) (nodes_in (concat (batches k))),
                                   weight_table wval (j_etypes m) (edges_in (concat (batches k)))))) (seq 0 K).
Proof. exact @merge_one_each. Qed.

(** Any number of partitions per converter: the counts are the sums, but every partition
    carries the weights of all partitions of its converter. *)
Theorem C38_merge_counts : forall m0 ms,
  (forall m, In m (m0 :: ms) ->
     Forall (fun p => length (fst (snd p)) = j_ntypes m /\ length (snd (snd p)) = j_etypes m) (j_parts m) /\
     length (j_npt m) = j_ntypes m0 /\ length (j_ept m) = j_etypes m0 /\ j_version m = j_version m0) ->
  merge_files (m0 :: ms) =
  Ok (MJ (j_version m0) (WriterProofs.sum (map j_nodes (m0 :: ms))) (WriterProofs.sum (map j_edges (m0 :: ms)))
         (j_ntypes m0) (j_etypes m0) (j_nfeats m0) (j_efeats m0)
         (number 0 (concat (map merged_weights (m0 :: ms))))
         (map (fun t => WriterProofs.sum (map (fun m => nth t (j_npt m) 0) (m0 :: ms))) (seq 0 (j_ntypes m0)))
         (map (fun t => WriterProofs.sum (map (fun m => nth t (j_ept m) 0) (m0 :: ms))) (seq 0 (j_etypes m0)))
         (j_watermark m0)).
Proof. exact merge_spec. Qed.

Example C38_example :
  merge_files [MJ 2 1 2 1 1 1 0 [(0, ([5]%Z, [6]%Z))] [1] [2] (-1)%Z; MJ 2 3 4 1 1 1 0 [(1, ([7]%Z, [8]%Z))] [3] [4] (-1)%Z]
  = Ok (MJ 2 4 6 1 1 1 0 [(0, ([5]%Z, [6]%Z)); (1, ([7]%Z, [8]%Z))] [4] [6] (-1)%Z).
Proof. vm_compute. reflexivity. Qed.

(** Two partitions in one file: both get the sum. *)
Theorem C38_shared_rows_refuted :
  exists m, merge_files [MJ 2 2 0 1 0 0 0 [(0, ([5]%Z, [])); (1, ([7]%Z, []))] [2] [] (-1)%Z] = Ok m /\
  j_parts m = [(0, ([12]%Z, [])); (1, ([12]%Z, []))].
Proof. eexists. split; [vm_compute; reflexivity|]. vm_compute. reflexivity. Qed.

(** Eleven converters: the files are taken in the order of their names, so the weights of
    converter 10 are recorded for partition 2. *)
Theorem C38_eleven_workers_refuted :
  exists m, merge_files (map (fun k => MJ 2 1 0 1 0 0 0 [(k, ([Z.of_nat k], []))] [1] [] (-1)%Z) (glob_order 11)) = Ok m /\
  nth_error (j_parts m) 2 = Some (2, ([10%Z], [])).
Proof. eexists. split; [vm_compute; reflexivity|]. vm_compute. reflexivity. Qed.

(** A later converter that saw more types: its extra types are dropped from the counts. *)
Theorem C38_more_types_refuted :
  exists m, merge_files [MJ 2 1 0 1 0 0 0 [(0, ([1]%Z, []))] [1] [] (-1)%Z;
                         MJ 2 2 0 2 0 0 0 [(1, ([1; 1]%Z, []))] [1; 1] [] (-1)%Z] = Ok m /\
  j_nodes m = 3 /\ j_npt m = [2].
Proof. eexists. repeat (split; [vm_compute; reflexivity|]). vm_compute. reflexivity. Qed.

(** ... and one that saw fewer makes the merge fail. *)
Theorem C38_fewer_types_refuted :
  merge_files [MJ 2 2 0 2 0 0 0 [(0, ([1; 1]%Z, []))] [1; 1] [] (-1)%Z;
               MJ 2 1 0 1 0 0 0 [(1, ([1]%Z, []))] [1] [] (-1)%Z] = Fail EIndex.
Proof. vm_compute. reflexivity. Qed.

(** * C39 *)

(** The partition ranges of the converters cover 0..P-1 ... *)
Theorem C39_ranges_cover : forall P W p, (0 < W)%Z -> (0 <= p < P)%Z ->
  exists i, (0 <= i < W)%Z /\ let '(o, c) := partition_range P i W in (o <= p < o + c)%Z.
Proof. exact ranges_cover. Qed.

(** ... without overlap ... *)
Theorem C39_ranges_disjoint : forall P W i j p, (0 < W)%Z -> (0 <= P)%Z ->
  (let '(o, c) := partition_range P i W in (o <= p < o + c)%Z) ->
  (let '(o, c) := partition_range P j W in (o <= p < o + c)%Z) -> i = j.
Proof. exact ranges_disjoint. Qed.

(** ... and nothing else. *)
Theorem C39_ranges_inside : forall P W i p, (0 < W)%Z -> (0 <= P)%Z -> (0 <= i)%Z ->
  (let '(o, c) := partition_range P i W in (o <= p < o + c)%Z) -> (0 <= p < P)%Z.
Proof. exact ranges_inside. Qed.

(** Every file is read by exactly one converter when the last converter has a partition. *)
Theorem C39_all_files_read_partial : forall F (files : list F) (P W : nat),
  0 < W -> W <= length files -> (W - 1) * ((P + W - 1) / W) < P ->
  exists fs, mapM (fun i => converter_files files P i W) (seq 0 W) = Ok fs /\ Permutation (concat fs) files.
Proof. exact @all_files_read. Qed.

Example C39_example :
  map (fun i => partition_range 7 i 3) [0; 1; 2]%Z = [(0, 3); (3, 3); (6, 1)]%Z /\
  mapM (fun i => converter_files [10; 11; 12; 13] 7 i 3) [0; 1; 2] = Ok [[10; 13]; [11]; [12]].
Proof. split; (vm_compute; reflexivity). Qed.

(** Four partitions on three converters: the third has nothing to generate and drops its
    files. *)
Theorem C39_input_lost_refuted :
  exists fs, mapM (fun i => converter_files [10; 11; 12] 4 i 3) [0; 1; 2] = Ok fs /\ ~ In 12 (concat fs).
Proof. eexists. split; [vm_compute; reflexivity|]. vm_compute. intuition discriminate. Qed.

(** * C53 *)

(** A server that loaded meta.json sends it to the client, who writes a file with the same
    contents; only the weights are rounded to float once. *)
Theorem C53_distributed_metadata : forall narrow mv m e,
  mv <= j_version m -> well_formed m ->
  read_meta narrow mv false false m = Ok e ->
  client_meta (get_metadata e) = Ok (narrowed narrow m).
Proof. exact distributed_meta. Qed.

(** A conversion yields a file that can be loaded. *)
Theorem C53_converted_metadata_loads :
  forall L (decode : L -> res (list record)) wval wm n lines batches m,
  0 < n -> mapM decode lines = Ok batches -> Forall (fun r => (0 <= rtyp r)%Z) (concat batches) ->
  pipe_meta wval decode wm 0 n lines m -> well_formed m /\ j_version m = 2.
Proof. exact @converted_well_formed. Qed.

(** The two flags of the loader drop the feature counts and the watermark, nothing else. *)
Theorem C53_well_formed_loads : forall narrow mv skip_features skip_temporal m,
  mv <= j_version m -> well_formed m ->
  read_meta narrow mv skip_features skip_temporal m =
  Ok (EM (j_version m) (j_nodes m) (j_edges m) (j_ntypes m) (j_etypes m)
         (if skip_features then 0 else j_nfeats m) (if skip_features then 0 else j_efeats m) (length (j_parts m))
         (map (fun p => map narrow (fst (snd p))) (j_parts m))
         (map (fun p => map narrow (snd (snd p))) (j_parts m)) (j_npt m) (j_ept m)
         (if skip_temporal then (-1)%Z else j_watermark m)).
Proof. exact read_meta_spec. Qed.

(** The weights are unchanged when they are floats already. *)
Theorem C53_same_weights : forall narrow m,
  (forall p w, In p (j_parts m) -> In w (fst (snd p)) \/ In w (snd (snd p)) -> narrow w = w) ->
  narrowed narrow m = m.
Proof. exact narrowed_id. Qed.

Example C53_example :
  let m := MJ 2 3 4 2 1 5 6 [(0, ([1; 2]%Z, [3]%Z)); (1, ([4; 5]%Z, [6]%Z))] [2; 1] [4] 9%Z in
  well_formed m /\
  (do e <- read_meta (fun z => z) 2 false false m ;; client_meta (get_metadata e)) = Ok m /\
  py_meta m = Ok (PM 3 4 2 1 5 6 2 [5; 7]%Z [9]%Z [2; 1] [4] 9%Z).
Proof.
  split; [|split; vm_compute; reflexivity].
  unfold well_formed; cbn. repeat split; try discriminate. repeat constructor.
Qed.

(** A client of servers without partitions writes the placeholder entry "0". *)
Example C53_no_partitions :
  client_meta (MR 2 0 0 0 0 0 0 0 [] [] [] [] (-1)%Z) = Ok (MJ 2 0 0 0 0 0 0 [(0, ([0%Z], []))] [] [] (-1)%Z).
Proof. vm_compute. reflexivity. Qed.

Print Assumptions C12_metadata_totals.
Print Assumptions C12_conversion_completes.
Print Assumptions C12_queue_totals.
Print Assumptions C38_merge_one_partition_each_partial.
Print Assumptions C38_merge_counts.
Print Assumptions C39_ranges_cover.
Print Assumptions C39_all_files_read_partial.
Print Assumptions C53_distributed_metadata.
Print Assumptions C53_converted_metadata_loads.
