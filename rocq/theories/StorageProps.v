(** C40: memory, disk and streaming storage return the same bytes. *)
From Verif Require Import Base StorageModel StorageProofs.

(** Reads at an offset: every sequence of reads inside the file, memory and disk alike (debug
    build, offsets before the end of the file). *)
Theorem C40_positional_partial : forall file rs,
  Forall (fun r => fst r < length file /\ fst r + snd r <= length file) rs ->
  mapM (fun r => memory_read (memory_data false file) (fst r) (snd r)) rs = disk_reads file false rs /\
  disk_reads file false rs = Ok (map (fun r => firstn (snd r) (skipn (fst r) file)) rs).
Proof.
  intros file rs H. split; [|exact (disk_reads_spec file rs H)]. rewrite (disk_reads_spec file rs H).
  induction H as [|r rs [H1 H2] _ IH]; [reflexivity|]. cbn [mapM map]. rewrite memory_reads_spec by exact H2. cbn [bind]. now rewrite IH.
Qed.
Print Assumptions C40_positional_partial.

(** Reads one after the other, from disk and through a buffer of any size: every sequence of
    reads that stays inside the file returns consecutive pieces of it.  The first read may have
    any size, later ones are at most half of the buffer or exceed it. *)
Theorem C40_sequential_partial : forall B file junk r rs, 0 < B -> length junk = B ->
  fold_right (fun p n => fst p * snd p + n) 0 (r :: rs) <= length file ->
  Forall (fun r => 0 < fst r) (r :: rs) ->
  Forall (fun r => fst r * snd r <= B / 2 \/ B < fst r * snd r) rs ->
  stream_reads B file (stream_start B junk) (r :: rs) = Ok (pieces file 0 (r :: rs)) /\
  fread_all file (0, false) (r :: rs) = Ok (pieces file 0 (r :: rs)).
Proof.
  intros B file junk r rs HB HJ Ht HP HF. split; [now apply stream_all|]. apply fread_all_spec; [exact Ht|exact HP].
Qed.
Print Assumptions C40_sequential_partial.
(** The pieces put together are the beginning of the file. *)
Theorem C40_pieces : forall file rs pos, concat (map fst (pieces file pos rs)) = firstn (total rs) (skipn pos file).
Proof.
  intros file rs. induction rs as [|[s c] rs IH]; intro pos; [reflexivity|]. cbn [pieces map concat fst total fold_right snd]. rewrite IH.
  exact (bytes_at_app file pos (s * c) (total rs)).
Qed.
Print Assumptions C40_pieces.

Definition demo_file : list N := map N.of_nat (seq 1 40).
Definition demo_junk : list N := repeat 99%N 16.
Example C40_sequential_case :
  stream_reads 16 demo_file (stream_start 16 demo_junk) [(8, 1); (4, 1); (4, 2); (1, 17); (3, 1)] =
  Ok (pieces demo_file 0 [(8, 1); (4, 1); (4, 2); (1, 17); (3, 1)]) /\
  fread_all demo_file (0, false) [(8, 1); (4, 1); (4, 2); (1, 17); (3, 1)] = Ok (pieces demo_file 0 [(8, 1); (4, 1); (4, 2); (1, 17); (3, 1)]) /\
  nth_error (pieces demo_file 0 [(8, 1); (4, 1); (4, 2); (1, 17); (3, 1)]) 4 = Some ([38; 39; 40]%N, 1).
Proof. split; [vm_compute; reflexivity|]. split; vm_compute; reflexivity. Qed.
Example C40_positional_case : disk_reads demo_file false [(3, 2); (39, 1); (0, 0)] = Ok [[4; 5]; [40]; []]%N /\
  mapM (fun r => memory_read (memory_data false demo_file) (fst r) (snd r)) [(3, 2); (39, 1); (0, 0)] = Ok [[4; 5]; [40]; []]%N.
Proof. split; vm_compute; reflexivity. Qed.

(** Without asserts (NDEBUG) the file is not read: memory storage returns zeros. *)
Theorem C40_release_refuted : exists file, file <> [] /\
  memory_read (memory_data true file) 0 (length file) = Ok [0; 0]%N /\ disk_reads file false [(0, length file)] = Ok [file] /\ file <> [0; 0]%N.
Proof. exists [7; 8]%N. split; [discriminate|]. split; [vm_compute; reflexivity|]. split; [vm_compute; reflexivity|discriminate]. Qed.
Print Assumptions C40_release_refuted.
(** For every file. *)
Theorem C40_release : forall file offset n, offset + n <= length file ->
  memory_read (memory_data true file) offset n = Ok (repeat 0%N n).
Proof.
  intros file offset n H. unfold memory_read, memory_data, bytes_at. rewrite repeat_length, (proj2 (Nat.leb_le _ _) H). f_equal.
  replace (length file) with (offset + (length file - offset)) by lia.
  rewrite repeat_app, skipn_app, repeat_length, Nat.sub_diag, (skipn_all2 (repeat 0%N offset)) by (rewrite repeat_length; constructor). cbn [app skipn].
  assert (Hn : n <= length file - offset) by (apply Nat.le_add_le_sub_l; exact H). revert Hn. generalize (length file - offset). clear.
  induction n as [|n IH]; intros [|m] H; cbn; auto; [inversion H|]. f_equal. apply IH. now apply le_S_n.
Qed.
Print Assumptions C40_release.

(** An empty read at the end of the file, a feature without bytes stored last: memory storage
    returns nothing, disk storage throws. *)
Theorem C40_end_refuted : exists file offset, offset + 0 <= length file /\
  memory_read (memory_data false file) offset 0 = Ok [] /\ disk_reads file false [(offset, 0)] = Fail EFatal.
Proof. exists [7; 8]%N, 2. split; [apply Nat.le_refl|]. split; vm_compute; reflexivity. Qed.
Print Assumptions C40_end_refuted.

(** A read above half of the buffer can move overlapping bytes with memcpy. *)
Theorem C40_overlap_refuted : exists file junk, length junk = 4096 /\
  total [(1, 1000); (1, 3500)] <= length file /\
  stream_reads 4096 file (stream_start 4096 junk) [(1, 1000); (1, 3500)] = Fail EUB.
Proof. exists (repeat 1%N (3 * 1500)), (repeat 0%N 4096). split; [apply repeat_length|]. split; [|vm_compute; reflexivity].
  rewrite repeat_length. apply Nat.leb_le. vm_compute. reflexivity. Qed.
Print Assumptions C40_overlap_refuted.
(** A read past the end succeeds after a partial fill and returns whatever the buffer held. *)
Theorem C40_stale_refuted : exists file junk junk' a b, length junk = 16 /\ length junk' = 16 /\
  stream_reads 16 file (stream_start 16 junk) [(8, 1); (8, 1)] = Ok [a; (b, 1)] /\
  stream_reads 16 file (stream_start 16 junk') [(8, 1); (8, 1)] <> Ok [a; (b, 1)] /\
  fread_all file (0, false) [(8, 1); (8, 1)] = Ok [a; ([9; 10]%N, 0)].
Proof.
  exists (map N.of_nat (seq 1 10)), (repeat 0%N 16), (repeat 5%N 16). eexists. eexists. split; [reflexivity|]. split; [reflexivity|].
  split; [vm_compute; reflexivity|]. split; [vm_compute; discriminate|vm_compute; reflexivity].
Qed.
Print Assumptions C40_stale_refuted.
(** start() again does not rewind the remote file. *)
Theorem C40_restart_refuted : exists file s out n, stream_read 16 file (stream_start 16 (repeat 0%N 16)) 8 1 = Ok (out, n, s) /\
  out = firstn 8 file /\
  stream_reads 16 file (Stream (s_pos s) (s_buf s) 16 0) [(8, 1)] <> Ok [(out, 1)] /\
  fread_all file (0, false) [(8, 1)] = Ok [(out, 1)].
Proof.
  exists (map N.of_nat (seq 1 40)). eexists. eexists. eexists. split; [vm_compute; reflexivity|]. split; [vm_compute; reflexivity|].
  split; [vm_compute; discriminate|vm_compute; reflexivity].
Qed.
Print Assumptions C40_restart_refuted.
