(** Claim 29: the text reader.  The specification of lines ([split], [body], [good_file],
    [lines_of]) and of batches ([batched], [given], [padded]) is in ReaderProofs. *)
From Verif Require Import Base ReaderModel ReaderProofs.
From Coq Require Import Permutation.
Local Open Scope nat_scope.

(** Files of non-empty lines without further line breaks: all lines in order, in batches of the
    given size, for any block length and number of threads; with drop_last without the incomplete
    last one. *)
Theorem C29_lines_partial threads n batch drop_last files : threads > 0 -> n > 0 -> batch > 0 -> Forall good_file files ->
  exists full last, batched batch (flat_map lines_of files) full last /\
    forall fuel, length (flat_map lines_of files) + 1 < fuel ->
    iterate fuel batch drop_last (start threads n files) = (given drop_last full last, StopIteration).
Proof. exact (lines_lemma threads n batch drop_last files). Qed.
Print Assumptions C29_lines_partial.
Theorem C29_same_partial threads n threads' n' batch drop_last files : threads > 0 -> n > 0 -> threads' > 0 -> n' > 0 -> batch > 0 -> Forall good_file files ->
  forall fuel, length (flat_map lines_of files) + 1 < fuel ->
  iterate fuel batch drop_last (start threads n files) = iterate fuel batch drop_last (start threads' n' files).
Proof. exact (same_lemma threads n threads' n' batch drop_last files). Qed.
Print Assumptions C29_same_partial.
(** TextFileSplitIterator: the lines of its part of the file. *)
Theorem C29_part_partial threads n batch drop_last c o total : threads > 0 -> n > 0 -> batch > 0 ->
  let part := match total with None => skipn o c | Some t => firstn t (skipn o c) end in
  good_file part -> exists full last, batched batch (lines_of part) full last /\
    forall fuel, length (lines_of part) + 1 < fuel ->
    iterate fuel batch drop_last (fst (split_start threads n c o total)) = (given drop_last full last, StopIteration).
Proof. exact (part_lemma threads n batch drop_last c o total). Qed.
Print Assumptions C29_part_partial.
(** The workers share the files; too few files raise. *)
Theorem C29_files {A} (files : list A) workers : workers > 0 ->
  (length files < workers -> forall w, worker_files files w workers = None) /\
  (workers <= length files -> exists shares, map (fun w => worker_files files w workers) (seq 0 workers) = map Some shares /\ Permutation (concat shares) files).
Proof. exact (files_lemma files workers). Qed.
Print Assumptions C29_files.
(** TextFileSampler: the lines of the reader in order, the last batch filled up with empty
    strings, when there is a line at all. *)
Theorem C29_sampler_partial threads n batch buffer_size drop_last files whole last : threads > 0 -> n > 0 -> batch > 0 -> Forall good_file files ->
  batched batch (flat_map lines_of files) whole last -> given drop_last whole last <> [] ->
  forall fuel k, length (flat_map lines_of files) < fuel -> length (flat_map lines_of files) < k ->
  exists full short, batched batch (concat (given drop_last whole last)) full short /\
    sampler_iterate (fun _ l => l) fuel k batch buffer_size drop_last (Sampler [] (start threads n files) false 0) = (padded batch full short, StopIteration).
Proof. exact (sampler_order threads n batch buffer_size drop_last files whole last). Qed.
Print Assumptions C29_sampler_partial.
Theorem C29_shuffled_partial shuffle threads n batch buffer_size drop_last files whole last : (forall i l, Permutation (shuffle i l) l) -> threads > 0 -> n > 0 -> batch > 0 -> Forall good_file files ->
  batched batch (flat_map lines_of files) whole last -> given drop_last whole last <> [] ->
  forall fuel k, length (flat_map lines_of files) < fuel -> length (flat_map lines_of files) < k ->
  exists all full short, Permutation all (concat (given drop_last whole last)) /\ batched batch all full short /\
    sampler_iterate shuffle fuel k batch buffer_size drop_last (Sampler [] (start threads n files) false 0) = (padded batch full short, StopIteration).
Proof. exact (sampler_shuffled shuffle threads n batch buffer_size drop_last files whole last). Qed.
Print Assumptions C29_shuffled_partial.

(** *** Examples *)
(** "ab CR LF c LF de" (with the two bytes of an e with acute accent) and "f LF". *)
Definition files1 : list bytes := [[97; 98; 13; 10; 99; 10; 100; 195; 169]; [102; 10]]%N.
Lemma good_line b l : b <> [] -> decode b = Some b -> splitlines b = [b] -> l = b \/ l = b ++ [CR] -> good l.
Proof. intros. exists b. split; [split; auto|assumption]. Qed.
Ltac line b := apply (good_line b); [discriminate|reflexivity|reflexivity|first [left; reflexivity|right; reflexivity]].
Lemma files1_good : Forall good_file files1.
Proof.
  apply Forall_cons; [split|apply Forall_cons; [split|apply Forall_nil]].
  - apply Forall_cons; [line [97; 98]%N|apply Forall_cons; [line [99]%N|apply Forall_nil]].
  - right. line [100; 195; 169]%N.
  - apply Forall_cons; [line [102]%N|apply Forall_nil].
  - left. reflexivity.
Qed.
Example C29_files1_lines : flat_map lines_of files1 = [[97; 98]; [99]; [100; 195; 169]; [102]]%N.
Proof. reflexivity. Qed.
(** Blocks of three bytes read by two threads, batches of three lines. *)
Example C29_lines_example : iterate 10 3 false (start 2 3 files1) = ([[[97; 98]; [99]; [100; 195; 169]]; [[102]]]%N, StopIteration) /\
  iterate 10 3 true (start 2 3 files1) = ([[[97; 98]; [99]; [100; 195; 169]]]%N, StopIteration) /\
  iterate 10 3 false (start 7 1000 files1) = iterate 10 3 false (start 1 1 files1).
Proof. vm_compute. auto. Qed.
Example C29_part_example : iterate 10 3 false (fst (split_start 2 2 [97; 98; 10; 99; 10; 100]%N 1 (Some 3))) = ([[[98]; [99]]]%N, StopIteration).
Proof. vm_compute. reflexivity. Qed.
Example C29_files_example : worker_files [10; 11; 12; 13; 14] 1 2 = Some [11; 13] /\ worker_files [10; 11; 12; 13; 14] 0 2 = Some [10; 12; 14] /\ worker_files [10] 0 2 = None.
Proof. vm_compute. auto. Qed.
Example C29_sampler_example : sampler_iterate (fun _ l => l) 10 10 3 0 false (Sampler [] (start 2 3 files1) false 0) =
  ([[[97; 98]; [99]; [100; 195; 169]]; [[102]; []; []]]%N, StopIteration).
Proof. vm_compute. reflexivity. Qed.

(** *** Refuted: every file content *)
(** "a LF LF b LF": the empty line is given or dropped depending on the block length. *)
Theorem C29_empty_line_refuted : exists files n n' fuel, n > 0 /\ n' > 0 /\ files = [[97; 10; 10; 98; 10]%N] /\
  iterate fuel 10 false (start 1 n files) = ([[[97]; []; [98]]]%N, StopIteration) /\
  iterate fuel 10 false (start 1 n' files) = ([[[97]; [98]]]%N, StopIteration).
Proof. exists [[97; 10; 10; 98; 10]%N], 100, 2, 10. do 2 (split; [apply Nat.lt_0_succ|]). vm_compute. auto. Qed.
(** "a FF b LF": a form feed (likewise the line separator U+2028) ends a line, but not in a last
    line without LF. *)
Theorem C29_break_refuted : exists line fuel, line = [97; 12; 98]%N /\
  iterate fuel 10 false (start 1 100 [line ++ [LF]]) = ([[[97]; [98]]]%N, StopIteration) /\ iterate fuel 10 false (start 1 100 [line]) = ([[line]], StopIteration).
Proof. exists [97; 12; 98]%N, 10. vm_compute. auto. Qed.
Theorem C29_separator_refuted : exists line fuel, line = [97; 226; 128; 168; 98]%N /\ decode line = Some line /\
  iterate fuel 10 false (start 1 100 [line ++ [LF]]) = ([[[97]; [98]]]%N, StopIteration).
Proof. exists [97; 226; 128; 168; 98]%N, 10. vm_compute. auto. Qed.
(** "a LF 0xff LF b LF c": an invalid byte in the middle of a block loses all lines of the middle
    (here b) without any error. *)
Theorem C29_invalid_refuted : exists file fuel, file = [97; 10; 255; 10; 98; 10; 99]%N /\
  iterate fuel 10 false (start 1 100 [file]) = ([[[97]; [99]]]%N, StopIteration).
Proof. exists [97; 10; 255; 10; 98; 10; 99]%N, 10. vm_compute. auto. Qed.
(** The same file with blocks of three bytes raises; with two threads the reader thread ends and
    the consumer waits for ever. *)
Theorem C29_invalid_block_refuted : exists file fuel, file = [97; 10; 255; 10; 98; 10; 99]%N /\
  snd (iterate fuel 10 false (start 1 3 [file])) = Raised /\ iterate fuel 10 false (start 2 6 [file]) = ([], Blocked).
Proof. exists [97; 10; 255; 10; 98; 10; 99]%N, 10. vm_compute. auto. Qed.
(** No threads (only a negative thread_count is corrected): waits for ever.  Block length 0
    (read_block_in_M = 0): no lines. *)
Theorem C29_threads_refuted : exists files fuel, Forall good_file files /\ iterate fuel 10 false (start 0 100 files) = ([], Blocked).
Proof. exists files1, 10. split; [exact files1_good|]. vm_compute. reflexivity. Qed.
Theorem C29_length_refuted : exists files fuel, Forall good_file files /\ flat_map lines_of files <> [] /\ iterate fuel 10 false (start 1 0 files) = ([], StopIteration).
Proof. exists files1, 10. split; [exact files1_good|]. split; [discriminate|]. vm_compute. reflexivity. Qed.
(** TextFileSplitIterator: the second pass has nothing left to read. *)
Theorem C29_again_refuted : exists c total, good_file c /\ let (r, total') := split_start 1 100 c 0 (Some total) in
  iterate 10 10 false r = ([[[97]; [98]]]%N, StopIteration) /\ iterate 10 10 false (fst (split_start 1 100 c 0 total')) = ([], StopIteration).
Proof.
  exists [97; 10; 98; 10]%N, 4. split.
  - split; [|left; reflexivity]. apply Forall_cons; [line [97]%N|apply Forall_cons; [line [98]%N|apply Forall_nil]].
  - vm_compute. auto.
Qed.
(** ... and two of them that share a file split the line at the border. *)
Theorem C29_border_refuted : exists c k, good_file c /\ lines_of c = [[97; 98]]%N /\
  iterate 10 10 false (fst (split_start 1 100 c 0 (Some k))) = ([[[97]]]%N, StopIteration) /\ iterate 10 10 false (fst (split_start 1 100 c k None)) = ([[[98]]]%N, StopIteration).
Proof.
  exists [97; 98; 10]%N, 1. split; [|vm_compute; auto].
  split; [|left; reflexivity]. apply Forall_cons; [line [97; 98]%N|apply Forall_nil].
Qed.
(** TextFileSampler without lines (or with drop_last and fewer lines than a batch): a batch of
    empty strings. *)
Theorem C29_sampler_refuted : exists fuel k, sampler_iterate (fun _ l => l) fuel k 3 0 false (Sampler [] (start 1 100 []) false 0) = ([[[]; []; []]], StopIteration) /\
  sampler_iterate (fun _ l => l) fuel k 3 0 true (Sampler [] (start 1 100 [[97; 10]%N]) false 0) = ([[[]; []; []]], StopIteration).
Proof. exists 10, 10. vm_compute. auto. Qed.
