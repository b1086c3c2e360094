(** C87: remote files arrive whole. *)
From Coq Require Import Ascii String.
From Verif Require Import Base FilesModel FilesProofs StorageModel HdfsModel HdfsSpec HdfsProofs.
From Coq Require Import ZifyBool ZifyNat.
Import ListNotations.
Local Open Scope list_scope.
Local Notation length := List.length.

(** Whatever hdfsRead answers, a read that succeeds gives the next bytes of the file and leaves
    the file right behind them. *)
Theorem C87_sound :
  forall B answers rest n out rest' answers', 0 < B ->
    hdfs_read B answers rest n = Ok (out, rest', answers') ->
    out = firstn n rest /\ rest' = skipn n rest /\ n <= length rest.
Proof. intros. eapply read_sound; eassumption. Qed.
Print Assumptions C87_sound.
Theorem C87_ends : forall B answers rest n, 0 < B -> hdfs_read B answers rest n <> Fail EFuel.
Proof. intros B answers rest n H. apply loop_fuel; [exact H|lia]. Qed.
Print Assumptions C87_ends.
Example C87_sound_case :
  hdfs_read 4 [Some 1; Some 9; Some 3; Some 1; Some 2] [1; 2; 3; 4; 5; 6; 7; 8; 9; 10; 11]%N 9 = Ok ([1; 2; 3; 4; 5; 6; 7; 8; 9]%N, [10; 11]%N, []).
Proof. reflexivity. Qed.

(** A read succeeds when every call returns at least half a buffer (or all that is left).  Full
    statement: for all answers that return something. *)
Theorem C87_complete_partial :
  forall B answers rest n, 0 < B -> Forall (fun a => exists k, a = Some k /\ B <= 2 * k) answers ->
    (n <= length rest -> exists answers', hdfs_read B answers rest n = Ok (firstn n rest, skipn n rest, answers')) /\
    (length rest < n -> hdfs_read B answers rest n = Fail EFatal).
Proof. intros B answers rest n H. now apply read_prompt. Qed.
Print Assumptions C87_complete_partial.
(** Half a buffer is the exact bound: two calls that together return less end the process. *)
Theorem C87_short_refuted :
  forall B k1 k2 answers rest n, 0 < B -> k1 + k2 < B -> B <= n -> hdfs_read B (Some k1 :: Some k2 :: answers) rest n = Fail EFatal.
Proof. intros. now apply short_fails. Qed.
Print Assumptions C87_short_refuted.
Example C87_complete_case :
  hdfs_read 6 [Some 3; Some 3; Some 4] [1; 2; 3; 4; 5; 6; 7; 8; 9; 10]%N 10 = Ok ([1; 2; 3; 4; 5; 6; 7; 8; 9; 10]%N, [], []) /\
  hdfs_read 6 [Some 3; Some 2] [1; 2; 3; 4; 5; 6; 7; 8; 9; 10]%N 10 = Fail EFatal /\
  hdfs_read 6 [] [1; 2; 3; 4; 5; 6; 7; 8; 9; 10]%N 11 = Fail EFatal.
Proof. repeat split; reflexivity. Qed.

(** After an error the second call writes before the buffer. *)
Theorem C87_error_refuted :
  forall B k answers rest n, 0 < B -> 0 < k -> rest <> [] -> 0 < n -> hdfs_read B (None :: Some k :: answers) rest n = Fail EUB.
Proof. intros. now apply error_then_data. Qed.
Print Assumptions C87_error_refuted.
Example C87_error_case : hdfs_read 4 [None; Some 5] [1; 2; 3; 4; 5]%N 4 = Fail EUB.
Proof. reflexivity. Qed.

(** This is the read of the streamed storage of C40. *)
Theorem C87_storage :
  forall B answers file pos n, 0 < B -> Forall (fun a => exists k, a = Some k /\ B <= 2 * k) answers -> pos <= length file ->
    (do x <- hdfs_read B answers (skipn pos file) n ;; Ok (fst (fst x))) = remote_read file pos n.
Proof. intros B answers file pos n H. now apply read_remote. Qed.
Print Assumptions C87_storage.
Example C87_storage_case : remote_read [1; 2; 3; 4; 5]%N 2 3 = Ok [3; 4; 5]%N /\ remote_read [1; 2; 3]%N 2 3 = Fail EFatal.
Proof. split; reflexivity. Qed.

(** Whole files: the bytes of the file if its size is a multiple of the width of an element,
    otherwise the vector is overrun.  Full statement: for every size. *)
Theorem C87_whole_partial :
  forall B width answers file, 0 < B -> Forall (fun a => exists k, a = Some k /\ B <= 2 * k) answers -> 0 < width ->
    (length file mod width = 0 -> read_hdfs B width answers file = Ok file) /\
    (length file mod width <> 0 -> read_hdfs B width answers file = Fail EUB).
Proof. intros B width answers file H. now apply whole_file. Qed.
Print Assumptions C87_whole_partial.
Example C87_whole_case : read_hdfs 4 1 [Some 2] [1; 2; 3; 4; 5]%N = Ok [1; 2; 3; 4; 5]%N /\ read_hdfs 4 2 [] [1; 2; 3; 4; 5]%N = Fail EUB.
Proof. split; reflexivity. Qed.

(** The client refuses metadata above 100000 bytes; the engine itself (C87_whole_partial)
    does not. *)
Theorem C87_meta_size_refuted : exists data, read_hdfs 4096 1 [] data = Ok data /\ move_meta data = None.
Proof.
  exists (repeat 0%N (N.to_nat 100001)). split.
  - apply whole_file; [lia|constructor|lia|]. apply Nat.mod_1_r.
  - unfold move_meta. rewrite repeat_length, N2Nat.id. reflexivity.
Qed.
Print Assumptions C87_meta_size_refuted.
Theorem C87_meta_partial : forall data, (N.of_nat (length data) <= 100000)%N -> move_meta data = Some data.
Proof. intros data H. unfold move_meta. apply N.ltb_ge in H. now rewrite H. Qed.
Print Assumptions C87_meta_partial.
Example C87_meta_case : move_meta [123; 125]%N = Some [123; 125]%N.
Proof. reflexivity. Qed.

(** An address scheme://authority:port/path is taken apart.  Full statement: also without a
    port, and for every path. *)
Theorem C87_address_partial :
  forall scheme authority path p, remote scheme -> free "/" authority -> free ":" authority -> rooted path ->
    not_file (address scheme authority (Some p) path) -> (Z.of_nat p < 65536)%Z ->
    parse_hdfs_path (address scheme authority (Some p) path) =
      Ok (address scheme authority (Some p) path, scheme ++ str "://" ++ authority, Z.of_nat p) /\
    connect (address scheme authority (Some p) path) = Ok (scheme ++ str "://" ++ authority, Z.of_nat p).
Proof. intros scheme authority path p Hs H1 H2 Hp Hf Hn. split; [apply with_port|apply connected]; try assumption. lia. Qed.
Print Assumptions C87_address_partial.
(** Without a port the host is the whole address. *)
Theorem C87_no_port :
  forall scheme authority path, remote scheme -> free ":" authority -> not_file (address scheme authority None path) -> free ":" path ->
    parse_hdfs_path (address scheme authority None path) = Ok (address scheme authority None path, address scheme authority None path, 0%Z).
Proof. exact without_port. Qed.
Print Assumptions C87_no_port.
Example C87_address_case :
  address (str "hdfs") (str "name") (Some 802) (str "/a:1/b") = str "hdfs://name:802/a:1/b" /\
  connect (str "hdfs://name:802/a:1/b") = Ok (str "hdfs://name", 802%Z) /\
  parse_hdfs_path (str "adl://store/graph") = Ok (str "adl://store/graph", str "adl://store/graph", 0%Z) /\
  parse_hdfs_path (str "/local") = Ok (str "/local", str "default", 0%Z).
Proof. repeat split; vm_compute; reflexivity. Qed.

(** Without a port a colon in the path is taken for one: another host, or an exception. *)
Theorem C87_colon_refuted :
  connect (address (str "hdfs") (str "name") None (str "/run_12:30/graph")) = Ok (str "hdfs://name/run_12", 30%Z) /\
  connect (address (str "hdfs") (str "name") None (str "/a:b/graph")) = Fail EFatal.
Proof. split; vm_compute; reflexivity. Qed.
Print Assumptions C87_colon_refuted.
(** Ports above 65535 are accepted and wrap around. *)
Theorem C87_port_refuted : exists p, connect (address (str "hdfs") (str "name") (Some p) (str "/g")) = Ok (str "hdfs://name", 8020%Z) /\ Z.of_nat p <> 8020%Z.
Proof. exists (Z.to_nat 73556). split; [vm_compute; reflexivity|lia]. Qed.
Print Assumptions C87_port_refuted.

(** meta.json of a streamed graph goes through one file of the host: processes that start one
    after the other read their own.  Full statement: for every schedule. *)
Theorem C87_shared_meta_partial :
  forall (M : Type) (mine : nat -> M) ps, NoDup ps -> got (host_run mine (in_turn ps)) = map (fun p => (p, mine p)) ps.
Proof. intros. now apply in_turn_own. Qed.
Print Assumptions C87_shared_meta_partial.
Theorem C87_shared_meta_refuted : exists sched, got (host_run (fun p => p * 10) sched) = [(1, 20); (2, 20)].
Proof. exists [1; 2; 1; 2]. reflexivity. Qed.
Print Assumptions C87_shared_meta_refuted.
Example C87_shared_meta_case : got (host_run (fun p => p * 10) (in_turn [1; 2])) = [(1, 10); (2, 20)].
Proof. reflexivity. Qed.
