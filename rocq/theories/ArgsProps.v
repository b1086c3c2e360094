(** C88: texts of the command line and the partitions a standalone server loads. *)
From Coq Require Import Permutation.
From Verif Require Import Base SetupModel DecoderModel ArgsModel ArgsSpec ArgsProofs.
Local Open Scope Z_scope.

(** Lists of numbers are read back, the empty list included. *)
Theorem C88_list : forall l : list Z, str2list_int (written l) = Ok l.
Proof. exact list_read. Qed.
Print Assumptions C88_list.
Example C88_list_case : str2list_int [49; 48; 44; 45; 51]%N = Ok [10; -3].
Proof. vm_compute. reflexivity. Qed.

(** Tables of numbers: rows are read back when none is empty; empty rows vanish. *)
Theorem C88_table_partial : forall rows : list (list Z), ~ In [] rows -> str2list2_int (written2 rows) = Ok rows.
Proof. exact table_read_full. Qed.
Print Assumptions C88_table_partial.
Theorem C88_table_any : forall rows : list (list Z),
  str2list2_int (written2 rows) = Ok (filter (fun r => match r with [] => false | _ => true end) rows).
Proof. exact table_read. Qed.
Print Assumptions C88_table_any.
Theorem C88_table_refuted : exists rows, str2list2_int (written2 rows) = Ok [[1]; [2]] /\ rows = [[1]; []; [2]].
Proof. exists [[1]; []; [2]]. split; vm_compute; reflexivity. Qed.
Print Assumptions C88_table_refuted.
Example C88_table_case : str2list2_int [49; 59; 50; 59; 51; 44; 52]%N = Ok [[1]; [2]; [3; 4]].
Proof. vm_compute. reflexivity. Qed.

(** Lists and tables of words. *)
Theorem C88_words : forall ws : list str, ws <> [] -> Forall (fun w => ~ In 44%N w) ws -> str2list_str (join 44 ws) = ws.
Proof. exact words_read. Qed.
Print Assumptions C88_words.
Theorem C88_words_back : forall s : str, join 44 (str2list_str s) = s.
Proof. exact words_write. Qed.
Print Assumptions C88_words_back.
Theorem C88_words_refuted : exists ws : list str, ws = [] /\ str2list_str (join 44 ws) = [[]].
Proof. exists []. split; reflexivity. Qed.
Print Assumptions C88_words_refuted.
Theorem C88_word_table_partial : forall rows : list (list str),
  Forall (fun r => r <> [] /\ r <> [[]] /\ Forall (fun w => ~ In 44%N w /\ ~ In 59%N w) r) rows ->
  str2list2 (join 59 (map (join 44) rows)) = rows.
Proof. exact table_words_read. Qed.
Print Assumptions C88_word_table_partial.
Example C88_word_table_case : str2list2 [113; 59; 107; 44; 44; 115; 59]%N = [[[113]]; [[107]; []; [115]]]%N.
Proof. vm_compute. reflexivity. Qed.

(** Flags: a text means b exactly if it is one of the words for b up to the case of letters. *)
Theorem C88_flag : forall (s : str) (b : bool),
  str2bool s = Ok b <->
  exists w, In w (if b then [[121; 101; 115]; [116; 114; 117; 101]; [116]; [121]; [49]]
                  else [[110; 111]; [102; 97; 108; 115; 101]; [102]; [110]; [48]])%N /\ same_word s w.
Proof. exact bool_spec. Qed.
Print Assumptions C88_flag.
Example C88_flag_case : str2bool [89; 101; 83]%N = Ok true /\ str2bool [70; 65; 76; 83; 69]%N = Ok false /\ str2bool [] = Fail EFatal.
Proof. repeat split; vm_compute; reflexivity. Qed.

(** Texts of arrays: the elements are found again by the shape, if no element is written with a
    blank or a comma. *)
Theorem C88_vector : forall (A : Type) (show : A -> str) (l : list A) (t : str),
  (forall x, ~ In 32%N (show x) /\ ~ In 44%N (show x)) -> l <> [] ->
  vec2str show (V1 l) = Ok t -> split 32 t = map show l.
Proof. exact @vec_row. Qed.
Print Assumptions C88_vector.
Theorem C88_matrix : forall (A : Type) (show : A -> str) (rows : list (list A)) (t : str),
  (forall x, ~ In 32%N (show x) /\ ~ In 44%N (show x)) -> rows <> [] -> ~ In [] rows ->
  vec2str show (V2 rows) = Ok t -> map (split 32) (split 44 t) = map (map show) rows.
Proof. exact @vec_rows. Qed.
Print Assumptions C88_matrix.
(** The text does not tell the shape. *)
Theorem C88_shape_refuted : exists v w : vec Z, v <> w /\ vec2str show_int v = vec2str show_int w /\
  vec2str show_int (V2 [[]]) = vec2str show_int (V2 []).
Proof. exists (V1 [1; 2]), (V2 [[1; 2]]). split; [discriminate|]. split; vm_compute; reflexivity. Qed.
Print Assumptions C88_shape_refuted.
Example C88_matrix_case : vec2str show_int (V2 [[1; 2]; [3; -4]]) = Ok [49; 32; 50; 44; 51; 32; 45; 52]%N /\ vec2str show_int VOther = Fail EFatal.
Proof. split; vm_compute; reflexivity. Qed.

(** A server started with a list of partitions loads these. *)
Theorem C88_partitions_partial : forall (dir : str) (disk stream : bool) (ps : list Z),
  disk && stream = false -> Forall (fun p => 0 <= p < 2 ^ 32) ps ->
  server_main disk stream dir (CPartitions (written ps)) = Ok (map (pair dir) ps).
Proof. exact listed. Qed.
Print Assumptions C88_partitions_partial.

(** Server i of n loads the partitions below p whose remainder by n is i. *)
Theorem C88_share_partial : forall (disk stream : bool) (dir : str) (i n p : Z),
  disk && stream = false -> 0 <= i < n -> 0 <= p <= 2 ^ 32 ->
  server_main disk stream dir (CGroup (written [i; n; p])) = Ok (map (pair dir) (share i n p)).
Proof. exact group_served. Qed.
Print Assumptions C88_share_partial.
(** All n servers together load every partition exactly once. *)
Theorem C88_group_partial : forall (dir : str) (n p : Z), 0 < n -> 0 <= p <= 2 ^ 32 ->
  exists loaded, mapM (fun i => server_main false false dir (CGroup (written [i; n; p]))) (all_partitions n) = Ok loaded /\
    Permutation (concat loaded) (map (pair dir) (all_partitions p)).
Proof. exact group_complete. Qed.
Print Assumptions C88_group_partial.
Example C88_group_case :
  mapM (fun i => server_main false false [47]%N (CGroup (written [i; 2; 5]))) [0; 1] =
  Ok [[([47]%N, 0); ([47]%N, 2); ([47]%N, 4)]; [([47]%N, 1); ([47]%N, 3)]].
Proof. vm_compute. reflexivity. Qed.

(** Whatever the three numbers: the partitions loaded are i, i + n, ... on the near side of p. *)
Theorem C88_group_any : forall (disk stream : bool) (dir : str) (i n p : Z), disk && stream = false -> n <> 0 ->
  exists l, server_main disk stream dir (CGroup (written [i; n; p])) = Ok (map (fun x => (dir, x mod 2 ^ 32)) l) /\
  (forall k, (k < length l)%nat -> nth k l 0 = i + n * Z.of_nat k) /\
  (forall k, (k < length l)%nat <-> (if 0 <? n then i + n * Z.of_nat k < p else p < i + n * Z.of_nat k)).
Proof. exact group_any. Qed.
Print Assumptions C88_group_any.

(** Server: an int is a partition beside meta.json, a pair names its own directory; anything else
    is refused, as is disk storage of a streamed graph. *)
Theorem C88_start_partial : forall (disk stream : bool) (meta : str) (ps : list parg) (l : list (str * Z)),
  Forall (fun a => 0 <= id_of a < 2 ^ 32) ps ->
  (server_init disk stream meta (Some ps) = Ok l <-> disk && stream = false /\ Forall2 (loads meta) ps l).
Proof. exact start_iff. Qed.
Print Assumptions C88_start_partial.
Example C88_start_case :
  server_init false true [47]%N (Some [PInt 3; PPair [97]%N 1]) = Ok [([47]%N, 3); ([97]%N, 1)] /\
  server_init true true [47]%N (Some [PInt 3]) = Fail EFatal /\ server_init true false [47]%N (Some [PInt 1; PBad]) = Fail EAssert /\
  server_init true false [47]%N None = Ok [([47]%N, 0)].
Proof. repeat split; vm_compute; reflexivity. Qed.

(** Findings: indices outside the group are accepted.  Counting servers from 1 loads the
    partitions of server 0 twice or none; a negative index or a number above 2^32 wraps around; an
    empty list starts a server without data; so does a negative number of servers. *)
Theorem C88_outside_refuted : exists n p,
  server_main false false [] (CGroup (written [n; n; p])) = Ok [([], 2); ([], 4)] /\
  server_main false false [] (CGroup (written [0; n; p])) = Ok [([], 0); ([], 2); ([], 4)] /\
  server_main false false [] (CGroup (written [-1; n; p])) = Ok [([], 4294967295); ([], 1); ([], 3)] /\
  server_main false false [] (CGroup (written [0; -n; p])) = Ok [] /\
  server_main false false [] (CGroup (written [0; 0; p])) = Fail EFatal.
Proof. exists 2, 5. repeat split; vm_compute; reflexivity. Qed.
Print Assumptions C88_outside_refuted.
Theorem C88_wrap_refuted : exists p q, p <> q /\
  server_main false false [] (CPartitions (written [p])) = server_main false false [] (CPartitions (written [q])) /\
  server_main false false [] (CPartitions []) = Ok [].
Proof. exists 0, 4294967296. split; [discriminate|]. split; vm_compute; reflexivity. Qed.
Print Assumptions C88_wrap_refuted.
