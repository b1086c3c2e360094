(** C92: retries of requests. *)
From Verif Require Import Base SetupModel DecoderModel RetryModel RetrySpec RetryProofs.
Local Open Scope Z_scope.

(** The answer of a request is that of its first successful attempt, else the error of the last
    one allowed; between two attempts it waits. *)
Theorem C92_attempts : forall (A : Type) (attempt : nat -> res A) (t : retryer),
  exists r n, request attempt t = (r, n, map (wait t) (seq 1 (n - 1))) /\
  answer_of attempt (Nat.max 1 (Z.to_nat (t_attempts t))) r n.
Proof. exact @request_right. Qed.
Print Assumptions C92_attempts.

(** A graph in memory is asked once. *)
Theorem C92_local_once : forall (A : Type) (attempt : nat -> res A), request attempt local_retryer = (attempt 1%nat, 1%nat, []).
Proof. exact @local_once. Qed.
Print Assumptions C92_local_once.

(** The attempts allowed are those of the first service configuration among the options, if its
    durations are whole seconds below a minute. *)
Theorem C92_options_partial : forall (loads : str -> res json) (before : list (str * str)) (v : str) (rest : list (str * str)) (a b : json) (p : policy) (more : list (str * json)),
  Forall (fun x => fst x <> k_service) before -> loads v = Ok (config a b p more) -> stands a (p_attempts p) -> stands b (p_multiplier p) ->
  0 <= p_initial p < 60 -> 0 <= p_max p < 60 -> parse_options loads (before ++ (k_service, v) :: rest) = p.
Proof. exact options_right. Qed.
Print Assumptions C92_options_partial.
(** A first configuration that is no JSON text: the default, whatever follows. *)
Theorem C92_broken : forall (loads : str -> res json) (before : list (str * str)) (v : str) (rest : list (str * str)) (e : err),
  Forall (fun x => fst x <> k_service) before -> loads v = Fail e -> parse_options loads (before ++ (k_service, v) :: rest) = Policy 5 2 10 2.
Proof. exact options_broken. Qed.
Print Assumptions C92_broken.
(** Durations that are read: whole seconds below a minute, with one or two digits. *)
Theorem C92_durations : forall (s : str) (z : Z), seconds (JStr s) = Ok z <-> 0 <= z < 60 /\ same_duration z s.
Proof. exact seconds_iff. Qed.
Print Assumptions C92_durations.
Theorem C92_no_options : forall (loads : str -> res json) (l : list (str * str)), Forall (fun x => fst x <> k_service) l -> parse_options loads l = Policy 5 2 10 2.
Proof. exact options_none. Qed.
Print Assumptions C92_no_options.

(** Waits grow from the first backoff as described only if the numbers are right by chance. *)
Theorem C92_wait_partial : forall (p : policy) (k : nat), 0 <= p_initial p -> p_multiplier p = 2 -> p_initial p = 2 -> p_max p = p_attempts p -> 2 <= p_max p -> (1 <= k)%nat ->
  wait (remote_retryer p) k = policy_wait p k.
Proof. exact wait_described. Qed.
Print Assumptions C92_wait_partial.
(** In all cases they are bounded: no wait is shorter than the first backoff. *)
Theorem C92_total_wait : forall (A : Type) (attempt : nat -> res A) (t : retryer), 0 <= t_min t -> 1 <= t_attempts t ->
  forall r n ws, request attempt t = (r, n, ws) -> fold_right Z.add 0 ws <= (t_attempts t - 1) * Z.max (t_min t) (t_max t).
Proof. exact @total_wait. Qed.
Print Assumptions C92_total_wait.

(** Failed attempts leave no trace in the arrays if the successful one writes every cell that they
    may have written. *)
Theorem C92_cells : forall (A : Type) (init : list A) (failed : list (list (nat * A))) (good : list (nat * A)),
  (forall f, In f failed -> incl (map fst f) (map fst good)) -> after init failed good = writes init good.
Proof. exact @after_right. Qed.
Print Assumptions C92_cells.

Definition flaky (n : nat) (k : nat) : res Z := if Nat.ltb k n then Fail EFatal else Ok (Z.of_nat k).
Example C92_case :
  request (flaky 3) (remote_retryer (Policy 5 2 10 2)) = (Ok 3, 3%nat, [2; 4]) /\
  request (flaky 9) (remote_retryer (Policy 5 2 10 2)) = (Fail EFatal, 5%nat, [2; 4; 5; 5]) /\
  duration 7 = [55; 115]%N /\ duration 42 = [52; 50; 115]%N /\ seconds (JStr (duration 42)) = Ok 42 /\
  parse_options (fun _ => Ok (config (JInt 3) (JBool true) (Policy 3 1 42 1) [])) [([1], [2]); (k_service, [3])]%N = Policy 3 1 42 1 /\
  after [0; 0; 0] [[(1%nat, 5)]; [(0%nat, 6)]] [(0%nat, 8); (1%nat, 9)] = [8; 9; 0].
Proof. repeat split; vm_compute; reflexivity. Qed.

(** Findings: the longest wait is the number of attempts, not maxBackoff. *)
Theorem C92_max_refuted : exists p k, policy_wait p k = 8 /\ wait (remote_retryer p) k = 5 /\ p = default_policy.
Proof. exists default_policy, 3%nat. repeat split; vm_compute; reflexivity. Qed.
Print Assumptions C92_max_refuted.
(** backoffMultiplier is the first wait, not the factor between waits. *)
Theorem C92_multiplier_refuted : exists p, map (policy_wait p) [1; 2; 3]%nat = [1; 3; 9] /\ map (wait (remote_retryer p)) [1; 2; 3]%nat = [3; 6; 12].
Proof. exists (Policy 20 1 20 3). split; vm_compute; reflexivity. Qed.
Print Assumptions C92_multiplier_refuted.
(** Fractions of a second, or a minute and more: the whole policy is dropped, also the
    number of attempts. *)
Theorem C92_duration_refuted : exists p, p_attempts p = 2 /\
  (forall s, In s [[48; 46; 53; 115]; [54; 48; 115]; [49; 50; 48; 115]]%N -> seconds (JStr s) = Fail EAssert) /\
  parse_options (fun _ => Ok (JObj [(k_method, JArr [JObj [(k_retry, JObj [(k_attempts, JInt 2); (k_initial, JStr [48; 46; 53; 115]%N);
    (k_max, JStr [57; 115]%N); (k_multiplier, JInt 2)])]])])) [(k_service, [])] = default_policy /\ p_attempts default_policy = 5.
Proof.
  exists (Policy 2 0 9 2). split; [reflexivity|]. split; [|split; vm_compute; reflexivity].
  intros s [<-|[<-|[<-|[]]]]; reflexivity.
Qed.
Print Assumptions C92_duration_refuted.
(** Fractions of the factor are cut: 1.5 is 1. *)
Theorem C92_fraction_refuted : to_int (JFloat 1) = Ok 1 /\ parse_options (fun _ => Ok (JObj [(k_method, JArr [JObj [(k_retry, JObj [(k_attempts, JInt 4); (k_initial, JStr [49; 115]%N);
    (k_max, JStr [57; 115]%N); (k_multiplier, JFloat 1)])]])])) [(k_service, [])] = Policy 4 1 9 1.
Proof. split; vm_compute; reflexivity. Qed.
Print Assumptions C92_fraction_refuted.
(** A cell that only a failed attempt writes keeps its value. *)
Theorem C92_stale_refuted : exists (init : list Z) failed good, after init failed good <> writes init good.
Proof. exists [0; 0], [[(1%nat, 5)]], [(0%nat, 8)]. vm_compute. discriminate. Qed.
Print Assumptions C92_stale_refuted.
