(** Servers of the distributed client and the barrier of the Azure ML example: properties. *)
From Coq Require Import Ascii String Permutation NArith.
From Verif Require Import Base FilesModel AmlModel AmlSpec AmlProofs.
Import ListNotations.
Open Scope list_scope.

(** What a server loads. *)
Theorem C108_shard : forall P (x : P) count index total l, shard x count index total = Some l ->
  NoDup l /\ forall y p, In (y, p) l <-> y = x /\ index <= p /\ p < count /\ Nat.divide total (p - index).
Proof. intros P. exact shard_spec. Qed.
Print Assumptions C108_shard.
(** A partition is loaded by the server with its remainder. *)
Theorem C108_owner : forall P (x : P) count index total l p, index < total -> shard x count index total = Some l ->
  (In (x, p) l <-> p < count /\ p mod total = index).
Proof. intros P. exact shard_owner. Qed.
Print Assumptions C108_owner.
(** All servers together load every partition once. *)
Theorem C108_all_partial : forall P (x : P) count total ls, 0 < total ->
  Forall2 (fun i l => shard x count i total = Some l) (seq 0 total) ls -> Permutation (List.concat ls) (map (pair x) (seq 0 count)).
Proof. intros P. exact shards_all. Qed.
Print Assumptions C108_all_partial.
Theorem C108_total : forall P (x : P) count index total, 0 < total -> exists l, shard x count index total = Some l.
Proof. intros P. exact shard_total. Qed.
Print Assumptions C108_total.
Theorem C108_zero : forall P (x : P) count index, shard x count index 0 = None.
Proof. intros P. exact shard_zero. Qed.
Print Assumptions C108_zero.

(** A client that is sent to another process has the same servers and certificate. *)
Theorem C108_reload_partial : forall t ssl g th q, let c := new_client t ssl g th q in
  servers (reload c) = servers c /\ ssl_cert (reload c) = ssl_cert c.
Proof. exact reload_same. Qed.
Print Assumptions C108_reload_partial.
Theorem C108_address : forall r r', address r = address r' -> r = r'.
Proof. exact address_inj. Qed.
Print Assumptions C108_address.
Theorem C108_port_partial : forall r, r < 10 -> (port r < 65536)%N.
Proof. exact port_small. Qed.
Print Assumptions C108_port_partial.

(** A worker enters only after all have set their locks. *)
Theorem C108_barrier : forall n es st i j, run n init es = Some st -> i < n -> has_entered (at_ st j) -> has_set (at_ st i).
Proof. exact barrier. Qed.
Print Assumptions C108_barrier.
(** It gets the addresses of all workers. *)
Theorem C108_addresses : forall n es st i l, run n init es = Some st -> at_ st i = Working l -> l = map (fun k => Some (address k)) (seq 0 n).
Proof. exact addresses. Qed.
Print Assumptions C108_addresses.
(** A worker ends only after all have left. *)
Theorem C108_left : forall n es st i j, run n init es = Some st -> i < n -> at_ st j = Gone -> has_left (at_ st i).
Proof. exact all_left. Qed.
Print Assumptions C108_left.
(** If one worker has left before another has entered, that one polls for ever and nobody ends. *)
Theorem C108_stuck : forall n es st i j es' st', run n init es = Some st -> i < n -> ~ has_entered (at_ st i) -> has_left (at_ st j) ->
  run n st es' = Some st' -> at_ st' i = Polling /\ forall k, at_ st' k <> Gone.
Proof. exact stuck. Qed.
Print Assumptions C108_stuck.
(** In all other cases the workers can come to their end.  Missing: all reachable states (refuted below). *)
Theorem C108_finish_partial : forall n es st, run n init es = Some st -> (can_finish n st <-> ~ overtaken n st).
Proof. exact finish. Qed.
Print Assumptions C108_finish_partial.

(** Examples *)
Example C108_shard_example : shard tt 7 1 3 = Some [(tt, 1); (tt, 4)] /\ shard tt 7 0 3 = Some [(tt, 0); (tt, 3); (tt, 6)] /\ shard tt 2 5 3 = Some [].
Proof. repeat split; reflexivity. Qed.
Definition ex_up (i : nat) : list event := [Put i; SetLock i].
Definition ex_good : list event := ex_up 0 ++ ex_up 1 ++ [WaitSet 0; GetAddress 0; WaitSet 1; Release 0; GetAddress 1; Release 1; WaitReleased 1; WaitReleased 0].
Example C108_run_example : option_map (fun st => map (at_ st) [0; 1; 2]) (run 2 init ex_good) = Some [Gone; Gone; Before].
Proof. vm_compute. reflexivity. Qed.
Example C108_addresses_example : option_map (fun st => map (at_ st) [0; 1]) (run 2 init (firstn 7 ex_good)) =
  Some [Working [Some (str "127.0.0.1:9990"); Some (str "127.0.0.1:9991")]; Inside].
Proof. vm_compute. reflexivity. Qed.
Example C108_early_example : run 2 init [Put 0; SetLock 0; WaitSet 0] = None.
Proof. vm_compute. reflexivity. Qed.

(** Refuted: the workers can always come to their end. *)
Definition ex_bad : list event := ex_up 0 ++ ex_up 1 ++ [WaitSet 0; GetAddress 0; Release 0].
Theorem C108_finish_refuted : exists n es st, run n init es = Some st /\ ~ can_finish n st.
Proof.
  destruct (run 2 init ex_bad) as [st|] eqn:E; [|vm_compute in E; discriminate].
  exists 2, ex_bad, st. split; [exact E|]. intros H. apply (finish 2 ex_bad st E) in H. apply H. exists 1, 0.
  vm_compute in E. injection E as <-. vm_compute. auto.
Qed.
Print Assumptions C108_finish_refuted.
(** Refuted: the servers of the example load every partition once (aml.py 95: one shard in all). *)
Theorem C108_once_refuted : exists n l l' p, p < n /\ shard tt n 0 1 = Some l /\ shard tt n 1 1 = Some l' /\ In (tt, p) l /\ In (tt, p) l'.
Proof.
  exists 2, [(tt, 0); (tt, 1)], [(tt, 1)], 1. split; [auto|]. split; [vm_compute; reflexivity|]. split; [vm_compute; reflexivity|]. cbn. tauto.
Qed.
Print Assumptions C108_once_refuted.
(** Refuted: workers of a large world have ports. *)
Theorem C108_port_refuted : exists r, (65535 < port r)%N.
Proof. exists 10. vm_compute. reflexivity. Qed.
Print Assumptions C108_port_refuted.
(** Refuted: a client that is sent to another process keeps its options. *)
Theorem C108_reload_refuted : exists c, threads (reload c) <> threads c /\ grpc (reload c) <> grpc c.
Proof.
  exists (new_client (OneServer (str "a:1")) None (Some [(str "grpc.keepalive_time_ms", str "100")]) (Some 4) None). split; discriminate.
Qed.
Print Assumptions C108_reload_refuted.
