(** C109: entry points train on all their data, predict all their nodes, use the trainer asked for
    and close the graph engine. *)
From Verif Require Import Base EntryModel EntrySpec EntryProofs.
Import ListNotations.
Open Scope list_scope.

(** ** Trainers *)
Theorem C109_torch_trainer : forall t, In t torch_choices ->
  exists r, torch_trainer t = Some r /\ (uses_horovod r <-> t = HVD) /\ (r = DDPTrainer <-> t = DDP).
Proof. exact torch_ok. Qed.
Theorem C109_torch_rejects : forall t, torch_trainer t = None <-> ~ In t torch_choices.
Proof. exact torch_rejects. Qed.
Theorem C109_tf_trainer_partial : forall e t r, tf_trainer e t = Some r ->
  (uses_horovod r <-> t = HVD) /\ (is_eager r <-> e = true).
Proof. exact tf_horovod. Qed.
Theorem C109_tf_defined : forall e t, In t tf_choices ->
  (tf_trainer e t = None <-> e = false /\ t = MULTINODE).
Proof. exact tf_defined. Qed.
(** The parser offers MULTINODE, without --eager no trainer takes it. *)
Theorem C109_multinode_refuted : exists t, In t tf_choices /\ tf_trainer false t = None.
Proof. exists MULTINODE. split; [right; right; left; reflexivity|reflexivity]. Qed.
(** With --eager the default, PS, runs a trainer without parameter servers. *)
Theorem C109_eager_ps_refuted : exists r, tf_trainer true PS = Some r /\ ~ uses_ps r.
Proof. exists EagerTrainer. split; [reflexivity|discriminate]. Qed.

(** ** The backend *)
Theorem C109_tf_main_closes : forall ok, opened (tf_main ok) <-> closed_last (tf_main ok).
Proof. exact tf_main_closes. Qed.
Theorem C109_run_dist_closes_partial : forall ok a b c,
  (forall s, needed a b c s -> ok s = true) <-> In Close (run_dist ok a b c).
Proof. exact run_dist_closes. Qed.
Theorem C109_run_dist_last : forall ok a b c,
  In Close (run_dist ok a b c) -> closed_last (run_dist ok a b c).
Proof. exact run_dist_last. Qed.
Theorem C109_run_dist_run : forall ok a b c,
  In (Raised SRun) (run_dist ok a b c) \/ In (Raised SLoader) (run_dist ok a b c) ->
  closed_last (run_dist ok a b c).
Proof. exact run_dist_run. Qed.
(** A dataset whose construction raises leaves the backend open. *)
Theorem C109_run_dist_refuted : exists ok, opened (run_dist ok false false true) /\
  raised (run_dist ok false false true) /\ ~ In Close (run_dist ok false false true).
Proof.
  exists (fun s => match s with SData => false | _ => true end).
  split; [|split]; vm_compute; [tauto|exists SData; tauto|].
  intros [H|[H|[H|[H|[H|[]]]]]]; discriminate.
Qed.
Example ex_run_dist : run_dist (fun s => match s with SRun => false | _ => true end) true false true =
  [Did SArgs; Did STrainer; Did SBackend; Did SModel; Did SData; Did SEval; Did SOpt; Did SLoader; Raised SRun; Close].
Proof. reflexivity. Qed.
Example ex_tf_main : tf_main (fun s => match s with SModel => false | _ => true end) =
  [Did SArgs; Did STrainer; Did SBackend; Raised SModel; Close].
Proof. reflexivity. Qed.

(** ** Loaders *)
Theorem C109_workers_zero : forall ge win n, n <> 0%Z ->
  (workers ge win n = 0%Z <-> ge = true \/ win = true).
Proof. exact workers_zero. Qed.
Theorem C109_workers_some : forall ge win n, workers ge win n <> 0%Z -> workers ge win n = n.
Proof. exact workers_some. Qed.
Theorem C109_train_loader_partial : forall ge win n p, train_loader_ok ge win n p = true <->
  (if ge || win then p = 2 else (0 < n /\ 0 < p) \/ (n = 0 /\ p = 2))%Z.
Proof. exact train_loader. Qed.
Theorem C109_eval_loader : forall ge win n p, eval_loader_ok ge win n p = true <->
  ((0 < n /\ 0 < p) \/ (n = 0 /\ p = 2))%Z.
Proof. exact eval_loader. Qed.
(** --prefetch_factor 4 with a sampler of the graph engine: the loader is rejected. *)
Theorem C109_prefetch_refuted : exists n p, (0 < n /\ 0 < p)%Z /\ train_loader_ok true false n p = false.
Proof. exists 2%Z, 4%Z. split; [split|]; reflexivity. Qed.
(** The loader for evaluation uses processes where the loader for training must not. *)
Theorem C109_eval_workers_refuted : exists ge win n, workers ge win n = 0%Z /\ eval_workers ge win n <> 0%Z.
Proof. exists true, false, 2%Z. split; [reflexivity|discriminate]. Qed.

(** ** Steps *)
Theorem C109_train_exact : forall (B : Type) e param (data : nat -> list B) n,
  0 < n -> (forall i, length (data i) = n) ->
  sage_train e param (Some n) data = Some (map data (seq 0 e)).
Proof. exact @sage_train_exact. Qed.
Theorem C109_train_given : forall (B : Type) e (data : nat -> list B) n,
  0 < n -> (forall i, length (data i) = n) ->
  sage_train e (Some n) None data = sage_train e None (Some n) data.
Proof. exact @sage_train_given. Qed.
Theorem C109_train_unknown : forall (B : Type) e s (data : nat -> list B) n,
  0 < n -> 0 < s -> (forall i, length (data i) = n) ->
  exists r, sage_train e (Some s) None data = Some r /\ concat r = firstn (e * s) (concat (map data (seq 0 e))).
Proof. exact @sage_train_unknown. Qed.
Theorem C109_train_no_steps : forall (B : Type) e (data : nat -> list B),
  sage_train e None None data = None /\ gat_train e None None data = None.
Proof. exact @train_no_steps. Qed.
Theorem C109_train_no_data : forall (B : Type) e param len (data : nat -> list B), data 0 = [] ->
  sage_train e param len data = None /\ gat_train e param len data = None.
Proof. exact @train_no_data. Qed.
Theorem C109_train_zero_steps : forall (B : Type) e (data : nat -> list B) n,
  0 < n -> (forall i, length (data i) = n) ->
  sage_train (S e) (Some 0) None data = None /\ sage_train 0 (Some 0) None data = Some []
  /\ gat_train e (Some 0) None data = None.
Proof. exact @train_zero_steps. Qed.
(** A length of 0 counts as unknown. *)
Theorem C109_train_zero_length : forall (B : Type) e param (data : nat -> list B),
  sage_train e param (Some 0) data = sage_train e param None data
  /\ gat_train e param (Some 0) data = gat_train e param None data.
Proof. exact @train_zero_length. Qed.
Theorem C109_gat_train : forall (B : Type) e param (data : nat -> list B) n,
  0 < e -> 0 < n -> (forall i, length (data i) = n) ->
  gat_train e param (Some n) data = Some [concat (map data (seq 0 e))].
Proof. exact @gat_train_exact. Qed.
(** --steps_per_epoch 1 is not used when the sampler knows its length. *)
Theorem C109_steps_refuted : exists s r, sage_train 1 (Some s) (Some 2) (fun _ => [5; 6]) = Some r /\
  exists l, In l r /\ length l <> s.
Proof. exists 1, [[5; 6]]. split; [reflexivity|]. exists [5; 6]. split; [left; reflexivity|discriminate]. Qed.
(** A number of steps above the length takes batches of the next pass and ends early. *)
Theorem C109_epochs_refuted : exists r, sage_train 3 (Some 4) None (fun e => [10 * e; 10 * e + 1]) = Some r /\
  length r <> 3.
Proof. exists [[0; 1; 10; 11]; [20; 21]]. split; [reflexivity|discriminate]. Qed.
Example ex_train : sage_train 2 (Some 7) (Some 2) (fun e => [10 * e; 10 * e + 1]) = Some [[0; 1]; [10; 11]].
Proof. reflexivity. Qed.
Example ex_gat : gat_train 2 (Some 7) (Some 2) (fun e => [10 * e; 10 * e + 1]) = Some [[0; 1; 10; 11]].
Proof. reflexivity. Qed.
Example ex_short : sage_train 2 (Some 3) None (fun e => [10 * e; 10 * e + 1]) = Some [[0; 1; 10]; [11]].
Proof. reflexivity. Qed.

(** ** Inference *)
Theorem C109_inference_all : forall (B : Type) param b (pad : B) nodes, 0 < b -> nodes <> [] ->
  exists k, padding (length nodes) b k /\ sage_inference param b pad nodes = Some (nodes ++ repeat pad k).
Proof. exact @sage_inference_all. Qed.
Theorem C109_inference_empty : forall (B : Type) d param b (pad : B), inference d param b pad [] = None.
Proof. exact @inference_empty. Qed.
Theorem C109_unsup_inference_partial : forall (B : Type) param b (pad : B) nodes, 0 < b -> b <= length nodes ->
  exists l rest, unsup_inference param b pad nodes = Some l /\ nodes = l ++ rest /\ length rest = length nodes mod b.
Proof. exact @unsup_inference_lost. Qed.
Theorem C109_unsup_inference_small : forall (B : Type) param b (pad : B) nodes, length nodes < b ->
  unsup_inference param b pad nodes = None.
Proof. exact @unsup_inference_small. Qed.
(** Unsupervised GraphSAGE: the last nodes get no embeddings. *)
Theorem C109_unsup_inference_refuted : exists nodes l, unsup_inference None 2 99 nodes = Some l /\
  exists n, In n nodes /\ ~ In n l.
Proof.
  exists [1; 2; 3], [1; 2]. split; [reflexivity|]. exists 3. split; [right; right; left; reflexivity|].
  intros [H|[H|[]]]; discriminate.
Qed.
Example ex_inference : sage_inference None 2 99 [1; 2; 3] = Some [1; 2; 3; 99].
Proof. reflexivity. Qed.

Print Assumptions C109_torch_trainer.
Print Assumptions C109_torch_rejects.
Print Assumptions C109_tf_trainer_partial.
Print Assumptions C109_tf_defined.
Print Assumptions C109_multinode_refuted.
Print Assumptions C109_eager_ps_refuted.
Print Assumptions C109_tf_main_closes.
Print Assumptions C109_run_dist_closes_partial.
Print Assumptions C109_run_dist_last.
Print Assumptions C109_run_dist_run.
Print Assumptions C109_run_dist_refuted.
Print Assumptions C109_workers_zero.
Print Assumptions C109_workers_some.
Print Assumptions C109_train_loader_partial.
Print Assumptions C109_eval_loader.
Print Assumptions C109_prefetch_refuted.
Print Assumptions C109_eval_workers_refuted.
Print Assumptions C109_train_exact.
Print Assumptions C109_train_given.
Print Assumptions C109_train_unknown.
Print Assumptions C109_train_no_steps.
Print Assumptions C109_train_no_data.
Print Assumptions C109_train_zero_steps.
Print Assumptions C109_train_zero_length.
Print Assumptions C109_gat_train.
Print Assumptions C109_steps_refuted.
Print Assumptions C109_epochs_refuted.
Print Assumptions C109_inference_all.
Print Assumptions C109_inference_empty.
Print Assumptions C109_unsup_inference_partial.
Print Assumptions C109_unsup_inference_small.
Print Assumptions C109_unsup_inference_refuted.
