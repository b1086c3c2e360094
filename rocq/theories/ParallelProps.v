(** C90: data parallel training. *)
From Coq Require Import QArith.
From Verif Require Import Base Dist ParallelModel ParallelSpec ParallelProofs.
Local Open Scope Z_scope.

(** All ranks have the same weights at every moment, whatever their data, also where they wait for
    each other for ever. *)
Theorem C90_replicas : forall (W Opt X : Type) (d : nat) (eg : W -> X -> nat -> Q) (upd : Opt -> W -> list Q -> Opt * W)
  (clip : list Q -> list Q) (ps : list (list op)) (r0 : rank) (t : list rank),
  Forall (fun r => r_o r = r_o r0) t -> exists w' o',
  ddp_train d eg upd clip ps (r0 :: t) = Done (repeat (Rank w' o') (S (length t))) \/
  ddp_train d eg upd clip ps (r0 :: t) = Stuck (repeat (Rank w' o') (S (length t))).
Proof. exact @train_replicas. Qed.
Print Assumptions C90_replicas.

(** The ranks come to an end exactly if their operations have the same shapes. *)
Theorem C90_ends_iff : forall (W Opt X : Type) (d : nat) (eg : W -> X -> nat -> Q) (upd : Opt -> W -> list Q -> Opt * W)
  (clip : list Q -> list Q) (ps : list (list op)) (rs : list rank), ps <> [] ->
  ((exists rs', ddp_train d eg upd clip ps rs = Done rs') <->
   (forall p q, In p ps -> In q ps -> map shape_of p = map shape_of q)).
Proof. exact @ends_iff. Qed.
Print Assumptions C90_ends_iff.

(** They do if they start at the same epoch and step and, in every epoch, have equally many
    batches or all at least as many as the limit of steps; with buffers, also equally many batches
    for evaluation. *)
Theorem C90_no_deadlock_partial : forall (W Opt X : Type) (d : nat) (eg : W -> X -> nat -> Q) (upd : Opt -> W -> list Q -> Opt * W)
  (clip : list Q -> list Q) (cfg : config) (ranks : list (nat * (nat -> list (list X)))) (epoch step : Z) (rs : list rank),
  ranks <> [] -> 0 <= step ->
  (forall r r', In r ranks -> In r' ranks -> (c_buffers cfg = false \/ fst r = fst r') /\
     forall j, length (snd r j) = length (snd r' j) \/
       (0 < c_max_steps cfg /\ (if Nat.eqb j 0 then step else 0) < c_max_steps cfg /\
        c_max_steps cfg <= Z.of_nat (length (snd r j)) /\ c_max_steps cfg <= Z.of_nat (length (snd r' j)))) ->
  exists rs', ddp_train d eg upd clip (map (fun r => rank_ops cfg (fst r) epoch step (snd r)) ranks) rs = Done rs'.
Proof. exact @no_deadlock. Qed.
Print Assumptions C90_no_deadlock_partial.

(** With batches of one size, training is that of one process on the merged batches, from the
    weights of rank 0. *)
Theorem C90_one_process_partial : forall (W Opt X : Type) (d : nat) (eg : W -> X -> nat -> Q) (upd : Opt -> W -> list Q -> Opt * W)
  (clip : list Q -> list Q) (m : nat) (ps : list (list op)) (r0 : rank) (t : list rank) (s : list shape),
  (0 < m)%nat -> length ps = S (length t) -> Forall (fun r => r_o r = r_o r0) t ->
  Forall (fun p => map shape_of p = s /\ Forall (fun b => length b = m) (batches_of p)) ps ->
  ddp_train d eg upd clip ps (r0 :: t) =
  Done (repeat (let x := sgd d eg upd clip (merged (length (batches_of (hd [] ps))) (map batches_of ps)) (r_w r0) (r_o r0) in
                Rank (snd x) (fst x)) (length ps)).
Proof. exact @one_process. Qed.
Print Assumptions C90_one_process_partial.

(** The batches of a rank: those of its epochs in order, the first from the step of the checkpoint,
    every epoch up to the limit of steps. *)
Theorem C90_batches : forall (X : Type) (cfg : config) (evals : nat) (epoch step : Z) (data : nat -> list (list X)), 0 <= step ->
  batches_of (rank_ops cfg evals epoch step data) =
  flat_map (fun j => epoch_batches (c_max_steps cfg) (if Nat.eqb j 0 then step else 0) (data j)) (seq 0 (Z.to_nat (c_epochs cfg - epoch))).
Proof. exact @batches_rank. Qed.
Print Assumptions C90_batches.

(** Weights and examples are numbers, the gradient of an example is itself. *)
Definition eg1 (w x : Q) (k : nat) : Q := x.
Definition upd1 (o : nat) (w : Q) (g : list Q) : nat * Q := (S o, Qred (w - nth 0%nat g 0%Q)).
Definition same (g : list Q) : list Q := g.
Definition cap (g : list Q) : list Q := map (fun x => if Qle_bool x 1 then x else 1%Q) g.
Definition cfg1 : config := Config 2 (-1) 0 false.
Definition data2 (b1 b2 : list Q) (k : nat) : list (list Q) := [b1; b2].

Example C90_case :
  ddp_train 1 eg1 upd1 same (map (rank_ops (Config 1 (-1) 2 true) 1 0 0) [data2 [1; 3] [5; 5]; data2 [5; 7] [1; 1]]%Q)
    [Rank 10 0%nat; Rank 99 0%nat]%Q = Done [Rank 3 2%nat; Rank 3 2%nat]%Q /\
  rank_ops (Config 1 (-1) 2 true) 1 0 0 (data2 [1; 3] [5; 5])%Q = [OTrain [1; 3]; OTrain [5; 5]; OForward; OReduce; OReduce]%Q /\
  merged 2 [[[1; 3]; [5; 5]]; [[5; 7]; [1; 1]]]%Q = [[1; 3; 5; 7]; [5; 5; 1; 1]]%Q /\
  sgd 1 eg1 upd1 same [[1; 3; 5; 7]; [5; 5; 1; 1]]%Q 10%Q 0%nat = (2%nat, 3%Q).
Proof. repeat split; vm_compute; reflexivity. Qed.
(** The limit of steps keeps ranks with 2 and 3 batches together; starting in the middle of an
    epoch. *)
Example C90_limit_case :
  exists a b, rank_ops (Config 2 2 0 false) 0 0 1 (data2 [1] [2])%Q = a /\
    rank_ops (Config 2 2 0 false) 0 0 1 (fun _ => [[4]; [5]; [6]])%Q = b /\
    epoch_batches 2 1 [[4]; [5]; [6]]%Q = [[5]]%Q /\ epoch_batches 2 0 [[4]; [5]; [6]]%Q = [[4]; [5]]%Q /\
    a = [OTrain [2]; OTrain [1]; OTrain [2]]%Q /\ b = [OTrain [5]; OTrain [4]; OTrain [5]]%Q.
Proof. eexists. eexists. repeat split; vm_compute; reflexivity. Qed.

(** Findings: ranks with different numbers of batches, or with different checkpoints in their own
    directories, wait for each other for ever. *)
Theorem C90_uneven_refuted :
  exists ds, map (fun d => length (d 0%nat)) ds = [2; 1]%nat /\
  ddp_train 1 eg1 upd1 same (map (rank_ops cfg1 0 0 0) ds) [Rank 10 0%nat; Rank 10 0%nat]%Q = Stuck [Rank 6 2%nat; Rank 6 2%nat]%Q.
Proof.
  exists [data2 [1] [1]; fun _ => [[3]]]%Q. split; vm_compute; reflexivity.
Qed.
Print Assumptions C90_uneven_refuted.
Theorem C90_checkpoint_refuted : exists d,
  ddp_train 1 eg1 upd1 same [rank_ops cfg1 0 1 0 d; rank_ops cfg1 0 0 0 d] [Rank 10 0%nat; Rank 10 0%nat]%Q = Stuck [Rank 8 2%nat; Rank 8 2%nat]%Q.
Proof. exists (data2 [1] [1])%Q. vm_compute. reflexivity. Qed.
Print Assumptions C90_checkpoint_refuted.
(** Evaluation data of different lengths: a model with buffers. *)
Theorem C90_eval_refuted : exists d, exists rs,
  ddp_train 1 eg1 upd1 same [rank_ops (Config 1 (-1) 1 true) 1 0 0 d; rank_ops (Config 1 (-1) 1 true) 2 0 0 d] [Rank 10 0%nat; Rank 10 0%nat]%Q = Stuck rs.
Proof. exists (data2 [1] [1])%Q. eexists. vm_compute. reflexivity. Qed.
Print Assumptions C90_eval_refuted.
(** Batches of different sizes: examples in smaller batches count more. *)
Theorem C90_sizes_refuted : exists b b',
  ddp_train 1 eg1 upd1 same [[OTrain b]; [OTrain b']] [Rank 10 0%nat; Rank 10 0%nat]%Q = Done [Rank 8 1%nat; Rank 8 1%nat]%Q /\
  sgd 1 eg1 upd1 same [b ++ b'] 10%Q 0%nat = (1%nat, (23 # 3)%Q).
Proof. exists [1]%Q, [2; 4]%Q. split; vm_compute; reflexivity. Qed.
Print Assumptions C90_sizes_refuted.

(** Clipping: with DDP every update uses a clipped gradient; so it does with Horovod and half
    precision.  Without half precision Horovod agrees if nothing is clipped. *)
Theorem C90_clip : forall (W Opt X : Type) (d : nat) (eg : W -> X -> nat -> Q) (upd : Opt -> W -> list Q -> Opt * W)
  (clip : list Q -> list Q) (P : list Q -> Prop) (bs : list (list X)) (rs : list rank), (forall g, P (clip g)) ->
  exists g, P g /\ ddp_step d eg upd clip bs rs = map (fun r => let x := upd (r_o r) (r_w r) g in Rank (snd x) (fst x)) rs.
Proof. exact @ddp_clipped. Qed.
Print Assumptions C90_clip.
Theorem C90_horovod_partial : forall (W Opt X : Type) (d : nat) (eg : W -> X -> nat -> Q) (upd : Opt -> W -> list Q -> Opt * W)
  (clip : list Q -> list Q) (seen : list bool) (bs : list (list X)) (rs : list rank),
  (forall g, clip g = g) -> length bs = length rs -> length seen = length rs ->
  hvd_step d eg upd clip seen bs rs = ddp_step d eg upd clip bs rs.
Proof. exact @hvd_unclipped. Qed.
Print Assumptions C90_horovod_partial.
Theorem C90_horovod_clip_refuted : exists bs,
  hvd_step 1 eg1 upd1 cap [false; false] bs [Rank 10 0%nat; Rank 10 0%nat]%Q = [Rank 6 1%nat; Rank 6 1%nat]%Q /\
  hvd_step 1 eg1 upd1 cap [true; true] bs [Rank 10 0%nat; Rank 10 0%nat]%Q = [Rank (19 # 2) 1%nat; Rank (19 # 2) 1%nat]%Q /\
  ddp_step 1 eg1 upd1 cap bs [Rank 10 0%nat; Rank 10 0%nat]%Q = [Rank 9 1%nat; Rank 9 1%nat]%Q.
Proof. exists [[8]; [0]]%Q. repeat split; vm_compute; reflexivity. Qed.
Print Assumptions C90_horovod_clip_refuted.

(** Evaluation: the reduced value is the mean over all batches if all ranks have equally many. *)
Theorem C90_metric_partial : forall (k : nat) (ls : list (list Q)), (0 < k)%nat -> ls <> [] ->
  Forall (fun l => length l = k) ls -> mean_of (reduced ls) (concat ls).
Proof. exact reduced_mean. Qed.
Print Assumptions C90_metric_partial.
Theorem C90_metric_refuted : exists ls, (reduced ls == 1 # 2)%Q /\ mean_of (1 # 3) (concat ls) /\ (reduced [[1]; []] == 1 # 2)%Q.
Proof. exists [[1]; [0; 0]]%Q. repeat split; vm_compute; reflexivity. Qed.
Print Assumptions C90_metric_refuted.

(** The training loss that is written is the loss of one batch, not of the interval. *)
Theorem C90_loss : forall (every : Z) (losses : list Q) (step s : Z) (v : Q), In (s, v) (reported every step losses) ->
  exists k, (k < length losses)%nat /\ s = step + Z.of_nat k + 1 /\ s mod every = 0 /\ (v == nth k losses 0)%Q.
Proof. exact reported_last. Qed.
Print Assumptions C90_loss.
Theorem C90_loss_refuted : exists losses v, reported 2 0 losses = [(2, v)] /\ (v == 3)%Q /\ mean_of 2 losses.
Proof. exists [1; 3]%Q. eexists. repeat split; vm_compute; reflexivity. Qed.
Print Assumptions C90_loss_refuted.
