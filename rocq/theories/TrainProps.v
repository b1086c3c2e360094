(** C72: training and its checkpoints. *)
From Verif Require Import Base TrainModel TrainSpec TrainProofs.
From Coq Require Import Permutation.
Local Open Scope Z_scope.

(** ** A process that is not interrupted *)
(** It trains every batch of every epoch once and in order, with its optimizer and its schedule,
    whatever it saves. *)
Theorem C72_uninterrupted :
  forall (batch weights optimizer : Type) (update : weights -> optimizer -> option nat -> batch -> weights * optimizer)
         (data : nat -> list batch) (cfg : config) (w0 : weights) (o0 : optimizer),
  (rank0 cfg = true -> save_by_epochs cfg <> 0) ->
  exists st, run _ _ _ update data cfg w0 o0 [] = Ok st
    /\ (model _ _ st, opt _ _ st, position _ _ st)
       = train_all update (0 <? max_steps cfg) (w0, o0, O)
           (flat_map (fun k => taken (max_steps cfg) (data k)) (seq 0 (Z.to_nat (num_epochs cfg)))).
Proof. intros batch weights optimizer update data cfg w0 o0 H. exact (run_fresh update cfg H data w0 o0). Qed.
Print Assumptions C72_uninterrupted.

(** ** Processes that are interrupted *)
(** Whatever directory earlier processes left behind, a process that finishes has the weights of
    a training without interruption: when the dataset yields the same batches each time and the
    weights alone decide the next weights. *)
Theorem C72_resume_partial :
  forall (batch weights optimizer : Type) (update : weights -> optimizer -> option nat -> batch -> weights * optimizer)
         (cfg : config) (f : weights -> batch -> weights) (l : list batch) (w0 : weights) (data : nat -> list batch)
         (d : list (ckpt weights)) (w : weights) (o : optimizer),
  (rank0 cfg = true -> save_by_epochs cfg <> 0) ->
  (forall w o p b, (max_steps cfg <= 0 -> p = None) -> fst (update w o p b) = f w b) ->
  0 <= num_epochs cfg ->
  (forall k, data k = l) ->
  left_behind update data cfg w0 d ->
  (d = [] -> w = w0) ->
  exists st, run _ _ _ update data cfg w o d = Ok st
    /\ model _ _ st = weights_at f w0 (taken (max_steps cfg) l) (num_epochs cfg) 0.
Proof.
  intros batch weights optimizer update cfg f l w0 data d w o H1 H2 H3 H4 H5 H6.
  destruct (run_inv update cfg H1 f l w0 H2 H3 data H4 d w o (left_good update cfg H1 f l w0 H2 H3 data H4 d H5) H6) as (st & A & B & _).
  exists st. exact (conj A B).
Qed.
Print Assumptions C72_resume_partial.

(** Every checkpoint that is ever on the disk has the weights of its point. *)
Theorem C72_checkpoints :
  forall (batch weights optimizer : Type) (update : weights -> optimizer -> option nat -> batch -> weights * optimizer)
         (cfg : config) (f : weights -> batch -> weights) (l : list batch) (w0 : weights) (data : nat -> list batch)
         (d : list (ckpt weights)) (c : ckpt weights),
  (rank0 cfg = true -> save_by_epochs cfg <> 0) ->
  (forall w o p b, (max_steps cfg <= 0 -> p = None) -> fst (update w o p b) = f w b) ->
  0 <= num_epochs cfg ->
  (forall k, data k = l) ->
  left_behind update data cfg w0 d ->
  In c d ->
  c_weights _ c = weights_at f w0 (taken (max_steps cfg) l) (c_epoch _ c) (c_step _ c)
  /\ 0 <= c_epoch _ c <= num_epochs cfg
  /\ 0 <= c_step _ c <= Z.of_nat (length (taken (max_steps cfg) l)).
Proof.
  intros batch weights optimizer update cfg f l w0 data d c H1 H2 H3 H4 H5 H6.
  exact (checkpoint_of update cfg H1 f l w0 H2 H3 data H4 d c H5 H6).
Qed.
Print Assumptions C72_checkpoints.

(** Only the points that were asked for are on the disk. *)
Theorem C72_asked :
  forall (batch weights optimizer : Type) (update : weights -> optimizer -> option nat -> batch -> weights * optimizer)
         (cfg : config) (data : nat -> list batch) (w0 : weights) (d : list (ckpt weights)) (c : ckpt weights),
  left_behind update data cfg w0 d -> In c d ->
  c_step _ c = 0 /\ (c_epoch _ c - 1) mod save_by_epochs cfg = 0
  \/ 0 < save_by_steps cfg /\ c_step _ c mod save_by_steps cfg = 0.
Proof. intros batch weights optimizer update cfg data w0 d c H1 H2. exact (left_wanted update cfg data w0 d c H1 H2). Qed.
Print Assumptions C72_asked.

(** The checkpoint a process loads is the latest one of the directory: up to 999 epochs of less
    than a million batches. *)
Theorem C72_latest_partial :
  forall (weights : Type) (d : list (ckpt weights)) (c x : ckpt weights),
  (forall y, In y d -> 0 <= c_epoch _ y < 1000 /\ 0 <= c_step _ y < 1000000) ->
  loads d c -> In x d -> earlier (point x) (point c).
Proof. intros weights d c x H L I. exact (loads_latest weights d c x H L I). Qed.
Print Assumptions C72_latest_partial.

(** What is loaded never goes back, however the directory changes during a process. *)
Theorem C72_progress_partial :
  forall (batch weights optimizer : Type) (update : weights -> optimizer -> option nat -> batch -> weights * optimizer)
         (cfg : config) (f : weights -> batch -> weights) (l : list batch) (w0 : weights) (data : nat -> list batch)
         (d : list (ckpt weights)) (w : weights) (o : optimizer) (st : state weights optimizer)
         (before after : list (list (ckpt weights))) (x y : list (ckpt weights)) (c : ckpt weights),
  (rank0 cfg = true -> save_by_epochs cfg <> 0) ->
  (forall w o p b, (max_steps cfg <= 0 -> p = None) -> fst (update w o p b) = f w b) ->
  0 <= num_epochs cfg < 1000 ->
  Z.of_nat (length (taken (max_steps cfg) l)) < 1000000 ->
  (forall k, data k = l) ->
  left_behind update data cfg w0 d ->
  (d = [] -> w = w0) ->
  run _ _ _ update data cfg w o d = Ok st ->
  d :: past _ _ st = before ++ after -> In x before -> In y after ->
  loads x c -> exists c', loads y c' /\ earlier (point c) (point c').
Proof.
  intros batch weights optimizer update cfg f l w0 data d w o st before after x y c H1 H2 H3 H4 H5 H6 H7 H8 H9 H10 H11.
  exact (run_order update cfg H1 f l w0 H2 data H5 d w o st before after x y c H3 H4 H6 H7 H8 H9 H10 H11).
Qed.
Print Assumptions C72_progress_partial.

(** The last weights are saved and are what a process loads afterwards, when the last epoch is
    one of those that are saved. *)
Theorem C72_saved_partial :
  forall (batch weights optimizer : Type) (update : weights -> optimizer -> option nat -> batch -> weights * optimizer)
         (cfg : config) (f : weights -> batch -> weights) (l : list batch) (w0 : weights) (data : nat -> list batch)
         (d : list (ckpt weights)) (w : weights) (o : optimizer) (st : state weights optimizer),
  rank0 cfg = true -> save_by_epochs cfg <> 0 -> (num_epochs cfg - 1) mod save_by_epochs cfg = 0 ->
  (forall w o p b, (max_steps cfg <= 0 -> p = None) -> fst (update w o p b) = f w b) ->
  0 < num_epochs cfg < 1000 ->
  Z.of_nat (length (taken (max_steps cfg) l)) < 1000000 ->
  (forall k, data k = l) ->
  left_behind update data cfg w0 d ->
  (d = [] -> w = w0) ->
  run _ _ _ update data cfg w o d = Ok st ->
  loads (dir _ _ st) (Ck _ (num_epochs cfg) 0 (weights_at f w0 (taken (max_steps cfg) l) (num_epochs cfg) 0)).
Proof.
  intros batch weights optimizer update cfg f l w0 data d w o st H1 H2 H3 H4 H5 H6 H7 H8 H9 H10.
  exact (run_saved update cfg f l w0 H4 data H7 d w o st H1 H2 H3 H5 H6 H8 H9 H10).
Qed.
Print Assumptions C72_saved_partial.

(** Rotation leaves as many checkpoints as asked for; the removed ones have names before theirs. *)
Theorem C72_rotation :
  forall (weights : Type) (m : Z) (d : list (ckpt weights)), 0 < m ->
  exists gone, Permutation d (gone ++ rotate _ m d)
    /\ length (rotate _ m d) = Nat.min (Z.to_nat m) (length d)
    /\ forall x y, In x gone -> In y (rotate _ m d) ->
       (forall z, In z d -> 0 <= c_epoch _ z < 1000 /\ 0 <= c_step _ z < 1000000) -> earlier (point x) (point y).
Proof. intros weights m d H. exact (rotate_keeps weights m d H). Qed.
Print Assumptions C72_rotation.

(** ** Evaluation and inference *)
Theorem C72_evaluated :
  forall (batch : Type) (cfg : config) (l : list batch),
  evaluated _ cfg false 0 l = taken (max_steps cfg) l /\ inferred _ cfg l = taken (max_steps cfg) l.
Proof. intros batch cfg l. exact (conj (evaluated_all batch cfg l) (evaluated_all batch cfg l)). Qed.
Print Assumptions C72_evaluated.

Theorem C72_evaluated_training_partial :
  forall (batch : Type) (cfg : config) (s : Z) (l : list batch),
  max_steps cfg <= 0 \/ s < max_steps cfg -> evaluated _ cfg true s l = l.
Proof. intros batch cfg s l H. exact (evaluated_early batch cfg s l H). Qed.
Print Assumptions C72_evaluated_training_partial.

(** All workers together take no more than --max_samples in an epoch. *)
Theorem C72_samples_partial :
  forall (batch : Type) (l : list batch) (m w b : Z), 0 < w -> 0 < b -> w * b <= m ->
  w * b * Z.of_nat (length (taken (steps_limit m w b) l)) <= m.
Proof. intros batch l m w b H1 H2 H3. exact (limit_samples batch l m w b H1 H2 H3). Qed.
Print Assumptions C72_samples_partial.

(** ** Examples: the weights are the batches trained so far *)
Definition append (w : list Z) (o : unit) (_ : option nat) (b : Z) : list Z * unit := (w ++ [b], o).
Definition cfg0 : config := Config 2 2 1 2 (-1) true.

Example C72_run :
  exists st, run _ _ _ append (fun _ => [10; 11; 12]) cfg0 [] tt [] = Ok st
    /\ model _ _ st = [10; 11; 12; 10; 11; 12]
    /\ dir _ _ st = [Ck _ 1 2 [10; 11; 12; 10; 11]; Ck _ 2 0 [10; 11; 12; 10; 11; 12]]
    /\ nth_error (past _ _ st) 4 = Some [Ck _ 0 2 [10; 11]; Ck _ 1 0 [10; 11; 12]; Ck _ 1 2 [10; 11; 12; 10; 11]].
Proof. eexists. split; [vm_compute; reflexivity|]. split; [vm_compute; reflexivity|]. split; vm_compute; reflexivity. Qed.

(** Interrupted after two batches. *)
Example C72_resumed :
  exists st, run _ _ _ append (fun _ => [10; 11; 12]) cfg0 [99] tt [Ck _ 0 2 [10; 11]] = Ok st
    /\ model _ _ st = [10; 11; 12; 10; 11; 12].
Proof. eexists. split; vm_compute; reflexivity. Qed.

Example C72_left : left_behind append (fun _ => [10; 11; 12]) cfg0 [] [Ck _ 0 2 [10; 11]].
Proof.
  eapply (left_by _ _ _ _ [] _ [] tt); [constructor|reflexivity|vm_compute; reflexivity|]. left. reflexivity.
Qed.

Example C72_names : key 7 42 = [48; 48; 55; 45; 48; 48; 48; 48; 52; 50] /\ key 1000 0 = [49; 48; 48; 48; 45; 48; 48; 48; 48; 48; 48].
Proof. split; vm_compute; reflexivity. Qed.

(** ** What is false of the code *)
(** The checkpoint of epoch 1000 sorts before that of epoch 999 and is removed when it is saved:
    the next process starts from epoch 999 again. *)
Theorem C72_thousand_refuted :
  exists st, run _ _ _ append (fun _ => [1]) (Config 1000 0 1 1 (-1) true) [] tt [Ck _ 999 0 []] = Ok st
    /\ model _ _ st = [1] /\ dir _ _ st = [Ck _ 999 0 []].
Proof. eexists. split; [vm_compute; reflexivity|]. split; vm_compute; reflexivity. Qed.
Print Assumptions C72_thousand_refuted.

(** So does the millionth step of an epoch. *)
Theorem C72_million_refuted :
  exists (c c' : ckpt unit), earlier (point c) (point c') /\ ~ earlier (point c') (point c)
    /\ rotate _ 1 (put _ c' [c]) = [c].
Proof.
  exists (Ck _ 0 999999 tt), (Ck _ 0 1000000 tt). split; [unfold earlier; cbn; lia|]. split; [unfold earlier; cbn; lia|].
  vm_compute. reflexivity.
Qed.
Print Assumptions C72_million_refuted.

(** Saving every second of two epochs saves the first and not the last. *)
Theorem C72_last_epoch_refuted :
  exists st, run _ _ _ append (fun _ => [10; 11]) (Config 2 0 2 0 (-1) true) [] tt [] = Ok st
    /\ model _ _ st = [10; 11; 10; 11] /\ dir _ _ st = [Ck _ 1 0 [10; 11]].
Proof. eexists. split; [vm_compute; reflexivity|]. split; vm_compute; reflexivity. Qed.
Print Assumptions C72_last_epoch_refuted.

(** With a limit on the steps, its last step is not saved by --save_ckpt_by_steps either: the
    epoch's checkpoint it would duplicate is not written for every epoch. *)
Theorem C72_last_step_refuted :
  exists st, run _ _ _ append (fun _ => [10; 11]) (Config 2 2 2 0 2 true) [] tt [] = Ok st
    /\ model _ _ st = [10; 11; 10; 11] /\ dir _ _ st = [Ck _ 1 0 [10; 11]].
Proof. eexists. split; [vm_compute; reflexivity|]. split; vm_compute; reflexivity. Qed.
Print Assumptions C72_last_step_refuted.

(** Epochs are not saved: ZeroDivisionError after the first epoch. *)
Theorem C72_zero_refuted :
  forall (batch weights optimizer : Type) (update : weights -> optimizer -> option nat -> batch -> weights * optimizer)
         (data : nat -> list batch) (cfg : config) (w0 : weights) (o0 : optimizer),
  rank0 cfg = true -> save_by_epochs cfg = 0 -> 0 < num_epochs cfg ->
  run _ _ _ update data cfg w0 o0 [] = Fail EAssert.
Proof. intros batch weights optimizer update data cfg w0 o0 H1 H2 H3. exact (run_zero update data cfg w0 o0 H1 H2 H3). Qed.
Print Assumptions C72_zero_refuted.

(** The schedule of the learning rate starts again in a new process. *)
Definition scheduled (w : list nat) (o : unit) (p : option nat) (_ : Z) : list nat * unit :=
  (w ++ match p with Some k => [k] | None => [] end, o).
Theorem C72_schedule_refuted :
  exists st d st', run _ _ _ scheduled (fun _ => [1; 2]) (Config 2 0 1 0 2 true) [] tt [] = Ok st
    /\ In d (past _ _ st)
    /\ run _ _ _ scheduled (fun _ => [1; 2]) (Config 2 0 1 0 2 true) [] tt d = Ok st'
    /\ model _ _ st = [0; 1; 2; 3]%nat /\ model _ _ st' = [0; 1; 0; 1]%nat.
Proof.
  eexists. exists [Ck _ 1 0 [0; 1]%nat]. eexists. split; [vm_compute; reflexivity|]. split; [left; reflexivity|].
  split; [vm_compute; reflexivity|]. split; reflexivity.
Qed.
Print Assumptions C72_schedule_refuted.

(** So does the state of the optimizer: a sum of the batches before. *)
Definition momentum (w : list Z) (o : Z) (_ : option nat) (b : Z) : list Z * Z := (w ++ [o + b], o + b).
Theorem C72_optimizer_refuted :
  exists st d st', run _ _ _ momentum (fun _ => [1; 2]) (Config 2 0 1 0 (-1) true) [] 0 [] = Ok st
    /\ In d (past _ _ st)
    /\ run _ _ _ momentum (fun _ => [1; 2]) (Config 2 0 1 0 (-1) true) [] 0 d = Ok st'
    /\ model _ _ st = [1; 3; 4; 6] /\ model _ _ st' = [1; 3; 1; 3].
Proof.
  eexists. exists [Ck _ 1 0 [1; 3]]. eexists. split; [vm_compute; reflexivity|]. split; [left; reflexivity|].
  split; [vm_compute; reflexivity|]. split; reflexivity.
Qed.
Print Assumptions C72_optimizer_refuted.

(** A dataset in another order: the new process trains batch 10 again and never batch 12. *)
Theorem C72_shuffled_refuted :
  exists st d st', run _ _ _ append (fun _ => [10; 11; 12]) (Config 1 2 1 0 (-1) true) [] tt [] = Ok st
    /\ In d (past _ _ st)
    /\ run _ _ _ append (fun _ => [12; 11; 10]) (Config 1 2 1 0 (-1) true) [] tt d = Ok st'
    /\ model _ _ st' = [10; 11; 10].
Proof.
  eexists. exists [Ck _ 0 2 [10; 11]]. eexists. split; [vm_compute; reflexivity|]. split; [left; reflexivity|].
  split; [vm_compute; reflexivity|]. reflexivity.
Qed.
Print Assumptions C72_shuffled_refuted.

(** Evaluation at the last step of a limited epoch looks at one batch. *)
Theorem C72_evaluation_refuted : evaluated _ (Config 1 0 1 0 2 true) true 2 [10; 11; 12] = [10].
Proof. vm_compute. reflexivity. Qed.
Print Assumptions C72_evaluation_refuted.

(** Less samples than one step of all workers needs: no limit at all. *)
Theorem C72_samples_refuted : exists (l : list Z) (m w b : Z), 0 < m /\ 0 < w /\ 0 < b
  /\ w * b * Z.of_nat (length (taken (steps_limit m w b) l)) > m.
Proof. exists [1; 2; 3], 3, 2, 2. vm_compute. repeat split. Qed.
Print Assumptions C72_samples_refuted.
