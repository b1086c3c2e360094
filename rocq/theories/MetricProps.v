(** C81: metrics. *)
From Coq Require Import QArith Lqa Permutation Sorted.
From Verif Require Import Base Dist MetricModel MetricSpec MetricProofs.

(** Sorting twice gives ranks: as many have a greater score, ties count or not. *)
Theorem C81_ranks : forall ord, descending ord -> forall s p, (p < length s)%nat -> ranked s p (nth p (ranks ord s) 0%nat).
Proof. exact rank_counts. Qed.
Print Assumptions C81_ranks.
Theorem C81_distinct : forall s p r, (p < length s)%nat -> distinct s -> ranked s p r -> r = above s p.
Proof. exact rank_distinct. Qed.
Print Assumptions C81_distinct.

(** For a tensor of shape (..., 1, N) MRR is the mean of the reciprocal ranks of the positives. *)
Theorem C81_mrr_partial : forall ord, descending ord -> forall asc cs,
  cs <> [] -> Forall (fun c => (snd c < length (fst c))%nat) cs ->
  exists v rs, mrr ord asc (map matrix_of cs) = Ok v /\ is_mrr v rs /\
    Forall2 (fun c r => ranked (signed asc (fst c)) (snd c) r) cs rs.
Proof. exact mrr_rows. Qed.
Print Assumptions C81_mrr_partial.

(** compute_metric makes tensors of that shape: the metric of an evaluation is the mean over all rows of
    all batches, batch by batch only when they have the same size. *)
Theorem C81_evaluate_partial : forall ord, descending ord -> forall per_step css n,
  css <> [] -> (0 < n)%nat -> (per_step = true -> Forall (fun cs => length cs = n) css) -> Forall (fun cs => cs <> []) css ->
  Forall (Forall (fun c => (snd c < length (fst c))%nat)) css ->
  exists v rs, eval_metric ord per_step (map batch_of css) = Ok v /\ is_mrr v rs /\
    Forall2 (fun c r => ranked (fst c) (snd c) r) (concat css) rs.
Proof. exact eval_rows. Qed.
Print Assumptions C81_evaluate_partial.
Theorem C81_nothing : forall ord, eval_metric ord true [] = Ok 0 /\ eval_metric ord false [] = Fail EAssert.
Proof. exact eval_nothing. Qed.
Print Assumptions C81_nothing.

(** TensorFlow: the positive is the last of its row. *)
Theorem C81_tf : forall ord, descending ord -> forall neg pos, neg <> [] -> length neg = length pos ->
  exists v rs, tf_mrr ord neg pos = Ok v /\ is_mrr v rs /\
    Forall2 (fun p r => ranked (fst p ++ [snd p]) (length (fst p)) r) (combine neg pos) rs.
Proof. exact tf_rows. Qed.
Print Assumptions C81_tf.

(** Accuracy: the share of the chosen rows whose greatest score is at their label. *)
Theorem C81_accuracy : forall n (rows : list (list Q * nat)) mask,
  Forall (fun r => fst r <> [] /\ (snd r < n)%nat) rows -> (forall m, mask = Some m -> length m = length rows) ->
  chosen mask rows <> [] ->
  exists v hits, masked_accuracy (map fst rows) (map (fun r => one_hot n (snd r)) rows) mask = Ok v /\
    Forall2 (fun r h => h = true <-> first_max (fst r) (snd r)) (chosen mask rows) hits /\
    v * qnat (length hits) == qnat (length (filter (fun h => h) hits)).
Proof. exact accuracy_counts. Qed.
Print Assumptions C81_accuracy.

(** ** An order *)
Fixpoint put (s : list Q) (i : nat) (l : list nat) : list nat :=
  match l with [] => [i] | j :: t => if Qle_bool (nth j s 0) (nth i s 0) then i :: l else j :: put s i t end.
Definition argsort (s : list Q) : list nat := fold_right (put s) [] (seq 0 (length s)).
Lemma put_perm s i l : Permutation (put s i l) (i :: l).
Proof. induction l as [|j l IH]; [reflexivity|]. cbn [put]. destruct (Qle_bool _ _); [reflexivity|]. rewrite IH. apply perm_swap. Qed.
Lemma put_sorted s i l : StronglySorted (fun a b => nth b s 0 <= nth a s 0) l -> StronglySorted (fun a b => nth b s 0 <= nth a s 0) (put s i l).
Proof.
  induction 1 as [|j l S IH F]; [repeat constructor|]. cbn [put]. destruct (Qle_bool (nth j s 0) (nth i s 0)) eqn:E.
  - apply Qle_bool_iff in E. constructor; [now constructor|]. constructor; [exact E|]. eapply Forall_impl; [|exact F]. cbn. intros; lra.
  - assert (G : nth i s 0 < nth j s 0) by (apply Qnot_le_lt; intros C; apply Qle_bool_iff in C; congruence).
    constructor; [exact IH|]. rewrite Forall_forall in *. intros z Hz. apply (Permutation_in _ (put_perm s i l)) in Hz.
    destruct Hz as [<-|Hz]; [lra|now apply F].
Qed.
Lemma argsort_descending : descending argsort.
Proof.
  intros s.
  assert (P : forall l, Permutation (fold_right (put s) [] l) l).
  { induction l as [|i l IH]; [reflexivity|]. cbn [fold_right]. rewrite put_perm. now constructor. }
  assert (S : forall l, StronglySorted (fun a b => nth b s 0 <= nth a s 0) (fold_right (put s) [] l)).
  { induction l as [|i l IH]; [constructor|]. cbn [fold_right]. now apply put_sorted. }
  split; [apply P|]. intros a b Hab Hb. unfold argsort.
  assert (L : (b < length (fold_right (put s) [] (seq 0 (length s))))%nat) by (rewrite (Permutation_length (P _)), seq_length; exact Hb).
  specialize (S (seq 0 (length s))). clear Hb. clear P. revert a b Hab L.
  induction S as [|x l S IH F]; intros a b Hab L; [cbn in L; lia|].
  destruct b as [|b]; [lia|]. destruct a as [|a]; cbn [nth].
  - rewrite Forall_forall in F. apply F, nth_In. cbn in L. lia.
  - apply IH; [lia|]. cbn in L. lia.
Qed.

(** For a matrix with two rows the ranks of one row meet the labels of the other. *)
Theorem C81_matrix_refuted : exists ord scores labels v, descending ord /\
  labels = [one_hot 3 0; one_hot 3 2] /\ Forall (fun s => length s = 3%nat /\ distinct s) scores /\
  map (fun s => above (fst s) (snd s)) (combine scores [0%nat; 2%nat]) = [0%nat; 0%nat] /\
  mrr ord false [(scores, labels)] = Ok v /\ ~ v == 1.
Proof.
  exists argsort, [[3; 2; 1]; [1; 2; 3]], [one_hot 3 0; one_hot 3 2]. eexists.
  refine (conj argsort_descending (conj eq_refl (conj _ (conj eq_refl (conj eq_refl _))))).
  - constructor; [|constructor; [|constructor]]; (split; [reflexivity|]);
    intros [|[|[|i]]] [|[|[|j]]] Hi Hj E; cbn in Hi, Hj; try lia; try reflexivity; vm_compute in E; discriminate.
  - vm_compute. discriminate.
Qed.
Print Assumptions C81_matrix_refuted.
(** Batches of different sizes: the mean of the means. *)
Theorem C81_per_step_refuted : exists ord css v w, descending ord /\
  Forall (fun cs => cs <> []) css /\ Forall (Forall (fun c => (snd c < length (fst c))%nat)) css /\
  eval_metric ord true (map batch_of css) = Ok v /\ eval_metric ord false (map batch_of css) = Ok w /\ ~ v == w.
Proof.
  exists argsort, [[([2; 1], 0%nat); ([2; 1], 0%nat)]; [([2; 1], 1%nat)]]. eexists. eexists.
  refine (conj argsort_descending (conj _ (conj _ (conj eq_refl (conj eq_refl _))))).
  - repeat constructor; discriminate.
  - repeat constructor.
  - vm_compute. discriminate.
Qed.
Print Assumptions C81_per_step_refuted.

Example C81_ex_mrr :
  match mrr argsort false (map matrix_of [([1 # 5; 4 # 5; 1 # 10; 3 # 10; 2 # 5], 0%nat); ([1; 5; 3], 2%nat)]),
        mrr argsort true (map matrix_of [([1 # 5; 4 # 5; 1 # 10; 3 # 10; 2 # 5], 0%nat)]) with
  | Ok v, Ok w => Qred v = 3 # 8 /\ Qred w = 1 # 2
  | _, _ => False
  end.
Proof. vm_compute. split; reflexivity. Qed.
Example C81_ex_tf : match tf_mrr argsort [[5; 1]; [0; 0]] [3; 1] with Ok v => Qred v = 3 # 4 | Fail _ => False end.
Proof. vm_compute. reflexivity. Qed.
Example C81_ex_accuracy :
  match masked_accuracy [[1; 3; 3]; [9; 0; 0]; [0; 0; 1]] [one_hot 3 1; one_hot 3 2; one_hot 3 0] (Some [true; false; true]) with
  | Ok v => Qred v = 1 # 2
  | Fail _ => False
  end.
Proof. vm_compute. reflexivity. Qed.
