(** C105: converting TensorFlow checkpoints of BERT. *)
From Verif Require Import Base FilesModel CkptModel CkptSpec HfModel HfSpec HfProofs TfCkptModel TfCkptSpec TfCkptProofs.
From Coq Require Import Ascii String.
Import ListNotations.
Open Scope list_scope.

(** A TensorFlow checkpoint is converted like the HuggingFace checkpoint with the same content:
    variables of the optimizer left out, names translated, kernels transposed; errors included. *)
Theorem C105_same : forall X zero transpose diff (m : model X) vs, m <> [] -> Forall (sensible m) vs -> Forall proper (entries transpose vs) ->
  convert_tf zero transpose true diff m (tf_file vs) = convert zero true diff m (file (entries transpose vs)).
Proof. exact @tf_same. Qed.
Print Assumptions C105_same.

(** Every parameter gets the array of its variable, all others keep theirs.  Missing for the full
    statement: orders that separate query, key and value of a layer (C105_order_refuted), modules
    without the parameter a name asks for (C105_asked_refuted), poolers without dense_act
    (C105_pooler_refuted). *)
Theorem C105_kernel_partial : forall X zero transpose diff (m : model X) vs, let es := entries transpose vs in m <> [] -> Forall (sensible m) vs ->
  NoDup (map fst m) -> Forall proper es -> NoDup (map name_of es) ->
  grouped (parts false es) -> grouped (parts true es) ->
  (forall p a, In (Other p a) es -> exists_below m p -> exists b, padded zero diff (dots p) a b) ->
  (forall p b, wants zero diff m es p b -> fits m p b) ->
  exists m', convert_tf zero transpose true diff m (tf_file vs) = Ok m' /\ outcome zero diff m es m'.
Proof. exact @tf_ok. Qed.
Print Assumptions C105_kernel_partial.

(** No conversion changes which parameters the model has. *)
Theorem C105_shape : forall X zero transpose k diff (m : model X) ckpt m', convert_tf zero transpose k diff m ckpt = Ok m' -> map fst m' = map fst m.
Proof. exact @tf_fst. Qed.
Print Assumptions C105_shape.

(** Without the kernel there is no conversion. *)
Theorem C105_torch : forall X zero transpose diff (m : model X) ckpt, convert_tf zero transpose false diff m ckpt = Fail EFatal.
Proof. reflexivity. Qed.
Print Assumptions C105_torch.

(** ** Cases *)
Definition vec (l : list nat) : arr nat := {| wid := None; rows := l |}.
Definition mat (w : nat) (l : list nat) : arr nat := {| wid := Some w; rows := l |}.
Definition nothing (w : nat) : nat := 0.
(** Stands for the transposed array. *)
Definition turned (a : arr nat) : arr nat := {| wid := wid a; rows := map (fun x => 100 + x) (rows a) |}.
Definition two_layers : model nat :=
  [([str "bert"; str "embeddings"; str "word_embeddings"; str "weight"], mat 2 [0; 0; 0; 0]);
   ([str "bert"; str "embeddings"; str "position_embeddings"; str "weight"], mat 2 [0; 0]);
   ([str "bert"; str "embeddings"; str "LayerNorm"; str "weight"], vec [0; 0]); ([str "bert"; str "embeddings"; str "LayerNorm"; str "bias"], vec [0; 0]);
   (layer_path 0 (str "attn_qkvw"), mat 2 [0; 0; 0]); (layer_path 0 (str "attn_qkvb"), vec [0; 0; 0]); (layer_path 0 (str "norm_w"), vec [0]); (layer_path 0 (str "output_w"), mat 2 [0]);
   (layer_path 11 (str "attn_qkvw"), mat 2 [0; 0; 0]); (layer_path 11 (str "attn_qkvb"), vec [0; 0; 0]); (layer_path 11 (str "norm_w"), vec [0]);
   (pool_path (str "weight"), mat 2 [0]); (pool_path (str "bias"), vec [0]);
   ([str "cls"; str "seq_relationship"; str "weight"], mat 2 [0]); ([str "cls"; str "seq_relationship"; str "bias"], vec [0]);
   ([str "classifier"; str "weight"], mat 2 [0])].
Definition tf : list variable :=
  [VOptim [str "bert"; str "embeddings"; str "LayerNorm"; str "beta"; str "adam_m"] (vec [1]); VOptim [str "global_step"] (vec [7]);
   VPlain [str "bert"; str "embeddings"; str "LayerNorm"] (str "beta") (vec [1; 2]); VPlain [str "bert"; str "embeddings"; str "LayerNorm"] (str "gamma") (vec [3; 4]);
   VTable [str "bert"; str "embeddings"] (str "position") (mat 2 [5; 6]); VTable [str "bert"; str "embeddings"] (str "token_type") (mat 2 [7; 8]); VWords (mat 2 [1; 2; 3]);
   VPart 0 K true (vec [14]); VPart 0 K false (mat 2 [13]); VPart 0 Q true (vec [12]); VPart 0 Q false (mat 2 [11]); VPart 0 V true (vec [17]); VPart 0 V false (mat 2 [16]);
   VCopy 0 (str "output/LayerNorm/gamma") (str "output.LayerNorm.weight") (str "norm_w") false (vec [15]);
   VCopy 0 (str "output/dense/kernel") (str "output.dense.weight") (str "output_w") true (mat 2 [18]);
   VPart 11 K true (vec [25]); VPart 11 K false (mat 2 [22]); VPart 11 Q true (vec [23]); VPart 11 Q false (mat 2 [24]); VPart 11 V true (vec [26]); VPart 11 V false (mat 2 [21]);
   VPool true (vec [32]); VPool false (mat 2 [31]);
   VPlain [str "cls"; str "seq_relationship"] (str "output_bias") (vec [33]); VPlain [str "cls"; str "seq_relationship"] (str "output_weights") (mat 2 [34]);
   VKernel [str "cls"; str "predictions"; str "transform"; str "dense"] (mat 2 [35]); VKernel [str "squad"] (mat 2 [36])].
Example C105_case :
  convert_tf nothing turned true 1 two_layers (tf_file tf) = Ok
  [([str "bert"; str "embeddings"; str "word_embeddings"; str "weight"], mat 2 [1; 2; 3; 0]);
   ([str "bert"; str "embeddings"; str "position_embeddings"; str "weight"], mat 2 [5; 6]);
   ([str "bert"; str "embeddings"; str "LayerNorm"; str "weight"], vec [3; 4]); ([str "bert"; str "embeddings"; str "LayerNorm"; str "bias"], vec [1; 2]);
   (layer_path 0 (str "attn_qkvw"), mat 2 [111; 113; 116]); (layer_path 0 (str "attn_qkvb"), vec [12; 14; 17]); (layer_path 0 (str "norm_w"), vec [15]); (layer_path 0 (str "output_w"), mat 2 [118]);
   (layer_path 11 (str "attn_qkvw"), mat 2 [124; 122; 121]); (layer_path 11 (str "attn_qkvb"), vec [23; 25; 26]); (layer_path 11 (str "norm_w"), vec [0]);
   (pool_path (str "weight"), mat 2 [131]); (pool_path (str "bias"), vec [32]);
   ([str "cls"; str "seq_relationship"; str "weight"], mat 2 [34]); ([str "cls"; str "seq_relationship"; str "bias"], vec [33]);
   ([str "classifier"; str "weight"], mat 2 [136])].
Proof. vm_compute. reflexivity. Qed.
Example C105_case_names : map tf_name [List.nth 0 tf (VWords (vec [])); List.nth 5 tf (VWords (vec [])); List.nth 15 tf (VWords (vec [])); List.nth 25 tf (VWords (vec []))] =
  [str "bert/embeddings/LayerNorm/beta/adam_m"; str "bert/embeddings/token_type_embeddings"; str "bert/encoder/layer_11/attention/self/key/bias"; str "cls/predictions/transform/dense/kernel"].
Proof. vm_compute. reflexivity. Qed.
Example C105_case_sensible : sensible two_layers (VKernel [str "squad"] (mat 2 [36])) /\ sensible two_layers (VTable [str "bert"; str "embeddings"] (str "position") (mat 2 [5; 6])).
Proof.
  assert (C : forall c, forallb (fun x => negb (Ascii.eqb x "/")) c = true -> existsb (nm_eqb c) optimizer = false -> snd (scope c) = None -> component c).
  { intros c F O N. split; [now apply free_b|]. split.
    - intros I. assert (T : existsb (nm_eqb c) optimizer = true) by (apply existsb_exists; exists c; split; [exact I|apply FilesProofs.nm_eqb_refl]). congruence.
    - now apply scope_none. }
  assert (NC : forall P s, contains P s = false -> ~ inside P s) by (intros P s H J; apply CkptProofs.contains_spec in J; congruence).
  split; cbn [sensible].
  - split; [|split].
    + split; [repeat (constructor; [apply C; reflexivity|]); constructor | apply NC; reflexivity].
    + split; apply NC; reflexivity.
    + intros pre c post E I _. destruct pre as [|x pre]; injection E as <- E.
      * exists [str "weight"], (mat 2 [0]). cbn. tauto.
      * destruct pre as [|y pre]; injection E as <- E; [|destruct pre; discriminate E]. exists [], (mat 2 [0]). cbn. tauto.
  - split; [|split; [|split]].
    + split; [repeat (constructor; [apply C; reflexivity|]); constructor | apply NC; reflexivity].
    + split; apply NC; reflexivity.
    + intros pre c post E I _. exfalso. assert (J : In c ([str "bert"; str "embeddings"] ++ [table (str "position")])) by (rewrite E; apply in_or_app; right; left; reflexivity).
      cbn [List.app In] in J. cbn [renaming map fst In] in I. repeat (destruct J as [<-|J]; [repeat (destruct I as [I|I]; [discriminate I|]); exact I|]). destruct J.
    + intros _. exists [], (mat 2 [0; 0]). cbn. tauto.
Qed.

(** ** Refuted *)
Definition two_weights : model nat := [(layer_path 0 (str "attn_qkvw"), mat 1 [0; 0; 0]); (layer_path 1 (str "attn_qkvw"), mat 1 [0; 0; 0])].
(** Query and key of layer 1 before the value of layer 0: layer 0 gets them, layer 1 nothing. *)
Theorem C105_order_refuted : exists vs m', convert_tf nothing turned true 0 two_weights (tf_file vs) = Ok m' /\
  vs = [VPart 0 Q false (mat 1 [1]); VPart 0 K false (mat 1 [2]); VPart 1 Q false (mat 1 [4]); VPart 1 K false (mat 1 [5]); VPart 0 V false (mat 1 [3]); VPart 1 V false (mat 1 [6])] /\
  m' = [(layer_path 0 (str "attn_qkvw"), mat 1 [104; 105; 103]); (layer_path 1 (str "attn_qkvw"), mat 1 [0; 0; 0])].
Proof. eexists _, _. split; [|split; reflexivity]. vm_compute. reflexivity. Qed.
Print Assumptions C105_order_refuted.
(** A module that exists without the parameter ends the conversion, a module that does not exist is
    left out. *)
Theorem C105_asked_refuted : exists (m : model nat) a b,
  convert_tf nothing turned true 0 m [(str "cls/predictions/output_bias", a)] = Fail EIndex /\ convert_tf nothing turned true 0 m [(str "cls/seq_relationship/output_bias", b)] = Ok m /\
  m = [([str "cls"; str "predictions"; str "decoder"; str "weight"], mat 1 [0])].
Proof. exists [([str "cls"; str "predictions"; str "decoder"; str "weight"], mat 1 [0])], (vec [1]), (vec [1]). vm_compute. repeat split; reflexivity. Qed.
Print Assumptions C105_asked_refuted.
(** The pooler of the models of this repository: AttributeError. *)
Theorem C105_pooler_refuted : exists (m : model nat) vs, convert_tf nothing turned true 0 m (tf_file vs) = Fail EIndex /\
  map fst m = [[str "bert"; str "pooler"; str "dense"; str "weight"]] /\ vs = [VPool false (mat 1 [1])].
Proof. exists [([str "bert"; str "pooler"; str "dense"; str "weight"], mat 1 [0])], [VPool false (mat 1 [1])]. vm_compute. repeat split; reflexivity. Qed.
Print Assumptions C105_pooler_refuted.
(** The padded vocabulary: the bias of the same vocabulary is not padded and ends the conversion. *)
Theorem C105_vocabulary_refuted : exists (m : model nat) vs, convert_tf nothing turned true 1 m (tf_file vs) = Fail EAssert /\
  convert_tf nothing turned true 1 m (tf_file (firstn 1 vs)) = Ok [([str "bert"; str "embeddings"; str "word_embeddings"; str "weight"], mat 2 [1; 0]); ([str "cls"; str "predictions"; str "bias"], vec [0; 0])] /\
  vs = [VWords (mat 2 [1]); VPlain [str "cls"; str "predictions"] (str "output_bias") (vec [1])].
Proof.
  exists [([str "bert"; str "embeddings"; str "word_embeddings"; str "weight"], mat 2 [0; 0]); ([str "cls"; str "predictions"; str "bias"], vec [0; 0])], [VWords (mat 2 [1]); VPlain [str "cls"; str "predictions"] (str "output_bias") (vec [1])].
  vm_compute. repeat split; reflexivity.
Qed.
Print Assumptions C105_vocabulary_refuted.
(** What is refused and what is left out: names of layers that are not known, layers the model does
    not have, tables without a weight, numbered names other than layers; slots of the optimizers of
    newer versions of TensorFlow are taken for parameters of the model. *)
Definition tiny : model nat :=
  [(layer_path 0 (str "norm_w"), vec [0]); (layer_path 0 (str "inter_b"), vec [0]); (layer_path 0 (str "output_w"), mat 1 [0]); (layer_path 0 (str "norm_b"), vec [0]); (layer_path 0 (str "output_b"), vec [0]);
   ([str "bert"; str "embeddings"; str "word_embeddings"; str "weight"], mat 2 [0]); ([str "bert"; str "embeddings"; str "type_embeddings"; str "table"], mat 2 [0]);
   ([str "head"; str "3"; str "bias"], vec [0]); ([str "tail"; str "bias"], vec [0])].
Definition fate (name : nm) (a : arr nat) : res (model nat) := convert_tf nothing turned true 1 tiny [(name, a)].
Theorem C105_errors :
  fate (str "bert/encoder/layer_0/attention/self/output/dense/kernel") (mat 1 [5]) = Fail EFatal /\
  fate (str "bert/encoder/layer_0/attention/self/output/dense/bias") (vec [5]) = Fail EFatal /\
  fate (str "bert/encoder/layer_0/attention/self/output/LayerNorm/gamma") (vec [5]) = Fail EFatal /\
  fate (str "bert/encoder/layer_0/attention/self/output/LayerNorm/beta") (vec [5]) = Fail EFatal /\
  fate (str "bert/encoder/layer_0/adapter/kernel") (mat 1 [5]) = Fail EFatal /\
  fate (str "bert/encoder/layer_1/output/LayerNorm/beta") (vec [5]) = Fail EIndex /\
  fate (str "bert/encoder/layer_0/attention/output/dense/bias") (vec [5]) = Fail EIndex /\
  fate (str "bert/embeddings/word_embeddings") (vec []) = Fail EIndex /\
  fate (str "bert/embeddings/type_embeddings") (mat 2 [5]) = Fail EIndex /\
  fate (str "head_4/bias") (vec [5]) = Fail EIndex /\
  fate (str "head_x/bias") (vec [5]) = Ok tiny /\ fate (str "head_/bias") (vec [5]) = Ok tiny /\
  fate (str "tail/bias/Adam") (vec [5]) = Ok tiny /\
  fate (str "tail/bias/adam_v") (vec [5]) = Ok tiny /\ fate (str "tail/bias/AdamWeightDecayOptimizer_1") (vec [5]) = Ok tiny /\
  (exists m', fate (str "head_3/bias") (vec [5]) = Ok m' /\ In ([str "head"; str "3"; str "bias"], vec [5]) m') /\
  (exists m', fate (str "head_03/beta") (vec [5]) = Ok m' /\ In ([str "head"; str "3"; str "bias"], vec [5]) m') /\
  (exists m', fate (str "bert/encoder/layer_0/attention/intermediate/dense/bias") (vec [5]) = Ok m' /\ In (layer_path 0 (str "inter_b"), vec [5]) m') /\
  convert_tf nothing turned true 0 tiny (tf_file [VPart 0 Q false (mat 1 [1]); VPart 0 K false (mat 1 [2]); VPart 0 V false (mat 1 [3])]) = Fail EIndex /\
  (forall a b c, In (a, b, c) [(1, 2, 2); (2, 1, 2); (2, 2, 1)] ->
     convert_tf nothing turned true 0 two_layers (tf_file [VPart 0 Q false (mat a [1]); VPart 0 K false (mat b [2]); VPart 0 V false (mat c [3])]) = Fail EAssert).
Proof.
  repeat match goal with |- _ /\ _ => split; [first [vm_compute; reflexivity|eexists; split; [vm_compute; reflexivity|vm_compute; tauto]|idtac]|] end.
  intros a b c H. cbn [In] in H.
  repeat match goal with H : _ \/ _ |- _ => destruct H as [H|H] end; try contradiction;
    injection H as <- <- <-; vm_compute; reflexivity.
Qed.
Print Assumptions C105_errors.
