(** C101: converting HuggingFace checkpoints of BERT. *)
From Verif Require Import Base FilesModel CkptModel CkptSpec HfModel HfSpec HfProofs.
From Coq Require Import Ascii String Permutation.
Import ListNotations.
Open Scope list_scope.

(** Layers of the DeepSpeed kernel: for any layers, names, arrays and order of the entries in
    which query, key and value of a layer are not separated by those of another layer.  Missing
    for the full statement: other orders (C101_order_refuted). *)
Theorem C101_kernel_partial : forall X zero diff (m : model X) (es : list entry), NoDup (map fst m) -> Forall proper es -> NoDup (map name_of es) ->
  grouped (parts false es) -> grouped (parts true es) ->
  (forall p a, In (Other p a) es -> exists_below m p -> exists b, padded zero diff (dots p) a b) ->
  (forall p b, wants zero diff m es p b -> fits m p b) ->
  exists m', convert zero true diff m (file es) = Ok m' /\ outcome zero diff m es m'.
Proof. exact @kernel_ok. Qed.
Print Assumptions C101_kernel_partial.

(** What should be stored in a parameter is determined by the checkpoint. *)
Theorem C101_wants : forall X zero diff (m : model X) es, Forall proper es -> NoDup (map name_of es) -> forall p a b,
  wants zero diff m es p a -> wants zero diff m es p b -> a = b.
Proof. exact @wants_fun. Qed.
Print Assumptions C101_wants.

(** Layers of torch: every entry is stored at its own path.  Missing: an entry of a dense layer
    the model does not have ends the conversion (C101_pooler). *)
Theorem C101_torch_partial : forall X zero diff (es : list (path * arr X)) (m : model X), NoDup (map fst m) ->
  (forall q a, In (q, a) es -> q <> [] /\ Forall (free ".") q) ->
  (forall q a p, In (q, a) es -> renames q p -> ~ exists_below m p -> p = q) ->
  (forall q a p, In (q, a) es -> renames q p -> exists_below m p -> exists b, padded zero diff (dots q) a b) ->
  (forall p a b, torch_wants zero diff m es p a -> torch_wants zero diff m es p b -> a = b) ->
  (forall p b, torch_wants zero diff m es p b -> fits m p b) ->
  exists m', convert zero false diff m (torch_file es) = Ok m' /\ torch_outcome zero diff m es m'.
Proof. exact @torch_ok. Qed.
Print Assumptions C101_torch_partial.

(** Neither converter can convert the pooler into a model that calls its layer dense, as both
    models of this repository do. *)
Theorem C101_pooler : forall X zero k diff (m : model X) ckpt w a, free "." w ->
  exists_below m [str "bert"; str "pooler"] -> ~ exists_below m [str "bert"; str "pooler"; str "dense_act"] ->
  In (str "bert.pooler.dense." ++ w, a) ckpt -> forall m', convert zero k diff m ckpt <> Ok m'.
Proof.
  intros X zero k diff m ckpt w a F H1 H2 I m'. rewrite <- has_spec in H1, H2. apply Bool.not_true_is_false in H2.
  destruct k; [exact (kernel_stuck zero diff m ckpt w a F H1 H2 I m') | exact (torch_stuck zero diff m ckpt w a F H1 H2 I m')].
Qed.
Print Assumptions C101_pooler.

(** ** Cases *)
Definition vec (l : list nat) : arr nat := {| wid := None; rows := l |}.
Definition mat (w : nat) (l : list nat) : arr nat := {| wid := Some w; rows := l |}.
Definition nothing (w : nat) : nat := 0.
Definition two_layers : model nat :=
  [([str "bert"; str "embeddings"; str "word_embeddings"; str "weight"], mat 2 [0; 0; 0; 0]);
   (layer_path 0 (str "attn_qkvw"), mat 2 [0; 0; 0]); (layer_path 0 (str "attn_qkvb"), vec [0; 0; 0]); (layer_path 0 (str "norm_w"), vec [0]);
   (layer_path 11 (str "attn_qkvw"), mat 2 [0; 0; 0]); (layer_path 11 (str "attn_qkvb"), vec [0; 0; 0]); (layer_path 11 (str "norm_w"), vec [0]);
   (pool_path (str "weight"), mat 2 [0])].
Definition hf : list entry :=
  [Other [str "bert"; str "embeddings"; str "position_ids"] (vec [1; 2]);
   Other [str "bert"; str "embeddings"; str "word_embeddings"; str "weight"] (mat 2 [1; 2; 3]);
   Part 0 Q false (mat 2 [11]); Part 0 Q true (vec [12]); Part 0 K false (mat 2 [13]); Part 0 K true (vec [14]);
   Copy 0 (str "output.LayerNorm.weight") (str "norm_w") (vec [15]); Part 0 V false (mat 2 [16]);
   Part 11 V false (mat 2 [21]); Part 0 V true (vec [17]); Part 11 K false (mat 2 [22]); Part 11 Q true (vec [23]); Part 11 Q false (mat 2 [24]);
   Part 11 K true (vec [25]); Part 11 V true (vec [26]); Copy 11 (str "output.LayerNorm.weight") (str "norm_w") (vec [27]);
   Pool (str "weight") (mat 2 [31])].
Example C101_case :
  convert nothing true 1 two_layers (file hf) = Ok
  [([str "bert"; str "embeddings"; str "word_embeddings"; str "weight"], mat 2 [1; 2; 3; 0]);
   (layer_path 0 (str "attn_qkvw"), mat 2 [11; 13; 16]); (layer_path 0 (str "attn_qkvb"), vec [12; 14; 17]); (layer_path 0 (str "norm_w"), vec [15]);
   (layer_path 11 (str "attn_qkvw"), mat 2 [24; 22; 21]); (layer_path 11 (str "attn_qkvb"), vec [23; 25; 26]); (layer_path 11 (str "norm_w"), vec [27]);
   (pool_path (str "weight"), mat 2 [31])].
Proof. vm_compute. reflexivity. Qed.
Example C101_case_grouped : grouped (parts false hf) /\ grouped (parts true hf).
Proof. cbn. repeat split; discriminate. Qed.
Example C101_case_torch :
  convert nothing false 0
    [([str "bert"; str "layer"; str "0"; str "intermediate"; str "dense_act"; str "weight"], mat 2 [0]);
     ([str "bert"; str "layer"; str "0"; str "output"; str "dense"; str "weight"], mat 2 [0])]
    (torch_file [([str "bert"; str "layer"; str "0"; str "intermediate"; str "dense"; str "weight"], mat 2 [1]);
     ([str "bert"; str "layer"; str "0"; str "output"; str "dense"; str "weight"], mat 2 [2]); ([str "cls"; str "bias"], vec [3])])
  = Ok [([str "bert"; str "layer"; str "0"; str "intermediate"; str "dense_act"; str "weight"], mat 2 [1]);
        ([str "bert"; str "layer"; str "0"; str "output"; str "dense"; str "weight"], mat 2 [2])].
Proof. vm_compute. reflexivity. Qed.

(** ** Refuted *)
Definition two_weights : model nat := [(layer_path 0 (str "attn_qkvw"), mat 1 [0; 0; 0]); (layer_path 1 (str "attn_qkvw"), mat 1 [0; 0; 0])].
(** Another order of the same entries: layer 0 gets query and key of layer 1, layer 1 nothing. *)
Theorem C101_order_refuted : exists es es' m', Permutation es es' /\ Forall proper es /\ NoDup (map name_of es)
  /\ convert nothing true 0 two_weights (file es) = Ok [(layer_path 0 (str "attn_qkvw"), mat 1 [1; 2; 3]); (layer_path 1 (str "attn_qkvw"), mat 1 [4; 5; 6])]
  /\ convert nothing true 0 two_weights (file es') = Ok m'
  /\ m' = [(layer_path 0 (str "attn_qkvw"), mat 1 [4; 5; 3]); (layer_path 1 (str "attn_qkvw"), mat 1 [0; 0; 0])].
Proof.
  exists [Part 0 Q false (mat 1 [1]); Part 0 K false (mat 1 [2]); Part 0 V false (mat 1 [3]); Part 1 Q false (mat 1 [4]); Part 1 K false (mat 1 [5]); Part 1 V false (mat 1 [6])],
    [Part 0 Q false (mat 1 [1]); Part 0 K false (mat 1 [2]); Part 1 Q false (mat 1 [4]); Part 1 K false (mat 1 [5]); Part 0 V false (mat 1 [3]); Part 1 V false (mat 1 [6])],
    [(layer_path 0 (str "attn_qkvw"), mat 1 [4; 5; 3]); (layer_path 1 (str "attn_qkvw"), mat 1 [0; 0; 0])].
  split.
  { do 2 constructor. change [Part 0 V false (mat 1 [3]); Part 1 Q false (mat 1 [4]); Part 1 K false (mat 1 [5]); Part 1 V false (mat 1 [6])]
      with (Part 0 V false (mat 1 [3]) :: [Part 1 Q false (mat 1 [4]); Part 1 K false (mat 1 [5])] ++ [Part 1 V false (mat 1 [6])]).
    exact (Permutation_middle [Part 1 Q false (mat 1 [4]); Part 1 K false (mat 1 [5])] [Part 1 V false (mat 1 [6])] (Part 0 V false (mat 1 [3]))). }
  split; [repeat constructor|]. split.
  { repeat constructor; cbn; intros H; repeat (destruct H as [H|H]; [discriminate H|]); exact H. }
  repeat split; vm_compute; reflexivity.
Qed.
Print Assumptions C101_order_refuted.
(** A checkpoint without the value of layer 0 and the query and key of layer 1 is converted, to a
    layer 1 made of both. *)
Theorem C101_mixed_refuted : exists es m', convert nothing true 0 two_weights (file es) = Ok m'
  /\ es = [Part 0 Q false (mat 1 [1]); Part 0 K false (mat 1 [2]); Part 1 V false (mat 1 [6])]
  /\ In (layer_path 1 (str "attn_qkvw"), mat 1 [1; 2; 6]) m'.
Proof.
  exists [Part 0 Q false (mat 1 [1]); Part 0 K false (mat 1 [2]); Part 1 V false (mat 1 [6])],
    [(layer_path 0 (str "attn_qkvw"), mat 1 [0; 0; 0]); (layer_path 1 (str "attn_qkvw"), mat 1 [1; 2; 6])].
  split; [vm_compute; reflexivity|]. split; [reflexivity | right; left; reflexivity].
Qed.
Print Assumptions C101_mixed_refuted.
(** The pooler of the models of this repository: AttributeError. *)
Theorem C101_pooler_refuted : exists (m : model nat) ckpt, convert nothing true 0 m ckpt = Fail EIndex /\ convert nothing false 0 m ckpt = Fail EIndex
  /\ map fst m = [[str "bert"; str "pooler"; str "dense"; str "weight"]] /\ names ckpt = [str "bert.pooler.dense.weight"].
Proof.
  exists [([str "bert"; str "pooler"; str "dense"; str "weight"], mat 1 [0])], [(str "bert.pooler.dense.weight", mat 1 [1])].
  vm_compute. repeat split; reflexivity.
Qed.
Print Assumptions C101_pooler_refuted.
(** Names of older checkpoints: gamma of the embeddings is skipped and the conversion succeeds
    with the initial values. *)
Theorem C101_gamma_refuted : exists (m : model nat) ckpt, convert nothing true 0 m ckpt = Ok m /\ convert nothing false 0 m ckpt = Ok m
  /\ m = [([str "bert"; str "embeddings"; str "LayerNorm"; str "weight"], vec [0])] /\ ckpt = [(str "bert.embeddings.LayerNorm.gamma", vec [1])].
Proof.
  exists [([str "bert"; str "embeddings"; str "LayerNorm"; str "weight"], vec [0])], [(str "bert.embeddings.LayerNorm.gamma", vec [1])].
  vm_compute. repeat split; reflexivity.
Qed.
Print Assumptions C101_gamma_refuted.
(** The padded vocabulary: words are padded, the bias of the same vocabulary is not and ends the
    conversion. *)
Theorem C101_vocabulary_refuted : exists (m : model nat) ckpt, convert nothing true 1 m ckpt = Fail EAssert /\ convert nothing false 1 m ckpt = Fail EAssert
  /\ m = [([str "bert"; str "embeddings"; str "word_embeddings"; str "weight"], mat 2 [0; 0]); ([str "cls"; str "predictions"; str "bias"], vec [0; 0])]
  /\ ckpt = [(str "bert.embeddings.word_embeddings.weight", mat 2 [1]); (str "cls.predictions.bias", vec [1])].
Proof.
  exists [([str "bert"; str "embeddings"; str "word_embeddings"; str "weight"], mat 2 [0; 0]); ([str "cls"; str "predictions"; str "bias"], vec [0; 0])],
    [(str "bert.embeddings.word_embeddings.weight", mat 2 [1]); (str "cls.predictions.bias", vec [1])].
  vm_compute. repeat split; reflexivity.
Qed.
Print Assumptions C101_vocabulary_refuted.
(** What the converter for the kernel refuses, and which error it raises: names of layers it does not
    know, also those that only resemble the second half of a layer; layers the model does not have;
    parts of different width; words without a width; layers without merged parameters.  A name with
    an empty component and the intermediate layer of an attention are accepted. *)
Definition tiny : model nat :=
  [(layer_path 0 (str "norm_w"), vec [0]); (layer_path 0 (str "norm_b"), vec [0]); (layer_path 0 (str "output_w"), mat 1 [0]);
   (layer_path 0 (str "output_b"), vec [0]); (layer_path 0 (str "inter_b"), vec [0]);
   ([str "bert"; str "embeddings"; str "word_embeddings"; str "weight"], mat 2 [0])].
Definition fate (name : nm) (a : arr nat) : res (model nat) := convert nothing true 1 tiny [(name, a)].
Theorem C101_errors : 
  fate (str "bert.encoder.layer.0.attention.self.output.dense.weight") (mat 1 [5]) = Fail EFatal /\
  fate (str "bert.encoder.layer.0.attention.self.output.dense.bias") (vec [5]) = Fail EFatal /\
  fate (str "bert.encoder.layer.0.attention.self.output.LayerNorm.weight") (vec [5]) = Fail EFatal /\
  fate (str "bert.encoder.layer.0.attention.self.output.LayerNorm.bias") (vec [5]) = Fail EFatal /\
  fate (str "bert.encoder.layer.0.adapter.weight") (vec [5]) = Fail EFatal /\
  fate (str "bert.encoder.layer.1.output.LayerNorm.bias") (vec [5]) = Fail EIndex /\
  fate (str "bert.encoder.layer.0.attention.output.dense.bias") (vec [5]) = Fail EIndex /\
  fate (str "bert.embeddings.word_embeddings.weight") (vec []) = Fail EIndex /\
  (exists m', fate (str "bert.encoder.layer.0.attention.intermediate.dense.bias") (vec [5]) = Ok m' /\ In (layer_path 0 (str "inter_b"), vec [5]) m') /\
  (exists m', fate (str "bert.encoder.layer..0.output.LayerNorm.bias") (vec [5]) = Ok m' /\ In (layer_path 0 (str "norm_b"), vec [5]) m') /\
  (forall a b c, In (a, b, c) [(1, 2, 2); (2, 1, 2); (2, 2, 1)] ->
     convert nothing true 0 two_layers (file [Part 0 Q false (mat a [1]); Part 0 K false (mat b [2]); Part 0 V false (mat c [3])]) = Fail EAssert) /\
  convert nothing true 0 tiny (file [Part 0 Q false (mat 1 [1]); Part 0 K false (mat 1 [2]); Part 0 V false (mat 1 [3])]) = Fail EIndex.
Proof.
  repeat match goal with |- _ /\ _ => split; [first [vm_compute; reflexivity|eexists; split; [vm_compute; reflexivity|vm_compute; tauto]|idtac]|] end;
    [|vm_compute; reflexivity].
  intros a b c H. cbn [In] in H.
  repeat match goal with H : _ \/ _ |- _ => destruct H as [H|H] end; try contradiction;
    injection H as <- <- <-; vm_compute; reflexivity.
Qed.
Print Assumptions C101_errors.
