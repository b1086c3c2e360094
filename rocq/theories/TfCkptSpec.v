(** What converting a TensorFlow checkpoint should do: every variable has an entry of the HuggingFace
    kind (HfSpec.v), with the names of PyTorch and kernels transposed. *)
From Verif Require Import Base FilesModel CkptSpec HfModel HfSpec.
From Coq Require Import Ascii String.
Import ListNotations.
Open Scope list_scope.

(** Names of variables in TensorFlow and of parameters in PyTorch. *)
Definition renaming : list (nm * nm) :=
  [(str "kernel", str "weight"); (str "gamma", str "weight"); (str "output_weights", str "weight");
   (str "output_bias", str "bias"); (str "beta", str "bias"); (str "squad", str "classifier")].
Definition rename (c : nm) : nm := match List.find (fun e => nm_eqb (fst e) c) renaming with Some e => snd e | None => c end.
(** A layer: suffix in TensorFlow, suffix in HuggingFace, parameter; kernels are transposed. *)
Definition layer_slots : list (nm * nm * nm * bool) :=
  [(str "attention/output/dense/kernel", str "attention.output.dense.weight", str "attn_ow", true);
   (str "attention/output/dense/bias", str "attention.output.dense.bias", str "attn_ob", false);
   (str "attention/output/LayerNorm/gamma", str "attention.output.LayerNorm.weight", str "attn_nw", false);
   (str "attention/output/LayerNorm/beta", str "attention.output.LayerNorm.bias", str "attn_nb", false);
   (str "intermediate/dense/kernel", str "intermediate.dense.weight", str "inter_w", true);
   (str "intermediate/dense/bias", str "intermediate.dense.bias", str "inter_b", false);
   (str "output/dense/kernel", str "output.dense.weight", str "output_w", true);
   (str "output/dense/bias", str "output.dense.bias", str "output_b", false);
   (str "output/LayerNorm/gamma", str "output.LayerNorm.weight", str "norm_w", false);
   (str "output/LayerNorm/beta", str "output.LayerNorm.bias", str "norm_b", false)].
Definition optimizer : list nm :=
  [str "adam_v"; str "adam_m"; str "AdamWeightDecayOptimizer"; str "AdamWeightDecayOptimizer_1"; str "global_step"].
(** A name and a number: layer_3. *)
Definition numbered (c : nm) : Prop := exists a d, c = a ++ "_"%char :: d /\ a <> [] /\ d <> [] /\
  (forall x, In x a -> In x (str "abcdefghijklmnopqrstuvwxyzABCDEFGHIJKLMNOPQRSTUVWXYZ")) /\ (forall x, In x d -> In x (str "0123456789")).
Fixpoint slashes (p : path) : nm := match p with [] => [] | [c] => c | c :: p' => c ++ "/"%char :: slashes p' end.

Section S.
Context {X : Type}.
Variable transpose : arr X -> arr X.

(** A variable: of the optimizer, the word embeddings, other embeddings, kernels, anything else
    outside the layers, of the pooler, of a layer, a part of the attention of a layer. *)
Inductive variable :=
| VOptim (p : path) (a : arr X)
| VWords (a : arr X)
| VTable (p : path) (u : nm) (a : arr X)
| VKernel (p : path) (a : arr X)
| VPlain (p : path) (c : nm) (a : arr X)
| VPool (bias : bool) (a : arr X)
| VCopy (n : nat) (tf hf t : nm) (kernel : bool) (a : arr X)
| VPart (n : nat) (l : letter) (bias : bool) (a : arr X).
Definition tf_leaf (bias : bool) : nm := if bias then str "bias" else str "kernel".
Definition tf_layer (n : nat) (suffix : nm) : nm := str "bert/encoder/layer_" ++ dec n ++ "/"%char :: suffix.
Definition table (u : nm) : nm := u ++ str "_embeddings".
Definition tf_name (v : variable) : nm :=
  match v with
  | VOptim p _ => slashes p
  | VWords _ => str "bert/embeddings/word_embeddings"
  | VTable p u _ => slashes (p ++ [table u])
  | VKernel p _ => slashes (p ++ [str "kernel"])
  | VPlain p c _ => slashes (p ++ [c])
  | VPool b _ => str "bert/pooler/dense/" ++ tf_leaf b
  | VCopy n s _ _ _ _ => tf_layer n s
  | VPart n l b _ => tf_layer n (str "attention/self/" ++ word l ++ "/"%char :: tf_leaf b)
  end.
Definition tf_arr (v : variable) : arr X :=
  match v with VOptim _ a | VWords a | VTable _ _ a | VKernel _ a | VPlain _ _ a | VPool _ a | VCopy _ _ _ _ _ a | VPart _ _ _ a => a end.
Definition tf_file (vs : list variable) : list (nm * arr X) := map (fun v => (tf_name v, tf_arr v)) vs.

(** The entry of a variable. *)
Definition hf (v : variable) : list (@entry X) :=
  match v with
  | VOptim _ _ => []
  | VWords a => [Other [str "bert"; str "embeddings"; str "word_embeddings"; str "weight"] a]
  | VTable p u a => [Other (map rename p ++ [table u; str "weight"]) a]
  | VKernel p a => [Other (map rename p ++ [str "weight"]) (transpose a)]
  | VPlain p c a => [Other (map rename p ++ [rename c]) a]
  | VPool bias a => [Pool (leaf bias) (if bias then a else transpose a)]
  | VCopy n _ s t k a => [Copy n s t (if k then transpose a else a)]
  | VPart n l bias a => [Part n l bias (if bias then a else transpose a)]
  end.
Definition entries (vs : list variable) : list (@entry X) := flat_map hf vs.

(** Components of a name outside layers. *)
Definition component (c : nm) : Prop := free "/" c /\ ~ In c optimizer /\ ~ numbered c.
(** A module that is reached has the parameter the name asks for. *)
Definition asked (m : model X) (p : path) : Prop :=
  forall pre c post, p = pre ++ c :: post -> In c (map fst renaming) -> exists_below m (map rename pre) -> exists_below m (map rename pre ++ [rename c]).
Definition outside (p : path) : Prop := Forall component p /\ ~ inside (str "bert/pooler/dense") (slashes p).
Definition no_words (p q : path) : Prop :=
  ~ inside (str "embeddings/word_embeddings") (slashes p) /\ ~ inside (str "embeddings.word_embeddings") (dots q).
Definition sensible (m : model X) (v : variable) : Prop :=
  match v with
  | VOptim p _ => Forall (free "/") p /\ exists c, In c p /\ In c optimizer
  | VWords _ => exists_below m [str "bert"; str "embeddings"; str "word_embeddings"] -> exists_below m [str "bert"; str "embeddings"; str "word_embeddings"; str "weight"]
  | VTable p u _ => outside (p ++ [table u]) /\ no_words (p ++ [table u]) (map rename p ++ [table u; str "weight"]) /\
      asked m (p ++ [table u]) /\ (exists_below m (map rename p ++ [table u]) -> exists_below m (map rename p ++ [table u; str "weight"]))
  | VKernel p _ => outside (p ++ [str "kernel"]) /\ no_words (p ++ [str "kernel"]) (map rename p ++ [str "weight"]) /\ asked m (p ++ [str "kernel"])
  | VPlain p c _ => outside (p ++ [c]) /\ no_words (p ++ [c]) (map rename p ++ [rename c]) /\ asked m (p ++ [c]) /\
      ~ In (str "kernel") (p ++ [c]) /\ forall u, c <> table u
  | VPool bias _ => exists_below m (pool_path (leaf bias))
  | VCopy _ s h t k _ => In (s, h, t, k) layer_slots
  | VPart _ _ _ _ => True
  end.
End S.
