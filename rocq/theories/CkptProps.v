(** C100: loading a checkpoint into the TwinBERT encoder. *)
From Verif Require Import Base FilesModel CkptModel CkptSpec CkptProofs.
From Coq Require Import Ascii String.
Import ListNotations.
Open Scope list_scope.

(** The names and values extract_bert_by_prefix returns, for any prefixes and any dicts. *)
Theorem C100_extract : forall V (own ckpt : list (nm * V)) srcs dsts,
  srcs <> [] -> Forall plain srcs -> dsts <> [] -> Forall plain dsts -> List.length srcs <= List.length dsts -> NoDup (names own) ->
  exists r, extract own ckpt (joined srcs) (joined dsts) = Ok r
    /\ forall k v, dget k r = Some v <->
         (kept (combine srcs dsts) own ckpt k /\ In (k, v) own)
         \/ (~ kept (combine srcs dsts) own ckpt k /\ last_read (combine srcs dsts) ckpt k v).
Proof. exact @extract_ok. Qed.
Print Assumptions C100_extract.

(** Loading: when it succeeds and what every parameter is afterwards. *)
Theorem C100_load : forall V fits (own ckpt : list (nm * V)) q p pairs, plain p -> pairs_of q p pairs -> NoDup (names own) ->
  (forall r, load_other fits own ckpt p (Some q) = Ok r <->
     loadable fits pairs own ckpt /\ names r = names own /\ forall k v, In (k, v) r <-> wanted pairs own ckpt k v)
  /\ (~ loadable fits pairs own ckpt -> load_other fits own ckpt p (Some q) = Fail EAssert)
  /\ (loadable fits pairs own ckpt -> exists r, load_other fits own ckpt p (Some q) = Ok r).
Proof. exact @load_other_ok. Qed.
Print Assumptions C100_load.

(** Every parameter is that of the checkpoint, or unchanged when the checkpoint has none.
    Missing for the full statement: a name may hold the prefix anywhere, so that two names of
    the checkpoint can give one parameter (C100_collision_refuted). *)
Theorem C100_intended_partial : forall V fits (own ckpt r : list (nm * V)) q p pairs, plain p -> pairs_of q p pairs ->
  NoDup (names own) -> NoDup (names ckpt) ->
  unambiguous pairs own ckpt -> load_other fits own ckpt p (Some q) = Ok r ->
  forall k, (forall key v, In (key, v) ckpt -> reads pairs key k -> In (k, v) r)
         /\ (forall v, In (k, v) own -> (forall key, In key (names ckpt) -> ~ reads pairs key k) -> In (k, v) r).
Proof. exact @load_intended. Qed.
Print Assumptions C100_intended_partial.

(** A parameter outside the three modules makes every checkpoint unloadable: so does a second
    pooler. *)
Theorem C100_unreachable : forall V fits (own ckpt : list (nm * V)) q p k, plain p -> NoDup (names own) -> In k (names own) ->
  ~ begins (str "bert_encoder") k -> ~ begins (str "poolers.0") k -> ~ begins (str "downscale") k ->
  load_other fits own ckpt p (Some q) = Fail EAssert.
Proof. exact @load_unreachable. Qed.
Print Assumptions C100_unreachable.

(** A checkpoint of TwinBERT needs the side in the configuration. *)
Theorem C100_side : forall V fits (own ckpt : list (nm * V)) p, inside (str "twinbert") p -> load_other fits own ckpt p None = Fail EIndex.
Proof. exact @load_no_query. Qed.
Print Assumptions C100_side.

(** Without a prefix the names and shapes have to agree; without a file nothing changes. *)
Theorem C100_strict : forall V fits (own d r : list (nm * V)) q, NoDup (names own) -> NoDup (names d) ->
  (load_ckpt fits own (Some d) None q = Ok r <->
   (forall k, In k (names d) <-> In k (names own)) /\ (forall k v, In (k, v) d -> fits k v = true)
   /\ names r = names own /\ (forall k v, In (k, v) r <-> In (k, v) d))
  /\ (forall p, load_ckpt fits own None p q = Ok own)
  /\ (forall p, load_ckpt fits own (Some d) (Some p) q = load_other fits own d p q).
Proof. intros V fits own d r q N1 N2; split; [exact (load_strict_ok fits own d r N1 N2) | split; reflexivity]. Qed.
Print Assumptions C100_strict.

(** ** Cases *)
Definition any : nm -> nat -> bool := fun _ _ => true.
Definition encoder_params : list (nm * nat) :=
  [(str "bert_encoder.embeddings.weight", 1); (str "bert_encoder.layer.0.weight", 2); (str "poolers.0.query", 3)].
Definition twin_file : list (nm * nat) :=
  [(str "module.twinbert.qbert_sentencoder.embeddings.weight", 11); (str "module.twinbert.qbert_sentencoder.layer.0.weight", 12);
   (str "module.twinbert.kbert_sentencoder.embeddings.weight", 21); (str "module.twinbert.kbert_sentencoder.layer.0.weight", 22);
   (str "module.twinbert.kpooler.query", 23); (str "module.crossing.weight", 31)].
Example C100_case :
  load_other any encoder_params twin_file (str "twinbert") (Some true)
  = Ok [(str "bert_encoder.embeddings.weight", 11); (str "bert_encoder.layer.0.weight", 12); (str "poolers.0.query", 3)]
  /\ load_other any encoder_params twin_file (str "twinbert") (Some false)
  = Ok [(str "bert_encoder.embeddings.weight", 21); (str "bert_encoder.layer.0.weight", 22); (str "poolers.0.query", 23)].
Proof. vm_compute. split; reflexivity. Qed.
Example C100_case_bert :
  load_other any encoder_params
    [(str "bert.embeddings.weight", 11); (str "bert.layer.0.weight", 12); (str "cls.bias", 13)] (str "bert") (Some true)
  = Ok [(str "bert_encoder.embeddings.weight", 11); (str "bert_encoder.layer.0.weight", 12); (str "poolers.0.query", 3)].
Proof. vm_compute. reflexivity. Qed.

(** ** Refuted *)
(** The prefix is looked for anywhere in the name: of two encoders in one file the last one is
    loaded without an error. *)
Theorem C100_collision_refuted : exists own ckpt r,
  load_other any own ckpt (str "bert") (Some true) = Ok r /\ NoDup (names ckpt)
  /\ In (str "bert.weight", 1) ckpt /\ begins (str "bert") (str "bert.weight")
  /\ r = [(str "bert_encoder.weight", 2)].
Proof.
  exists [(str "bert_encoder.weight", 0)], [(str "bert.weight", 1); (str "teacher.albert.weight", 2)], [(str "bert_encoder.weight", 2)].
  split; [vm_compute; reflexivity|]. split.
  { repeat constructor; cbn; intros H; repeat (destruct H as [H|H]; [discriminate H|]); exact H. }
  split; [left; reflexivity|]. split; [exists (str ".weight"); reflexivity | reflexivity].
Qed.
Print Assumptions C100_collision_refuted.
(** A model with two poolers cannot be started from a BERT checkpoint that has no pooler. *)
Theorem C100_poolers_refuted : exists own ckpt,
  load_other any own ckpt (str "bert") (Some true) = Fail EAssert
  /\ names own = [str "bert_encoder.weight"; str "poolers.0.query"; str "poolers.1.query"] /\ names ckpt = [str "bert.weight"].
Proof.
  exists [(str "bert_encoder.weight", 0); (str "poolers.0.query", 0); (str "poolers.1.query", 0)], [(str "bert.weight", 1)].
  vm_compute. repeat split; reflexivity.
Qed.
Print Assumptions C100_poolers_refuted.
(** Nor can a model without the down scaling layer be started from one that has it. *)
Theorem C100_downscale_refuted : exists own ckpt,
  load_other any own ckpt (str "twinbert") (Some true) = Fail EAssert
  /\ names own = [str "bert_encoder.weight"; str "poolers.0.query"]
  /\ names ckpt = [str "twinbert.qbert_sentencoder.weight"; str "twinbert.qpooler.query"; str "twinbert.qdownscale.weight"].
Proof.
  exists [(str "bert_encoder.weight", 0); (str "poolers.0.query", 0)],
    [(str "twinbert.qbert_sentencoder.weight", 1); (str "twinbert.qpooler.query", 1); (str "twinbert.qdownscale.weight", 1)].
  vm_compute. repeat split; reflexivity.
Qed.
Print Assumptions C100_downscale_refuted.
(** A bar in the configured prefix is taken for a separator: four sources for three targets. *)
Theorem C100_bar_refuted : exists own ckpt,
  load_other any own ckpt (str "bert|encoder") (Some true) = Fail EIndex
  /\ names own = [str "bert_encoder.weight"; str "poolers.0.weight"] /\ names ckpt = [str "bert|encoder.weight"].
Proof.
  exists [(str "bert_encoder.weight", 0); (str "poolers.0.weight", 0)], [(str "bert|encoder.weight", 1)].
  vm_compute. repeat split; reflexivity.
Qed.
Print Assumptions C100_bar_refuted.
