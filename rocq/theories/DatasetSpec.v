(** What users expect of a dataset. *)
From Coq Require Import String.
From Verif Require Import Base DatasetModel.
Local Open Scope string_scope.

(** Keyword arguments that name none of the parameters of the dataset itself (Python binds those to
    the parameters), with the files and neither shuffle nor drop_last. *)
Definition own_names : list string :=
  ["num_workers"; "worker_index"; "batch_size"; "epochs"; "enable_prefetch"; "sampler_class"; "query_fn"; "backend"; "collate_fn"].
Definition plain (kwargs : env) (fill : Z) : Prop :=
  (forall k, In k own_names -> lookup k kwargs = None) /\
  lookup "sample_files" kwargs = Some VOther /\
  (lookup "shuffle" kwargs = None \/ lookup "shuffle" kwargs = Some (VBool false)) /\
  (lookup "drop_last" kwargs = None \/ lookup "drop_last" kwargs = Some (VBool false)) /\
  (lookup "backfill_id" kwargs = Some (VNum fill) \/ lookup "backfill_id" kwargs = None /\ fill = (-1)%Z).

(** The workers of a DataLoader: the main process, or [D] processes. *)
Definition loader (D : nat) : list (option (nat * nat)) :=
  match D with O => [None] | _ => map (fun d => Some (d, D)) (seq 0 D) end.
(** Without loader workers the user has not asked for a split either. *)
Definition unsplit (D : nat) (kwargs : env) : Prop :=
  D = 0 -> lookup "data_parallel_num" kwargs = None /\ lookup "data_parallel_index" kwargs = None.
