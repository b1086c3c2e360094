(** C76: datasets. *)
From Coq Require Import String Permutation.
From Verif Require Import Base IterModel IterProofs DatasetModel DatasetSpec DatasetProofs.
Local Open Scope string_scope.
Local Open Scope list_scope.
Local Open Scope nat_scope.

(** A torch dataset over a FileNodeSampler, without shuffling: over all W ranks and all workers of
    their DataLoaders every number of the files is delivered once per epoch, in whole batches. *)
Theorem C76_cover_partial : forall files perm o W D kwargs fill fuel,
  plain kwargs fill -> unsplit D kwargs -> 0 < o_batch o -> 0 < W <= List.length files ->
  (forall w, w < W -> share files W w <> []) -> o_epochs o * List.length (List.concat files) < fuel ->
  exists batches pad,
    (forall w info, w < W -> In info (loader D) -> process files perm (rank o w W) info kwargs fuel = Ok (Some (batches w info))) /\
    (forall w info b, w < W -> In info (loader D) -> In b (batches w info) -> List.length b = o_batch o) /\
    Permutation (flat_map (fun w => List.concat (flat_map (batches w) (loader D))) (seq 0 W))
                (List.concat (repeat (List.concat files) (o_epochs o)) ++ repeat fill pad) /\
    pad <= W * (o_batch o - 1).
Proof. exact cover. Qed.
Print Assumptions C76_cover_partial.

(** Every further iteration over a torch dataset starts from the same sampler. *)
Theorem C76_iterations : forall params o info n t t1,
  torch_iter params o info t = Ok t1 ->
  exists t2, iterations params o info (S n) t = Ok t2 /\ t_sampler t2 = t_sampler t1 /\
    (forall k, lookup k (t_kwargs t2) = lookup k (t_kwargs t1)).
Proof. exact iterations_same. Qed.
Print Assumptions C76_iterations.

(** num_workers, worker_index, batch_size and epochs of the dataset reach every sampler that has a
    parameter of that name. *)
Theorem C76_wiring : forall o params kwargs graph e k,
  In params all_samplers -> (forall k, In k own_names -> lookup k kwargs = None) ->
  init_sampler params graph kwargs (("graph", VGraph) :: attributes o) = Ok e ->
  In k shared -> In k (map p_name params) -> lookup k e = lookup k (attributes o).
Proof. exact wiring. Qed.
Print Assumptions C76_wiring.

(** A keyword argument of the dataset reaches the parameter of that name, whatever attributes the
    dataset has. *)
Theorem C76_given : forall params kwargs graph attrs e p v,
  In params all_samplers -> init_sampler params graph kwargs attrs = Ok e ->
  In p params -> p_graph p = false -> lookup (p_name p) kwargs = Some v -> lookup (p_name p) e = Some v.
Proof. exact given. Qed.
Print Assumptions C76_given.
Example C76_given_example : exists e,
  init_sampler csv_node None [("batch_size", num 7); ("sample_file", VOther)] [("batch_size", num 3); ("epoch", num 5)] = Ok e /\
  lookup "batch_size" e = Some (num 7) /\ lookup "epoch" e = Some (num 5).
Proof. eexists. vm_compute. auto. Qed.

(** A tf.data dataset over a sampler that creates iterators: every pass is complete. *)
Theorem C76_tf_passes_partial : forall S B (next : S -> option (B * S)) s0 fuel bs k,
  drain next fuel s0 = Some bs -> bs <> [] -> tf_fresh next s0 fuel k = Some (repeat bs k).
Proof. exact @tf_fresh_passes. Qed.
Print Assumptions C76_tf_passes_partial.

(** Over a sampler that is its own iterator: the first batch is never delivered and later passes
    are empty. *)
Theorem C76_tf_first_batch_refuted : forall S B (next : S -> option (B * S)) s0 fuel b bs k,
  drain next fuel s0 = Some (b :: bs) -> tf_self next s0 fuel (Datatypes.S k) = Some (bs :: repeat [] k).
Proof. exact @tf_self_passes. Qed.
Print Assumptions C76_tf_first_batch_refuted.

(** ** Examples *)
Definition kw : env := [("sample_files", VOther); ("backfill_id", VNum 99)].
Definition fs : list (list Z) := [[1; 2; 3]; [4]; [5; 6]]%Z.
Definition opts : options := Options 1 0 2 1 false.
Example C76_kw : plain kw 99.
Proof.
  unfold plain. refine (conj _ (conj _ (conj _ (conj _ _)))); cbn; auto. intros k H.
  repeat (destruct H as [<-|H]; [reflexivity|]). destruct H.
Qed.
(** Two ranks with two loader workers each. *)
Example C76_processes :
  map (fun wi => process fs [] (rank opts (fst wi) 2) (Some (snd wi, 2)) kw 20) [(0, 0); (0, 1); (1, 0); (1, 1)] =
  [Ok (Some [[1; 2]; [6; 99]]); Ok (Some [[3; 5]]); Ok (Some [[4; 99]]); Ok (Some [])]%Z.
Proof. vm_compute. reflexivity. Qed.
Example C76_csv :
  drain (csv_next [1; 2; 3; 4; 5] 2 1 0) 10 0 = Some [[1; 2]; [3; 4]; [5]] /\
  tf_self (csv_next [1; 2; 3; 4; 5] 2 1 0) 0 10 2 = Some [[[3; 4]; [5]]; []].
Proof. vm_compute. auto. Qed.
Example C76_sampler :
  init_sampler ge_node (Some VGraph) [("node_types", VNum 3)] (("graph", VGraph) :: attributes (Options 4 1 32 2 true)) =
  Ok [("graph", VGraph); ("node_types", VNum 3); ("batch_size", VNum 32); ("epochs", VNum 2); ("sample_num", VNum (-1));
      ("num_workers", VNum 4); ("strategy", VOther); ("data_parallel_num", VNum 1); ("data_parallel_index", VNum 0)].
Proof. vm_compute. reflexivity. Qed.

(** ** What is false of the code *)
(** A split over ranks given as data_parallel_num and data_parallel_index is forgotten when the
    DataLoader has workers: both ranks deliver everything. *)
Definition split (i : nat) : env := ("data_parallel_num", num 2) :: ("data_parallel_index", num i) :: kw.
Theorem C76_split_refuted :
  process fs [] opts None (split 0) 20 = Ok (Some [[1; 2]; [5; 6]])%Z /\
  process fs [] opts None (split 1) 20 = Ok (Some [[3; 4]])%Z /\
  process fs [] opts (Some (0, 1)) (split 0) 20 = Ok (Some [[1; 2]; [3; 4]; [5; 6]])%Z /\
  process fs [] opts (Some (0, 1)) (split 1) 20 = Ok (Some [[1; 2]; [3; 4]; [5; 6]])%Z.
Proof. vm_compute. auto. Qed.
Print Assumptions C76_split_refuted.
(** CSVNodeSampler calls its number of epochs "epoch": that of the dataset does not arrive. *)
Theorem C76_csv_epochs_refuted : exists e,
  init_sampler csv_node (Some VGraph) [("sample_file", VOther)] (("graph", VGraph) :: attributes (Options 1 0 2 5 false)) = Ok e /\
  lookup "epoch" e = Some (num 1).
Proof. eexists. split; vm_compute; reflexivity. Qed.
Print Assumptions C76_csv_epochs_refuted.
(** len() of a torch dataset raises before the first iteration. *)
Theorem C76_len_refuted : forall len kwargs, torch_len len (Torch kwargs None) = Fail EAssert.
Proof. reflexivity. Qed.
Print Assumptions C76_len_refuted.
(** A rank whose files are empty raises. *)
Theorem C76_empty_share_refuted : process [[1; 2]; []]%Z [] (rank opts 1 2) None kw 20 = Fail EAssert.
Proof. vm_compute. reflexivity. Qed.
Print Assumptions C76_empty_share_refuted.
(** With shuffle every process draws its own permutation: numbers are delivered twice or never. *)
Theorem C76_shuffle_refuted : exists perm0 perm1,
  Permutation perm0 (seq 0 2) /\ Permutation perm1 (seq 0 2) /\
  process [[5; 6]]%Z perm0 (Options 1 0 1 1 false) (Some (0, 2)) (("shuffle", VBool true) :: kw) 20 = Ok (Some [[5]])%Z /\
  process [[5; 6]]%Z perm1 (Options 1 0 1 1 false) (Some (1, 2)) (("shuffle", VBool true) :: kw) 20 = Ok (Some [[5]])%Z.
Proof.
  exists [0; 1], [1; 0]. refine (conj (Permutation_refl _) (conj (perm_swap 0 1 []) _)). vm_compute. auto.
Qed.
Print Assumptions C76_shuffle_refuted.
