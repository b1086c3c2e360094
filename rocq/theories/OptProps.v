(** C113: options are the given arguments or their defaults, choose the backend, and reach clients
    and servers so that they can talk, with TLS exactly when it is enabled. *)
From Coq Require Import Ascii String List Arith ZArith Bool.
From Verif Require Import Base FilesModel OptModel OptSpec OptProofs.
Import ListNotations.
Open Scope list_scope.
Local Open Scope nat_scope.

(** ** Values *)
Theorem C113_options : forall params k, NoDup (keys params) ->
  given_or params backend_defaults k (get_attr k (backend_options params)).
Proof. exact options_given. Qed.
Theorem C113_converter : forall params, NoDup (keys params) ->
  exists v, converter_options params = [(str "converter", v)] /\ given_or params [(str "converter", VSkip)] (str "converter") (Some v).
Proof. exact converter_given. Qed.
(** Defaults of the command line are others than those of the class: without it nothing looks for
    the rank of a worker, as -1 is an explicit index. *)
Theorem C113_defaults_refuted : exists k u v, get_attr k (backend_options []) = Some u /\
  get_attr k (backend_options cli_defaults) = Some v /\ u <> v.
Proof. exists (str "server_idx"), (VNum (-1)), VNone. repeat split; try (vm_compute; reflexivity). discriminate. Qed.
Theorem C113_converter_refuted : converter_options [] <> converter_options cli_defaults.
Proof. vm_compute. discriminate. Qed.
(** Exactly five defaults differ. *)
Theorem C113_agree : forall k u v, get_attr k (backend_options []) = Some u -> get_attr k cli_defaults = Some v ->
  (u <> v <-> In k [str "backend"; str "graph_type"; str "servers"; str "server_idx"; str "client_rank"]).
Proof. exact defaults_agree. Qed.
Theorem C113_plain : forall params, NoDup (keys params) -> ~ In (str "enable_ssl") (keys params) ->
  get_attr (str "enable_ssl") (backend_options params) = Some (VFlag false).
Proof. exact plain_default. Qed.
Example C113_cli_example :
  get_attr (str "GE_OMP_NUM_THREADS") (backend_options cli_defaults) = Some (VNum 1) /\
  get_attr (str "GE_OMP_NUM_THREADS") (backend_options []) = None /\
  get_attr (str "num_ge") (backend_options cli_defaults) = Some (VNum 0).
Proof. vm_compute. auto. Qed.
Example C113_options_example :
  get_attr (str "num_ge") (backend_options [(str "num_ge", VNum 3); (str "seed", VNum 7)]) = Some (VNum 3) /\
  get_attr (str "seed") (backend_options [(str "num_ge", VNum 3); (str "seed", VNum 7)]) = Some (VNum 7) /\
  get_attr (str "stream") (backend_options [(str "num_ge", VNum 3)]) = Some (VFlag false) /\
  converter_options [(str "num_ge", VNum 3); (str "converter", VConvert)] = [(str "converter", VConvert)].
Proof. vm_compute. auto. Qed.

(** ** Backends *)
Theorem C113_local : forall o, create_backend o = MLocal ->
  get_attr (str "graph_type") o = Some VLocal /\ (exists d, get_attr (str "data_dir") o = Some d /\ truthy d = true) /\
  (get_attr (str "backend") o = Some VSnark \/ get_attr (str "backend") o = Some (VText (str "snark"))).
Proof. exact local_made. Qed.
Theorem C113_no_data : forall o d, get_attr (str "data_dir") o = Some d -> d = VNone \/ d = VText [] -> create_backend o <> MLocal.
Proof. exact no_data. Qed.
Theorem C113_cli_local : forall d, d <> [] ->
  create_backend (backend_options (set_attr (str "data_dir") (VText d) cli_defaults)) = MLocal.
Proof. exact cli_local. Qed.
Theorem C113_cli_remote : forall d,
  create_backend (backend_options (set_attr (str "graph_type") VRemote (set_attr (str "data_dir") (VText d) cli_defaults))) = MDistributed.
Proof. exact cli_remote. Qed.
(** Names are accepted for the backend but not for the type of the graph, nor for a custom backend;
    the default of the class is no backend. *)
Theorem C113_names_refuted : exists params,
  create_backend (backend_options params) = Unbound /\ get_attr (str "backend") params = Some (VText (str "snark"))
  /\ get_attr (str "graph_type") params = Some (VText (str "local")).
Proof. exists [(str "backend", VText (str "snark")); (str "graph_type", VText (str "local"))]. vm_compute. auto. Qed.
Theorem C113_custom_refuted : exists params, get_attr (str "backend") params = Some (VText (str "custom")) /\
  get_attr (str "custom_backendclass") params = Some (VNum 1) /\ create_backend (backend_options params) = Asserted.
Proof. exists [(str "backend", VText (str "custom")); (str "custom_backendclass", VNum 1)]. vm_compute. auto. Qed.
Theorem C113_no_backend_refuted : create_backend (backend_options []) = BadValue.
Proof. vm_compute. reflexivity. Qed.
Example C113_backend_example :
  create_backend (backend_options cli_defaults) = Asserted /\
  create_backend (backend_options [(str "backend", VCustom); (str "custom_backendclass", VNum 5)]) = MCustom (VNum 5) /\
  create_backend (backend_options [(str "backend", VCustom)]) = NotCallable.
Proof. vm_compute. auto. Qed.

(** ** TLS *)
Theorem C113_skip_tls : forall o, skip o = true -> (client_tls (client_of o) = true <-> enable_ssl o = true /\ cert o <> []).
Proof. exact skip_tls. Qed.
(** Servers started by a backend never use TLS. *)
Theorem C113_started_plain : forall o s, started o = Some s -> server_tls s = false.
Proof. exact started_plain. Qed.
Theorem C113_started : forall o, skip o = false -> exists s, started o = Some s.
Proof. exact started_always. Qed.
Theorem C113_connects_partial : forall o s, started o = Some s -> (connects o s = true <-> cert o = []).
Proof. exact connect_iff. Qed.
Theorem C113_enabled_refuted : exists o s, enable_ssl o = true /\ started o = Some s /\ connects o s = false.
Proof.
  exists {| skip := false; enable_ssl := true; cert := str "pem"; grpc := []; threads := None; queues := None |}. eexists.
  split; [reflexivity|]. split; [reflexivity|]. vm_compute. reflexivity.
Qed.
(** A certificate without enable_ssl switches TLS on in the client. *)
Theorem C113_disabled_refuted : exists o s, enable_ssl o = false /\ started o = Some s /\ client_tls (client_of o) = true /\ connects o s = false.
Proof.
  exists {| skip := false; enable_ssl := false; cert := str "pem"; grpc := []; threads := None; queues := None |}. eexists.
  split; [reflexivity|]. split; [reflexivity|]. vm_compute. auto.
Qed.
Theorem C113_server_key : forall k r c, server_ssl (Some k) (Some r) (Some c) = Some (k, c, r) /\ (server_tls (k, c, r) = true <-> k <> []).
Proof. exact server_key. Qed.
Theorem C113_server_missing : forall k r c, server_ssl (Some k) r c = None <-> r = None \/ c = None.
Proof. exact server_missing. Qed.
Example C113_tls_example :
  connects {| skip := true; enable_ssl := true; cert := str "pem"; grpc := []; threads := None; queues := None |} (str "key", str "pem", str "root") = true /\
  connects {| skip := true; enable_ssl := false; cert := str "pem"; grpc := []; threads := None; queues := None |} (str "key", str "pem", str "root") = false.
Proof. vm_compute. auto. Qed.

(** ** Arguments of clients *)
Theorem C113_arguments_partial : forall o, skip o = true ->
  c_grpc (client_of o) = Some (grpc o) /\ c_threads (client_of o) = threads o /\ c_queues (client_of o) = queues o.
Proof. exact skip_args. Qed.
(** Clients of started servers get none of them. *)
Theorem C113_arguments_refuted : exists o, c_grpc (client_of o) <> Some (grpc o) /\ c_threads (client_of o) <> threads o /\ c_queues (client_of o) <> queues o.
Proof.
  exists {| skip := false; enable_ssl := false; cert := []; grpc := [str "policy"]; threads := Some 4; queues := Some 2 |}.
  vm_compute. repeat split; discriminate.
Qed.

Print Assumptions C113_options.
Print Assumptions C113_converter.
Print Assumptions C113_defaults_refuted.
Print Assumptions C113_converter_refuted.
Print Assumptions C113_local.
Print Assumptions C113_cli_local.
Print Assumptions C113_cli_remote.
Print Assumptions C113_names_refuted.
Print Assumptions C113_custom_refuted.
Print Assumptions C113_no_backend_refuted.
Print Assumptions C113_skip_tls.
Print Assumptions C113_started_plain.
Print Assumptions C113_started.
Print Assumptions C113_connects_partial.
Print Assumptions C113_enabled_refuted.
Print Assumptions C113_disabled_refuted.
Print Assumptions C113_server_key.
Print Assumptions C113_server_missing.
Print Assumptions C113_arguments_partial.
Print Assumptions C113_arguments_refuted.
Print Assumptions C113_agree.
Print Assumptions C113_plain.
Print Assumptions C113_no_data.
