(** Options of the graph engine: backends/options.py, snark/converter/options.py, defaults of the
    command line in graph_engine/utils.py, create_backend of graph_dataset.py 139-163, and what
    SnarkDistributedBackend of backends/snark/client.py 48-137 passes on to clients and servers
    about TLS and gRPC (snark/distributed.py 66-110, snark/server.py 134-152, py_graph.cc 281-287,
    py_server.cc, server.cc 133-140).

    An object is a list of its attributes; arguments are the attributes of a Namespace.  Names of
    arguments are names of options of argparse, so they are none of Python's own attributes and
    none of them is converter_options.  Not modelled: which servers are started and waited for
    (SetupModel, SyncModel), contents of certificates. *)
From Coq Require Import Ascii String List Arith ZArith Bool.
From Verif Require Import Base FilesModel.
Import ListNotations.
Open Scope list_scope.

Inductive val :=
| VNone | VNum (z : Z) | VFlag (b : bool) | VText (s : nm) | VTexts (l : list nm)
| VLocal | VRemote               (* GraphType *)
| VSnark | VCustom               (* BackendType *)
| VSkip | VConvert               (* DataConverterType.SKIP, LOCAL *)
| VMemory.                       (* PartitionStorageType.memory *)
Definition attrs := list (nm * val).
(** setattr and getattr. *)
Fixpoint set_attr (k : nm) (v : val) (a : attrs) : attrs :=
  match a with [] => [(k, v)] | (j, u) :: t => if nm_eqb k j then (k, v) :: t else (j, u) :: set_attr k v t end.
Fixpoint get_attr (k : nm) (a : attrs) : option val :=
  match a with [] => None | (j, u) :: t => if nm_eqb k j then Some u else get_attr k t end.
Definition has_attr (k : nm) (a : attrs) : bool := match get_attr k a with Some _ => true | None => false end.

(** BackendOptions, options.py 27-52. *)
Definition backend_defaults : attrs :=
  [(str "backend", VNone); (str "data_dir", VText []); (str "graph_type", VRemote); (str "model_dir", VText []);
   (str "ge_start_timeout", VNum 30); (str "num_ge", VNum 0); (str "partitions", VTexts []); (str "servers", VTexts []);
   (str "server_idx", VNum (-1)); (str "client_rank", VNum (-1)); (str "skip_ge_start", VFlag false); (str "sync_dir", VText []);
   (str "enable_ssl", VFlag false); (str "ssl_cert", VText []); (str "storage_type", VMemory); (str "config_path", VText []);
   (str "stream", VFlag false); (str "grpc_options", VTexts []); (str "num_threads", VNone); (str "num_cq_per_thread", VNone);
   (str "custom_backendclass", VNone)].
(** ConverterOptions, 32-37 of converter/options.py. *)
Definition converter_defaults : attrs := [(str "converter", VSkip)].
(** 54-55: every argument is set. *)
Definition backend_options (params : attrs) : attrs :=
  fold_left (fun a p => set_attr (fst p) (snd p) a) params backend_defaults.
(** Only known arguments are set. *)
Definition converter_options (params : attrs) : attrs :=
  fold_left (fun a p => if has_attr (fst p) a then set_attr (fst p) (snd p) a else a) params converter_defaults.
(** Defaults of define_param_graph_engine, utils.py 11-103. *)
Definition cli_defaults : attrs :=
  [(str "graph_type", VLocal); (str "data_dir", VText []); (str "enable_ssl", VFlag false); (str "ssl_cert", VText []);
   (str "backend", VSnark); (str "servers", VText []); (str "converter", VConvert); (str "num_ge", VNum 0);
   (str "ge_start_timeout", VNum 30); (str "GE_OMP_NUM_THREADS", VNum 1); (str "server_idx", VNone); (str "client_rank", VNone);
   (str "skip_ge_start", VFlag false); (str "sync_dir", VText [])].

(** ** create_backend *)
Inductive made := MLocal | MDistributed | MCustom (c : val)
| NoAttribute | BadValue | Asserted | Unbound | NotCallable.
Definition truthy (v : val) : bool :=
  match v with
  | VNone => false | VNum z => negb (z =? 0)%Z | VFlag b => b
  | VText s => match s with [] => false | _ => true end | VTexts l => match l with [] => false | _ => true end
  | _ => true
  end.
Definition create_backend (o : attrs) : made :=
  match get_attr (str "backend") o, get_attr (str "graph_type") o, get_attr (str "data_dir") o, get_attr (str "custom_backendclass") o with
  | Some b, Some gt, Some d, Some c =>
      let snark :=
        match gt with
        | VLocal => if truthy d then MLocal else Asserted
        | VRemote => MDistributed
        | _ => Unbound
        end in
      match b with
      | VCustom => match c with VNone => NotCallable | _ => MCustom c end
      | VSnark => snark
      | VText s => if nm_eqb s (str "snark") then snark else if nm_eqb s (str "custom") then Asserted else BadValue
      | _ => BadValue
      end
  | _, _, _, _ => NoAttribute
  end.

(** ** SnarkDistributedBackend *)
Record setup := { skip : bool; enable_ssl : bool; cert : nm; grpc : list nm; threads : option nat; queues : option nat }.
(** Arguments of DistributedClient, client.py 56-80 and 128-137. *)
Record client := { c_cert : option nm; c_grpc : option (list nm); c_threads : option nat; c_queues : option nat }.
Definition client_of (o : setup) : client :=
  if skip o then {| c_cert := if enable_ssl o then Some (cert o) else None; c_grpc := Some (grpc o); c_threads := threads o; c_queues := queues o |}
  else {| c_cert := Some (cert o); c_grpc := None; c_threads := None; c_queues := None |}.
(** CreateRemoteClient, py_graph.cc 281-287. *)
Definition client_tls (c : client) : bool := match c_cert c with None => false | Some s => negb (length s =? 0) end.
(** Server, distributed.py 88-94 and server.py 134-141: key, certificate and root that StartServer gets, empty for nullptr;
    None is TypeError of bytes(None). *)
Definition server_ssl (key root crt : option nm) : option (nm * nm * nm) :=
  match key with
  | None => Some ([], [], [])
  | Some k => match crt, root with Some c, Some r => Some (k, c, r) | _, _ => None end
  end.
(** server.cc 133-140. *)
Definition server_tls (s : nm * nm * nm) : bool := let '(k, _, _) := s in negb (length k =? 0).
(** The server of a backend, client.py 111-126: ssl_cert only. *)
Definition started (o : setup) : option (nm * nm * nm) := if skip o then None else server_ssl None None (Some (cert o)).
(** A channel works if both ends use TLS or both do not. *)
Definition connects (o : setup) (s : nm * nm * nm) : bool := Bool.eqb (client_tls (client_of o)) (server_tls s).
