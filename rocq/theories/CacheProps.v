(** C104: the cache of downloaded files.

    Full statement: get_from_cache answers the path of a file that has what the server has for the url,
    downloads it only when the cache does not have it, and several processes, interruptions and changes
    on the server do not harm; names of different urls and versions differ. *)
From Verif Require Import Base FilesModel CacheModel CacheSpec CacheProofs.
From Coq Require Import Ascii String.
Import ListNotations.
Open Scope list_scope.

(** ** Names *)
Theorem C104_names : forall sha, hexadecimal sha -> forall u e u' e',
  no_collision sha (fun x => x = u \/ x = u') -> no_collision sha (fun x => truthy e = Some x \/ truthy e' = Some x) ->
  url_to_filename sha u e = url_to_filename sha u' e' -> u = u' /\ truthy e = truthy e'.
Proof. exact names_apart. Qed.
Print Assumptions C104_names.
Theorem C104_meta : forall sha, hexadecimal sha -> forall u e u' e',
  meta_path (url_to_filename sha u e) <> url_to_filename sha u' e'.
Proof. exact meta_name. Qed.
Print Assumptions C104_meta.
Example C104_names_example : url_to_filename toy (str "ab") (Some (str "c")) = str "6162.63" /\ url_to_filename toy (str "ab") None = str "6162" /\
  hexadecimal toy /\ no_collision toy (fun _ => True).
Proof. split; [reflexivity|split; [reflexivity|split; [exact toy_hex|]]]. intros a b _ _. apply toy_inj. Qed.

(** ** One call *)
(** The file is there: no download, nothing changes. *)
Theorem C104_hit : forall sha w u e d, head w u = Value e -> d (url_to_filename sha u e) <> None ->
  get_from_cache sha w u d = (Stop (Value (url_to_filename sha u e)), d, []).
Proof. exact call_hit. Qed.
Print Assumptions C104_hit.
(** It is not: one download, the file and its metadata appear, nothing else changes. *)
Theorem C104_miss : forall sha w u e b d, head w u = Value e -> d (url_to_filename sha u e) = None -> get_body w u = Value b ->
  exists d', get_from_cache sha w u d = (Stop (Value (url_to_filename sha u e)), d', [u]) /\ holds sha d' u e b /\
    forall n, n <> url_to_filename sha u e -> n <> meta_path (url_to_filename sha u e) -> d' n = d n.
Proof. exact call_miss. Qed.
Print Assumptions C104_miss.
(** Errors of the servers reach the caller and leave no file. *)
Theorem C104_head_error : forall sha w u x d, head w u = Raised x -> get_from_cache sha w u d = (Stop (Raised x), d, []).
Proof. exact call_head. Qed.
Print Assumptions C104_head_error.
Theorem C104_get_error : forall sha w u e x d, head w u = Value e -> d (url_to_filename sha u e) = None -> get_body w u = Raised x ->
  get_from_cache sha w u d = (Stop (Raised x), d, [u]).
Proof. exact call_get. Qed.
Print Assumptions C104_get_error.

Definition site (status : nat) (etag : option nm) (gstatus : nat) (body : list (list Z)) : server :=
  Server (fun _ => Page status etag gstatus body) (fun _ => inl (str "404")).
Definition bucket (l : list (nm * nm * nm * list Z)) : server :=
  Server (fun _ => Page 404 None 404 [])
    (fun bk => match find (fun o => nm_eqb (fst (fst (fst o))) (fst bk) && nm_eqb (snd (fst (fst o))) (snd bk)) l with
               | Some (_, _, etag, body) => inr (etag, body)
               | None => inl (str "404") end).
Definition a_url : nm := str "https://h/f".
Definition b_url : nm := str "s3://b/k".
Example C104_call_example :
  let '(p, d, g) := get_from_cache toy (site 200 (Some (str "v")) 200 [[1]; []; [2; 3]]%Z) a_url nothing in
  p = Stop (Value (url_to_filename toy a_url (Some (str "v")))) /\ d (url_to_filename toy a_url (Some (str "v"))) = Some (Bytes [1; 2; 3]%Z) /\
  filename_to_url d (url_to_filename toy a_url (Some (str "v"))) = Value (a_url, Some (str "v")) /\ g = [a_url] /\
  get_from_cache toy (site 200 (Some (str "v")) 200 [[9]]%Z) a_url d = (p, d, []).
Proof. vm_compute. repeat split. Qed.
Example C104_error_example : get_from_cache toy (site 500 None 200 []) a_url nothing = (Stop (Raised HeadFailed), nothing, []) /\
  get_from_cache toy (bucket []) b_url nothing = (Stop (Raised NotFound), nothing, []) /\
  fst (fst (get_from_cache toy (bucket [(str "b", str "k", str "v", [7]%Z)]) b_url nothing)) = Stop (Value (url_to_filename toy b_url (Some (str "v")))).
Proof. vm_compute. repeat split. Qed.

(** ** Calls one after the other *)
(** Servers may change between calls.  When an etag names one version, every call gives the version of
    the server at that time, and all files stay right. *)
Theorem C104_sequence : forall sha, hexadecimal sha -> forall content KU KV, no_collision sha KU -> no_collision sha KV ->
  forall l, known content KU KV l -> forall d, good sha content KU KV d ->
  exists ps d' g, calls sha l d = (ps, d', g) /\ good sha content KU KV d' /\ Forall2 (fine sha content d') l ps /\
    (forall u v, KU u -> KV v -> v <> [] -> holds sha d u (Some v) (content u v) -> holds sha d' u (Some v) (content u v)).
Proof. exact sequence. Qed.
Print Assumptions C104_sequence.
Example C104_sequence_example :
  let v1 := site 200 (Some (str "1")) 200 [[1]%Z] in let v2 := site 200 (Some (str "2")) 200 [[2]%Z] in
  let '(ps, d, g) := calls toy [(v1, a_url); (v2, a_url); (v1, a_url)] nothing in
  map (fun p => match p with Stop (Value n) => d n | _ => None end) ps = [Some (Bytes [1]); Some (Bytes [2]); Some (Bytes [1])]%Z /\ g = [a_url; a_url].
Proof. vm_compute. split; reflexivity. Qed.

(** ** Many processes *)
(** Any number of processes and any interleaving, without crashes and changes on the servers: when a
    call has answered and nobody writes files of its url any more, the file is complete and right.
    Missing for the full statement: the answer itself may come before that, see below. *)
Theorem C104_settled_partial : forall sha urls w, hexadecimal sha -> no_collision sha (fun u => exists i, u = urls i) ->
  forall d sched i p, (forall i, clean sha w d (urls i)) -> steady w sched ->
  let s := run sha urls sched (start d) in
  procs s i = Stop (Value p) -> (forall j, urls j = urls i -> writing (procs s j) = false) ->
  exists e b, head w (urls i) = Value e /\ get_body w (urls i) = Value b /\ p = url_to_filename sha (urls i) e /\ holds sha (files s) (urls i) e b.
Proof. exact settled. Qed.
Print Assumptions C104_settled_partial.
(** Every call ends. *)
Theorem C104_ends : forall sha B, exists rank : pc -> nat, forall w u p d p' d' g, (forall b, get_body w u = Value b -> List.length b <= B) ->
  ended p = false -> act sha w u p d = (p', d', g) -> rank p' < rank p.
Proof. exact ranked. Qed.
Print Assumptions C104_ends.
Definition two : server := site 200 (Some (str "v")) 200 [[1; 2]]%Z.
Definition seqs (l : list nat) : list (nat * server * bool) := map (fun i => (i, two, false)) l.
Definition v_name : nm := url_to_filename toy a_url (Some (str "v")).
(** Both processes miss the file and both write it: it is right when both have finished. *)
Example C104_settled_example :
  let s := run toy (fun _ => a_url) (seqs ([0; 0; 1; 1; 0; 1; 0; 0; 1; 0; 1; 1; 0] ++ [0; 0; 1; 1; 1; 1])) (start nothing) in
  procs s 0 = Stop (Value v_name) /\ procs s 1 = Stop (Value v_name) /\ files s v_name = Some (Bytes [1; 2]%Z) /\ gets s = [a_url; a_url].
Proof. vm_compute. repeat split. Qed.

(** ** Choosing, buckets and errors *)
Theorem C104_dispatch : forall local s r, s <> [] -> (forall c, In c s -> In c scheme_letters) ->
  cached_path local (s ++ str ":" ++ r) =
    if existsb (nm_eqb (map small s)) [str "http"; str "https"; str "s3"] then FromCache
    else if local (s ++ str ":" ++ r) then Local else Refuse BadValue.
Proof. exact dispatch_letters. Qed.
Print Assumptions C104_dispatch.
Theorem C104_dispatch_other : forall local s c t r, In c (s ++ t) -> ~ In c scheme_letters -> ~ In ":"%char (s ++ t) ->
  cached_path local (s ++ t ++ str ":" ++ r) = if local (s ++ t ++ str ":" ++ r) then Local else Refuse NotFound.
Proof. exact dispatch_other. Qed.
Print Assumptions C104_dispatch_other.
(** Requests to web servers, in any case of the scheme. *)
Theorem C104_http : forall w s r, In (map small s) [str "http"; str "https"] -> let url := s ++ str "://" ++ r in
  head w url = (if head_status (pages w url) =? 200 then Value (head_etag (pages w url)) else Raised HeadFailed) /\
  get_body w url = Value (List.concat (get_chunks (pages w url))).
Proof. exact http_case. Qed.
Print Assumptions C104_http.
(** Without the file or its metadata the url is not known. *)
Theorem C104_no_meta : forall d name, d name = None \/ d (meta_path name) = None -> filename_to_url d name = Raised NotFound.
Proof. exact no_meta. Qed.
Print Assumptions C104_no_meta.
Theorem C104_dispatch_local : forall local s, ~ In ":"%char s -> cached_path local s = if local s then Local else Refuse NotFound.
Proof. exact dispatch_local. Qed.
Print Assumptions C104_dispatch_local.
Theorem C104_split_partial : forall bucket key, bucket <> [] -> plain (str "/?#") bucket -> plain (str "?#") key ->
  split_s3_path (str "s3://" ++ bucket ++ str "/" ++ key) = Value (bucket, key).
Proof. exact s3_split. Qed.
Print Assumptions C104_split_partial.
Theorem C104_bare : forall bucket, plain (str "/?#") bucket -> split_s3_path (str "s3://" ++ bucket) = Raised BadValue.
Proof. exact s3_bare. Qed.
Print Assumptions C104_bare.
Theorem C104_code : forall n, client_error (dec n) = if n =? 404 then NotFound else Library.
Proof. exact code_number. Qed.
Print Assumptions C104_code.
Example C104_url_example : cached_path (fun _ => false) a_url = FromCache /\ cached_path (fun _ => true) (str "C:\x") = Local /\
  cached_path (fun _ => false) (str "ftp://h/f") = Refuse BadValue /\ cached_path (fun _ => false) (str "dir/f") = Refuse NotFound /\
  split_s3_path (str "s3://bucket/a/b.txt") = Value (str "bucket", str "a/b.txt") /\ split_s3_path (str "s3:///b") = Raised BadValue /\
  client_error (str "403") = Library.
Proof. vm_compute. repeat split. Qed.

(** ** What does not hold *)
(** A process that dies while it copies leaves the beginning of the file, and later calls answer it. *)
Theorem C104_interrupted_refuted : exists sched,
  let s := run toy (fun _ => a_url) sched (start nothing) in
  procs s 1 = Stop (Value v_name) /\ (forall j, writing (procs s j) = false) /\ files s v_name = Some (Bytes [1]%Z) /\ get_body two a_url = Value [1; 2]%Z /\
  get_from_cache toy two a_url (files s) = (Stop (Value v_name), files s, []) /\ filename_to_url (files s) v_name = Raised NotFound.
Proof.
  exists (seqs [0; 0; 0; 0; 0] ++ [(0, two, true)] ++ seqs [1; 1]). cbn zeta. split; [reflexivity|]. split; [|vm_compute; repeat split].
  intros [|[|j]]; reflexivity.
Qed.
Print Assumptions C104_interrupted_refuted.
(** Without crashes: a second process answers a file that the first is still writing, and a process that
    has finished finds its file emptied by the second. *)
Theorem C104_concurrent_refuted : exists sched sched', steady two sched /\ steady two sched' /\
  (let s := run toy (fun _ => a_url) sched (start nothing) in procs s 1 = Stop (Value v_name) /\ files s v_name = Some (Bytes [1]%Z)) /\
  (let s := run toy (fun _ => a_url) sched' (start nothing) in procs s 0 = Stop (Value v_name) /\ files s v_name = Some (Bytes [])).
Proof.
  exists (seqs [0; 0; 0; 0; 0; 1; 1]), (seqs [1; 1; 1; 0; 0; 0; 0; 0; 0; 0; 0; 0; 1]).
  split; [|split; [|vm_compute; repeat split]].
  all: intros i w' c H; apply in_map_iff in H; destruct H as (x & H & _); injection H as _ <- <-; auto.
Qed.
Print Assumptions C104_concurrent_refuted.
(** The status of the download is not looked at: the text of an error page becomes the file. *)
Theorem C104_status_refuted : exists w d, head w a_url = Value (Some (str "v")) /\ get_status (pages w a_url) = 503 /\
  get_from_cache toy w a_url nothing = (Stop (Value v_name), d, [a_url]) /\ d v_name = Some (Bytes [69; 82; 82]%Z).
Proof. exists (site 200 (Some (str "v")) 503 [[69; 82; 82]%Z]). eexists. vm_compute. repeat split. Qed.
Print Assumptions C104_status_refuted.
(** A server without etags: the first version is answered forever. *)
Theorem C104_stale_refuted : exists w w' d, get_body w' a_url = Value [2]%Z /\
  calls toy [(w, a_url); (w', a_url)] nothing = ([Stop (Value (url_to_filename toy a_url None)); Stop (Value (url_to_filename toy a_url None))], d, [a_url]) /\
  d (url_to_filename toy a_url None) = Some (Bytes [1]%Z).
Proof. exists (site 200 None 200 [[1]%Z]), (site 200 None 200 [[2]%Z]). eexists. vm_compute. repeat split. Qed.
Print Assumptions C104_stale_refuted.
(** A change between the two requests: the new bytes are filed under the old etag, and answered for it. *)
Theorem C104_version_refuted : exists w w' sched, head w a_url = Value (Some (str "1")) /\ head w' a_url = Value (Some (str "2")) /\
  get_body w a_url = Value [1]%Z /\ get_body w' a_url = Value [2]%Z /\ (forall i x c, In (i, x, c) sched -> i = 0 /\ c = false) /\
  let s := run toy (fun _ => a_url) sched (start nothing) in
  files s (url_to_filename toy a_url (Some (str "1"))) = Some (Bytes [2]%Z) /\
  get_from_cache toy w a_url (files s) = (Stop (Value (url_to_filename toy a_url (Some (str "1")))), files s, []).
Proof.
  set (w := site 200 (Some (str "1")) 200 [[1]%Z]). set (w' := site 200 (Some (str "2")) 200 [[2]%Z]).
  exists w, w', ((0, w, false) :: map (fun _ => (0, w', false)) (seq 0 7)). do 4 (split; [reflexivity|]). split; [|vm_compute; repeat split].
  intros i x c [H|H]; [now injection H as <- _ <-|]. apply in_map_iff in H. destruct H as (y & H & _). now injection H as <- _ <-.
Qed.
Print Assumptions C104_version_refuted.
(** Schemes are compared without case by cached_path and with case by get_from_cache: S3://b/k goes to
    the cache, which gives it to requests. *)
Theorem C104_scheme_refuted : exists url w d, cached_path (fun _ => false) url = FromCache /\ split_s3_path url = Value (str "b", str "k") /\
  objects w (str "b", str "k") = inr (str "v", [7]%Z) /\ get_from_cache toy w url d = (Stop (Raised Library), d, []).
Proof. exists (str "S3://b/k"), (bucket [(str "b", str "k", str "v", [7]%Z)]), nothing. vm_compute. repeat split. Qed.
Print Assumptions C104_scheme_refuted.
(** A key with # or ? is cut: another object is downloaded. *)
Theorem C104_key_refuted : exists key w, objects w (str "b", key) = inr (str "2", [2]%Z) /\
  head w (str "s3://b/" ++ key) = Value (Some (str "1")) /\ get_body w (str "s3://b/" ++ key) = Value [1]%Z.
Proof. exists (str "a#1"), (bucket [(str "b", str "a", str "1", [1]%Z); (str "b", str "a#1", str "2", [2]%Z)]). vm_compute. repeat split. Qed.
Print Assumptions C104_key_refuted.
(** The code of an error need not be a number: int() raises ValueError instead of the error. *)
Theorem C104_code_refuted : exists code, client_error code = BadValue /\ code = str "AccessDenied".
Proof. exists (str "AccessDenied"). vm_compute. repeat split. Qed.
Print Assumptions C104_code_refuted.
