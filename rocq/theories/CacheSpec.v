(** What a cache of downloads should do, stated with directories and servers only. *)
From Verif Require Import Base FilesModel CacheModel.
From Coq Require Import Ascii String.
Import ListNotations.
Open Scope list_scope.

(** A digest is made of hexadecimal digits. *)
Definition hex_digits : nm := str "0123456789abcdef".
Definition hexadecimal (sha : nm -> nm) : Prop := forall s c, In c (sha s) -> In c hex_digits.
(** No two of these names have the same digest. *)
Definition no_collision (sha : nm -> nm) (K : nm -> Prop) : Prop := forall a b, K a -> K b -> sha a = sha b -> a = b.

(** The directory has, for this url and etag, these bytes and this metadata. *)
Definition holds (sha : nm -> nm) (d : dir) (url : nm) (etag : option nm) (body : list Z) : Prop :=
  d (url_to_filename sha url etag) = Some (Bytes body) /\
  d (meta_path (url_to_filename sha url etag)) = Some (Meta (Some (url, etag))).
(** A directory without wrong entries for the url: nothing, or what the server sends. *)
Definition clean (sha : nm -> nm) (w : server) (d : dir) (url : nm) : Prop :=
  forall e, head w url = Value e ->
    d (url_to_filename sha url e) = None \/ exists b, get_body w url = Value b /\ holds sha d url e b.
(** The process is writing files. *)
Definition writing (p : pc) : bool := match p with Open_ _ _ | Write _ _ _ | MetaOpen _ | MetaWrite _ => true | _ => false end.
(** The etag of a server names one version of what is behind a url. *)
Definition versioned (content : nm -> nm -> list Z) (w : server) (url : nm) : Prop :=
  forall e, head w url = Value e -> exists v, e = Some v /\ v <> [] /\ get_body w url = Value (content url v).

(** An etag that is not there and an empty etag count the same. *)
Definition truthy (e : option nm) : option nm := match e with Some (c :: t) => Some (c :: t) | _ => None end.
(** The servers do not change and nobody crashes. *)
Definition steady (w : server) (sched : list (nat * server * bool)) : Prop := forall i w' c, In (i, w', c) sched -> w' = w /\ c = false.
(** None of these characters. *)
Definition plain (l : list ascii) (s : nm) : Prop := forall c, In c s -> ~ In c l.

(** Servers whose etags name versions, urls in [KU], etags in [KV]. *)
Definition known (content : nm -> nm -> list Z) (KU KV : nm -> Prop) (l : list (server * nm)) : Prop := forall w u, In (w, u) l ->
  KU u /\ versioned content w u /\ forall v, head w u = Value (Some v) -> KV v.
(** No wrong version in the directory. *)
Definition good (sha : nm -> nm) (content : nm -> nm -> list Z) (KU KV : nm -> Prop) (d : dir) : Prop := forall u v, KU u -> KV v -> v <> [] ->
  d (url_to_filename sha u (Some v)) = None \/ holds sha d u (Some v) (content u v).
(** The result of a call: the error of the server, or a file that has the version the server had. *)
Definition fine (sha : nm -> nm) (content : nm -> nm -> list Z) (d : dir) (wu : server * nm) (p : pc) : Prop :=
  match head (fst wu) (snd wu) with
  | Raised x => p = Stop (Raised x)
  | Value e => exists v, e = Some v /\ p = Stop (Value (url_to_filename sha (snd wu) (Some v))) /\ holds sha d (snd wu) (Some v) (content (snd wu) v)
  end.

(** Letters, and what a scheme is made of. *)
Definition capitals : nm := str "ABCDEFGHIJKLMNOPQRSTUVWXYZ".
Definition smalls : nm := str "abcdefghijklmnopqrstuvwxyz".
Definition scheme_letters : nm := capitals ++ smalls ++ str "0123456789+-.".
Definition small (c : ascii) : ascii := match List.find (fun e => Ascii.eqb c (fst e)) (combine capitals smalls) with Some e => snd e | None => c end.
