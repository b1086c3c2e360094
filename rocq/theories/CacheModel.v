(** The cache of downloaded files: pytorch/encoding/twinbert/deepspeed/file_utils.py.

    A directory is a function from names to contents: bytes, or the text of a metadata file, which is
    its two values, or [Meta None] when it is not complete.  Processes run get_from_cache in the same
    directory.  A step is one request to a server, one look at the directory, opening a file for writing
    or writing one byte (buffers may be written at any moment and in any pieces; the bytes between two
    looks of other processes are one schedule).  A crash ends a process at any step; the temporary file
    is gone with it.

    Simplifications: sha256(...).hexdigest is the argument [sha]; urlparse is that of Python 3.8 to
    3.11 without stripping of control characters and without the check of brackets; requests accepts
    http and https in any case; creating the directory, writing to disk, progress bars and logging do
    not fail; the S3 object may go between the requests but a download sees one version. *)
From Verif Require Import Base FilesModel.
From Coq Require Import Ascii String.
Import ListNotations.
Open Scope list_scope.

(** ** urllib.parse.urlsplit *)
Definition upper (c : ascii) : bool := (65 <=? nat_of_ascii c) && (nat_of_ascii c <=? 90).
Definition lower (c : ascii) : ascii := if upper c then ascii_of_nat (nat_of_ascii c + 32) else c.
Definition scheme_char (c : ascii) : bool :=
  upper c || ((97 <=? nat_of_ascii c) && (nat_of_ascii c <=? 122)) || ((48 <=? nat_of_ascii c) && (nat_of_ascii c <=? 57)) ||
  existsb (Ascii.eqb c) (str "+-.").
(** Before and after the first character that satisfies [p]. *)
Fixpoint cut (p : ascii -> bool) (s : nm) : nm * nm :=
  match s with
  | [] => ([], [])
  | c :: t => if p c then ([], s) else (c :: fst (cut p t), snd (cut p t))
  end.
Definition is (c : ascii) : ascii -> bool := Ascii.eqb c.
Definition scheme (url : nm) : nm * nm :=
  match cut (is ":") url with
  | (b :: s, _ :: rest) => if forallb scheme_char (b :: s) then (map lower (b :: s), rest) else ([], url)
  | _ => ([], url)
  end.
Record parsed := Parsed { proto : nm; netloc : nm; path : nm }.
Definition urlparse (url : nm) : parsed :=
  let (sc, rest) := scheme url in
  let (net, tail) :=
    match rest with
    | a :: b :: t => if is "/" a && is "/" b then cut (fun c => is "/" c || is "?" c || is "#" c) t else ([], rest)
    | _ => ([], rest)
    end in
  Parsed sc net (fst (cut (is "?") (fst (cut (is "#") tail)))).

Inductive exn := NotFound | BadValue | HeadFailed | Library.
Inductive out (A : Type) := Value (a : A) | Raised (e : exn).
Arguments Value {A} a. Arguments Raised {A} e.

(** split_s3_path 122-132. *)
Definition split_s3_path (url : nm) : out (nm * nm) :=
  let p := urlparse url in
  match netloc p, path p with
  | [], _ => Raised BadValue
  | _, [] => Raised BadValue
  | n, c :: t => Value (n, if is "/" c then t else c :: t)
  end.
(** s3_request 141-148: int() of the code of the error, which may itself raise. *)
Definition digit_val (c : ascii) : option nat :=
  if (48 <=? nat_of_ascii c) && (nat_of_ascii c <=? 57) then Some (nat_of_ascii c - 48) else None.
Fixpoint int_of (acc : nat) (s : nm) : option nat :=
  match s with
  | [] => Some acc
  | c :: t => match digit_val c with Some d => int_of (10 * acc + d) t | None => None end
  end.
Definition client_error (code : nm) : exn :=
  match code, int_of 0 code with
  | [], _ => BadValue
  | _, None => BadValue
  | _, Some n => if n =? 404 then NotFound else Library
  end.

(** What the servers answer: pages by url, objects by bucket and key. *)
Record page := Page { head_status : nat; head_etag : option nm; get_status : nat; get_chunks : list (list Z) }.
Record server := Server { pages : nm -> page; objects : nm * nm -> nm + (nm * list Z) }.

Definition is_s3 (url : nm) : bool := nm_eqb (firstn 5 url) (str "s3://").
Definition is_http (url : nm) : bool := nm_eqb (map lower (firstn 7 url)) (str "http://") || nm_eqb (map lower (firstn 8 url)) (str "https://").
(** 196-204 with s3_etag 154-159. *)
Definition head (w : server) (url : nm) : out (option nm) :=
  if is_s3 url then
    match split_s3_path url with
    | Raised e => Raised e
    | Value bk => match objects w bk with inl code => Raised (client_error code) | inr (etag, _) => Value (Some etag) end
    end
  else if is_http url then
    if head_status (pages w url) =? 200 then Value (head_etag (pages w url)) else Raised HeadFailed
  else Raised Library.
(** 219-222 with s3_get 163-167 and http_get 170-179: the status is not looked at. *)
Definition get_body (w : server) (url : nm) : out (list Z) :=
  if is_s3 url then
    match split_s3_path url with
    | Raised e => Raised e
    | Value bk => match objects w bk with inl code => Raised (client_error code) | inr (_, body) => Value body end
    end
  else if is_http url then Value (List.concat (get_chunks (pages w url)))
  else Raised Library.

Section Cache.
Variable sha : nm -> nm.
(** url_to_filename 46-61. *)
Definition url_to_filename (url : nm) (etag : option nm) : nm :=
  match etag with
  | Some (c :: t) => sha url ++ str "." ++ sha (c :: t)
  | _ => sha url
  end.
Definition meta_path (cache_path : nm) : nm := cache_path ++ str ".json".

Inductive content := Bytes (l : list Z) | Meta (m : option (nm * option nm)).
Definition dir := nm -> option content.
Definition put (d : dir) (n : nm) (c : content) : dir := fun m => if nm_eqb m n then Some c else d m.
(** One byte at an offset; a hole left by a file that was emptied meanwhile reads as zeros. *)
Definition write_at (l : list Z) (off : nat) (b : Z) : list Z :=
  if off <? List.length l then firstn off l ++ b :: skipn (S off) l else l ++ repeat 0%Z (off - List.length l) ++ [b].
Definition bytes_of (c : option content) : list Z := match c with Some (Bytes l) => l | _ => [] end.

Inductive pc :=
| Head                                                                 (* 196-204 *)
| Check (etag : option nm)                                             (* 206-211 *)
| Fetch (etag : option nm)                                             (* 214-227 *)
| Open_ (etag : option nm) (body : list Z)                             (* 231 *)
| Write (etag : option nm) (off : nat) (body : list Z)                 (* 232 *)
| MetaOpen (etag : option nm) | MetaWrite (etag : option nm)           (* 235-238 *)
| Stop (o : out nm) | Crashed.
Record state := State { files : dir; procs : nat -> pc; gets : list nm }.
Definition at_ (th : nat -> pc) (i : nat) (p : pc) : nat -> pc := fun j => if j =? i then p else th j.

(** One step of a call of get_from_cache: its next position, the directory, and the url when it is
    downloaded. *)
Definition act (w : server) (url : nm) (p : pc) (d : dir) : pc * dir * list nm :=
  match p with
  | Head => (match head w url with Value e => Check e | Raised x => Stop (Raised x) end, d, [])
  | Check e => (match d (url_to_filename url e) with Some _ => Stop (Value (url_to_filename url e)) | None => Fetch e end, d, [])
  | Fetch e => (match get_body w url with Value b => Open_ e b | Raised x => Stop (Raised x) end, d, [url])
  | Open_ e b => (Write e 0 b, put d (url_to_filename url e) (Bytes []), [])
  | Write e off b =>
      match nth_error b off with
      | Some x => (Write e (S off) b, put d (url_to_filename url e) (Bytes (write_at (bytes_of (d (url_to_filename url e))) off x)), [])
      | None => (MetaOpen e, d, [])
      end
  | MetaOpen e => (MetaWrite e, put d (meta_path (url_to_filename url e)) (Meta None), [])
  | MetaWrite e => (Stop (Value (url_to_filename url e)), put d (meta_path (url_to_filename url e)) (Meta (Some (url, e))), [])
  | Stop _ | Crashed => (p, d, [])
  end.
Definition ended (p : pc) : bool := match p with Stop _ | Crashed => true | _ => false end.

(** Process [i] downloads [urls i]; the schedule says who moves, what the servers hold at that moment
    and whether the process crashes instead. *)
Section Run.
Variable urls : nat -> nm.
Definition step (i : nat) (w : server) (crash : bool) (s : state) : state :=
  if ended (procs s i) then s
  else if crash then State (files s) (at_ (procs s) i Crashed) (gets s)
  else let '(p, d, g) := act w (urls i) (procs s i) (files s) in State d (at_ (procs s) i p) (g ++ gets s).
Fixpoint run (sched : list (nat * server * bool)) (s : state) : state :=
  match sched with
  | [] => s
  | (i, w, crash) :: t => run t (step i w crash s)
  end.
End Run.
Definition start (d : dir) : state := State d (fun _ => Head) [].
Definition nothing : dir := fun _ => None.

(** One call alone, with a server that does not change: its result, the directory, the downloads. *)
Fixpoint alone (fuel : nat) (w : server) (url : nm) (p : pc) (d : dir) (g : list nm) : pc * dir * list nm :=
  match fuel with
  | O => (p, d, g)
  | S k => if ended p then (p, d, g) else let '(p', d', g') := act w url p d in alone k w url p' d' (g' ++ g)
  end.
Definition work (w : server) (url : nm) : nat := 8 + match get_body w url with Value b => List.length b | Raised _ => 0 end.
Definition get_from_cache (w : server) (url : nm) (d : dir) : pc * dir * list nm := alone (work w url) w url Head d [].
(** Calls one after the other, the servers may change between them. *)
Fixpoint calls (l : list (server * nm)) (d : dir) : list pc * dir * list nm :=
  match l with
  | [] => ([], d, [])
  | (w, url) :: t =>
      let '(p, d', g) := get_from_cache w url d in
      let '(ps, d'', g') := calls t d' in (p :: ps, d'', g ++ g')
  end.

(** filename_to_url 64-87; reading a metadata file that is not complete raises in json.load. *)
Definition filename_to_url (d : dir) (name : nm) : out (nm * option nm) :=
  match d name, d (meta_path name) with
  | None, _ => Raised NotFound
  | _, None => Raised NotFound
  | _, Some (Meta (Some m)) => Value m
  | _, _ => Raised Library
  end.
(** cached_path 90-119: [local] is os.path.exists; what is done with the name. *)
Inductive choice := FromCache | Local | Refuse (e : exn).
Definition cached_path (local : nm -> bool) (name : nm) : choice :=
  let sc := proto (urlparse name) in
  if nm_eqb sc (str "http") || nm_eqb sc (str "https") || nm_eqb sc (str "s3") then FromCache
  else if local name then Local
  else if nm_eqb sc [] then Refuse NotFound
  else Refuse BadValue.
End Cache.
