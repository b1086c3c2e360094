(** Names of the binary files: what the converter writes (snark/meta.py names, used by
    converter/writers.py and dispatcher.py), what the downloader fetches (snark/_downloader.py)
    and what the engine opens (cc/lib/graph/locator.cc, graph.cc 38-97, partition.cc 136-240,
    339-456, sampler.cc 215-236, 296-320, 358-378).

    A directory is a filesystem (0 is the local one) and a list of components, a filesystem is
    a list of files, the contents of a file is a value of any type.  Assumed of fsspec: glob
    matches `*` with any characters of one component, get(list, dir) copies every file that
    matches one of the names to dir, below the path relative to the last directory all of them
    share (fsspec.utils.common_prefix), and raises FileNotFoundError when nothing matches; a
    name of another filesystem matches nothing. *)
From Verif Require Import Base.
From Coq Require Import Ascii String Decimal.
Import ListNotations.
Open Scope list_scope.

Definition nm := list ascii.
Definition str (s : string) : nm := list_ascii_of_string s.
(** str(int), "{}".format(int), std::to_string. *)
Fixpoint digits (u : uint) : nm :=
  match u with
  | Nil => []
  | D0 u => "0" :: digits u | D1 u => "1" :: digits u | D2 u => "2" :: digits u | D3 u => "3" :: digits u | D4 u => "4" :: digits u
  | D5 u => "5" :: digits u | D6 u => "6" :: digits u | D7 u => "7" :: digits u | D8 u => "8" :: digits u | D9 u => "9" :: digits u
  end%char.
Definition dec (n : nat) : nm := digits (Nat.to_uint n).

Definition nm_eqb (a b : nm) : bool := if list_eq_dec ascii_dec a b then true else false.
Definition loc := (nat * list nm)%type.
Definition loc_eqb (a b : loc) : bool := (fst a =? fst b) && if list_eq_dec (list_eq_dec ascii_dec) (snd a) (snd b) then true else false.
Definition is_local (l : loc) : bool := fst l =? 0.

(** ** meta.py: a name, or a name with a `*` in the place of a negative iteration or type. *)
Inductive pat := Exact (n : nm) | Glob (before after : nm).
Definition starred (before : nm) (i : option nat) (after : nm) : pat :=
  match i with Some k => Exact (before ++ dec k ++ after) | None => Glob before after end.
Inductive element := NODE | EDGE.
Definition value (e : element) : nm := match e with NODE => str "node" | EDGE => str "edge" end.
Definition meta_name : nm := str "meta.json".                                               (* 18-19 *)
Definition node_map (p : nat) (i : option nat) : pat := starred (str "node_" ++ dec p ++ str "_") i (str ".map").     (* 22-26 *)
Definition timestamps (e : element) (p : nat) (i : option nat) : pat :=                      (* 34-40 *)
  starred (value e ++ str "_" ++ dec p ++ str "_") i (str ".timestamp").
Definition index (e : element) (p : nat) (i : option nat) : pat :=                           (* 43-47 *)
  starred (value e ++ str "_" ++ dec p ++ str "_") i (str ".index").
Definition features_index (e : element) (p : nat) (i : option nat) : pat :=                  (* 50-56 *)
  starred (value e ++ str "_features_" ++ dec p ++ str "_") i (str ".index").
Definition features_data (e : element) (p : nat) (i : option nat) : pat :=                   (* 71-77 *)
  starred (value e ++ str "_features_" ++ dec p ++ str "_") i (str ".data").
Definition alias (e : element) (tp : option nat) (p : nat) : pat :=                          (* 80-86 *)
  starred (value e ++ str "_") tp (str "_" ++ dec p ++ str ".alias").
Definition neighbors (p : nat) (i : option nat) : pat := starred (str "neighbors_" ++ dec p ++ str "_") i (str ".index").  (* 89-93 *)

(** ** The files of one partition: NodeWriter 190-193, NodeFeatureWriter 247-266, EdgeWriter
    319-343, EdgeFeatureWriter 432-437, NodeAliasWriter 558-563, EdgeAliasWriter 649-654; the
    dispatcher adds empty tables up to the number of types of all partitions (dispatcher.py
    179-196).  Iteration is always 0. *)
Record conversion := Conversion { temporal : bool; node_types : nat; edge_types : nat; skip_nodes : bool; skip_edges : bool }.
Definition named (q : pat) : list nm := match q with Exact n => [n] | Glob _ _ => [] end.
Definition written (w : conversion) (p : nat) : list nm :=
  let z := Some 0 in
  flat_map named
    ([node_map p z; index NODE p z; features_index NODE p z; features_data NODE p z;
      neighbors p z; index EDGE p z; features_index EDGE p z; features_data EDGE p z]
     ++ (if temporal w then [timestamps EDGE p z] else [])
     ++ (if skip_nodes w then [] else map (fun tp => alias NODE (Some tp) p) (seq 0 (node_types w)))
     ++ (if skip_edges w then [] else map (fun tp => alias EDGE (Some tp) p) (seq 0 (edge_types w)))).

Section Files.
Variable C : Type.
Definition store := list (loc * nm * C).
Definition lookup (st : store) (l : loc) (n : nm) : option C :=
  match find (fun x => loc_eqb (fst (fst x)) l && nm_eqb (snd (fst x)) n) st with Some x => Some (snd x) | None => None end.
Definition listing (st : store) (l : loc) : list nm := map (fun x => snd (fst x)) (filter (fun x => loc_eqb (fst (fst x)) l) st).

(** ** The engine *)
(** std::filesystem::path::stem of a file name: up to the last dot, unless that is the first
    character. *)
Fixpoint last_dot (n : nm) : option nat :=
  match n with
  | [] => None
  | c :: t => match last_dot t with
              | Some k => Some (S k)
              | None => if Ascii.eqb c "."%char then Some 0 else None
              end
  end.
Definition stem (n : nm) : nm := match last_dot n with Some (S k) => firstn (S k) n | _ => n end.
(** std::stoi: white space, a sign, digits; throws without digits or above the range of int. *)
Definition digit (c : ascii) : option (uint -> uint) :=
  match c with
  | "0" => Some D0 | "1" => Some D1 | "2" => Some D2 | "3" => Some D3 | "4" => Some D4
  | "5" => Some D5 | "6" => Some D6 | "7" => Some D7 | "8" => Some D8 | "9" => Some D9
  | _ => None
  end%char.
Fixpoint leading (n : nm) : uint :=
  match n with
  | c :: t => match digit c with Some d => d (leading t) | None => Nil end
  | [] => Nil
  end.
Definition is_space (c : ascii) : bool := let k := N_of_ascii c in ((k =? 32) || ((9 <=? k) && (k <=? 13)))%N.
Fixpoint skip_space (n : nm) : nm := match n with c :: t => if is_space c then skip_space t else n | [] => [] end.
Definition stoi (n : nm) : res Z :=
  let n := skip_space n in
  let '(neg, n) := match n with
                   | c :: t => if Ascii.eqb c "-"%char then (true, t) else if Ascii.eqb c "+"%char then (false, t) else (false, n)
                   | [] => (false, [])
                   end in
  match leading n with
  | Nil => Fail EFatal
  | u => let z := Z.of_nat (Nat.of_uint u) in
         let z := if neg then (- z)%Z else z in
         if ((- 2 ^ 31 <=? z) && (z <? 2 ^ 31))%Z then Ok z else Fail EFatal
  end.
Definition neighbors_prefix : nm := str "neighbors_".
Fixpoint prefix (a n : nm) : bool :=
  match a, n with
  | [], _ => true
  | c :: a, d :: n => Ascii.eqb c d && prefix a n
  | _, _ => false
  end.
(** graph.cc 58-74: the suffixes in the order of the directory. *)
Fixpoint suffixes (names : list nm) (p : nat) : res (list nm) :=
  match names with
  | [] => Ok []
  | n :: t =>
      let full := stem n in
      if List.length full <=? List.length neighbors_prefix then suffixes t p
      else if prefix neighbors_prefix full then
        let s := skipn (List.length neighbors_prefix) full in
        do k <- stoi s ;;
        do r <- suffixes t p ;;
        Ok (if (k =? Z.of_nat p)%Z then s :: r else r)
      else suffixes t p
  end.
(** graph.cc 75-87: the same for a folder of HDFS, whose listing has whole paths ([dir] is the
    folder with the slash at the end); the first occurrence anywhere in the path counts. *)
Fixpoint find_sub (a n : nm) : option nat :=
  if prefix a n then Some 0
  else match n with [] => None | _ :: t => match find_sub a t with Some k => Some (S k) | None => None end end.
Fixpoint filename (n : nm) : nm :=
  match n with
  | [] => []
  | c :: t => if existsb (Ascii.eqb "/"%char) n then filename t else n
  end.
Fixpoint hdfs_suffixes (dir : nm) (names : list nm) (p : nat) : res (list nm) :=
  match names with
  | [] => Ok []
  | n :: t =>
      let full := dir ++ n in
      match find_sub neighbors_prefix full with
      | None => hdfs_suffixes dir t p
      | Some k =>
          let s := skipn (k + List.length neighbors_prefix) full in
          do v <- stoi s ;;
          do r <- hdfs_suffixes dir t p ;;
          Ok (if (v =? Z.of_nat p)%Z then stem (filename s) :: r else r)
      end
  end.
(** std::sort 89. *)
Fixpoint nm_leb (a b : nm) : bool :=
  match a, b with
  | [], _ => true
  | _, [] => false
  | c :: a, d :: b => if (N_of_ascii c =? N_of_ascii d)%N then nm_leb a b else (N_of_ascii c <? N_of_ascii d)%N
  end.
Fixpoint insert (n : nm) (l : list nm) : list nm :=
  match l with [] => [n] | m :: t => if nm_leb n m then n :: l else m :: insert n t end.
Definition sort (l : list nm) : list nm := fold_right insert [] l.

(** What the metadata say (after skip_feature_loading and skip_temporal_loading). *)
Record metadata := Metadata { node_features : nat; edge_features : nat; watermark : Z }.
(** partition.cc 136-150, 184-200, 339-351 with the names of locator.cc 30-73; graph.cc 93. *)
Definition opened (md : metadata) (s : nm) : list nm :=
  [str "node_" ++ s ++ str ".map"; str "node_" ++ s ++ str ".index"]
  ++ (if node_features md =? 0 then [] else [str "node_features_" ++ s ++ str ".index"; str "node_features_" ++ s ++ str ".data"])
  ++ [str "neighbors_" ++ s ++ str ".index"; str "edge_" ++ s ++ str ".index"]
  ++ (if (0 <=? watermark md)%Z then [str "edge_" ++ s ++ str ".timestamp"] else [])
  ++ (if edge_features md =? 0 then [] else [str "edge_features_" ++ s ++ str ".index"; str "edge_features_" ++ s ++ str ".data"])
  ++ [str "node_" ++ s ++ str ".map"].
(** fopen, log_fatal when there is no such file (10-23). *)
Definition open_file (st : store) (l : loc) (n : nm) : res C :=
  match lookup st l n with Some c => Ok c | None => Fail EFatal end.
(** One partition of the constructor of Graph: suffix and contents of every file opened. *)
Definition load (st : store) (md : metadata) (l : loc) (p : nat) : res (list (nm * list C)) :=
  do ss <- suffixes (listing st l) p ;;
  mapM (fun s => do cs <- mapM (open_file st l) (opened md s) ;; Ok (s, cs)) (sort ss).
(** Alias tables: sampler.cc 225-230 and 305-310 (node samplers, in the folder of the partition),
    366-371 (edge samplers, in the folder of the metadata). *)
Definition open_node_alias (st : store) (home l : loc) (p tp : nat) : res C := open_file st l (str "node_" ++ dec tp ++ str "_" ++ dec p ++ str ".alias").
Definition open_edge_alias (st : store) (home l : loc) (p tp : nat) : res C := open_file st home (str "edge_" ++ dec tp ++ str "_" ++ dec p ++ str ".alias").

(** ** _downloader.py *)
Fixpoint suffix (b n : nm) : bool := nm_eqb b n || match n with [] => false | _ :: t => suffix b t end.
Definition matches (q : pat) (n : nm) : bool :=
  match q with
  | Exact m => nm_eqb m n
  | Glob a b => prefix a n && suffix b (skipn (List.length a) n)
  end.
(** fsspec.utils.common_prefix of the directories. *)
Fixpoint common2 (a b : list nm) : list nm :=
  match a, b with
  | x :: a, y :: b => if nm_eqb x y then x :: common2 a b else []
  | _, _ => []
  end.
Fixpoint common (ds : list (list nm)) : list nm :=
  match ds with
  | [] => []
  | [d] => d
  | d :: t => common2 d (common t)
  end.
Definition get_files (st : store) (fs : nat) (qs : list (loc * pat)) (dest : list nm) : res store :=
  let found := filter (fun x => (fst (fst (fst x)) =? fs) && existsb (fun q => loc_eqb (fst q) (fst (fst x)) && matches (snd q) (snd (fst x))) qs) st in
  match found with
  | [] => Fail EFatal
  | _ =>
      let c := common (map (fun x => snd (fst (fst x))) found) in
      Ok (map (fun x => ((0, dest ++ skipn (List.length c) (snd (fst (fst x)))), snd (fst x), snd x)) found ++ st)
  end.
(** 49-97. *)
Definition wanted (md : metadata) (l : loc) (p : nat) : list (loc * pat) :=
  map (fun q => (l, q))
    ([node_map p None; neighbors p None; index NODE p None; index EDGE p None]
     ++ (if node_features md =? 0 then [] else [features_data NODE p None; features_index NODE p None])
     ++ (if edge_features md =? 0 then [] else [features_data EDGE p None; features_index EDGE p None])
     ++ [alias NODE None p; alias EDGE None p]).
(** The loop 43-99: names, partitions, the value of fs at the end. *)
Fixpoint collect (md : metadata) (tmp : loc) (parts : list (loc * nat)) (fs : nat) : list (loc * pat) * list (loc * nat) * nat :=
  match parts with
  | [] => ([], [], fs)
  | (l, p) :: t =>
      let '(qs, ps, f) := collect md tmp t (fst l) in
      if is_local l then (qs, (l, p) :: ps, f) else (wanted md l p ++ qs, (tmp, p) :: ps, f)
  end.
(** 34-102: the filesystem afterwards, the path of the metadata, the partitions.  [md] are the
    metadata the file meta.json holds. *)
Definition download (st : store) (md : metadata) (path : loc) (parts : list (loc * nat)) (tmp : list nm)
  : res (store * loc * list (loc * nat)) :=
  if is_local path then Ok (st, path, parts)
  else
    do c <- open_file st path meta_name ;;
    let st1 := ((0, tmp), meta_name, c) :: st in
    let '(qs, ps, f) := collect md (0, tmp) parts (fst path) in
    do st2 <- get_files st1 f qs tmp ;;
    Ok (st2, (0, tmp), ps).
End Files.
Arguments lookup {C}.
Arguments listing {C}.
Arguments open_file {C}.
Arguments load {C}.
Arguments open_node_alias {C}.
Arguments open_edge_alias {C}.
Arguments get_files {C}.
Arguments download {C}.
