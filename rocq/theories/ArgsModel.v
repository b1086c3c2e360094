(** Values of the command line: /repo/src/python/deepgnn/arg_types.py, and the start of a
    standalone server: /repo/src/python/deepgnn/graph_engine/snark/server.py.  Text is a list of
    code points; int() as in DecoderModel.v (optional minus sign and decimal digits between
    blanks).  Not modelled: argparse itself (which option was given is an argument), the branch
    "the value already is a list / bool" of the conversions (identity), downloading, TLS. *)
From Verif Require Import Base SetupModel DecoderModel.
Local Open Scope Z_scope.

(** str2list_int (arg_types.py 45-56) and its copy in server.py 175-180. *)
Definition str2list_int (s : str) : res (list Z) :=
  match s with [] => Ok [] | _ => mapM parse_int (split 44 s) end.

Definition nonempty (s : str) : bool := match s with [] => false | _ => true end.

(** str2list2_int (arg_types.py 60-73): rows between semicolons, empty texts skipped. *)
Definition str2list2_int (s : str) : res (list (list Z)) :=
  mapM (fun y => mapM parse_int (split 44 y)) (filter nonempty (split 59 s)).

(** str2list2 (77-91) and str2list_str (95-97). *)
Definition str2list2 (s : str) : list (list str) := map (split 44) (filter nonempty (split 59 s)).
Definition str2list_str (s : str) : list str := split 44 s.

(** str.lower() on the letters A-Z; no other character has a lower case among the letters of the
    words below. *)
Definition lower1 (c : N) : N := if ((65 <=? c) && (c <=? 90))%N then (c + 32)%N else c.
Fixpoint str_eqb (a b : str) : bool :=
  match a, b with
  | [], [] => true
  | x :: a', y :: b' => (x =? y)%N && str_eqb a' b'
  | _, _ => false
  end.
Definition yes_words : list str :=
  [[121; 101; 115]; [116; 114; 117; 101]; [116]; [121]; [49]]%N.      (* yes true t y 1 *)
Definition no_words : list str :=
  [[110; 111]; [102; 97; 108; 115; 101]; [102]; [110]; [48]]%N.       (* no false f n 0 *)
(** str2bool (23-41). *)
Definition str2bool (s : str) : res bool :=
  let v := map lower1 s in
  if existsb (str_eqb v) yes_words then Ok true
  else if existsb (str_eqb v) no_words then Ok false
  else Fail EFatal.

(** vec2str (7-20): an array of one or two dimensions; [show] is str() of an element.  Arrays of
    other dimensions raise RuntimeError. *)
Inductive vec (A : Type) := V1 (l : list A) | V2 (rows : list (list A)) | VOther.
Arguments V1 {A}. Arguments V2 {A}. Arguments VOther {A}.
Definition vec2str {A} (show : A -> str) (v : vec A) : res str :=
  match v with
  | V2 rows => Ok (join 44 (map (fun j => join 32 (map show j)) rows))
  | V1 l => Ok (join 32 (map show l))
  | VOther => Fail EFatal
  end.

(** range(a, b, s): ValueError for s = 0. *)
Definition pyrange (a b s : Z) : res (list Z) :=
  if s =? 0 then Fail EFatal
  else
    let n := if 0 <? s then (b - a + s - 1) / s else (a - b - s - 1) / (- s) in
    Ok (map (fun k => a + s * Z.of_nat k) (seq 0 (Z.to_nat n))).

(** server.py main 186-199, 240-251: exactly one of the two options is present (the group is
    required and exclusive). *)
Inductive choice := CPartitions (s : str) | CGroup (s : str).
Definition main_partitions (c : choice) : res (list Z) :=
  match c with
  | CGroup s =>
      do l <- str2list_int s ;;
      match l with [i; n; p] => pyrange i p n | _ => Fail EAssert end
  | CPartitions s => str2list_int s
  end.

(** An element of [partitions] given to Server: an int, a pair of a path and an int, a pair of
    other things, or anything else. *)
Inductive parg := PInt (p : Z) | PPair (dir : str) (p : Z) | PBadPair | PBad.
(** Server.__init__ 72-90. *)
Definition with_path (meta : str) (p : parg) : res (str * Z) :=
  match p with
  | PInt p => Ok (meta, p)
  | PPair d p => Ok (d, p)
  | PBadPair => Fail EAssert
  | PBad => Fail EAssert
  end.
(** c_uint32(p) (122-125): the low 32 bits, without a check. *)
Definition c_uint32 (p : Z) : Z := p mod 2 ^ 32.
(** Server.__init__ 67-70, 72-90, 122-130: what StartServer receives. *)
Definition server_init (disk stream : bool) (meta : str) (ps : option (list parg)) : res (list (str * Z)) :=
  if disk && stream then Fail EFatal
  else
    do l <- mapM (with_path meta) (match ps with None => [PPair meta 0] | Some l => l end) ;;
    Ok (map (fun '(d, p) => (d, c_uint32 p)) l).

(** main 240-266: data_dir is both the place of meta.json and of every partition. *)
Definition server_main (disk stream : bool) (dir : str) (c : choice) : res (list (str * Z)) :=
  do ps <- main_partitions c ;;
  server_init disk stream dir (Some (map (PPair dir) ps)).
