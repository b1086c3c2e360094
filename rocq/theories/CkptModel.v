(** Checkpoints of the TwinBERT encoder: deepgnn/pytorch/encoding/twinbert/encoder.py 111-176,
    _load_from_checkpoint, _load_from_other_checkpoint and extract_bert_by_prefix.

    A state dict is a list of names with values in the order of insertion, a tensor is a value
    of any type V.  Whether a tensor has the shape of a parameter is the argument [fits].
    Assumed of torch: load_state_dict with strict=True raises RuntimeError unless the names are
    those of the model and every tensor has the shape of its parameter. *)
From Verif Require Import Base FilesModel.
From Coq Require Import Ascii String.
Import ListNotations.
Open Scope list_scope.

(** ** str of Python: startswith, find (None for -1), split at a character. *)
Fixpoint starts (p s : nm) : bool :=
  match p, s with
  | [], _ => true
  | _ :: _, [] => false
  | c :: p', d :: s' => if ascii_dec c d then starts p' s' else false
  end.
Fixpoint find (p s : nm) : option nat :=
  if starts p s then Some 0 else match s with [] => None | _ :: s' => option_map S (find p s') end.
Definition contains (p s : nm) : bool := match find p s with Some _ => true | None => false end.
Fixpoint split (c : ascii) (s : nm) : list nm :=
  match s with
  | [] => [[]]
  | d :: s' => if ascii_dec c d then [] :: split c s'
               else match split c s' with w :: l => (d :: w) :: l | [] => [[d]] end
  end.
Definition bar : ascii := "|".

(** ** dict of Python *)
Section Dict.
Context {V : Type}.
Fixpoint dput (k : nm) (v : V) (d : list (nm * V)) : list (nm * V) :=
  match d with
  | [] => [(k, v)]
  | e :: d' => if nm_eqb k (fst e) then (fst e, v) :: d' else e :: dput k v d'
  end.
Fixpoint dget (k : nm) (d : list (nm * V)) : option V :=
  match d with
  | [] => None
  | e :: d' => if nm_eqb k (fst e) then Some (snd e) else dget k d'
  end.
End Dict.

Section Ckpt.
Context {V : Type}.
Variable fits : nm -> V -> bool.
Notation dict := (list (nm * V)).

Definition nth_name (l : list nm) (i : nat) : res nm :=
  match nth_error l i with Some x => Ok x | None => Fail EIndex end.

(** 159-165: one key of the checkpoint; the flags are exist_in_src. *)
Fixpoint take_key (dst : list nm) (key : nm) (v : V) (i : nat) (src : list nm) (flags : list bool) (r : dict)
  : res (list bool * dict) :=
  match src, flags with
  | s :: src', f :: flags' =>
      match find s key with
      | Some at_ =>
          do d <- nth_name dst i ;;
          do x <- take_key dst key v (S i) src' flags' (dput (d ++ skipn (at_ + List.length s) key) v r) ;;
          Ok (true :: fst x, snd x)
      | None =>
          do x <- take_key dst key v (S i) src' flags' r ;;
          Ok (f :: fst x, snd x)
      end
  | _, _ => Ok (flags, r)
  end.
Fixpoint take_all (src dst : list nm) (ckpt : dict) (flags : list bool) (r : dict) : res (list bool * dict) :=
  match ckpt with
  | [] => Ok (flags, r)
  | (key, v) :: ckpt' =>
      do x <- take_key dst key v 0 src flags r ;;
      take_all src dst ckpt' (fst x) (snd x)
  end.
(** 169-173: one key of the model. *)
Fixpoint keep_key (dst : list nm) (key : nm) (v : V) (i : nat) (flags : list bool) (r : dict) : res dict :=
  match flags with
  | [] => Ok r
  | true :: flags' => keep_key dst key v (S i) flags' r
  | false :: flags' =>
      do d <- nth_name dst i ;;
      keep_key dst key v (S i) flags' (if starts d key then dput key v r else r)
  end.
Fixpoint keep_all (dst : list nm) (own : dict) (flags : list bool) (r : dict) : res dict :=
  match own with
  | [] => Ok r
  | (key, v) :: own' => do r' <- keep_key dst key v 0 flags r ;; keep_all dst own' flags r'
  end.
(** 154-175 *)
Definition extract (own ckpt : dict) (prefix target : nm) : res dict :=
  let src := split bar prefix in
  let dst := split bar target in
  do x <- take_all src dst ckpt (repeat false (List.length src)) [] ;;
  keep_all dst own (fst x) (snd x).

(** load_state_dict(strict=True) *)
Definition load_strict (own d : dict) : res dict :=
  if forallb (fun e => match dget (fst e) d with Some _ => true | None => false end) own
     && forallb (fun e => match dget (fst e) own with Some _ => fits (fst e) (snd e) | None => false end) d
  then Ok (map (fun e => (fst e, match dget (fst e) d with Some v => v | None => snd e end)) own)
  else Fail EAssert.

(** 118-152 *)
Definition targets : nm := str "bert_encoder|poolers.0|downscale".
Definition sources (prefix : nm) (is_query : option bool) : res nm :=
  if contains (str "twinbert") prefix
  then match is_query with
       | None => Fail EIndex
       | Some true => Ok (prefix ++ str ".qbert_sentencoder|" ++ prefix ++ str ".qpooler|" ++ prefix ++ str ".qdownscale")
       | Some false => Ok (prefix ++ str ".kbert_sentencoder|" ++ prefix ++ str ".kpooler|" ++ prefix ++ str ".kdownscale")
       end
  else Ok (prefix ++ str "|qpooler|qdownscale").
Definition load_other (own ckpt : dict) (prefix : nm) (is_query : option bool) : res dict :=
  do s <- sources prefix is_query ;;
  do d <- extract own ckpt s targets ;;
  load_strict own d.

(** 111-116: no file (None) leaves the parameters as initialised. *)
Definition load_ckpt (own : dict) (file : option dict) (prefix : option nm) (is_query : option bool) : res dict :=
  match file with
  | None => Ok own
  | Some ckpt =>
      match prefix with
      | Some p => load_other own ckpt p is_query
      | None => load_strict own ckpt
      end
  end.
End Ckpt.
