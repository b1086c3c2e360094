(** What an upload should leave in the store. *)
From Coq Require Import Permutation.
From Verif Require Import Base FilesModel MetaSpec UploadModel.

(** The chunks of the calls, in order. *)
Definition sent (calls : list call) : list chunk := flat_map (fun c => match c with Write c => [c] | Lines l => l end) calls.

Inductive subseq {A} : list A -> list A -> Prop :=
| sub_nil l : subseq [] l
| sub_take x a b : subseq a b -> subseq (x :: a) (x :: b)
| sub_skip x a b : subseq a b -> subseq a (x :: b).

(** Every chunk of [all] is in one file, no file is opened twice, all are closed; a file has one
    chunk at least and at most [limit], and is only followed by another of its thread if it is
    full; its chunks are some of those of its process in their order. *)
Record complete (P T limit : nat) (all : list chunk) (st : state) : Prop := Complete {
  c_names : NoDup (map fst (files P T st));
  c_contents : Permutation (concat (map snd (files P T st))) all;
  c_closed : all_closed P T st;
  c_size : forall n cs, In (n, cs) (files P T st) -> cs <> [] /\ (0 < limit -> length cs <= limit);
  c_order : forall n cs, In (n, cs) (files P T st) -> exists i, i < P /\ subseq cs (share P i all);
  c_full : forall i j k cs cs', In (file_name i j k, cs) (files P T st) -> In (file_name i j (S k), cs') (files P T st) -> length cs = limit
}.

(** No thread ends while the stop of its process still looks at the threads. *)
Definition patient (T : nat) (st : state) (e : event) : Prop :=
  match e with
  | Take i j => forall k, processes st i = Stopping k -> hd_error (inner st i) = Some None -> T <= k
  | _ => True
  end.
Fixpoint all_patient (P T queue_size limit : nat) (st : state) (es : list event) : Prop :=
  match es with
  | [] => True
  | e :: t => match step P T queue_size limit st e with Some st' => patient T st e /\ all_patient P T queue_size limit st' t | None => True end
  end.
