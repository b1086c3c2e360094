(** What a prediction may know: the latest interactions before it. *)
From Verif Require Import Base WriterModel LoaderModel GraphModel GraphSpec TgnModel.
From Coq Require Import QArith Qround Sorting.Sorted.
Local Open Scope Z_scope.

(** Rows in order of time. *)
Definition in_time (rows : list row) : Prop := StronglySorted (fun a b => r_time a <= r_time b) rows.
(** Rows up to the time of row [k], and after it. *)
Definition until (rows : list row) (k : nat) : list row := filter (fun r => r_time r <=? nth k (map r_time rows) 0) rows.
Definition after (rows : list row) (k : nat) : list row := filter (fun r => nth k (map r_time rows) 0 <? r_time r) rows.
(** Row number of a share of [n] rows. *)
Definition share (q : Q) (n : nat) : nat := Z.to_nat (Qfloor (q * inject_Z (Z.of_nat n - 1)%Z)).

(** Time of the first row with source [s]. *)
Definition first_time (batch : list row) (s : Z) : Z :=
  match find (fun r => r_src r =? s) batch with Some r => r_time r | None => 1 end.
(** Neighbors and times that the embedding at position [p] is computed from. *)
Definition sees (i : inputs) (p : nat) : list (Z * Z) :=
  flat_map (fun x => if (snd (fst x) =? p)%nat then [(nth (fst (fst x)) (i_nodes i) 0, snd x)] else []) (combine (i_edges i) (i_times i)).
Definition node_at (i : inputs) (p : nat) : option Z := nth_error (i_nodes i) p.
(** Interactions fed to the memory by some batches. *)
Definition fed (os : list (option inputs)) : list row := flat_map (fun o => match o with Some i => i_fed i | None => [] end) os.
Definition mean (l : list Q) : Q := (fold_right Qplus 0 l / inject_Z (Z.of_nat (length l)))%Q.
From Verif Require Import AnswerProofs LastNProofs.
(** [l] are the neighbors and times of [count] latest edges of [n] created at or before [t]. *)
Definition knows (parts : list (list (list record))) (count : nat) (n t : Z) (l : list (Z * Z)) : Prop :=
  exists kept, latest_of count (map answer_ts (filter (still t) (spec_edges parts [0] n))) kept /\ l = map (fun y => (nbr_id y, snd y)) kept.
(** A batch without inputs: nothing is known of its nodes. *)
Definition unknown (parts : list (list (list record))) (n t : Z) : Prop := filter (still t) (spec_edges parts [0] n) = [].
(** Nodes of a batch, and until when their edges are looked up. *)
Definition involved (batch : list row) (neg : list Z) (n : Z) : Prop := In n (map r_src batch ++ map r_dst batch ++ neg).
Definition positioned parts count batch (i : inputs) (n : Z) (p : nat) : Prop :=
  node_at i p = Some n /\ knows parts count n (first_time batch n - 1) (sees i p).
(** [o] is right: every position is that of its node and is computed from the latest interactions
    before the first row of the batch with this source (before time 1 if it is no source); the
    memory is fed with just these. *)
Definition answered parts count batch neg (o : option inputs) : Prop :=
  match o with
  | None => forall n, involved batch neg n -> unknown parts n (first_time batch n - 1)
  | Some i =>
      Forall2 (positioned parts count batch i) (map r_src batch) (i_src i) /\
      Forall2 (positioned parts count batch i) (map r_dst batch) (i_dst i) /\
      Forall2 (positioned parts count batch i) neg (i_neg i) /\
      (forall x, In x (i_fed i) -> involved batch neg (r_src x) /\ exists l, knows parts count (r_src x) (first_time batch (r_src x) - 1) l /\ In (r_dst x, r_time x) l) /\
      (forall n, involved batch neg n -> knows parts count n (first_time batch n - 1) (map (fun x => (r_dst x, r_time x)) (filter (fun x => r_src x =? n) (i_fed i))))
  end.

Fixpoint some_losses (l : list (option Q)) : list Q := match l with [] => [] | Some x :: t => x :: some_losses t | None :: t => some_losses t end.
