(** What the records of the MOOC graph should say, in terms of the rows only. *)
From Coq Require Import Sorting.Sorted Sorting.Permutation.
From Verif Require Import Base WriterModel FeatureModel FeatureSpec MoocModel.
Local Open Scope Z_scope.

(** Rows have student and unit numbers from 0. *)
Definition rows_ok (file : list mrow) : Prop :=
  file <> [] /\ Forall (fun r => 0 <= m_src r /\ 0 <= m_dst r) file.

(** Times and values of the interactions of a student with a unit, in file order. *)
Definition interactions (file : list mrow) (s d : Z) : list (Z * list N) :=
  map (fun r => (m_ts r, m_val r)) (filter (fun r => (m_src r =? s) && (m_dst r =? d)) file).
(** [h] lists them by time. *)
Definition history (file : list mrow) (s d : Z) (h : list (Z * list N)) : Prop :=
  Permutation h (interactions file s d) /\ StronglySorted (fun a b => fst a <= fst b) h.

(** An edge record carrying the history [h]: created at the first entry, one feature that
    holds what the converter would write for [h]. *)
Definition edge_with (s d : Z) (h : list (Z * list N)) (r : record) : Prop :=
  exists ts v t, h = (ts, v) :: t /\ r = Rec s (d + 7046) 0 1065353216 (Some ts) (Some (-1)) [Some (temporal_bytes h)].
Definition student (s : Z) : record := Rec s (-1) 0 1065353216 (Some 0) (Some (-1)) [].

Definition sources (file : list mrow) : list Z := nodup Z.eq_dec (map m_src file).
Definition pair_dec (a b : Z * Z) : {a = b} + {a <> b}.
Proof. decide equality; apply Z.eq_dec. Defined.
Definition pairs (file : list mrow) : list (Z * Z) := nodup pair_dec (map (fun r => (m_src r, m_dst r)) file).

Definition edge_records (rs : list record) : list record := filter (fun r => negb (rdst r =? -1)) rs.
Definition node_records (rs : list record) : list record := filter (fun r => rdst r =? -1) rs.

(** The property: exactly one node record for every student and exactly one edge record, with
    its whole history, for every pair. *)
Definition faithful (file : list mrow) (rs : list record) : Prop :=
  Permutation (node_records rs) (map student (sources file)) /\
  exists hs, Permutation (map fst hs) (pairs file) /\
    Forall (fun x => history file (fst (fst x)) (snd (fst x)) (snd x)) hs /\
    Forall2 (fun x r => edge_with (fst (fst x)) (snd (fst x)) (snd x) r) hs (edge_records rs).

(** The bytes of a temporal feature with its entries in the given order. *)
Definition in_order (h : list (Z * list N)) : list N :=
  cu32 (length h) ++ flat_map (fun x => zle 8 (fst x)) h ++
  flat_map (fun o => zle 8 (Z.of_nat o)) (hist_offsets (4 * (4 * length h + 3)) h) ++ flat_map snd h ++ repeat 0%N 8.

(** An answer: the newest interaction not after [t], or zero bytes. *)
Definition answers (size : nat) (t : Z) (h : list (Z * list N)) (bs : list N) : Prop :=
  (none_yet t h /\ bs = repeat 0%N size) \/ exists x, latest t h x /\ bs = fixed size (snd x).
