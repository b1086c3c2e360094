(** Node and edge samplers over types and partitions: /repo/src/cc/lib/graph/sampler.cc.
    Simplifications: weights are exact rationals instead of float32, so counts above 2^24 and
    rounding of the conditional probabilities are outside the model; binomial draws and the
    random numbers of the partition samplers are arbitrary possible outcomes or ideal
    distributions.  Subseeds are independent of the binomial draws. *)
From Coq Require Import Qround.
From Verif Require Import Base Dist AliasModel ReservoirModel.
Local Open Scope nat_scope.

(** ** Programs that draw binomial numbers *)
Inductive prog (A : Type) : Type :=
| Ret : A -> prog A
| Err : err -> prog A
| Bin : nat -> Q -> (nat -> prog A) -> prog A.
Arguments Ret {A}. Arguments Err {A}. Arguments Bin {A}.

Fixpoint pbind {A B} (m : prog A) (f : A -> prog B) : prog B :=
  match m with
  | Ret a => f a
  | Err e => Err e
  | Bin n p k => Bin n p (fun c => pbind (k c) f)
  end.

(** Numbers a binomial distribution can yield. *)
Definition possible (n : nat) (p : Q) (c : nat) : Prop := c <= n /\ ((p <= 0)%Q -> c = 0) /\ ((1 <= p)%Q -> c = n).

(** All results of a program. *)
Fixpoint outcome {A} (m : prog A) (r : res A) : Prop :=
  match m with
  | Ret a => r = Ok a
  | Err e => r = Fail e
  | Bin n p k => exists c, possible n p c /\ outcome (k c) r
  end.

(** The distribution of the results. *)
Fixpoint dbinom (n : nat) (p : Q) : dist nat :=
  match n with
  | O => dret 0
  | S m => dbind (dflip p) (fun b => dbind (dbinom m p) (fun c => dret (if b then S c else c)))
  end.
Fixpoint law {A} (m : prog A) : dist (res A) :=
  match m with
  | Ret a => dret (Ok a)
  | Err e => dret (Fail e)
  | Bin n p k => dbind (dbinom n p) (fun c => law (k c))
  end.

(** ** Tables of SamplerImpl 31-69 *)
(** conditional_probabilities 631-652: from the back, [sum_weight += *p; *p /= sum_weight]. *)
Definition conditional_probabilities (ws : list Q) : list Q :=
  fst (fold_right (fun w a => let s := (snd a + w)%Q in ((w / s)%Q :: fst a, s)) ([], 0%Q) ws).

(** The partial sums 56 and 68: what the later ones can give. *)
Definition later_sums (ms : list nat) : list nat :=
  fst (fold_right (fun m a => (snd a :: fst a, snd a + m)) ([], 0) ms).

(** [m_partition_max.emplace_back(weight)]: float to size_t. *)
Definition to_count (w : Q) : nat := Z.to_nat (Qfloor w).

(** Probability, max and min of every entry. *)
Definition table (ws : list Q) : list (Q * nat * nat) :=
  combine (combine (conditional_probabilities ws) (map to_count ws)) (later_sums (map to_count ws)).

(** ** SamplerImpl::Sample 77-150 *)
(** 92-106 and 114-129.  A count above [left] makes [left -= count] wrap around and the output
    span too long. *)
Definition draw_count (rep : bool) (left : nat) (e : Q * nat * nat) : prog nat :=
  let '(p, mx, mn) := e in
  Bin left p (fun c =>
    if rep then Ret c
    else
      let c := Nat.min c mx in
      let c := if mn <? left - c then mx else c in
      if left <? c then Err EUB else Ret c).

(** 111-147: pairs of a partition and a number of items. *)
Fixpoint parts_loop (rep : bool) (ps : list (Q * nat * nat)) (p left : nat) : prog (list (nat * nat)) :=
  match ps with
  | [] => Ret []
  | e :: t =>
      if left =? 0 then Ret []
      else pbind (draw_count rep left e) (fun c =>
           pbind (parts_loop rep t (S p) (left - c)) (fun l =>
           Ret (if c =? 0 then l else (p, c) :: l)))
  end.

(** 89-148: how often each type is written, and which items are requested from where. *)
Fixpoint types_loop (rep : bool) (ts : list (Z * (Q * nat * nat) * list (Q * nat * nat))) (i left : nat)
  : prog (list Z * list (nat * nat * nat)) :=
  match ts with
  | [] => Ret ([], [])
  | (ty, e, ps) :: t =>
      if left =? 0 then Ret ([], [])
      else pbind (draw_count rep left e) (fun c =>
           pbind (parts_loop rep ps 0 c) (fun l =>
           pbind (types_loop rep t (S i) (left - c)) (fun r =>
           Ret (repeat ty c ++ fst r, map (fun x => (i, fst x, snd x)) l ++ snd r))))
  end.

Definition total (ws : list Q) : Q := qsum (fun w => w) ws.

(** Constructor and Sample.  With no type, or a type without partitions, the constructor
    passes [last - 1] as the end of a range (56, 68). *)
Definition sample_plan (rep : bool) (types : list (Z * list Q)) (size : nat) : prog (list Z * list (nat * nat * nat)) :=
  if (length types =? 0) || existsb (fun t => length (snd t) =? 0) types then Err EUB
  else
    types_loop rep (combine (combine (map fst types) (table (map (fun t => total (snd t)) types)))
                            (map (fun t => table (snd t)) types)) 0 size.

(** ** Uniform partition samplers *)
(** The constructor 302-346 (edges 464-528) collects the elements of the alias table in a hash set; the
    order is unspecified. *)
Definition uniform_records {A} (t : list (arec A)) (rs : list A) : Prop :=
  NoDup rs /\
  forall x, In x rs <-> exists r, In r t /\ (x = a_left r \/ (a_threshold r < 1)%Q /\ x = a_right r).

(** Sample 440-457 with SampleWithoutReplacement 587-605: an AlgorithmL of the requested size
    fed with all records; [None] is memory nobody wrote to. *)
Definition take_without {A} (skip pick : nat -> nat) (records : list A) (count : nat) : res (list (option A)) :=
  match records with
  | [] => Ok (repeat None count)
  | _ => do r <- lrun skip (fun c => Nat.modulo (pick c) count) count [records] linit (repeat None count) ;; Ok (snd r)
  end.

(** The output spans are filled one after the other; [skips j], [picks j] are the random numbers
    of the j-th request. *)
Fixpoint fill_without {A} (skips picks : nat -> nat -> nat) (j : nat) (pops : list (list (list A)))
    (chunks : list (nat * nat * nat)) : res (list (option A)) :=
  match chunks with
  | [] => Ok []
  | (i, p, c) :: t =>
      do ps <- get pops i ;;
      do records <- get ps p ;;
      do x <- take_without (skips j) (picks j) records c ;;
      do r <- fill_without skips picks (S j) pops t ;;
      Ok (x ++ r)
  end.

(** Types and populations of a sampler without replacement. *)
Definition sizes_of {A} (types : list (Z * list (list A))) : list (Z * list Q) :=
  map (fun t => (fst t, map (fun r => qnat (length r)) (snd t))) types.

(** ** Weighted partition samplers *)
(** Sample 279-295: every slot is drawn from the alias table on its own; an empty table leaves
    the output alone. *)
Fixpoint take_weighted {A} (t : list (arec A)) (count : nat) : dist (list (option A)) :=
  match count with
  | O => dret []
  | S n => match t with
           | [] => dret (repeat None count)
           | _ => dbind (alias_sample t) (fun a => dbind (take_weighted t n) (fun l => dret (Some a :: l)))
           end
  end.
(** Uniform samplers with replacement: SampleWithReplacement 607-628 with overwrite rate 1. *)
Fixpoint take_uniform {A} (records : list A) (count : nat) : dist (list (option A)) :=
  match count with
  | O => dret []
  | S n => match records with
           | [] => dret (repeat None count)
           | _ => dbind (duniform (length records)) (fun i => dbind (take_uniform records n) (fun l => dret (nth_error records i :: l)))
           end
  end.

(** The output spans are filled one after the other from the partition samplers [tabs]. *)
Fixpoint fill_random {T A} (take : T -> nat -> dist (list (option A))) (tabs : list (list T)) (chunks : list (nat * nat * nat))
  : dist (res (list (option A))) :=
  match chunks with
  | [] => dret (Ok [])
  | (i, p, c) :: t =>
      match (do ps <- get tabs i ;; get ps p) with
      | Fail e => dret (Fail e)
      | Ok tab => dbind (take tab c) (fun x =>
                  dbind (fill_random take tabs t) (fun r => dret (do l <- r ;; Ok (x ++ l))))
      end
  end.
(** A sampler with replacement: [types] gives the weight of each partition. *)
Definition sample_with {T A} (take : T -> nat -> dist (list (option A))) (types : list (Z * list Q)) (tabs : list (list T)) (size : nat)
  : dist (res (list Z * list (option A))) :=
  dbind (law (sample_plan true types size)) (fun r =>
  match r with
  | Fail e => dret (Fail e)
  | Ok plan => dbind (fill_random take tabs (snd plan)) (fun x => dret (do l <- x ;; Ok (fst plan, l)))
  end).
