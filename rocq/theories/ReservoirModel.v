(** Reservoirs: /repo/src/cc/lib/graph/reservoir.cc. *)
From Coq Require Import Permutation.
From Verif Require Import Base Dist AliasModel.
Local Open Scope nat_scope.

(** The callback of [add]: slot [pick] of the output gets element [offset] of the batch.  Both
    are unchecked array accesses in the callers (sampler.cc 599-604, partition.cc, client.cc). *)
Definition update {A} (batch : list A) (u : nat * nat) (r : list (option A)) : res (list (option A)) :=
  do x <- get batch (snd u) ;;
  if fst u <? length r then Ok (set_nth r (fst u) (Some x)) else Fail EUB.
Fixpoint updates {A} (batch : list A) (us : list (nat * nat)) (r : list (option A)) : res (list (option A)) :=
  match us with [] => Ok r | u :: t => do r' <- update batch u r ;; updates batch t r' end.

(** ** AlgorithmL 13-55 *)
(** [l_rounds] counts the random numbers used so far. *)
Record lstate := LS { l_next : nat; l_seen : nat; l_rounds : nat }.
Definition linit : lstate := LS 0 0 0.

Section AlgorithmL.
(** Random numbers: [skip c] is the value floor(log u / log(1 - W)) + 1 of lines 37 and 50,
    [pick c] is the slot of line 46, both as functions of a running counter. *)
Variable skip pick : nat -> nat.
Variable k : nat.

(** 24-28. *)
Fixpoint lfill (todo i : nat) (s : lstate) : list (nat * nat) * nat * lstate :=
  match todo with
  | O => ([], i, s)
  | S t => if l_seen s <? k
           then let '(us, i', s') := lfill t (S i) (LS (S (l_next s)) (S (l_seen s)) (l_rounds s)) in
                ((l_seen s, i) :: us, i', s')
           else ([], i, s)
  end.

(** 40-51.  The size_t arithmetic of 44 may wrap around; [m_seen + left] is what stays the
    same, so the subtraction is done last here. *)
Fixpoint lloop (fuel n i left : nat) (s : lstate) : res (list (nat * nat) * nat * lstate) :=
  if l_next s <=? l_seen s + left then
    match fuel with
    | O => Fail EFuel
    | S f =>
        let range_offset := l_seen s + left - l_next s + i in
        let new_left := n - range_offset in
        let s' := LS (l_next s + skip (S (l_rounds s))) (l_seen s + left - new_left) (S (l_rounds s)) in
        do r <- lloop f n i new_left s' ;;
        let '(us, left', s'') := r in
        Ok ((pick (l_rounds s), range_offset) :: us, left', s'')
    end
  else Ok ([], left, s).

Definition ladd (n : nat) (s : lstate) : res (list (nat * nat) * lstate) :=
  let '(us, i, s1) := lfill n 0 s in
  let left := n - i in
  if left =? 0 then Ok (us, s1)
  else
    let s2 := if l_seen s1 =? k then LS (l_next s1 + skip (l_rounds s1)) (l_seen s1) (S (l_rounds s1)) else s1 in
    do r <- lloop n n i left s2 ;;
    let '(us', left', s3) := r in
    Ok (us ++ us', LS (l_next s3) (l_seen s3 + left') (l_rounds s3)).

Fixpoint lrun {A} (batches : list (list A)) (s : lstate) (r : list (option A)) : res (lstate * list (option A)) :=
  match batches with
  | [] => Ok (s, r)
  | b :: t =>
      do x <- ladd (length b) s ;;
      do r' <- updates b (fst x) r ;;
      lrun t (snd x) r'
  end.
End AlgorithmL.

(** ** WithReplacement 57-79 *)
(** One slot of add 67-76: the rate is exact, [m_dist < rate] is a coin and [w * m_dist] a
    uniform position.  With [w = 0] the rate is 0 or not a number and nothing changes. *)
Definition wr_slot {A} (seen : nat) (batch : list A) (x : option A) : dist (option A) :=
  match batch with
  | [] => dret x
  | _ => dbind (dflip (qnat (length batch) / qnat (seen + length batch))%Q) (fun b =>
         if b then dbind (duniform (length batch)) (fun j => dret (nth_error batch j)) else dret x)
  end.
Fixpoint wr_slots {A} (seen : nat) (batch : list A) (r : list (option A)) : dist (list (option A)) :=
  match r with
  | [] => dret []
  | x :: t => dbind (wr_slot seen batch x) (fun x' => dbind (wr_slots seen batch t) (fun t' => dret (x' :: t')))
  end.
Fixpoint wr_run {A} (seen : nat) (batches : list (list A)) (r : list (option A)) : dist (list (option A)) :=
  match batches with
  | [] => dret r
  | b :: t => dbind (wr_slots seen b r) (fun r' => wr_run (seen + length b) t r')
  end.

(** ** WithoutReplacementMerge 81-178 *)
(** 128-138: how many of the k results come from the left. *)
Fixpoint mcount (todo left right : nat) : dist nat :=
  match todo with
  | O => dret 0
  | S t => dbind (dflip (qnat left / qnat (left + right))%Q) (fun b =>
           if b then dbind (mcount t (left - 1) right) (fun c => dret (S c)) else mcount t left (right - 1))
  end.

(** sample_n 95-111: swap element i with one after it, up to the last but one. *)
Definition swap {A} (l : list A) (i j : nat) : list A :=
  match nth_error l i, nth_error l j with
  | Some x, Some y => set_nth (set_nth l i y) j x
  | _, _ => l
  end.
Fixpoint shuffle (todo i : nat) (l : list nat) : dist (list nat) :=
  match todo with
  | O => dret l
  | S t => dbind (duniform (length l - 1 - i)) (fun d => shuffle t (S i) (swap l i (i + 1 + d)))
  end.
Definition sample_n (l : list nat) : dist (list nat) := shuffle (length l - 1) 0 l.

(** 159: sorting the indices that stay. *)
Fixpoint ins (x : nat) (l : list nat) : list nat :=
  match l with [] => [x] | y :: t => if x <=? y then x :: l else y :: ins x t end.
Definition sort_nat (l : list nat) : list nat := fold_right ins [] l.

(** 163-174: slots that are not kept are filled from the right. *)
Fixpoint mplace (todo i : nat) (kept right : list nat) : res (list (nat * nat)) :=
  match todo with
  | O => Ok []
  | S t =>
      match kept with
      | x :: kept' => if x =? i then mplace t (S i) kept' right
                      else match right with
                           | [] => Fail EUB
                           | y :: right' => do us <- mplace t (S i) kept right' ;; Ok ((i, y) :: us)
                           end
      | [] => match right with
              | [] => Fail EUB
              | y :: right' => do us <- mplace t (S i) [] right' ;; Ok ((i, y) :: us)
              end
      end
  end.

(** add 113-175: new m_seen and the updates.  The order of the random draws (left shuffle,
    right shuffle) is the one of the code. *)
Definition madd (k n seen : nat) : dist (nat * res (list (nat * nat))) :=
  if seen + n <=? k then dret (seen + n, Ok (map (fun i => (seen + i, i)) (seq 0 n)))
  else
    dbind (mcount k seen n) (fun lc =>
    dbind (if 0 <? lc then sample_n (seq 0 seen) else dret (seq 0 seen)) (fun left =>
    dbind (if 0 <? k - lc then sample_n (seq 0 (Nat.min n k)) else dret (seq 0 (Nat.min n k))) (fun right =>
    dret (seen, mplace k 0 (sort_nat (firstn lc left)) right)))).

(** Merging the samples of several shards; [n] is the number of items the shard sampled from,
    [batch] its at most k samples (client.cc 848-873). *)
Fixpoint mrun {A} (k seen : nat) (shards : list (nat * list A)) (r : list (option A)) : dist (res (list (option A))) :=
  match shards with
  | [] => dret (Ok r)
  | (n, batch) :: t =>
      dbind (madd k n seen) (fun x =>
      match (do us <- snd x ;; updates batch us r) with
      | Ok r' => mrun k (fst x) t r'
      | Fail e => dret (Fail e)
      end)
  end.
