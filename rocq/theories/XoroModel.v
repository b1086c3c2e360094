(** Random generator: /repo/src/cc/lib/graph/xoroshiro.h (SplitMix64Generator 22-50,
    Xoroshiro128PlusGenerator 60-127).  A uint64_t is an [N] below 2^64. *)
From Verif Require Import Base.
Local Open Scope N_scope.

Definition u64 (x : N) : N := x mod 2 ^ 64.
Definition shl64 (x k : N) : N := u64 (N.shiftl x k).

(** SplitMix64Generator::Transform 43-49: the value and the new state. *)
Definition mix (z : N) : N :=
  let z := u64 (N.lxor z (N.shiftr z 30) * 0xbf58476d1ce4e5b9) in
  let z := u64 (N.lxor z (N.shiftr z 27) * 0x94d049bb133111eb) in
  N.lxor z (N.shiftr z 31).
Definition split_mix (state : N) : N * N :=
  let state := u64 (state + 0x9e3779b97f4a7c15) in
  (mix state, state).

(** Xoroshiro128PlusGenerator::Convert 101-106 *)
Definition xstate := (N * N)%type.
Definition xseed (seed : N) : xstate :=
  let a := split_mix seed in
  let b := split_mix (snd a) in
  (fst a, fst b).

(** _rotl64 108-111 *)
Definition rotl64 (x k : N) : N := N.lor (shl64 x k) (N.shiftr x (64 - k)).

(** Transform 113-124: the value and the new state. *)
Definition xnext (s : xstate) : N * xstate :=
  let s0 := fst s in
  let s1 := snd s in
  let result := u64 (s0 + s1) in
  let s1 := N.lxor s1 s0 in
  (result, (N.lxor (N.lxor (rotl64 s0 24) s1) (shl64 s1 16), rotl64 s1 37)).

(** The state after [n] values, and the values. *)
Fixpoint xstep (n : nat) (s : xstate) : xstate := match n with O => s | S n' => xstep n' (snd (xnext s)) end.
Fixpoint xvalues (n : nat) (s : xstate) : list N :=
  match n with O => [] | S n' => fst (xnext s) :: xvalues n' (snd (xnext s)) end.
