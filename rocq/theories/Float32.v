(** IEEE binary32 addition and subtraction on bit patterns, as used by the running sums of
    edge weights in /repo/src/cc/lib/graph/partition.cc (ReadEdges accumulates
    [float] weights; FullNeighbor subtracts them).  Built from the standard library's
    executable specification of IEEE 754 arithmetic (Coq.Floats.SpecFloat), rounding to
    nearest even.  Simplification: every NaN result is the quiet NaN 0x7fc00000. *)
From Coq Require Import ZArith NArith Floats.SpecFloat.
Local Open Scope N_scope.

Definition prec : Z := 24.
Definition emax : Z := 128.

Definition decode32 (b : N) : spec_float :=
  let s := N.testbit b 31 in
  let ex := (b / 2 ^ 23) mod 2 ^ 8 in
  let m := b mod 2 ^ 23 in
  if ex =? 255 then (if m =? 0 then S754_infinity s else S754_nan)
  else if ex =? 0 then
         match m with N0 => S754_zero s | Npos p => S754_finite s p (-149) end
       else match m + 2 ^ 23 with N0 => S754_zero s | Npos p => S754_finite s p (Z.of_N ex - 150) end.

Definition encode32 (f : spec_float) : N :=
  let sg (s : bool) := if s then 2 ^ 31 else 0 in
  match f with
  | S754_zero s => sg s
  | S754_infinity s => sg s + 255 * 2 ^ 23
  | S754_nan => 255 * 2 ^ 23 + 2 ^ 22
  | S754_finite s m e =>
      if Npos m <? 2 ^ 23 then sg s + Npos m
      else sg s + Z.to_N (e + 150) * 2 ^ 23 + (Npos m - 2 ^ 23)
  end.

Definition f32_add (a b : N) : N := encode32 (SFadd prec emax (decode32 a) (decode32 b)).
Definition f32_sub (a b : N) : N := encode32 (SFsub prec emax (decode32 a) (decode32 b)).
Definition f32_mul (a b : N) : N := encode32 (SFmul prec emax (decode32 a) (decode32 b)).
Definition f32_lt (a b : N) : bool := SFltb (decode32 a) (decode32 b).
Definition f32_le (a b : N) : bool := SFleb (decode32 a) (decode32 b).

(** 1.0 + 1.0 = 2.0; 16777216 + 1 = 16777216; 0.1 + 0.2 in single precision. *)
Example f32_add_tests :
  f32_add 0x3f800000 0x3f800000 = 0x40000000 /\
  f32_add 0x4b800000 0x3f800000 = 0x4b800000 /\
  f32_add 0x3dcccccd 0x3e4ccccd = 0x3e99999a /\
  f32_sub 0x40400000 0x3f800000 = 0x40000000 /\
  f32_add 0 0x3dcccccd = 0x3dcccccd /\ f32_add 1 1 = 2.
Proof. vm_compute. repeat split. Qed.
