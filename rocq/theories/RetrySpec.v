(** Retries as a policy describes them. *)
From Verif Require Import Base SetupModel DecoderModel RetryModel.
Local Open Scope Z_scope.

(** The answer of a request allowed [n] attempts: the first success, else the last error. *)
Definition answer_of {A} (attempt : nat -> res A) (n : nat) (r : res A) (used : nat) : Prop :=
  (1 <= used <= n)%nat /\ attempt used = r /\ (forall j, (1 <= j < used)%nat -> exists e, attempt j = Fail e) /\
  match r with Ok _ => True | Fail _ => used = n end.
(** Waiting as gRPC describes it: initial * multiplier^(k-1), at most the maximum. *)
Definition policy_wait (p : policy) (k : nat) : Z := Z.min (p_initial p * p_multiplier p ^ (Z.of_nat k - 1)) (p_max p).

(** A duration of whole seconds below a minute, and a configuration with it. *)
Definition digit_of (z : Z) : N := Z.to_N (48 + z).
Definition duration (z : Z) : str := if z <? 10 then [digit_of z; 115%N] else [digit_of (z / 10); digit_of (z mod 10); 115%N].
(** What may stand for a number, and the number it stands for: int() cuts fractions, reads text and
    takes true as 1. *)
Inductive stands : json -> Z -> Prop :=
| stands_int z : stands (JInt z) z
| stands_float z : stands (JFloat z) z
| stands_true : stands (JBool true) 1
| stands_false : stands (JBool false) 0
| stands_text z : stands (JStr (show_int z)) z.
Definition config (attempts multiplier : json) (p : policy) (more : list (str * json)) : json :=
  JObj [(k_method, JArr [JObj [(k_retry, JObj ([(k_attempts, attempts); (k_initial, JStr (duration (p_initial p)));
    (k_max, JStr (duration (p_max p))); (k_multiplier, multiplier)] ++ more))]])].
(** The same length of time: also with a leading zero or a capital letter. *)
Definition same_duration (z : Z) (s : str) : Prop :=
  exists c, In c [115; 83]%N /\ (z < 10 /\ s = [digit_of z; c] \/ s = [digit_of (z / 10); digit_of (z mod 10); c]).
