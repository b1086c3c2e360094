(** Retries of requests: /repo/src/python/deepgnn/graph_engine/snark/client.py
    _parse_grpc_options 44-81, the retryers of MemoryGraph 290 and DistributedGraph 1424-1436, and
    what tenacity's Retrying, stop_after_attempt and wait_exponential do with them:

      attempt k (from 1) ends with a value: return it
      it raises and k >= max_attempts: raise the same error (reraise=True)
      otherwise sleep max(max(0, min), min(multiplier * 2 ** (k - 1), max)) seconds.

    json.loads is an argument; text is a list of code points, digits are ASCII.  Not modelled: the
    retries inside gRPC, logging, errors that are no Exception (not retried). *)
From Verif Require Import Base SetupModel DecoderModel.
Local Open Scope Z_scope.

Inductive json :=
| JNull | JBool (b : bool) | JInt (z : Z)
| JFloat (trunc : Z)       (* only int() of it matters *)
| JStr (s : str) | JArr (l : list json) | JObj (l : list (str * json)).

(** x["key"], x[0], int(x). *)
Definition key (k : str) (j : json) : res json :=
  match j with
  | JObj l => match find (fun x => if list_eq_dec N.eq_dec (fst x) k then true else false) l with Some x => Ok (snd x) | None => Fail EIndex end
  | _ => Fail EAssert
  end.
Definition first (j : json) : res json :=
  match j with JArr (x :: _) => Ok x | JArr [] => Fail EIndex | JStr (c :: _) => Ok (JStr [c]) | _ => Fail EAssert end.
Definition to_int (j : json) : res Z :=
  match j with
  | JInt z => Ok z | JFloat z => Ok z | JBool b => Ok (if b then 1 else 0)
  | JStr s => parse_int s
  | _ => Fail EAssert
  end.
(** datetime.strptime(x, "%Ss").second: one digit, or two of which the first is at most 5 (6[01]
    matches too, but is no datetime), and the letter. *)
Definition digit (c : N) : option Z := if (48 <=? c)%N && (c <=? 57)%N then Some (Z.of_N c - 48) else None.
Definition letter_s (c : N) : bool := (c =? 115)%N || (c =? 83)%N.
Definition seconds (j : json) : res Z :=
  match j with
  | JStr [a; s] =>
      match digit a with Some x => if letter_s s then Ok x else Fail EAssert | None => Fail EAssert end
  | JStr [a; b; s] =>
      match digit a, digit b with
      | Some x, Some y => if letter_s s && (x <=? 5) then Ok (10 * x + y) else Fail EAssert
      | _, _ => Fail EAssert
      end
  | _ => Fail EAssert
  end.

Record policy := Policy { p_attempts : Z; p_initial : Z; p_max : Z; p_multiplier : Z }.
Definition default_policy : policy := Policy 5 2 10 2.

(** Keys of the configuration, as code points. *)
Definition k_service : str := [103; 114; 112; 99; 46; 115; 101; 114; 118; 105; 99; 101; 95; 99; 111; 110; 102; 105; 103]%N. (* grpc.service_config *)
Definition k_method : str := [109; 101; 116; 104; 111; 100; 67; 111; 110; 102; 105; 103]%N.                      (* methodConfig *)
Definition k_retry : str := [114; 101; 116; 114; 121; 80; 111; 108; 105; 99; 121]%N.                             (* retryPolicy *)
Definition k_attempts : str := [109; 97; 120; 65; 116; 116; 101; 109; 112; 116; 115]%N.                          (* maxAttempts *)
Definition k_initial : str := [105; 110; 105; 116; 105; 97; 108; 66; 97; 99; 107; 111; 102; 102]%N.              (* initialBackoff *)
Definition k_max : str := [109; 97; 120; 66; 97; 99; 107; 111; 102; 102]%N.                                      (* maxBackoff *)
Definition k_multiplier : str := [98; 97; 99; 107; 111; 102; 102; 77; 117; 108; 116; 105; 112; 108; 105; 101; 114]%N. (* backoffMultiplier *)

Section Parse.
Variable loads : str -> res json.
(** _parse_grpc_options 44-81. *)
Definition retry_policy (j : json) : res json :=
  do m <- key k_method j ;; do f <- first m ;; key k_retry f.
Definition parse_config (s : str) : res policy :=
  do j <- loads s ;;
  do r <- retry_policy j ;;
  do a <- key k_attempts r ;; do a <- to_int a ;;
  do i <- key k_initial r ;; do i <- seconds i ;;
  do m <- key k_max r ;; do m <- seconds m ;;
  do b <- key k_multiplier r ;; do b <- to_int b ;;
  Ok (Policy a i m b).
Definition is_service (k : str) : bool := if list_eq_dec N.eq_dec k k_service then true else false.
Fixpoint parse_options (l : list (str * str)) : policy :=
  match l with
  | [] => default_policy
  | (k, v) :: t =>
      if is_service k then match parse_config v with Ok p => p | Fail _ => default_policy end else parse_options t
  end.
End Parse.

(** ** The retryer *)
(** Arguments of Retrying: attempts, and minimum, maximum and multiplier of the wait. *)
Record retryer := Retryer { t_attempts : Z; t_min : Z; t_max : Z; t_mult : Z }.
(** 1424-1433: the maximum of the wait is max_attempts. *)
Definition remote_retryer (p : policy) : retryer := Retryer (p_attempts p) (p_initial p) (p_attempts p) (p_multiplier p).
(** 290: stop_after_attempt(0), no wait. *)
Definition local_retryer : retryer := Retryer 0 0 0 0.

Definition wait (t : retryer) (k : nat) : Z :=
  Z.max (Z.max 0 (t_min t)) (Z.min (t_mult t * 2 ^ (Z.of_nat k - 1)) (t_max t)).

Section Run.
Context {A : Type}.
(** Attempt [k] of the request. *)
Variable attempt : nat -> res A.
(** The answer, the number of attempts and the waits; [fuel] bounds the loop. *)
Fixpoint run (t : retryer) (fuel k : nat) : res A * nat * list Z :=
  match attempt k with
  | Ok a => (Ok a, k, [])
  | Fail e =>
      if t_attempts t <=? Z.of_nat k then (Fail e, k, [])
      else
        match fuel with
        | O => (Fail EFuel, k, [])
        | S f => let '(r, n, w) := run t f (S k) in (r, n, wait t k :: w)
        end
  end.
Definition request (t : retryer) : res A * nat * list Z := run t (Z.to_nat (t_attempts t)) 1.
End Run.

(** A request writes cells of the arrays made before the first attempt (client.py 979-1021): an
    attempt that fails may have written some of its cells. *)
Section Cells.
Context {A : Type}.
Definition write (l : list A) (x : nat * A) : list A := firstn (fst x) l ++ match skipn (fst x) l with [] => [] | _ :: t => snd x :: t end.
Definition writes (l : list A) (xs : list (nat * A)) : list A := fold_left write xs l.
(** The cells after some failed attempts and one that succeeds. *)
Definition after (init : list A) (failed : list (list (nat * A))) (good : list (nat * A)) : list A :=
  writes (fold_left writes failed init) good.
End Cells.
