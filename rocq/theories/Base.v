(** Shared vocabulary of all models: results with exceptions as values and
    little endian byte fields.  Nothing here is specific to one source file. *)
From Coq Require Export List Arith ZArith NArith Lia Bool.
From Coq Require Import ZifyBool ZifyNat ZifyN.
Export ListNotations.

(** Ways in which the modelled code can stop without a value.
    - [EAssert]  a Python [assert] or a C++ [assert] fails;
    - [EPack]    [struct.pack] rejects a value out of range;
    - [EIndex]   a Python [IndexError];
    - [EUB]      a C++ container is read out of bounds (undefined behaviour);
    - [EFatal]   [log_fatal] or a C++ exception;
    - [EFuel]    the model ran out of fuel (excluded by the theorems). *)
Inductive err := EAssert | EPack | EIndex | EUB | EFatal | EFuel.

Inductive res (A : Type) := Ok (a : A) | Fail (e : err).
Arguments Ok {A} a.
Arguments Fail {A} e.

Definition bind {A B} (r : res A) (f : A -> res B) : res B :=
  match r with Ok a => f a | Fail e => Fail e end.
Notation "'do' x <- r ;; k" := (bind r (fun x => k))
  (at level 200, x pattern, r at level 100, k at level 200).

Fixpoint mapM {A B} (f : A -> res B) (l : list A) : res (list B) :=
  match l with
  | [] => Ok []
  | a :: t => do b <- f a ;; do bs <- mapM f t ;; Ok (b :: bs)
  end.

(** Bounds checked array read: out of bounds is undefined behaviour in C++. *)
Definition get {A} (l : list A) (i : nat) : res A :=
  match nth_error l i with Some x => Ok x | None => Fail EUB end.

(** Contiguous sub-array [start, start+len). *)
Definition slice {A} (l : list A) (start len : nat) : list A :=
  firstn len (skipn start l).

(** Little endian encoding of [v] on [n] bytes (bytes are [N] below 256);
    higher bits are dropped, as in ctypes/struct with a fixed width. *)
Fixpoint le (n : nat) (v : N) : list N :=
  match n with
  | O => []
  | S m => N.modulo v 256 :: le m (N.div v 256)
  end.

Fixpoint unle (l : list N) : N :=
  match l with
  | [] => 0%N
  | b :: t => (b + 256 * unle t)%N
  end.

(** Two's complement on [n] bytes. *)
Definition zle (n : nat) (z : Z) : list N :=
  le n (Z.to_N (z mod 2 ^ (8 * Z.of_nat n))).

Definition unzle (n : nat) (l : list N) : Z :=
  let v := Z.of_N (unle l) in
  if (v <? 2 ^ (8 * Z.of_nat n - 1))%Z then v else (v - 2 ^ (8 * Z.of_nat n))%Z.

(** The first [count] consecutive fields of [k] bytes of a file. *)
Fixpoint chunks {A} (k count : nat) (l : list A) : list (list A) :=
  match count with
  | O => []
  | S c => firstn k l :: chunks k c (skipn k l)
  end.

(** All complete fields of [k] bytes of a file. *)
Definition fields {A} (k : nat) (l : list A) : list (list A) :=
  chunks k (length l / k) l.

(** ** Facts *)

Lemma le_length n v : length (le n v) = n.
Proof. revert v; induction n as [|n IH]; intro v; cbn; [reflexivity|]. now rewrite IH. Qed.

Lemma zle_length n z : length (zle n z) = n.
Proof. apply le_length. Qed.

Lemma unle_le n v : (v < 256 ^ N.of_nat n)%N -> unle (le n v) = v.
Proof.
  revert v; induction n as [|n IH]; intros v Hv.
  - cbn in *. lia.
  - cbn [le unle]. rewrite IH.
    + pose proof (N.div_mod v 256). lia.
    + rewrite Nat2N.inj_succ, N.pow_succ_r' in Hv.
      apply N.div_lt_upper_bound; lia.
Qed.

Lemma unzle_zle n z :
  (0 < n)%nat ->
  (- 2 ^ (8 * Z.of_nat n - 1) <= z < 2 ^ (8 * Z.of_nat n - 1))%Z ->
  unzle n (zle n z) = z.
Proof.
  intros Hn Hz. unfold unzle, zle.
  set (m := (8 * Z.of_nat n)%Z) in *.
  assert (Hp : (2 ^ m = 2 * 2 ^ (m - 1))%Z).
  { rewrite <- Z.pow_succ_r by lia. f_equal. lia. }
  assert (Hpos : (0 < 2 ^ (m - 1))%Z) by (apply Z.pow_pos_nonneg; lia).
  assert (Hb : (256 ^ N.of_nat n)%N = Z.to_N (2 ^ m)).
  { apply N2Z.inj. rewrite Z2N.id by lia. rewrite N2Z.inj_pow.
    replace (Z.of_N 256) with (2 ^ 8)%Z by reflexivity.
    rewrite nat_N_Z, <- Z.pow_mul_r by lia. reflexivity. }
  pose proof (Z.mod_pos_bound z (2 ^ m) ltac:(lia)) as Hmod.
  rewrite unle_le by (rewrite Hb; lia).
  rewrite Z2N.id by lia.
  destruct (Z.leb_spec 0 z) as [H0|H0].
  - rewrite Z.mod_small by lia.
    destruct (Z.ltb_spec z (2 ^ (m - 1))); lia.
  - assert (Hm : (z mod 2 ^ m = z + 2 ^ m)%Z).
    { rewrite <- (Z.mod_add z 1) by lia. rewrite Z.mod_small; lia. }
    rewrite Hm. destruct (Z.ltb_spec (z + 2 ^ m) (2 ^ (m - 1))); lia.
Qed.

Lemma get_app_l {A} (l l' : list A) i : i < length l -> get (l ++ l') i = get l i.
Proof. intro H. unfold get. now rewrite nth_error_app1. Qed.

Lemma get_app_r {A} (l l' : list A) i : get (l ++ l') (length l + i) = get l' i.
Proof.
  unfold get. rewrite nth_error_app2 by lia.
  now replace (length l + i - length l) with i by lia.
Qed.

Lemma get_app_r0 {A} (l l' : list A) i : i = length l -> get (l ++ l') i = get l' 0.
Proof. intros ->. rewrite <- (get_app_r l l' 0). f_equal. lia. Qed.

Lemma get_map {A B} (f : A -> B) l i :
  get (map f l) i = do x <- get l i ;; Ok (f x).
Proof. unfold get. rewrite nth_error_map. destruct (nth_error l i); reflexivity. Qed.

Lemma get_ok {A} (l : list A) i x : nth_error l i = Some x -> get l i = Ok x.
Proof. unfold get. now intros ->. Qed.

Lemma slice_app {A} (l1 l2 l3 : list A) :
  slice (l1 ++ l2 ++ l3) (length l1) (length l2) = l2.
Proof.
  unfold slice. rewrite skipn_app, skipn_all, Nat.sub_diag. cbn.
  rewrite firstn_app, firstn_all, Nat.sub_diag. cbn. apply app_nil_r.
Qed.

Lemma slice_app_eq {A} (l1 l2 l3 : list A) s n :
  s = length l1 -> n = length l2 -> slice (l1 ++ l2 ++ l3) s n = l2.
Proof. intros -> ->. apply slice_app. Qed.

Lemma chunks_length {A} k c (l : list A) : length (chunks k c l) = c.
Proof. revert l; induction c as [|c IH]; intro l; cbn; auto. Qed.

Lemma chunks_concat {A} k (ls : list (list A)) rest :
  Forall (fun x => length x = k) ls ->
  chunks k (length ls) (concat ls ++ rest) = ls.
Proof.
  induction ls as [|x ls IH]; intro H; [reflexivity|].
  inversion H as [|? ? Hx Hls]; subst. cbn [length chunks concat].
  rewrite <- app_assoc.
  rewrite firstn_app, firstn_all, Nat.sub_diag, app_nil_r.
  rewrite skipn_app, skipn_all, Nat.sub_diag. cbn [skipn app].
  now rewrite IH.
Qed.

Lemma concat_length_const {A} k (ls : list (list A)) :
  Forall (fun x => length x = k) ls -> length (concat ls) = k * length ls.
Proof.
  induction 1 as [|x ls Hx _ IH]; cbn; [lia|]. rewrite app_length. lia.
Qed.

Lemma fields_concat {A} k (ls : list (list A)) :
  0 < k -> Forall (fun x => length x = k) ls -> fields k (concat ls) = ls.
Proof.
  intros Hk H. unfold fields. rewrite (concat_length_const k) by assumption.
  rewrite Nat.mul_comm, Nat.div_mul by lia.
  rewrite <- (app_nil_r (concat ls)). now apply chunks_concat.
Qed.

Lemma fields_flat_map {A B} k (f : B -> list A) (xs : list B) :
  0 < k -> (forall x, length (f x) = k) -> fields k (flat_map f xs) = map f xs.
Proof.
  intros Hk H. rewrite flat_map_concat_map. apply fields_concat; [exact Hk|].
  apply Forall_forall. intros y Hy. apply in_map_iff in Hy. destruct Hy as (x & <- & _). apply H.
Qed.

Lemma flat_map_length_const {A B} k (f : B -> list A) (xs : list B) :
  (forall x, length (f x) = k) -> length (flat_map f xs) = k * length xs.
Proof.
  intro H. induction xs as [|x xs IH]; cbn; [lia|]. rewrite app_length, H. lia.
Qed.

Lemma mapM_ok {A B} (f : A -> res B) (g : A -> B) l :
  (forall x, In x l -> f x = Ok (g x)) -> mapM f l = Ok (map g l).
Proof.
  induction l as [|a l IH]; intro H; [reflexivity|].
  cbn. rewrite (H a (or_introl eq_refl)). cbn.
  rewrite IH by (intros; apply H; now right). reflexivity.
Qed.

Lemma mapM_ext_in {A B} (f g : A -> res B) l :
  (forall x, In x l -> f x = g x) -> mapM f l = mapM g l.
Proof.
  induction l as [|a l IH]; intro H; [reflexivity|].
  cbn. rewrite (H a (or_introl eq_refl)). destruct (g a); cbn; [|reflexivity].
  rewrite IH by (intros; apply H; now right). reflexivity.
Qed.
