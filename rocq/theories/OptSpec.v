(** What options should be, without the model's helpers. *)
From Coq Require Import List.
Import ListNotations.

(** A Namespace has one value for each name. *)
Definition keys {K V} (l : list (K * V)) : list K := map fst l.
(** [v] is the value given for [k], or the default if none is given. *)
Definition given_or {K V} (params defaults : list (K * V)) (k : K) (v : option V) : Prop :=
  (forall u, In (k, u) params -> v = Some u) /\
  (~ In k (keys params) -> forall u, In (k, u) defaults -> v = Some u) /\
  (~ In k (keys params) -> ~ In k (keys defaults) -> v = None).
