(** The libstdc++ partition search. *)
From Verif Require Import Base LoaderModel.
From Coq Require Import Sorting.Sorted ZifyBool ZifyNat.

Definition edges_at {A} (go : A -> bool) (l : list A) (k : nat) : Prop :=
  k <= length l /\
  (forall x, nth_error l k = Some x -> go x = false) /\
  (forall j x, k = S j -> nth_error l j = Some x -> go x = true).

Lemma bsearch_edges {A} (go : A -> bool) (l : list A) fuel : forall first len,
  len <= fuel -> first + len <= length l ->
  (forall x, nth_error l (first + len) = Some x -> go x = false) ->
  (forall j x, first = S j -> nth_error l j = Some x -> go x = true) ->
  edges_at go l (bsearch fuel go l first len).
Proof.
  induction fuel as [|fuel IH]; intros first len Hf Hb H1 H2; cbn [bsearch].
  - replace (first + len) with first in * by lia. now split.
  - destruct len as [|len'].
    + rewrite Nat.add_0_r in *. now split.
    + remember (S len') as len eqn:El.
      assert (Hh : len / 2 < len) by (apply Nat.div_lt; lia).
      destruct (nth_error l (first + len / 2)) as [x|] eqn:E.
      * destruct (go x) eqn:Eg; apply IH; try lia.
        -- intros y Hy. apply H1. rewrite <- Hy. f_equal. lia.
        -- intros j y Hj Hy. assert (j = first + len / 2) by lia. subst j. rewrite E in Hy. now inversion Hy; subst y.
        -- intros y Hy. rewrite E in Hy. now inversion Hy; subst y.
        -- assumption.
      * apply nth_error_None in E. lia.
Qed.

(** Whatever the order of the list, the returned position is a change from "right" to "left". *)
Lemma bound_edges {A} (go : A -> bool) (l : list A) : edges_at go l (bound go l).
Proof.
  apply bsearch_edges; try lia.
  intros x Hx. rewrite (proj2 (nth_error_None _ _)) in Hx by lia. discriminate.
Qed.

(** On a partitioned list it is the length of the "right" part. *)
Lemma bound_partitioned {A} (go : A -> bool) (a b : list A) :
  Forall (fun x => go x = true) a -> Forall (fun x => go x = false) b -> bound go (a ++ b) = length a.
Proof.
  intros Ha Hb. destruct (bound_edges go (a ++ b)) as (H1 & H2 & H3). set (k := bound go (a ++ b)) in *. clearbody k.
  rewrite app_length in H1.
  destruct (Nat.lt_trichotomy k (length a)) as [H|[H|H]]; [|assumption|].
  - destruct (nth_error a k) as [x|] eqn:E; [|apply nth_error_None in E; lia].
    rewrite nth_error_app1 in H2 by lia. specialize (H2 x E).
    apply nth_error_In in E. rewrite Forall_forall in Ha. rewrite (Ha x E) in H2. discriminate.
  - destruct k as [|j]; [lia|]. specialize (H3 j). rewrite nth_error_app2 in H3 by lia.
    destruct (nth_error b (j - length a)) as [x|] eqn:E; [|apply nth_error_None in E; lia].
    specialize (H3 x eq_refl eq_refl). apply nth_error_In in E. rewrite Forall_forall in Hb. rewrite (Hb x E) in H3. discriminate.
Qed.
