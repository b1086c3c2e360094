From Coq Require Import Ascii String Lia ZifyBool ZifyNat.
From Verif Require Import Base FilesModel FilesProofs CkptModel CkptProofs EagerModel EagerSpec.
Import ListNotations.
Open Scope list_scope.

Section Callbacks.
Context {V : Type}.
Implicit Types (run : list (list (batch V))) (l : list (batch V)).

Fixpoint flat (e : nat) run : list (nat * batch V) :=
  match run with [] => [] | l :: t => map (pair e) l ++ flat (S e) t end.
Lemma flat_concat run : forall e, map snd (flat e run) = List.concat run.
Proof.
  induction run as [|l t IH]; intros e; cbn; [reflexivity|]. rewrite map_app, IH, map_map. cbn. now rewrite map_id.
Qed.

Lemma ran_cons l run k e x :
  ran (l :: run) k e x <-> (e = 0 /\ nth_error l k = Some x) \/ (exists e', e = S e' /\ List.length l <= k /\ ran run (k - List.length l) e' x).
Proof.
  split.
  - intros (l' & b & H1 & H2 & ->). destruct e as [|e].
    + left. cbn in *. injection H1 as <-. auto.
    + right. exists e. cbn [nth_error firstn List.concat] in *. rewrite app_length. split; [reflexivity|]. split; [lia|].
      exists l', b. repeat split; auto. lia.
  - intros [[-> H]|(e' & -> & L & l' & b & H1 & H2 & H3)].
    + exists l, k. cbn. auto.
    + exists l', b. cbn [nth_error firstn List.concat]. rewrite app_length. repeat split; auto. lia.
Qed.
Lemma flat_spec run : forall e0 k e x, nth_error (flat e0 run) k = Some (e, x) <-> (exists e', e = e0 + e' /\ ran run k e' x).
Proof.
  induction run as [|l t IH]; intros e0 k e x; cbn [flat].
  - split; [destruct k; discriminate|]. intros (e' & _ & l & b & H & _). destruct e'; discriminate.
  - destruct (Nat.lt_ge_cases k (List.length l)) as [L|L].
    + rewrite nth_error_app1 by (now rewrite map_length). rewrite nth_error_map. split.
      * destruct (nth_error l k) as [y|] eqn:E; [|discriminate]. intros H. injection H as <- <-. exists 0. split; [lia|]. apply ran_cons. auto.
      * intros (e' & -> & H). apply ran_cons in H as [[-> H]|(e1 & _ & L' & _)]; [|lia]. rewrite H. cbn. now rewrite Nat.add_0_r.
    + rewrite nth_error_app2 by (now rewrite map_length). rewrite map_length, IH. split.
      * intros (e' & -> & H). exists (S e'). split; [lia|]. apply ran_cons. right. exists e'. auto.
      * intros (e' & -> & H). apply ran_cons in H as [[_ H]|(e1 & -> & _ & H)].
        -- apply nth_error_None in L. congruence.
        -- exists e1. split; [lia|exact H].
Qed.

Fixpoint lines (n k : nat) (prev : Z) (L : list (nat * batch V)) : list (out V) :=
  match L with
  | [] => []
  | (e, x) :: t =>
      if k mod n =? 0 then Line k e (snd x) (fst x - prev)%Z n :: lines n (S k) (fst x) t else lines n (S k) prev t
  end.
Definition vars (b : bool) (L : list (nat * batch V)) : list (out V) := if b then match L with [] => [] | _ => [Vars] end else [].

Fixpoint numbered (e : nat) (evs : list (event V)) : list (nat * batch V) :=
  match evs with
  | [] => []
  | EpochBegin e' :: t => numbered e' t
  | BatchEnd _ x :: t => (e, x) :: numbered e t
  end.
Lemma numbered_batches l : forall b e rest, numbered e (batches b l ++ rest) = map (pair e) l ++ numbered e rest.
Proof. induction l as [|x l IH]; intros b e rest; cbn; [reflexivity|]. now rewrite IH. Qed.
Lemma numbered_epochs run : forall e0 e, numbered e0 (epochs e run) = flat e run.
Proof. induction run as [|l t IH]; intros e0 e; cbn; [reflexivity|]. now rewrite numbered_batches, IH. Qed.

Lemma logged_ok n (Hn : n <> 0) : forall evs c,
  logged n evs c = Some (vars (first c) (numbered (epoch c) evs) ++ lines n (steps c) (prev c) (numbered (epoch c) evs)).
Proof.
  induction evs as [|[e|b x] t IH]; intros c; cbn [logged on_event numbered].
  - destruct (first c); reflexivity.
  - rewrite IH. reflexivity.
  - unfold batch_end, log_step. replace (n =? 0) with false by (symmetry; now apply Nat.eqb_neq). cbn [lines].
    destruct (steps c mod n =? 0); cbn [negb first steps epoch prev]; rewrite IH; cbn [first steps epoch prev vars app option_map];
      destruct (first c); reflexivity.
Qed.
Lemma train_log_ok n start run : n <> 0 ->
  train_log n start run = Some (vars true (flat 0 run) ++ lines n 0 start (flat 0 run)).
Proof. intros H. unfold train_log. rewrite logged_ok by exact H. cbn [first steps epoch prev new_cb]. now rewrite numbered_epochs. Qed.

Lemma lines_no_vars n : forall L k p, ~ In Vars (lines n k p L).
Proof.
  induction L as [|[e x] t IH]; intros k p; cbn; [auto|]. destruct (k mod n =? 0); cbn; [|apply IH]. intros [H|H]; [discriminate|now apply IH in H].
Qed.
Lemma divides n k : n <> 0 -> k mod n = 0 <-> Nat.divide n k.
Proof. intros. now apply Nat.mod_divide. Qed.

Lemma lines_spec n (Hn : n <> 0) : forall L K p k e g d q,
  In (Line k e g d q) (lines n K p L) <->
  (exists i t, nth_error L i = Some (e, (t, g)) /\ k = K + i /\ Nat.divide n k /\ q = n /\
     d = (t - (if (i <? n)%nat then p else match nth_error L (i - n)%nat with Some y => fst (snd y) | None => 0%Z end))%Z).
Proof.
  induction L as [|[e0 [t0 g0]] t IH]; intros K p k e g d q; cbn [lines].
  { split; [intros []|]. intros (i & ? & H & _). destruct i; discriminate. }
  cbn [fst snd]. destruct (K mod n =? 0) eqn:E.
  - apply Nat.eqb_eq in E. apply divides in E; [|exact Hn]. cbn [In]. rewrite IH. split.
    + intros [H|(i & t1 & H1 & -> & D & -> & ->)].
      * injection H as <- <- <- <- <-. exists 0, t0. split; [reflexivity|]. split; [lia|]. split; [exact E|]. split; [reflexivity|]. replace (0 <? n) with true by (symmetry; apply Nat.ltb_lt; lia). reflexivity.
      * exists (S i), t1. split; [exact H1|]. split; [lia|]. replace (S K + i) with (K + S i) in * by lia. split; [exact D|]. split; [reflexivity|].
        assert (D' : Nat.divide n (S i)) by (apply (Nat.divide_add_cancel_r n K); assumption).
        pose proof (Nat.divide_pos_le n (S i) ltac:(lia) D') as Le.
        replace (S i <? n) with false by (symmetry; apply Nat.ltb_ge; lia).
        destruct (i <? n) eqn:F.
        -- apply Nat.ltb_lt in F. replace (S i - n) with 0 by lia. reflexivity.
        -- apply Nat.ltb_ge in F. replace (S i - n) with (S (i - n)) by lia. reflexivity.
    + intros (i & t1 & H1 & -> & D & -> & ->). destruct i as [|i].
      * left. cbn in H1. injection H1 as <- <- <-. replace (0 <? n) with true by (symmetry; apply Nat.ltb_lt; lia). f_equal; lia.
      * right. exists i, t1. split; [exact H1|]. split; [lia|]. split; [exact D|]. split; [reflexivity|].
        assert (D' : Nat.divide n (S i)) by (apply (Nat.divide_add_cancel_r n K); assumption).
        pose proof (Nat.divide_pos_le n (S i) ltac:(lia) D') as Le.
        replace (S i <? n) with false by (symmetry; apply Nat.ltb_ge; lia).
        destruct (i <? n) eqn:F.
        -- apply Nat.ltb_lt in F. replace (S i - n) with 0 by lia. reflexivity.
        -- apply Nat.ltb_ge in F. replace (S i - n) with (S (i - n)) by lia. reflexivity.
  - apply Nat.eqb_neq in E. rewrite divides in E by exact Hn. rewrite IH. split.
    + intros (i & t1 & H1 & -> & D & -> & ->). exists (S i), t1. split; [exact H1|]. split; [lia|]. replace (S K + i) with (K + S i) in * by lia.
      split; [exact D|]. split; [reflexivity|]. destruct (i <? n) eqn:F.
      * apply Nat.ltb_lt in F. destruct (S i <? n) eqn:G; [reflexivity|]. apply Nat.ltb_ge in G. assert (S i = n) by lia. exfalso. apply E.
        apply (Nat.divide_add_cancel_r n (S i)); [subst; apply Nat.divide_refl|]. now rewrite Nat.add_comm.
      * apply Nat.ltb_ge in F. replace (S i <? n) with false by (symmetry; apply Nat.ltb_ge; lia). replace (S i - n) with (S (i - n)) by lia. reflexivity.
    + intros (i & t1 & H1 & -> & D & -> & ->). destruct i as [|i].
      * exfalso. apply E. now rewrite Nat.add_0_r in D.
      * exists i, t1. split; [exact H1|]. split; [lia|]. split; [exact D|]. split; [reflexivity|]. destruct (i <? n) eqn:F.
        -- apply Nat.ltb_lt in F. destruct (S i <? n) eqn:G; [reflexivity|]. apply Nat.ltb_ge in G. assert (S i = n) by lia. exfalso. apply E.
           apply (Nat.divide_add_cancel_r n (S i)); [subst; apply Nat.divide_refl|]. now rewrite Nat.add_comm.
        -- apply Nat.ltb_ge in F. replace (S i <? n) with false by (symmetry; apply Nat.ltb_ge; lia). replace (S i - n) with (S (i - n)) by lia. reflexivity.
Qed.

Theorem train_lines n start run o k e g d q : n <> 0 -> train_log n start run = Some o ->
  (In (Line k e g d q) o <->
   exists t u, ran run k e (t, g) /\ Nat.divide n k /\ q = n /\ last_line start run n k u /\ d = (t - u)%Z).
Proof.
  intros Hn H. rewrite train_log_ok in H by exact Hn. injection H as <-. rewrite in_app_iff.
  assert (NV : ~ In (Line k e g d q) (vars true (flat 0 run))) by (cbn; destruct (flat 0 run); cbn; [auto|intros [?|[]]; discriminate]).
  rewrite lines_spec by exact Hn. split.
  - intros [?|(i & t & H1 & -> & D & -> & ->)]; [tauto|]. cbn [Nat.add] in *. pose proof H1 as H2. apply flat_spec in H2 as (e' & -> & R).
    eexists t, _. split; [exact R|]. split; [exact D|]. split; [reflexivity|]. split; [|reflexivity].
    destruct (i <? n) eqn:F.
    + left. apply Nat.ltb_lt in F. split; [|reflexivity]. destruct i; [reflexivity|]. apply Nat.divide_pos_le in D; lia.
    + right. apply Nat.ltb_ge in F. split; [lia|]. split; [exact F|]. destruct (nth_error (flat 0 run) (i - n)) as [[e1 y]|] eqn:E.
      * exists y. split; [|reflexivity]. rewrite <- (flat_concat run 0), nth_error_map, E. reflexivity.
      * apply nth_error_None in E. assert (i < List.length (flat 0 run)) by (apply nth_error_Some; congruence). lia.
  - intros (t & u & R & D & -> & W & ->). right. exists k, t. split; [apply flat_spec; exists e; auto|]. split; [reflexivity|]. split; [exact D|]. split; [reflexivity|].
    f_equal. destruct W as [[-> ->]|(K & Le & x & E & ->)].
    + replace (0 <? n) with true by (symmetry; apply Nat.ltb_lt; lia). reflexivity.
    + replace (k <? n) with false by (symmetry; apply Nat.ltb_ge; lia). rewrite <- (flat_concat run 0), nth_error_map in E.
      destruct (nth_error (flat 0 run) (k - n)); [|discriminate]. cbn in E. now injection E as ->.
Qed.

Lemma lines_ge n : forall L K p k e g d q, In (Line k e g d q) (lines n K p L) -> K <= k.
Proof.
  induction L as [|[e0 x] t IH]; intros K p k e g d q; cbn [lines]; [intros []|]. destruct (K mod n =? 0).
  - intros [H|H]; [injection H as <- _ _ _ _; lia|]. apply IH in H. lia.
  - intros H. apply IH in H. lia.
Qed.
Lemma lines_sorted n : forall L K p i j k e g d q k' e' g' d' q', i < j ->
  nth_error (lines n K p L) i = Some (Line k e g d q) -> nth_error (lines n K p L) j = Some (Line k' e' g' d' q') -> k < k'.
Proof.
  induction L as [|[e0 x] t IH]; intros K p i j k e g d q k' e' g' d' q' Lt; cbn [lines]; [destruct i; discriminate|].
  destruct (K mod n =? 0); [|now apply IH]. destruct j as [|j]; [lia|]. destruct i as [|i]; cbn [nth_error].
  - intros H H'. injection H as <- _ _ _ _. apply nth_error_In, lines_ge in H'. lia.
  - intros H H'. eapply IH; [|exact H|exact H']. lia.
Qed.
Theorem train_order n start run o : n <> 0 -> train_log n start run = Some o ->
  forall i j k e g d q k' e' g' d' q', i < j -> nth_error o i = Some (Line k e g d q) -> nth_error o j = Some (Line k' e' g' d' q') -> k < k'.
Proof.
  intros Hn H i j k e g d q k' e' g' d' q' Lt. rewrite train_log_ok in H by exact Hn. injection H as <-. cbn [vars].
  destruct (flat 0 run) as [|y L] eqn:F.
  - cbn. destruct i; discriminate.
  - rewrite <- F. destruct i as [|i]; [discriminate|]. destruct j as [|j]; [lia|]. cbn [app nth_error]. apply lines_sorted. lia.
Qed.
Theorem train_vars n start run o : n <> 0 -> train_log n start run = Some o ->
  (List.concat run = [] /\ o = []) \/ (List.concat run <> [] /\ exists o', o = Vars :: o' /\ ~ In Vars o').
Proof.
  intros Hn H. rewrite train_log_ok in H by exact Hn. injection H as <-. rewrite <- (flat_concat run 0). destruct (flat 0 run) as [|y L].
  - left. auto.
  - right. split; [discriminate|]. eexists. split; [reflexivity|]. apply lines_no_vars.
Qed.
Theorem train_total n start run : n <> 0 -> exists o, train_log n start run = Some o.
Proof. intros. eexists. now apply train_log_ok. Qed.
Lemma logged_zero : forall evs c m, logged 0 evs c = None <-> map snd (numbered m evs) <> [].
Proof.
  induction evs as [|[e|b x] t IH]; intros c m; cbn [logged on_event numbered map].
  - split; [discriminate|congruence].
  - rewrite <- (IH {| first := first c; steps := steps c; epoch := e; prev := prev c |} e). destruct (logged 0 t _); cbn; split; congruence.
  - split; [intros _; discriminate|reflexivity].
Qed.
Theorem train_zero start run : train_log 0 start run = None <-> List.concat run <> [].
Proof. unfold train_log. rewrite (logged_zero _ _ 0), numbered_epochs, flat_concat. reflexivity. Qed.

Lemma summaries_batches m (Hm : m <> 0) : forall l b rest,
  summaries m (batches b l ++ rest) =
  option_map (app (List.concat (map (fun ix => if fst ix mod m =? 0 then map (fun nv => (fst nv, snd nv, fst ix)) (snd (snd ix)) else []) (combine (seq b (List.length l)) l)))) (summaries m rest).
Proof.
  induction l as [|x l IH]; intros b rest; cbn [batches app List.length seq combine map List.concat].
  - destruct (summaries m rest); reflexivity.
  - cbn [summaries]. unfold save_summary. replace (m =? 0) with false by (symmetry; now apply Nat.eqb_neq). rewrite IH. cbn [fst snd].
    destruct (summaries m rest); cbn; [|reflexivity]. now rewrite app_assoc.
Qed.
Definition pass_summary (m : nat) l : list (nm * V * nat) :=
  List.concat (map (fun ix => if fst ix mod m =? 0 then map (fun nv => (fst nv, snd nv, fst ix)) (snd (snd ix)) else []) (combine (seq 0 (List.length l)) l)).
Lemma summaries_epochs m (Hm : m <> 0) : forall run e, summaries m (epochs e run) = Some (List.concat (map (pass_summary m) run)).
Proof.
  induction run as [|l t IH]; intros e; cbn [epochs app summaries]; [reflexivity|]. rewrite summaries_batches by exact Hm. rewrite IH. reflexivity.
Qed.
Lemma in_combine_seq {A} (l : list A) : forall b i x, In (i, x) (combine (seq b (List.length l)) l) <-> b <= i /\ nth_error l (i - b) = Some x.
Proof.
  induction l as [|y l IH]; intros b i x; cbn [List.length seq combine In].
  - split; [intros []|]. intros [_ H]. destruct (i - b); discriminate.
  - rewrite IH. split.
    + intros [H|[L H]].
      * injection H as -> ->. rewrite Nat.sub_diag. auto.
      * split; [lia|]. replace (i - b) with (S (i - S b)) by lia. exact H.
    + intros [L H]. destruct (Nat.eq_dec i b) as [->|N].
      * rewrite Nat.sub_diag in H. cbn in H. injection H as ->. auto.
      * right. split; [lia|]. replace (i - b) with (S (i - S b)) in H by lia. exact H.
Qed.
Lemma pass_summary_spec m l w v s : m <> 0 ->
  (In (w, v, s) (pass_summary m l) <-> exists x, nth_error l s = Some x /\ In (w, v) (snd x) /\ Nat.divide m s).
Proof.
  intros Hm. unfold pass_summary. rewrite in_concat. split.
  - intros (c & H & I). apply in_map_iff in H as ([i x] & <- & J). cbn [fst snd] in I. destruct (i mod m =? 0) eqn:E; [|destruct I].
    apply Nat.eqb_eq, divides in E; [|exact Hm]. apply in_map_iff in I as ([w' v'] & Q & I). cbn in Q. injection Q as -> -> ->.
    apply in_combine_seq in J as [_ J]. rewrite Nat.sub_0_r in J. exists x. auto.
  - intros (x & H & I & D). eexists. split.
    + apply in_map_iff. exists (s, x). split; [reflexivity|]. apply in_combine_seq. split; [lia|]. now rewrite Nat.sub_0_r.
    + cbn [fst snd]. apply divides, Nat.eqb_eq in D; [|exact Hm]. rewrite D. apply in_map_iff. exists (w, v). auto.
Qed.
Theorem horovod_summary_spec m run s w v k : m <> 0 -> horovod_summary m run = Some s ->
  (In (w, v, k) s <-> exists e l x, nth_error run e = Some l /\ nth_error l k = Some x /\ In (w, v) (snd x) /\ Nat.divide m k).
Proof.
  intros Hm H. unfold horovod_summary in H. rewrite summaries_epochs in H by exact Hm. injection H as <-. rewrite in_concat. split.
  - intros (c & I & J). apply in_map_iff in I as (l & <- & I). apply In_nth_error in I as [e I]. apply pass_summary_spec in J as (x & J); [|exact Hm].
    exists e, l, x. tauto.
  - intros (e & l & x & I & J). apply nth_error_In in I. exists (pass_summary m l). split; [now apply in_map|]. apply pass_summary_spec; [exact Hm|]. exists x. exact J.
Qed.
Theorem horovod_summary_epochs m run l s s' : m <> 0 -> horovod_summary m run = Some s -> horovod_summary m [l] = Some s' ->
  horovod_summary m (run ++ [l]) = Some (s ++ s').
Proof.
  intros Hm. unfold horovod_summary. rewrite !summaries_epochs by exact Hm. intros H H'. injection H as <-. injection H' as <-.
  cbn [map List.concat]. rewrite app_nil_r, map_app, concat_app. cbn. now rewrite app_nil_r.
Qed.
Theorem horovod_summary_total m run : m <> 0 -> exists s, horovod_summary m run = Some s.
Proof. intros. eexists. unfold horovod_summary. now apply summaries_epochs. Qed.
Lemma nodup_app {A} (a b : list A) : NoDup a -> NoDup b -> (forall x, In x a -> ~ In x b) -> NoDup (a ++ b).
Proof.
  induction a as [|x a IH]; cbn; [auto|]. intros Ha Hb D. inversion Ha; subst. constructor.
  - rewrite in_app_iff. intros [?|?]; [contradiction|]. now apply (D x); auto.
  - apply IH; auto.
Qed.
Theorem pass_once m l s : m <> 0 -> Forall (fun x => NoDup (map fst (snd x))) l -> horovod_summary m [l] = Some s -> NoDup (keys s).
Proof.
  intros Hm F H. unfold horovod_summary in H. rewrite summaries_epochs in H by exact Hm. injection H as <-. cbn. rewrite app_nil_r. unfold pass_summary.
  set (f := fun ix : nat * batch V => if fst ix mod m =? 0 then map (fun nv => (fst nv, snd nv, fst ix)) (snd (snd ix)) else []).
  enough (G : forall b, NoDup (keys (List.concat (map f (combine (seq b (List.length l)) l))))) by exact (G 0).
  induction F as [|x l N F IH]; intros b; cbn [List.length seq combine map List.concat]; [constructor|].
  unfold keys in *. rewrite map_app. apply nodup_app.
  - unfold f. cbn [fst snd]. destruct (b mod m =? 0); [|constructor]. rewrite map_map. cbn [fst snd].
    clear - N. destruct x as [t0 g]. cbn [snd] in *. induction g as [|[w v] r R]; cbn [map fst snd] in *; [constructor|]. inversion N; subst. constructor; [|now apply R].
    intros I. apply in_map_iff in I as ([w' v'] & Q & I). cbn in Q. injection Q as ->. apply H1. apply in_map_iff. exists (w, v'). auto.
  - apply IH.
  - intros [w k] I J. assert (k = b).
    { unfold f in I. cbn [fst snd] in I. destruct (b mod m =? 0); [|destruct I]. rewrite map_map in I. apply in_map_iff in I as ([? ?] & Q & _). cbn in Q. now injection Q as _ <-. }
    subst k. apply in_map_iff in J as ([[w' v'] k'] & Q & J). cbn in Q. injection Q as -> ->. apply in_concat in J as (c & C & J).
    apply in_map_iff in C as ([i y] & <- & C). apply in_combine_seq in C as [C _]. unfold f in J. cbn [fst snd] in J. destruct (i mod m =? 0); [|destruct J].
    apply in_map_iff in J as ([? ?] & Q & _). cbn in Q. injection Q as _ _ ->. lia.
Qed.

Lemma eval_ok n m (Hn : n <> 0) (Hm : m <> 0) : forall l b c,
  exists s, summaries m (batches b l) = Some s /\
  eval_events n m (batches b l) c =
    Some ((match l with x :: _ => if b =? 0 then [Vars] else [] | [] => [] end) ++ vars (first c) (map (pair (epoch c)) l) ++ lines n (steps c) (prev c) (map (pair (epoch c)) l), s).
Proof.
  induction l as [|x l IH]; intros b c; cbn [batches summaries eval_events].
  - exists []. split; [reflexivity|]. destruct (first c); reflexivity.
  - unfold save_summary. replace (m =? 0) with false by (symmetry; now apply Nat.eqb_neq).
    unfold batch_end, log_step. replace (n =? 0) with false by (symmetry; now apply Nat.eqb_neq). cbn [map lines].
    destruct (IH (S b) {| first := false; steps := S (steps c); epoch := epoch c; prev := if steps c mod n =? 0 then fst x else prev c |}) as (s & -> & E).
    eexists. split; [reflexivity|]. destruct (steps c mod n =? 0); cbn [negb first steps epoch prev] in *; rewrite E;
      (replace (match l with [] => [] | _ :: _ => if S b =? 0 then [Vars] else [] end) with (@nil (out V)) by (destruct l; reflexivity));
      cbn [vars app]; destruct (b =? 0), (first c); reflexivity.
Qed.
Theorem evaluate_spec n m start l o s : n <> 0 -> m <> 0 -> evaluate n m start l = Some (o, s) ->
  horovod_summary m [l] = Some s /\
  ((l = [] /\ o = []) \/ (l <> [] /\ exists o', o = Vars :: o' /\ train_log n start [l] = Some o')).
Proof.
  intros Hn Hm H. unfold evaluate in H. destruct (eval_ok n m Hn Hm l 0 (new_cb start)) as (s' & S & E). rewrite E in H. injection H as <- <-.
  split.
  - unfold horovod_summary. cbn [epochs]. cbn [app summaries]. now rewrite app_nil_r.
  - rewrite train_log_ok by exact Hn. cbn [flat]. rewrite app_nil_r. cbn [first steps epoch prev new_cb]. destruct l as [|x l].
    + left. auto.
    + right. split; [discriminate|]. eexists. split; reflexivity.
Qed.
Theorem evaluate_total n m start l : n <> 0 -> m <> 0 -> exists o s, evaluate n m start l = Some (o, s).
Proof. intros Hn Hm. unfold evaluate. destruct (eval_ok n m Hn Hm l 0 (new_cb start)) as (s' & S & E). rewrite E. eauto. Qed.
End Callbacks.

Lemma saves_app task secs : forall l ckpt r, saves task secs ckpt (l ++ r) = saves task secs ckpt l ++ saves task secs (last (map done (saves task secs ckpt l)) ckpt) r.
Proof.
  induction l as [|k l IH]; intros ckpt r; cbn [app saves]; [reflexivity|].
  destruct ((task =? 0) && (force k || (secs <? ask k - ckpt)%Z)); [|apply IH]. rewrite IH. cbn [app map last]. f_equal. f_equal. f_equal.
  destruct (map done (saves task secs (done k) l)) as [|d t] eqn:E; [reflexivity|]. clear. revert d. induction t as [|z t IH]; intros d; [reflexivity|]. exact (IH z).
Qed.
Theorem saves_next task secs ckpt l k :
  (task = 0 /\ (force k = true \/ (secs < ask k - last (map done (saves task secs ckpt l)) ckpt)%Z) /\ saves task secs ckpt (l ++ [k]) = saves task secs ckpt l ++ [k]) \/
  (~ (task = 0 /\ (force k = true \/ (secs < ask k - last (map done (saves task secs ckpt l)) ckpt)%Z)) /\ saves task secs ckpt (l ++ [k]) = saves task secs ckpt l).
Proof.
  rewrite saves_app. set (u := last _ _). clearbody u. cbn [saves].
  destruct (task =? 0) eqn:T, (force k) eqn:F, (secs <? ask k - u)%Z eqn:S; cbn [andb orb]; rewrite ?app_nil_r;
    first [apply Nat.eqb_eq in T | apply Nat.eqb_neq in T]; first [apply Z.ltb_lt in S | apply Z.ltb_ge in S];
    (left; split; [exact T|]; split; [tauto|reflexivity]) || (right; (split; [|reflexivity]); intros [A [B|B]]; congruence || lia).
Qed.

Lemma path_same_rel a b c : path a b = path a c -> relative b -> relative c -> b = c.
Proof.
  intros H B C. unfold path in H. assert (Eb : forall (x y : nm), match b with "/"%char :: _ => x | _ => y end = y).
  { intros. destruct b as [|z b]; [reflexivity|]. unfold relative in B. cbn in B. destruct z as [[] [] [] [] [] [] [] []]; try reflexivity. now elim B. }
  assert (Ec : forall (x y : nm), match c with "/"%char :: _ => x | _ => y end = y).
  { intros. destruct c as [|z c]; [reflexivity|]. unfold relative in C. cbn in C. destruct z as [[] [] [] [] [] [] [] []]; try reflexivity. now elim C. }
  rewrite Eb, Ec in H. destruct (rev a) as [|z r]; [exact H|]. destruct (Ascii.eqb z "/") eqn:E.
  - apply Ascii.eqb_eq in E. subst z. now apply app_inv_head in H.
  - assert (Ez : forall (x y : nm), match z with "/"%char => x | _ => y end = y).
    { intros. destruct z as [[] [] [] [] [] [] [] []]; try reflexivity. discriminate. }
    rewrite !Ez in H. apply app_inv_head in H. now injection H.
Qed.
Lemma path_abs a b : ~ relative b -> path a b = b.
Proof.
  intros H. destruct b as [|c b]; [elim H; discriminate|]. destruct (Ascii.eqb c "/") eqn:E.
  - apply Ascii.eqb_eq in E. now subst.
  - elim H. unfold relative. cbn. intros Q. injection Q as ->. discriminate.
Qed.
Lemma relative_dec p : {relative p} + {~ relative p}.
Proof. unfold relative. destruct (hd_error p) as [c|]; [|left; discriminate]. destruct (ascii_dec c "/") as [->|N]; [right; auto|left; congruence]. Qed.
Lemma relative_app p q : p <> [] -> (relative (p ++ q) <-> relative p).
Proof. intros H. destruct p; [congruence|reflexivity]. Qed.
Lemma relative_us p q : relative (p ++ str "_" ++ q) <-> relative p.
Proof. destruct p; [|reflexivity]. unfold relative. cbn. split; discriminate. Qed.

Lemma tail_split (a b a' b' : nm) : ~ In "_"%char b -> ~ In "_"%char b' -> a ++ str "_" ++ b = a' ++ str "_" ++ b' -> a = a' /\ b = b'.
Proof.
  revert a'. induction a as [|c a IH]; intros [|c' a'] N N' H; cbn in H.
  - injection H as ->. auto.
  - injection H as E H. elim N. rewrite H, E. apply in_or_app. right. cbn. now left.
  - injection H as E H. elim N'. rewrite <- H, <- E. apply in_or_app. right. cbn. now left.
  - injection H as -> H. apply IH in H as [-> ->]; auto.
Qed.

Lemma no_us_digits u : ~ In "_"%char (digits u).
Proof. induction u; intros H; cbn [digits In] in H; [exact H|..]; (destruct H as [H|H]; [discriminate|auto]). Qed.
Lemma no_us n : ~ In "_"%char (dec n ++ str ".tsv").
Proof.
  rewrite in_app_iff. intros [H|H]; [now apply no_us_digits in H|]. cbn in H. repeat (destruct H as [H|H]; [discriminate|]). exact H.
Qed.
Lemma file_inj p n p' n' : p ++ str "_" ++ dec n ++ str ".tsv" = p' ++ str "_" ++ dec n' ++ str ".tsv" -> p = p' /\ n = n'.
Proof.
  intros H. apply tail_split in H as [-> H]; [|apply no_us..]. split; [reflexivity|]. apply dec_inj in H as [-> _]; reflexivity.
Qed.
Theorem embedding_rank dir p w w' : embedding_file dir p w = embedding_file dir p w' -> task_index w = task_index w'.
Proof.
  unfold embedding_file. intros H. destruct (relative_dec p) as [R|R].
  - apply path_same_rel in H; [|apply relative_us; exact R..]. now apply file_inj in H as [_ H].
  - rewrite !path_abs in H by (rewrite relative_us; exact R). now apply file_inj in H as [_ H].
Qed.
Theorem embedding_prefix dir p p' w w' : relative p -> relative p' -> embedding_file dir p w = embedding_file dir p' w' -> p = p' /\ task_index w = task_index w'.
Proof. unfold embedding_file. intros R R' H. apply path_same_rel in H; [|apply relative_us; assumption..]. now apply file_inj in H. Qed.
Theorem summary_rank dir name w w' : summary_dir dir name w = summary_dir dir name w' -> task_index w = task_index w'.
Proof.
  unfold summary_dir. intros H. apply path_same_rel in H; [|discriminate..]. apply app_inv_head in H.
  rewrite <- (app_nil_r (dec (task_index w))), <- (app_nil_r (dec (task_index w'))) in H. apply dec_inj in H as [-> _]; reflexivity.
Qed.
Lemma path_last a b c : exists x, path a (b ++ [c]) = x ++ [c].
Proof.
  destruct (relative_dec (b ++ [c])) as [R|R]; [|rewrite path_abs by exact R; eauto].
  unfold path. destruct (b ++ [c]) as [|z r] eqn:E; [destruct b; discriminate|].
  assert (Ez : forall (x y : nm), match z with "/"%char => x | _ => y end = y).
  { intros. unfold relative in R. cbn in R. destruct z as [[] [] [] [] [] [] [] []]; try reflexivity. now elim R. }
  assert (G : exists x, (match rev a with [] => z :: r | "/"%char :: _ => a ++ z :: r | _ :: _ => a ++ "/"%char :: z :: r end) = x ++ [c]).
  { rewrite <- E. destruct (rev a) as [|y t]; [eauto|]. destruct y as [[] [] [] [] [] [] [] []];
      (exists (a ++ b); now rewrite <- app_assoc) || (exists (a ++ "/"%char :: b); now rewrite <- app_assoc). }
  destruct G as [x G]. exists x. rewrite <- G. destruct z as [[] [] [] [] [] [] [] []]; try reflexivity. unfold relative in R. now elim R.
Qed.
Theorem checkpoint_not_embedding dir p w : checkpoint_file dir <> embedding_file dir p w.
Proof.
  unfold checkpoint_file, embedding_file. change (str "ckpt") with (str "ckp" ++ ["t"%char]).
  replace (p ++ str "_" ++ dec (task_index w) ++ str ".tsv") with ((p ++ str "_" ++ dec (task_index w) ++ str ".ts") ++ ["v"%char]) by (rewrite <- !app_assoc; reflexivity).
  destruct (path_last (model_dir dir) (str "ckp") "t") as [x ->]. destruct (path_last (model_dir dir) (p ++ str "_" ++ dec (task_index w) ++ str ".ts") "v") as [y ->].
  intros H. apply app_inj_tail in H as [_ H]. discriminate.
Qed.

Theorem eager_alone : eager None = Some {| task_index := 0; worker_size := 1; lr_scaler := 1 |}.
Proof. reflexivity. Qed.
Theorem eager_worker c w : eager (Some c) = Some w -> task_index w = index c /\ lr_scaler w = 1 /\
  exists ws, In (str "worker", ws) (cluster c) /\ worker_size w = List.length ws.
Proof.
  unfold eager, find_job. destruct (List.find _ (cluster c)) as [[k ws]|] eqn:E; [|discriminate]. cbn. intros H. injection H as <-. cbn.
  apply List.find_some in E as [I E]. cbn in E. apply nm_eqb_true in E. subst k. eauto.
Qed.
Theorem eager_files c c' w w' dir p : eager (Some c) = Some w -> eager (Some c') = Some w' -> index c <> index c' ->
  embedding_file dir p w <> embedding_file dir p w' /\ summary_dir dir (str "evaluate") w <> summary_dir dir (str "evaluate") w'.
Proof.
  intros H H' N. apply eager_worker in H as [A _]. apply eager_worker in H' as [A' _]. split; intros E.
  - apply embedding_rank in E. congruence.
  - apply summary_rank in E. congruence.
Qed.
Theorem horovod_worker config rank size w : horovod config rank size = Some w -> task_index w = rank /\ worker_size w = size /\ lr_scaler w = size.
Proof. unfold horovod. destruct (eager config); [|discriminate]. cbn. intros H. injection H as <-. auto. Qed.
Theorem horovod_checkpoints config size dir n ws : 0 < size ->
  Forall2 (fun r w => horovod config r size = Some w) (seq 0 size) ws ->
  List.concat (map (horovod_saves dir n) ws) = repeat (checkpoint_file dir) n.
Proof.
  intros L F. destruct size as [|size]; [lia|]. cbn [seq] in F. inversion F as [|r w rs ws' H F' E1 E2]. subst. cbn [map List.concat].
  apply horovod_worker in H as [A _]. unfold horovod_saves at 1. rewrite A. cbn [Nat.eqb].
  assert (G : List.concat (map (horovod_saves dir n) ws') = []); [|now rewrite G, app_nil_r].
  assert (P : Forall (fun r => r <> 0) (seq 1 size)) by (apply Forall_forall; intros x I; apply in_seq in I; lia).
  clear F A. induction F' as [|r w' rs ws' H F' IH]; [reflexivity|]. inversion P; subst. cbn [map List.concat]. rewrite IH by assumption.
  apply horovod_worker in H as [A _]. unfold horovod_saves. rewrite A. replace (r =? 0) with false by (symmetry; now apply Nat.eqb_neq). reflexivity.
Qed.
Theorem seed_set s : s <> 0%Z -> set_random_seed (Some s) = Some s.
Proof. intros H. unfold set_random_seed. now destruct (Z.eqb_spec s 0). Qed.

Theorem devices {G} (gpus : list G) r d : horovod_devices true gpus r = Some d <-> exists g, nth_error gpus r = Some g /\ d = [g].
Proof.
  unfold horovod_devices. destruct (r <? List.length gpus) eqn:E.
  - destruct (nth_error gpus r) as [g|] eqn:F; cbn; split.
    + intros H. injection H as <-. eauto.
    + intros (g' & H & ->). now injection H as ->.
    + discriminate.
    + intros (g & H & _). discriminate.
  - apply Nat.ltb_ge, nth_error_None in E. rewrite E. split; [discriminate|]. intros (g & H & _). discriminate.
Qed.
Theorem devices_apart {G} (gpus : list G) r r' d d' : NoDup gpus -> r <> r' -> horovod_devices true gpus r = Some d -> horovod_devices true gpus r' = Some d' ->
  forall g, In g d -> ~ In g d'.
Proof.
  intros N R H H' g I I'. apply devices in H as (x & X & ->). apply devices in H' as (y & Y & ->). destruct I as [->|[]]. destruct I' as [->|[]].
  apply R. apply (proj1 (NoDup_nth_error gpus) N); [apply nth_error_Some; congruence|congruence].
Qed.

Lemma summaries_zero {V} : forall (evs : list (event V)) m, summaries 0 evs = None <-> map snd (numbered m evs) <> [].
Proof.
  induction evs as [|[e|b x] t IH]; intros m; cbn [summaries numbered map].
  - split; [discriminate|congruence].
  - apply IH.
  - split; [intros _; discriminate|reflexivity].
Qed.
Theorem horovod_summary_zero {V} (run : list (list (batch V))) : horovod_summary 0 run = None <-> List.concat run <> [].
Proof. unfold horovod_summary. rewrite (summaries_zero _ 0), numbered_epochs, flat_concat. reflexivity. Qed.
Theorem evaluate_zero {V} n m start (l : list (batch V)) : n = 0 \/ m = 0 -> (evaluate n m start l = None <-> l <> []).
Proof.
  intros H. destruct l as [|x l]; [split; [discriminate|congruence]|]. split; [discriminate|]. intros _.
  unfold evaluate. cbn [batches eval_events]. destruct H as [H|H]; subst; [|reflexivity]. unfold save_summary. now destruct (m =? 0).
Qed.
