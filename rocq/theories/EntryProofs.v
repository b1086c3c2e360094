From Coq Require Import Lia ZifyBool.
From Verif Require Import Base EntryModel EntrySpec.
Import ListNotations.
Open Scope list_scope.

(** ** Trainers *)
Lemma torch_ok : forall t, In t torch_choices ->
  exists r, torch_trainer t = Some r /\ (uses_horovod r <-> t = HVD) /\ (r = DDPTrainer <-> t = DDP).
Proof.
  intros t [<-|[<-|[<-|[]]]]; eexists; (split; [reflexivity|]); unfold uses_horovod;
    repeat split; intros H; try discriminate; try tauto;
    repeat (destruct H as [H|H]; try discriminate).
Qed.
Lemma torch_rejects : forall t, torch_trainer t = None <-> ~ In t torch_choices.
Proof.
  intros t; unfold torch_choices; destruct t; simpl; split; intros H; try discriminate; try reflexivity;
    try (exfalso; apply H; tauto);
    intros [K|[K|[K|[]]]]; discriminate.
Qed.
Lemma tf_horovod : forall e t r, tf_trainer e t = Some r ->
  (uses_horovod r <-> t = HVD) /\ (is_eager r <-> e = true).
Proof.
  intros e t r H; unfold uses_horovod, is_eager; destruct e, t; simpl in H; try discriminate;
    injection H as <-; repeat split; intros K; try discriminate; try tauto;
    repeat (destruct K as [K|K]; try discriminate).
Qed.
Lemma tf_defined : forall e t, In t tf_choices ->
  (tf_trainer e t = None <-> e = false /\ t = MULTINODE).
Proof.
  intros e t [<-|[<-|[<-|[]]]]; destruct e; simpl; split; try discriminate; try tauto;
    intros [A C]; discriminate.
Qed.

(** ** Backends *)
Lemma stages_close : forall ok l, ~ In Close (fst (stages ok l)).
Proof.
  intros ok; induction l as [|s t IH]; simpl; [tauto|].
  destruct (ok s); [|simpl; intros [H|[]]; discriminate].
  destruct (stages ok t) as [e b] eqn:E; simpl in *. intros [H|H]; [discriminate|tauto].
Qed.
Lemma stages_ok : forall ok l, snd (stages ok l) = forallb ok l.
Proof.
  intros ok; induction l as [|s t IH]; simpl; [reflexivity|].
  destruct (ok s); [|reflexivity]. destruct (stages ok t); simpl in *; exact IH.
Qed.
Lemma stages_all : forall ok l, forallb ok l = true -> fst (stages ok l) = map Did l.
Proof.
  intros ok; induction l as [|s t IH]; simpl; [reflexivity|].
  intros H; apply andb_prop in H; destruct H as [A C]; rewrite A.
  specialize (IH C). destruct (stages ok t); simpl in *; congruence.
Qed.
Lemma stages_raised : forall ok l s, In (Raised s) (fst (stages ok l)) <->
  exists a c, l = a ++ s :: c /\ forallb ok a = true /\ ok s = false.
Proof.
  intros ok; induction l as [|x t IH]; simpl; intros s.
  - split; [tauto|]. intros (a & c & H & _); destruct a; discriminate.
  - destruct (ok x) eqn:X.
    + specialize (IH s). destruct (stages ok t) as [e b]; simpl in *. split.
      * intros [H|H]; [discriminate|]. apply IH in H. destruct H as (a & c & -> & A & S).
        exists (x :: a), c; simpl; rewrite X; auto.
      * intros (a & c & H & A & S). right; apply IH. destruct a as [|y a]; simpl in H.
        -- injection H as -> _. congruence.
        -- injection H as -> ->. simpl in A. apply andb_prop in A. exists a, c; tauto.
    + split.
      * intros [H|[]]. injection H as <-. exists [], t; auto.
      * intros (a & c & H & A & S). destruct a as [|y a]; simpl in H.
        -- injection H as -> _. simpl; auto.
        -- injection H as -> ->. simpl in A. rewrite X in A. discriminate.
Qed.
Lemma closing_closed : forall ok p q, forallb ok p = true -> closed_last (closing ok p q).
Proof.
  intros ok p q H; unfold closing. pose proof (stages_ok ok p) as S.
  pose proof (stages_close ok p) as N. pose proof (stages_close ok q) as M.
  destruct (stages ok p) as [e b]; simpl in *. rewrite S, H.
  exists (e ++ fst (stages ok q)); rewrite app_assoc; split; [reflexivity|].
  rewrite in_app_iff; tauto.
Qed.
Lemma closing_close : forall ok p q, In Close (closing ok p q) <-> forallb ok p = true.
Proof.
  intros ok p q; split; intros H.
  - unfold closing in H. pose proof (stages_ok ok p) as S. pose proof (stages_close ok p) as N.
    destruct (stages ok p) as [e b]; simpl in *. destruct b; [congruence|tauto].
  - destruct (closing_closed ok p q H) as (l & -> & _). rewrite in_app_iff; simpl; auto.
Qed.
Lemma tf_main_closes : forall ok, opened (tf_main ok) <-> closed_last (tf_main ok).
Proof.
  intros ok; split; intros H.
  - apply closing_closed. unfold opened, tf_main, closing in H. simpl in *.
    destruct (ok SArgs); [|simpl in H; repeat (destruct H as [H|H]; try discriminate); tauto].
    destruct (ok STrainer); [|simpl in H; repeat (destruct H as [H|H]; try discriminate); tauto].
    destruct (ok SBackend); [|simpl in H; repeat (destruct H as [H|H]; try discriminate); tauto].
    reflexivity.
  - destruct H as (l & E & _).
    assert (C : In Close (tf_main ok)) by (rewrite E, in_app_iff; simpl; auto).
    apply closing_close in C. unfold opened, tf_main, closing.
    pose proof (stages_ok ok [SArgs; STrainer; SBackend]) as S.
    pose proof (stages_all ok _ C) as A.
    destruct (stages ok [SArgs; STrainer; SBackend]) as [e b]; simpl fst in *; simpl snd in *.
    rewrite S, C, A. rewrite in_app_iff; simpl; auto.
Qed.
Lemma run_dist_closes : forall ok a b c,
  (forall s, needed a b c s -> ok s = true) <-> In Close (run_dist ok a b c).
Proof.
  intros ok a b c; unfold run_dist; rewrite closing_close, forallb_forall; split; intros H s.
  - intros I; apply H. repeat rewrite in_app_iff in I.
    destruct a, b, c; simpl in I; repeat (destruct I as [I|I]; try tauto); subst; simpl; auto;
      repeat (destruct I as [I|I]; try tauto); subst; simpl; auto.
  - intros N; apply H. repeat rewrite in_app_iff.
    destruct s; simpl in N; try tauto; destruct a, b, c; simpl; try tauto; try discriminate;
      destruct N; discriminate.
Qed.
Lemma run_dist_last : forall ok a b c, In Close (run_dist ok a b c) -> closed_last (run_dist ok a b c).
Proof. intros ok a b c H; apply closing_closed. apply closing_close in H; exact H. Qed.
(** The run itself may raise: the backend is closed all the same. *)
Lemma run_dist_run : forall ok a b c, In (Raised SRun) (run_dist ok a b c) \/ In (Raised SLoader) (run_dist ok a b c) ->
  closed_last (run_dist ok a b c).
Proof.
  intros ok a b c H. apply run_dist_last. unfold run_dist in *.
  set (p := _ ++ _) in *. assert (P : ~ In SRun p /\ ~ In SLoader p).
  { unfold p. repeat rewrite in_app_iff. destruct a, b, c; simpl; intuition discriminate. }
  clearbody p. apply closing_close. unfold closing in H. pose proof (stages_ok ok p) as S.
  pose proof (stages_raised ok p SRun) as R. pose proof (stages_raised ok p SLoader) as L.
  destruct (stages ok p) as [e q]; simpl in *. destruct q; [congruence|].
  exfalso. destruct H as [H|H]; [apply R in H|apply L in H]; destruct H as (x & y & E & _);
    destruct P as [P P']; first [apply P; rewrite E, in_app_iff; simpl; auto; fail | apply P'; rewrite E, in_app_iff; simpl; auto].
Qed.

(** ** Loaders *)
Lemma train_loader : forall ge win n p, train_loader_ok ge win n p = true <->
  (if ge || win then p = 2 else (0 < n /\ 0 < p) \/ (n = 0 /\ p = 2))%Z.
Proof.
  intros ge win n p; unfold train_loader_ok, workers, loader_ok.
  destruct (ge || win); lia.
Qed.
Lemma eval_loader : forall ge win n p, eval_loader_ok ge win n p = true <->
  ((0 < n /\ 0 < p) \/ (n = 0 /\ p = 2))%Z.
Proof. intros ge win n p; unfold eval_loader_ok, eval_workers, loader_ok; lia. Qed.
Lemma workers_zero : forall ge win n, n <> 0%Z -> (workers ge win n = 0%Z <-> ge = true \/ win = true).
Proof. intros [|] [|] n H; unfold workers; simpl; intuition congruence. Qed.
Lemma workers_some : forall ge win n, workers ge win n <> 0%Z -> workers ge win n = n.
Proof. intros [|] [|] n; unfold workers; simpl; congruence. Qed.

(** ** Steps *)
Section Steps.
Context {B : Type}.
Implicit Types data : nat -> list B.

Lemma repeated_S : forall data e, repeated data (S e) = data 0 ++ repeated (fun i => data (S i)) e.
Proof. intros data e; unfold repeated; simpl. rewrite <- seq_shift, map_map. reflexivity. Qed.
Lemma repeated_length : forall data n e, (forall i, length (data i) = n) -> length (repeated data e) = e * n.
Proof.
  intros data n e; revert data; induction e as [|e IH]; intros data H; [reflexivity|].
  rewrite repeated_S, app_length, H, IH by (intros; apply H). reflexivity.
Qed.
Lemma fit_whole : forall e data n, (forall i, length (data i) = n) ->
  fit e n (repeated data e) = map data (seq 0 e).
Proof.
  induction e as [|e IH]; intros data n H; [reflexivity|].
  rewrite repeated_S. simpl.
  assert (F : forall l : list B, firstn n (data 0 ++ l) = data 0).
  { intros l. rewrite firstn_app, H, Nat.sub_diag, firstn_O, app_nil_r. apply firstn_all2. rewrite H; lia. }
  assert (G : forall l : list B, skipn n (data 0 ++ l) = l).
  { intros l. rewrite skipn_app, H, Nat.sub_diag. rewrite skipn_all2 by (rewrite H; lia). reflexivity. }
  rewrite F, G, H, Nat.ltb_irrefl. f_equal.
  rewrite IH by (intros; apply H). rewrite <- seq_shift, map_map. reflexivity.
Qed.
Lemma fit_concat : forall e s (l : list B), concat (fit e s l) = firstn (e * s) l.
Proof.
  induction e as [|e IH]; intros s l; [reflexivity|].
  simpl. destruct (Nat.ltb_spec (length (firstn s l)) s) as [H|H]; simpl.
  - rewrite app_nil_r. rewrite firstn_length in H.
    rewrite !firstn_all2; [reflexivity|lia|lia].
  - rewrite IH. rewrite firstn_length in H.
    transitivity (firstn (s + e * s) (firstn s l ++ skipn s l)); [|rewrite firstn_skipn; reflexivity].
    rewrite firstn_app, firstn_length.
    replace (Nat.min s (length l)) with s by lia.
    replace (s + e * s - s) with (e * s) by lia. f_equal.
    rewrite (firstn_all2 (firstn s l)); [reflexivity|]. rewrite firstn_length; lia.
Qed.
Lemma sage_train_exact : forall e param data n, 0 < n -> (forall i, length (data i) = n) ->
  sage_train e param (Some n) data = Some (map data (seq 0 e)).
Proof.
  intros e param data n P H; unfold sage_train. pose proof (H 0) as H0.
  destruct (data 0) eqn:D; [simpl in H0; lia|].
  destruct n; [lia|]. cbn [py_or Nat.eqb andb]. f_equal. apply fit_whole, H.
Qed.
Lemma sage_train_unknown : forall e s data n, 0 < n -> 0 < s -> (forall i, length (data i) = n) ->
  exists r, sage_train e (Some s) None data = Some r /\ concat r = firstn (e * s) (repeated data e).
Proof.
  intros e s data n P Q H; unfold sage_train. pose proof (H 0) as H0.
  destruct (data 0) eqn:D; [simpl in H0; lia|].
  destruct s; [lia|]. cbn [py_or Nat.eqb andb]. eexists; split; [reflexivity|]. apply fit_concat.
Qed.
Lemma sage_train_given : forall e data n, 0 < n -> (forall i, length (data i) = n) ->
  sage_train e (Some n) None data = sage_train e None (Some n) data.
Proof.
  intros e data n P H; unfold sage_train. destruct n; [lia|]. reflexivity.
Qed.
Lemma train_no_steps : forall e data,
  sage_train e None None data = None /\ gat_train e None None data = None.
Proof. intros e data; unfold sage_train, gat_train; destruct (data 0); auto. Qed.
Lemma train_no_data : forall e param len data, data 0 = [] ->
  sage_train e param len data = None /\ gat_train e param len data = None.
Proof. intros e param len data H; unfold sage_train, gat_train; rewrite H; auto. Qed.
Lemma train_zero_steps : forall e data n, 0 < n -> (forall i, length (data i) = n) ->
  sage_train (S e) (Some 0) None data = None /\ sage_train 0 (Some 0) None data = Some []
  /\ gat_train e (Some 0) None data = None.
Proof.
  intros e data n P H; unfold sage_train, gat_train. pose proof (H 0) as H0.
  destruct (data 0) eqn:D; [simpl in H0; lia|]. simpl. rewrite Nat.mul_0_r. auto.
Qed.
Lemma train_zero_length : forall e param data,
  sage_train e param (Some 0) data = sage_train e param None data
  /\ gat_train e param (Some 0) data = gat_train e param None data.
Proof. intros; split; reflexivity. Qed.
Lemma gat_train_exact : forall e param data n, 0 < e -> 0 < n -> (forall i, length (data i) = n) ->
  gat_train e param (Some n) data = Some [concat (map data (seq 0 e))].
Proof.
  intros e param data n E P H; unfold gat_train. pose proof (H 0) as H0.
  destruct (data 0) eqn:D; [simpl in H0; lia|].
  destruct n; [lia|]. cbn [py_or]. pose proof (repeated_length data (S n) e H) as L.
  destruct (Nat.eqb_spec (e * S n) 0) as [Z|Z]; [lia|].
  cbn [fit]. rewrite firstn_all2 by lia. rewrite L, Nat.ltb_irrefl. reflexivity.
Qed.

Implicit Types nodes : list B.
Lemma batches_drop : forall f b pad nodes, 0 < b -> length nodes <= f ->
  concat (batches f true b pad nodes) = firstn (b * (length nodes / b)) nodes
  /\ length (batches f true b pad nodes) = length nodes / b.
Proof.
  induction f as [|f IH]; intros b pad nodes P L.
  - destruct nodes; simpl in L; [|lia]. simpl. rewrite Nat.div_0_l by lia. rewrite Nat.mul_0_r. auto.
  - destruct nodes as [|x t].
    + cbn [batches length]. rewrite Nat.div_0_l by lia. rewrite Nat.mul_0_r. auto.
    + cbn [batches]. set (l := x :: t) in *.
      destruct (Nat.ltb_spec (length l) b) as [H|H].
      * rewrite Nat.div_small by lia. rewrite Nat.mul_0_r. auto.
      * destruct (IH b pad (skipn b l) P) as [C D].
        { rewrite skipn_length; lia. }
        rewrite skipn_length in C, D.
        assert (Q : length l / b = S ((length l - b) / b)).
        { replace (length l) with (length l - b + 1 * b) at 1 by lia.
          rewrite Nat.div_add by lia. lia. }
        cbn [concat length]. rewrite C, D, Q. split; [|reflexivity].
        transitivity (firstn (b * S ((length l - b) / b)) (firstn b l ++ skipn b l)); [|rewrite firstn_skipn; reflexivity].
        rewrite firstn_app, firstn_length.
        replace (Nat.min b (length l)) with b by lia.
        replace (b * S ((length l - b) / b) - b) with (b * ((length l - b) / b)) by nia.
        f_equal. rewrite (firstn_all2 (firstn b l)); [reflexivity|]. rewrite firstn_length. nia.
Qed.
Lemma batches_pad : forall f b pad nodes, 0 < b -> length nodes <= f ->
  exists k, padding (length nodes) b k
  /\ concat (batches f false b pad nodes) = nodes ++ repeat pad k
  /\ length (batches f false b pad nodes) = (length nodes + (b - 1)) / b.
Proof.
  induction f as [|f IH]; intros b pad nodes P L.
  - destruct nodes; simpl in L; [|lia]. exists 0. split; [split; [lia|exists 0; reflexivity]|].
    simpl. rewrite Nat.div_small by lia. auto.
  - destruct nodes as [|x t].
    + exists 0. split; [split; [lia|exists 0; reflexivity]|].
      cbn [batches length]. rewrite Nat.div_small by lia. auto.
    + cbn [batches]. set (l := x :: t) in *. assert (N : 0 < length l) by (simpl; lia).
      destruct (Nat.ltb_spec (length l) b) as [H|H].
      * exists (b - length l). split; [split; [lia|exists 1; lia]|].
        cbn [concat length]. rewrite app_nil_r. split; [reflexivity|].
        replace (length l + (b - 1)) with (length l - 1 + 1 * b) by lia.
        rewrite Nat.div_add by lia. rewrite Nat.div_small by lia. reflexivity.
      * destruct (IH b pad (skipn b l) P) as (k & (K & q & Q) & C & D).
        { rewrite skipn_length; lia. }
        rewrite skipn_length in Q, D. exists k. split; [split; [lia|exists (S q); lia]|].
        cbn [concat length]. rewrite C, D. split.
        -- rewrite app_assoc, firstn_skipn. reflexivity.
        -- replace (length l + (b - 1)) with (length l - b + (b - 1) + 1 * b) by lia.
           rewrite Nat.div_add by lia. lia.
Qed.
Lemma concat_nil_b : forall (bs : list (list B)), bs = [] -> concat bs = [].
Proof. intros bs ->; reflexivity. Qed.
Lemma sage_inference_all : forall param b pad nodes, 0 < b -> nodes <> [] ->
  exists k, padding (length nodes) b k /\ sage_inference param b pad nodes = Some (nodes ++ repeat pad k).
Proof.
  intros param b pad nodes P N. unfold sage_inference, inference, file_batches, file_len.
  destruct (batches_pad (length nodes) b pad nodes P (le_n _)) as (k & K & C & D).
  exists k; split; [exact K|].
  destruct (batches (length nodes) false b pad nodes) as [|x bs] eqn:E.
  - symmetry in C. apply app_eq_nil in C. tauto.
  - rewrite <- D. cbn [length py_or]. rewrite <- C. f_equal. f_equal.
    apply (firstn_all (x :: bs)).
Qed.
Lemma inference_empty : forall d param b pad, inference d param b pad (@nil B) = None.
Proof. reflexivity. Qed.
Lemma unsup_inference_whole : forall param b pad nodes, 0 < b -> b <= length nodes ->
  unsup_inference param b pad nodes = Some (firstn (b * (length nodes / b)) nodes).
Proof.
  intros param b pad nodes P N. unfold unsup_inference, inference, file_batches, file_len.
  destruct (batches_drop (length nodes) b pad nodes P (le_n _)) as [C D].
  assert (Q : 1 <= length nodes / b) by (apply Nat.div_le_lower_bound; lia).
  destruct (batches (length nodes) true b pad nodes) as [|x bs] eqn:E.
  - simpl in D. lia.
  - rewrite <- C, <- D. cbn [length py_or]. f_equal. f_equal.
    apply (firstn_all (x :: bs)).
Qed.
Lemma unsup_inference_small : forall param b pad nodes, length nodes < b ->
  unsup_inference param b pad nodes = None.
Proof.
  intros param b pad nodes H. unfold unsup_inference, inference, file_batches.
  destruct nodes as [|x t]; [reflexivity|]. cbn [length batches].
  cbn [length] in H. destruct (Nat.ltb_spec (S (length t)) b) as [L|L]; [reflexivity|lia].
Qed.
(** How many nodes are left out, whatever the step parameter. *)
Lemma unsup_inference_lost : forall param b pad nodes, 0 < b -> b <= length nodes ->
  exists l rest, unsup_inference param b pad nodes = Some l /\ nodes = l ++ rest /\ length rest = length nodes mod b.
Proof.
  intros param b pad nodes P N.
  exists (firstn (b * (length nodes / b)) nodes), (skipn (b * (length nodes / b)) nodes).
  rewrite unsup_inference_whole, firstn_skipn, skipn_length by auto. repeat split.
  pose proof (Nat.div_mod (length nodes) b). lia.
Qed.
End Steps.
