From Coq Require Import Permutation ZifyBool ZifyNat Ascii String.
From Verif Require Import Base FilesModel FilesProofs DispatchModel DispatchProofs MetaModel MetaSpec MetaProofs UploadModel UploadSpec.
Import ListNotations.
Open Scope list_scope.
Notation length := List.length.

(** ** Subsequences *)
Lemma sub_refl {A} (l : list A) : subseq l l.
Proof. induction l; constructor; assumption. Qed.
Lemma sub_trans {A} (a b c : list A) : subseq a b -> subseq b c -> subseq a c.
Proof.
  intros H K. revert a H. induction K; intros u H.
  - inversion H; subst; constructor.
  - inversion H; subst; [constructor|constructor; auto|apply sub_skip; auto].
  - apply sub_skip; auto.
Qed.
Lemma sub_app_l {A} (a b : list A) : subseq a (a ++ b).
Proof. induction a; constructor; assumption. Qed.
Lemma sub_app_r {A} (a b : list A) : subseq b (a ++ b).
Proof. induction a as [|x a IH]; cbn [app]; [apply sub_refl|now apply sub_skip]. Qed.
Lemma sub_filter {A B} (f : A -> bool) (g : A -> B) l : subseq (map g (filter f l)) (map g l).
Proof. induction l as [|x l IH]; cbn [filter map]; [constructor|]. destruct (f x); cbn [map]; constructor; exact IH. Qed.
Lemma sub_concat {A} (x : list A) ls : In x ls -> subseq x (concat ls).
Proof.
  induction ls as [|y ls IH]; cbn [In concat]; [tauto|]. intros [->|H]; [apply sub_app_l|].
  eapply sub_trans; [apply IH, H|apply sub_app_r].
Qed.

Lemma flat_map_map {A B C} (f : B -> list C) (g : A -> B) l : flat_map f (map g l) = flat_map (fun x => f (g x)) l.
Proof. induction l as [|x l IH]; [reflexivity|]. cbn [map flat_map]. now rewrite IH. Qed.
Lemma map_flat_map {A B C} (f : B -> C) (g : A -> list B) l : map f (flat_map g l) = flat_map (fun x => map f (g x)) l.
Proof. induction l as [|x l IH]; [reflexivity|]. cbn [flat_map]. now rewrite map_app, IH. Qed.
Lemma concat_flat_map {A B} (g : A -> list (list B)) l : concat (flat_map g l) = flat_map (fun x => concat (g x)) l.
Proof. induction l as [|x l IH]; [reflexivity|]. cbn [flat_map]. now rewrite concat_app, IH. Qed.
Lemma flat_map_ext_in {A B} (f g : A -> list B) l : (forall x, In x l -> f x = g x) -> flat_map f l = flat_map g l.
Proof. intros H. rewrite !flat_map_concat_map. f_equal. now apply map_ext_in. Qed.
Lemma flat_map_perm {A B} (f g : A -> list B) l : (forall x, In x l -> Permutation (f x) (g x)) -> Permutation (flat_map f l) (flat_map g l).
Proof. induction l as [|x l IH]; intros H; [constructor|]. cbn [flat_map]. apply Permutation_app; [apply H; now left|apply IH; intros; apply H; now right]. Qed.
Lemma nodup_flat {A B} (f : A -> list B) l : NoDup l -> (forall x, In x l -> NoDup (f x)) ->
  (forall x y b, In x l -> In y l -> In b (f x) -> In b (f y) -> x = y) -> NoDup (flat_map f l).
Proof.
  induction 1 as [|x l Hx Hl IH]; intros Hf Hd; [constructor|]. cbn [flat_map]. apply nodup_app; [apply Hf; now left|apply IH|].
  - intros; apply Hf; now right.
  - intros u v b Hu Hv. apply Hd; now right.
  - intros b Hb Hb'. apply in_flat_map in Hb' as (y & Hy & Hb'). rewrite (Hd x y b) in Hx; [contradiction|now left|now right|assumption..].
Qed.

(** ** The chunks of writelines *)
Lemma join_newline ls : ls <> [] -> text ls = flat_map (fun l : nm => l ++ newline) ls.
Proof.
  intros H. unfold text. induction ls as [|x [|y t] IH]; [congruence|cbn; now rewrite app_nil_r|].
  change (join (x :: y :: t)) with (x ++ newline ++ join (y :: t)). rewrite <- !app_assoc. cbn [flat_map]. rewrite <- app_assoc. do 2 f_equal. apply IH. discriminate.
Qed.
Lemma skipn_plus {A} (a b : nat) : forall l : list A, skipn (a + b) l = skipn b (skipn a l).
Proof. induction a as [|a IH]; intros l; [reflexivity|]. destruct l; [now rewrite !skipn_nil|]. apply IH. Qed.
Lemma chunked_ok size fuel : forall offset ls, 0 < size -> length ls < fuel + offset ->
  exists cs, chunked fuel size offset ls = Ok cs /\ concat cs = flat_map (fun l : nm => l ++ newline) (skipn offset ls) /\
    Forall (fun c : nm => exists l : list nm, l <> [] /\ length l <= size /\ c = flat_map (fun x : nm => x ++ newline) l) cs.
Proof.
  induction fuel as [|f IH]; intros offset ls Hs Hf; cbn [chunked].
  - replace (offset <? length ls) with false by lia. exists []. rewrite skipn_all2 by lia. auto.
  - destruct (offset <? length ls) eqn:E; [|exists []; rewrite skipn_all2 by lia; auto].
    set (stop := if offset + size <? length ls then offset + size else length ls).
    assert (Hstop : offset < stop <= length ls /\ stop - offset <= size) by (unfold stop; destruct (Nat.ltb_spec (offset + size) (length ls)); lia).
    destruct (IH stop ls Hs ltac:(lia)) as (cs & -> & Hc & Hall). cbn [bind].
    set (l := firstn (stop - offset) (skipn offset ls)).
    assert (Hl : length l = stop - offset) by (unfold l; rewrite firstn_length, skipn_length; lia).
    assert (Hn : l <> []) by (intros ->; cbn in Hl; lia).
    exists (text l :: cs). split; [reflexivity|]. rewrite join_newline by exact Hn. split.
    + cbn [concat]. rewrite Hc. rewrite <- flat_map_app. f_equal. unfold l.
      assert (X : skipn stop ls = skipn (stop - offset) (skipn offset ls)) by (rewrite <- skipn_plus; f_equal; lia).
      rewrite X, firstn_skipn. reflexivity.
    + constructor; [|exact Hall]. exists l. split; [exact Hn|]. split; [rewrite Hl; exact (proj2 Hstop)|reflexivity].
Qed.
Lemma writelines_ok size ls : 0 < size ->
  exists cs, writelines size ls = Ok cs /\ concat cs = flat_map (fun l : nm => l ++ newline) ls /\
    Forall (fun c : nm => exists l : list nm, l <> [] /\ length l <= size /\ c = flat_map (fun x : nm => x ++ newline) l) cs.
Proof. intros H. unfold writelines. apply (chunked_ok size _ 0 ls H). lia. Qed.

(** ** Names *)
Lemma file_name_inj i j k i' j' k' : file_name i j k = file_name i' j' k' -> i = i' /\ j = j' /\ k = k'.
Proof.
  unfold file_name. cbn [str list_ascii_of_string app]. intros H. injection H as H.
  apply dec_inj in H as [-> H]; [|reflexivity..]. injection H as H. apply dec_inj in H as [-> H]; [|reflexivity..]. injection H as H.
  apply dec_inj in H as [-> _]; [|reflexivity..]. auto.
Qed.

(** ** The files of one thread *)
Section Thread.
Variable limit : nat.
Definition pack (t : thread) := closed t ++ opt (current t).
Definition tidy (content : list chunk) (fs : list (nat * list chunk)) : Prop :=
  map fst fs = seq 0 (length fs) /\ concat (map snd fs) = content /\ Forall (fun f => snd f <> []) fs /\
  (limit = 0 -> length fs <= 1) /\
  (0 < limit -> Forall (fun f => length (snd f) <= limit) fs /\ Forall (fun f => length (snd f) = limit) (removelast fs)).
Definition tinv (t : thread) (content : list chunk) : Prop :=
  opened t = length (pack t) /\ count t = length content /\ tidy content (pack t) /\
  (alive t = true -> current t = None -> closed t = []) /\ (alive t = false -> current t = None).

Lemma tidy_nil fs : tidy [] fs -> fs = [].
Proof.
  intros (_ & H & N & _). destruct fs as [|[k x] fs]; [reflexivity|]. inversion N as [|? ? N1 ?]; subst. cbn in H, N1.
  apply app_eq_nil in H as [-> _]. congruence.
Qed.
Lemma full_length (fs : list (nat * list chunk)) : Forall (fun f => length (snd f) = limit) fs -> length (concat (map snd fs)) = length fs * limit.
Proof. induction 1 as [|x l Hx _ IH]; [reflexivity|]. cbn [map concat length]. rewrite app_length, IH, Hx. lia. Qed.
Lemma tinv_none t content : alive t = true -> tinv t content -> tinv (take limit None t) content.
Proof.
  intros A (H1 & H2 & H3 & H4 & H5). unfold tinv, take, pack in *. cbn [closed current opened count alive opt]. rewrite app_nil_r.
  split; [exact H1|]. split; [exact H2|]. split; [exact H3|]. split; [discriminate|reflexivity].
Qed.
Lemma tinv_some t content b r : alive t = true -> tinv t content -> tinv (take limit (Some (b :: r)) t) (content ++ [b :: r]) /\ alive (take limit (Some (b :: r)) t) = true.
Proof.
  intros A (H1 & H2 & H3 & H4 & _). unfold take. cbv zeta. set (t1 := (count t =? 0) || _). destruct t1 eqn:E; subst t1; cbn [alive]; (split; [|reflexivity]);
    unfold tinv, pack in *; cbn [closed current opened count alive opt].
  - split; [rewrite app_length; cbn [length]; lia|]. split; [rewrite app_length; cbn [length]; lia|]. split; [|split; [discriminate|discriminate]].
    set (fs := closed t ++ opt (current t)) in *.
    destruct H3 as (F1 & F2 & F3 & F4 & F5).
    assert (Hlast : limit = 0 -> fs = []).
    { intros Z0. destruct (count t =? 0) eqn:Z; [|cbn in E; lia]. apply tidy_nil. unfold tidy. assert (X : content = []) by (destruct content; [reflexivity|cbn in H2; lia]). rewrite X in *. auto. }
    repeat split.
    + rewrite map_app, F1, app_length. cbn [map length fst]. rewrite H1. replace (length fs + 1) with (S (length fs)) by lia. rewrite seq_S. reflexivity.
    + rewrite map_app, concat_app, F2. reflexivity.
    + apply Forall_app. split; [exact F3|]. constructor; [discriminate|constructor].
    + intros Z. rewrite (Hlast Z). cbn. lia.
    + apply Forall_app. split; [now apply F5|]. constructor; [cbn; lia|constructor].
    + rewrite removelast_last. destruct (F5 H) as [G1 G2]. destruct fs as [|f0 fs0] eqn:Efs; [constructor|]. rewrite <- Efs in *.
      assert (Hd : fs = removelast fs ++ [last fs f0]) by (apply app_removelast_last; rewrite Efs; discriminate).
      rewrite Hd. apply Forall_app. split; [exact G2|]. constructor; [|constructor].
      assert (L : length content = length (removelast fs) * limit + length (snd (last fs f0))).
      { rewrite <- F2, Hd at 1. rewrite map_app, concat_app, app_length, (full_length _ G2). cbn [map concat]. rewrite app_nil_r. reflexivity. }
      assert (L1 : 0 < length (snd (last fs f0)) <= limit).
      { rewrite Hd in G1, F3. apply Forall_app in G1 as [_ G1]. apply Forall_app in F3 as [_ F3]. inversion G1; inversion F3; subst. split; [|assumption]. destruct (snd (last fs f0)); [congruence|cbn; lia]. }
      destruct (count t =? 0) eqn:Z; [lia|]. cbn [orb] in E. rewrite H2, L in E. replace (0 <? limit) with true in E by lia. cbn [andb] in E.
      rewrite Nat.add_comm, Nat.mod_add in E by lia. destruct (Nat.eq_dec (length (snd (last fs f0))) limit) as [X|X]; [exact X|]. rewrite Nat.mod_small in E by lia. lia.
  - destruct (current t) as [[k cs]|] eqn:Ecur.
    2:{ rewrite (H4 A eq_refl) in *. cbn in *. destruct H3 as (_ & F2 & _). cbn in F2. subst content. cbn in H2. rewrite H2 in E. cbn in E. discriminate. }
    cbn [opt] in *. split; [rewrite app_length in *; cbn [length] in *; lia|]. split; [rewrite app_length; cbn [length]; lia|]. split; [|split; [discriminate|discriminate]].
    destruct H3 as (F1 & F2 & F3 & F4 & F5). rewrite app_length in *. cbn [length] in *.
    unfold tidy. rewrite !map_app, !app_length in *. cbn [map fst snd length] in *. repeat split.
    + exact F1.
    + rewrite concat_app in *. cbn [concat] in *. rewrite app_nil_r in *. rewrite <- F2. now rewrite <- app_assoc.
    + apply Forall_app in F3 as [F3 F3']. apply Forall_app. split; [exact F3|]. constructor; [|constructor]. cbn. destruct cs; discriminate.
    + exact F4.
    + destruct (F5 H) as [G1 G2]. apply Forall_app in G1 as [G1 G1']. apply Forall_app. split; [exact G1|]. constructor; [|constructor]. cbn [snd].
      inversion G1'; subst. cbn [snd] in *. rewrite removelast_last in G2. rewrite concat_app, app_length, (full_length _ G2) in H2. cbn [concat] in H2. rewrite app_nil_r in H2.
      rewrite app_length. cbn [length]. enough (length cs <> limit) by lia. intros X. replace (0 <? limit) with true in E by lia. rewrite H2, X in E.
      replace (length (closed t) * limit + limit) with (0 + (length (closed t) + 1) * limit) in E by lia. rewrite Nat.mod_add, Nat.mod_0_l in E by lia. cbn in E. lia.
    + rewrite removelast_last. destruct (F5 H) as [_ G2]. now rewrite removelast_last in G2.
Qed.
End Thread.

(** ** One process *)
Ltac finish := repeat match goal with |- _ /\ _ => split | |- _ -> _ => intro end; try assumption; try reflexivity; try tauto; try lia.
Ltac parts := refine (conj _ (conj _ (conj _ (conj _ (conj _ (conj _ _)))))).
Lemma filter_length_le {A} (f : A -> bool) l : length (filter f l) <= length l.
Proof. induction l as [|x l IH]; [reflexivity|]. cbn [filter length]. destruct (f x); cbn [length]; lia. Qed.
Section Proc.
Variable T limit : nat.
Definition deads (th : nat -> thread) : nat := length (filter (fun j => negb (alive (th j))) (seq 0 T)).
Definition part (h : list (nat * chunk)) (j : nat) : list chunk := map snd (filter (fun x => fst x =? j) h).
Definition phase (pat mk : bool) (p : process) (qs : list chunk) (n d : nat) : Prop :=
  match p with
  | Pumping => n + d = 0
  | Stopping k => mk = true /\ qs = [] /\ n + d <= k <= T /\ (pat = true -> n + d = k /\ (0 < d -> k = T))
  | Joining => mk = true /\ qs = [] /\ n + d <= T /\ (pat = true -> n + d = T)
  | Gone => mk = true /\ qs = [] /\ d = T /\ n + d <= T
  end.
(** [h]: the chunks the threads have taken, with the threads; [is] and [qs]: those in the inner
    and outer queue; [n]: Nones in the inner queue. *)
Definition pinv (pat : bool) (A : list chunk) (mk : bool) (q : list item) (p : process) (inn : list item) (th : nat -> thread) : Prop :=
  exists h is qs n,
    Forall (fun x => fst x < T) h /\ map snd h ++ is ++ qs = A /\
    inn = map Some is ++ repeat None n /\
    q = map Some qs ++ (match p with Pumping => if mk then [None] else [] | _ => [] end) /\
    phase pat mk p qs n (deads th) /\ (0 < deads th -> is = []) /\
    forall j, j < T -> tinv limit (th j) (part h j).

Lemma deads_le th : deads th <= T.
Proof. unfold deads. rewrite <- (seq_length T 0) at 2. apply filter_length_le. Qed.
Lemma deads_all th : forallb (fun j => negb (alive (th j))) (seq 0 T) = true <-> deads th = T.
Proof.
  unfold deads. rewrite <- (seq_length T 0) at 3. generalize (seq 0 T). induction l as [|x l IH]; [cbn; tauto|]. cbn [forallb filter length].
  pose proof (filter_length_le (fun j => negb (alive (th j))) l). destruct (alive (th x)); cbn [negb andb length]; [split; [discriminate|lia]|]. rewrite IH. lia.
Qed.
Lemma deads_upd th j t : j < T -> deads (upd th j t) + (if alive (th j) then 0 else 1) = deads th + (if alive t then 0 else 1).
Proof.
  intros Hj. unfold deads. assert (X : In j (seq 0 T)) by (apply in_seq; lia). pose proof (seq_NoDup T 0) as N. revert X N. generalize (seq 0 T). induction l as [|x l IH]; [intros []|].
  intros X N. inversion N as [|? ? N1 N2]; subst. cbn [filter]. destruct (Nat.eq_dec x j) as [->|D].
  - rewrite upd_same. assert (Y : filter (fun k => negb (alive (upd th j t k))) l = filter (fun k => negb (alive (th k))) l).
    { apply filter_ext_in. intros k Hk. rewrite upd_other; [reflexivity|]. intros ->. contradiction. }
    rewrite Y. destruct (alive t), (alive (th j)); cbn [negb length]; lia.
  - destruct X as [X|X]; [congruence|]. rewrite upd_other by congruence. specialize (IH X N2). destruct (alive (th x)); cbn [negb length]; lia.
Qed.
Lemma deads_dead th j : j < T -> alive (th j) = false -> 0 < deads th.
Proof.
  intros Hj A. unfold deads. assert (X : In j (filter (fun j => negb (alive (th j))) (seq 0 T))). { apply filter_In. rewrite A. split; [apply in_seq; lia|reflexivity]. }
  destruct (filter _ _); [destruct X|cbn; lia].
Qed.

Lemma part_snoc h j x : part (h ++ [x]) j = if fst x =? j then part h j ++ [snd x] else part h j.
Proof. unfold part. rewrite filter_app, map_app. cbn [filter]. destruct (fst x =? j); cbn [map]; [reflexivity|apply app_nil_r]. Qed.

(** Steps that only change the outer queue or the mark. *)
Lemma phase_unmarked pat p qs n d : phase pat false p qs n d -> p = Pumping.
Proof. destruct p; cbn [phase]; [reflexivity|intros (X & _); discriminate X..]. Qed.
Lemma pinv_accept pat A c mk q p inn th : mk = false -> pinv pat A mk q p inn th -> pinv pat (A ++ [c]) mk (q ++ [Some c]) p inn th.
Proof.
  intros -> (h & is & qs & n & H1 & H2 & H3 & H4 & H5 & H6 & H7). exists h, is, (qs ++ [c]), n.
  pose proof (phase_unmarked _ _ _ _ _ H5); subst p. parts; try assumption.
  - rewrite <- H2. now rewrite <- !app_assoc.
  - rewrite H4, app_nil_r, map_app. cbn [map]. now rewrite app_nil_r.
Qed.
Lemma pinv_mark pat A q p inn th : pinv pat A false q p inn th -> pinv pat A true (q ++ [None]) p inn th.
Proof.
  intros (h & is & qs & n & H1 & H2 & H3 & H4 & H5 & H6 & H7). exists h, is, qs, n.
  pose proof (phase_unmarked _ _ _ _ _ H5); subst p. parts; try assumption.
  rewrite H4, app_nil_r. reflexivity.
Qed.
Lemma pinv_unmarked pat A mk q p inn th : pinv pat A mk q p inn th -> p <> Pumping -> mk = true.
Proof. intros (h & is & qs & n & _ & _ & _ & _ & H5 & _) N. destruct p; cbn [phase] in H5; tauto. Qed.
Lemma pinv_pump pat A mk x q inn th : Forall (fun c => c <> []) A -> pinv pat A mk (x :: q) Pumping inn th ->
  pinv pat A mk q (if falsy x then Stopping 0 else Pumping) (if falsy x then inn else inn ++ [x]) th.
Proof.
  intros NE (h & is & qs & n & H1 & H2 & H3 & H4 & H5 & H6 & H7). cbn [phase] in H5. destruct qs as [|c qs].
  - destruct mk; cbn in H4; [|discriminate]. injection H4 as -> ->. cbn [falsy]. exists h, is, [], n. cbn [phase map app]. parts; try reflexivity; try assumption; try (finish; fail).
  - cbn [map app] in H4. injection H4 as -> ->. assert (Hc : c <> []).
    { rewrite <- H2 in NE. apply Forall_app in NE as [_ NE]. apply Forall_app in NE as [_ NE]. now inversion NE. }
    destruct c as [|b r]; [congruence|]. cbn [falsy]. exists h, (is ++ [b :: r]), qs, n. assert (n = 0) by lia. subst n. cbn [repeat] in *. rewrite app_nil_r in *.
    parts; try assumption.
    + rewrite <- H2. now rewrite <- !app_assoc.
    + rewrite H3, map_app. reflexivity.
    + reflexivity.
    + intros X. lia.
Qed.
Lemma pinv_stop pat A mk q k inn th : k < T -> pinv pat A mk q (Stopping k) inn th ->
  pinv pat A mk q (Stopping (S k)) (if alive (th k) then inn ++ [None] else inn) th.
Proof.
  intros Hk (h & is & qs & n & H1 & H2 & H3 & H4 & H5 & H6 & H7). cbn [phase] in H5. destruct H5 as (M & Q & B & F).
  destruct (alive (th k)) eqn:A1.
  - exists h, is, qs, (S n). cbn [phase]. parts; try assumption; try (finish; fail).
    rewrite H3, <- app_assoc. f_equal. replace (S n) with (n + 1) by lia. now rewrite repeat_app.
  - exists h, is, qs, n. cbn [phase]. pose proof (deads_dead th k Hk A1) as D. parts; try assumption; try (finish; fail).
    all: intros; exfalso; destruct (F H) as [_ X]; specialize (X D); lia.
Qed.
Lemma pinv_stopped pat A mk q k inn th : T <= k -> pinv pat A mk q (Stopping k) inn th -> pinv pat A mk q Joining inn th.
Proof.
  intros Hk (h & is & qs & n & H1 & H2 & H3 & H4 & H5 & H6 & H7). cbn [phase] in H5. exists h, is, qs, n. cbn [phase]. parts; try assumption; try (finish; fail).
Qed.
Lemma pinv_gone pat A mk q inn th : deads th = T -> pinv pat A mk q Joining inn th -> pinv pat A mk q Gone inn th.
Proof.
  intros D (h & is & qs & n & H1 & H2 & H3 & H4 & H5 & H6 & H7). cbn [phase] in H5. exists h, is, qs, n. cbn [phase]. parts; try assumption; try (finish; fail).
Qed.
Lemma pinv_take pat A mk q p x inn th j : Forall (fun c => c <> []) A -> j < T -> alive (th j) = true ->
  (pat = true -> x = None -> forall k, p = Stopping k -> T <= k) ->
  pinv pat A mk q p (x :: inn) th -> pinv pat A mk q p inn (upd th j (take limit x (th j))).
Proof.
  intros NE Hj Al Pat (h & is & qs & n & H1 & H2 & H3 & H4 & H5 & H6 & H7).
  assert (DL : deads th < T). { pose proof (deads_le th). enough (deads th <> T) by lia. intros X. apply deads_all in X. rewrite forallb_forall in X. specialize (X j ltac:(apply in_seq; lia)). rewrite Al in X. discriminate. }
  destruct is as [|c is].
  - destruct n as [|n]; [discriminate|]. cbn in H3. injection H3 as -> ->.
    pose proof (deads_upd th j (take limit None (th j)) Hj) as D. rewrite Al, Nat.add_0_r in D. change (alive (take limit None (th j))) with false in D. cbv iota in D.
    exists h, [], qs, n. rewrite D.
    parts; try assumption.
    + reflexivity.
    + destruct p; cbn [phase] in *; try lia.
      * destruct H5 as (M & Q & B & F). finish. all: specialize (F H); specialize (Pat H eq_refl k eq_refl); lia.
      * destruct H5 as (M & Q & B & F). repeat  split; try assumption; try lia.
    + auto.
    + intros i Hi. destruct (Nat.eq_dec i j) as [->|N]; [rewrite upd_same; apply tinv_none; auto|rewrite upd_other by assumption; auto].
  - cbn in H3. injection H3 as -> ->. assert (Hc : c <> []).
    { rewrite <- H2 in NE. apply Forall_app in NE as [_ NE]. now inversion NE. }
    destruct c as [|b r]; [congruence|]. destruct (tinv_some limit (th j) (part h j) b r Al (H7 j Hj)) as [I1 I2].
    pose proof (deads_upd th j (take limit (@Some chunk (b :: r)) (th j)) Hj) as D. change (alive (take limit (@Some chunk (b :: r)) (th j)) = true) in I2. rewrite Al, I2 in D. assert (D' : deads (upd th j (take limit (@Some chunk (b :: r)) (th j))) = deads th) by lia.
    assert (Z : deads th = 0) by (destruct (deads th); [reflexivity|exfalso; assert (X : (b :: r) :: is = []) by (apply H6; lia); discriminate]).
    exists (h ++ [(j, b :: r)]), is, qs, n. rewrite D'. parts; try assumption.
    + apply Forall_app. split; [assumption|]. constructor; [exact Hj|constructor].
    + rewrite <- H2, map_app. cbn [map snd]. now rewrite <- app_assoc.
    + reflexivity.
    + intros X. lia.
    + intros i Hi. rewrite part_snoc. cbn [fst snd]. destruct (Nat.eq_dec i j) as [->|N]; [rewrite upd_same, Nat.eqb_refl; exact I1|]. rewrite upd_other by assumption. destruct (Nat.eqb_spec j i); [congruence|]. auto.
Qed.
End Proc.

(** ** All processes *)
Section Global.
Variable P T Qs limit : nat.
Variable calls : list call.
Definition is_lines (c : call) : bool := match c with Lines _ => true | _ => false end.
Definition lines_calls (cs : list call) : list bool := map (fun _ => true) (filter is_lines cs).
Definition marked (c : closer) (i : nat) : bool := match c with NoClose => false | Marking _ k => i <? k | _ => true end.
Definition gmain (st : state) : Prop :=
  if running st then
    closing st = NoClose /\ exists cs, main st = Calling cs /\
      if raised st then cs = [] else sent cs = skipn (total_chunk st) (sent calls) /\ answers st ++ lines_calls cs = lines_calls calls
  else
    match closing st with
    | Marking false k => k <= P /\ main st = InClose
    | Waiting false => main st = InClose
    | Finished => main st = Returned /\ forall i, i < P -> processes st i = Gone
    | _ => False
    end /\ (raised st = false -> total_chunk st = length (sent calls) /\ answers st = lines_calls calls).
Definition ginv (pat : bool) (st : state) : Prop :=
  gmain st /\ total_chunk st <= length (sent calls) /\
  forall i, i < P -> pinv T limit pat (share P i (firstn (total_chunk st) (sent calls))) (marked (closing st) i) (queues st i) (processes st i) (inner st i) (threads st i).
Hypothesis HP : 0 < P.
Hypothesis Hne : Forall (fun c => c <> []) (sent calls).

Lemma share_ne i k : Forall (fun c => c <> []) (share P i (firstn k (sent calls))).
Proof.
  apply Forall_forall. intros x Hx. apply share_in in Hx. rewrite Forall_forall in Hne. apply Hne.
  rewrite <- (firstn_skipn k (sent calls)). apply in_or_app. now left.
Qed.
Lemma ginv_init pat : ginv pat (init calls).
Proof.
  unfold ginv, gmain, init. cbn [running closing main raised total_chunk answers queues processes inner threads marked firstn skipn app]. split; [|split; [lia|]].
  - split; [reflexivity|]. exists calls. auto.
  - intros i Hi. exists [], [], [], 0. parts; try reflexivity; try (constructor; fail).
    + cbn [phase]. assert (deads T (fun _ => Thread true 0 0 [] None) = 0); [|lia]. unfold deads. cbn. induction (seq 0 T); [reflexivity|assumption].
    + intros j Hj. unfold tinv, tidy, pack. cbn. repeat split; auto; discriminate.
Qed.
Lemma snoc_firstn {A} (l : list A) k x t : skipn k l = x :: t -> firstn (S k) l = firstn k l ++ [x] /\ k < length l /\ length (firstn k l) = k /\ skipn (S k) l = t.
Proof.
  revert l. induction k as [|k IH]; intros [|y l] H; cbn [skipn] in H; try discriminate.
  - injection H as -> ->. cbn. split; [reflexivity|]. split; [lia|]. auto.
  - destruct (IH l H) as (E1 & E2 & E3 & E4). change (firstn (S (S k)) (y :: l)) with (y :: firstn (S k) l). rewrite E1. change (skipn (S (S k)) (y :: l)) with (skipn (S k) l). cbn [firstn length app]. split; [reflexivity|]. split; [lia|]. split; [lia|exact E4].
Qed.
Lemma ginv_accept pat st c rest st' cs : ginv pat st -> running st = true -> main st = Calling cs -> raised st = false -> sent cs = c :: sent rest -> lines_calls cs = lines_calls rest ->
  accept P Qs st c rest = Some st' -> ginv pat st'.
Proof.
  intros (G & B & H) R M RA S1 L1. unfold accept. destruct (room _ _ _); [|discriminate]. intros E. injection E as <-.
  unfold ginv, gmain in *. cbn [running closing main raised total_chunk answers queues processes inner threads]. rewrite R, RA, M in *. destruct G as (C & cs' & M' & G1 & G2). injection M' as <-.
  rewrite S1 in G1. symmetry in G1. destruct (snoc_firstn _ _ _ _ G1) as (F1 & F2 & F3 & F4). split; [|split; [lia|]].
  - split; [exact C|]. exists rest. rewrite F4, <- L1. auto.
  - intros i Hi. specialize (H i Hi). rewrite F1, share_snoc, F3. rewrite C in *. cbn [marked] in *. destruct (Nat.eqb_spec (total_chunk st mod P) i) as [<-|N].
    + rewrite upd_same. now apply pinv_accept.
    + rewrite upd_other by congruence. exact H.
Qed.
Definition same_main (st st' : state) : Prop :=
  main st' = main st /\ raised st' = raised st /\ answers st' = answers st /\ total_chunk st' = total_chunk st /\ running st' = running st /\ closing st' = closing st.
Lemma ginv_at pat st st' i : ginv pat st -> i < P -> same_main st st' ->
  (forall j, j <> i -> queues st' j = queues st j /\ processes st' j = processes st j /\ inner st' j = inner st j /\ threads st' j = threads st j) ->
  (closing st = Finished -> processes st' i = Gone) ->
  pinv T limit pat (share P i (firstn (total_chunk st) (sent calls))) (marked (closing st) i) (queues st' i) (processes st' i) (inner st' i) (threads st' i) ->
  ginv pat st'.
Proof.
  intros (G & B & H) Hi (S1 & S2 & S3 & S4 & S5 & S6) O F K. unfold ginv, gmain in *. rewrite S1, S2, S3, S4, S5, S6. split; [|split; [exact B|]].
  - destruct (running st); [exact G|]. destruct (closing st) as [|[] k|[]|]; try exact G. destruct G as ((G1 & G2) & G3). split; [|exact G3]. split; [exact G1|].
    intros j Hj. destruct (Nat.eq_dec j i) as [->|N]; [auto|]. destruct (O j N) as (_ & -> & _). auto.
  - intros j Hj. destruct (Nat.eq_dec j i) as [->|N]; [exact K|]. destruct (O j N) as (-> & -> & -> & ->). auto.
Qed.
Lemma ginv_gone pat st i : ginv pat st -> i < P -> processes st i = Gone -> running st = false.
Proof.
  intros (G & _ & H) Hi E. destruct (running st) eqn:R; [|reflexivity]. unfold gmain in G. rewrite R in G. destruct G as (C & _). specialize (H i Hi). rewrite C, E in H.
  apply pinv_unmarked in H; discriminate.
Qed.

Lemma ginv_step pat st e st' : ginv pat st -> (pat = true -> patient T st e) -> step P T Qs limit st e = Some st' -> ginv pat st'.
Proof.
  intros I Pat E. pose proof I as (G & B & H). destruct e; cbn [step] in E.
  - (* Put *)
    destruct (main st) as [[|[c|[|c cs]] t]| |] eqn:M; try discriminate.
    + destruct (running st) eqn:R.
      * injection E as <-. unfold ginv, gmain in *. rewrite R, M in *. destruct G as (C & cs & M' & G). injection M' as <-.
        cbn [running closing main raised total_chunk answers queues processes inner threads]. split; [|split; [exact B|]].
        -- split; [split; [lia|reflexivity]|]. intros RA. rewrite RA in G. destruct G as [G1 G2]. cbn in G1. rewrite app_nil_r in G2. split; [|exact G2].
           assert (X : length (skipn (total_chunk st) (sent calls)) = 0) by now rewrite <- G1. rewrite skipn_length in X. lia.
        -- intros i Hi. specialize (H i Hi). rewrite C in H. exact H.
      * exfalso. unfold gmain in G. rewrite R, M in G. destruct (closing st) as [|[] ?|[]|]; intuition discriminate.
    + assert (R : running st = true). { destruct (running st) eqn:R; [reflexivity|]. unfold gmain in G. rewrite R, M in G. destruct (closing st) as [|[] ?|[]|]; intuition discriminate. }
      assert (RA : raised st = false). { destruct (raised st) eqn:RA; [|reflexivity]. unfold gmain in G. rewrite R, RA, M in G. destruct G as (_ & cs & X & ->). discriminate. }
      eapply ginv_accept; try eassumption; reflexivity.
    + injection E as <-. unfold answer, ginv, gmain in *. cbn [running closing main raised total_chunk answers queues processes inner threads]. rewrite M in *. split; [|split; assumption].
      destruct (running st) eqn:R.
      * destruct G as (C & cs & M' & G). injection M' as <-. split; [exact C|]. exists t. split; [reflexivity|]. destruct (raised st); [discriminate|]. destruct G as [G1 G2]. split; [exact G1|].
        rewrite <- G2. rewrite <- app_assoc. reflexivity.
      * exfalso. destruct (closing st) as [|[] ?|[]|]; intuition discriminate.
    + assert (R : running st = true). { destruct (running st) eqn:R; [reflexivity|]. unfold gmain in G. rewrite R, M in G. destruct (closing st) as [|[] ?|[]|]; intuition discriminate. }
      rewrite R in E. assert (RA : raised st = false). { destruct (raised st) eqn:RA; [|reflexivity]. unfold gmain in G. rewrite R, RA, M in G. destruct G as (_ & cs' & X & ->). discriminate. }
      eapply ginv_accept; try eassumption; reflexivity.
  - (* Full *)
    destruct (main st) as [[|[c|[|c cs]] t]| |] eqn:M; try discriminate. destruct (running st) eqn:R; [|discriminate]. destruct (room _ _ _); [discriminate|]. cbn [andb negb] in E. injection E as <-.
    unfold ginv, gmain in *. cbn [running closing main raised total_chunk answers queues processes inner threads]. rewrite R in *. split; [|split; assumption]. destruct G as (C & _). split; [exact C|]. exists []. auto.
  - (* Close *)
    destruct (closing st) as [|m k|m|] eqn:C; try discriminate.
    + assert (m = false /\ running st = false /\ k <= P /\ main st = InClose) as (-> & R & Hk & M).
      { unfold gmain in G. rewrite C in G. destruct (running st); [destruct G as (X & _); discriminate|]. destruct m; tauto. }
      destruct (k <? P) eqn:L.
      * destruct (gone (processes st k)) eqn:Gk.
        -- injection E as <-. unfold closes, ginv, gmain in *. cbn [running closing main raised total_chunk answers queues processes inner threads]. rewrite R, C in *. split; [|split; [exact B|]].
           ++ destruct G as [_ G]. split; [split; [lia|exact M]|exact G].
           ++ intros i Hi. specialize (H i Hi). destruct (Nat.eq_dec i k) as [->|N].
              ** cbn [marked] in *. rewrite Nat.ltb_irrefl in H. exfalso. apply pinv_unmarked in H; [discriminate|]. destruct (processes st k); discriminate.
              ** cbn [marked] in *. replace (i <? S k) with (i <? k) by lia. exact H.
        -- destruct (room _ _ _); [|discriminate]. injection E as <-. unfold ginv, gmain in *. cbn [running closing main raised total_chunk answers queues processes inner threads]. rewrite R, C in *. split; [|split; [exact B|]].
           ++ destruct G as [_ G]. split; [split; [lia|exact M]|exact G].
           ++ intros i Hi. specialize (H i Hi). destruct (Nat.eq_dec i k) as [->|N].
              ** cbn [marked] in *. rewrite Nat.ltb_irrefl in H. replace (k <? S k) with true by lia. rewrite upd_same. now apply pinv_mark.
              ** cbn [marked] in *. replace (i <? S k) with (i <? k) by lia. rewrite upd_other by assumption. exact H.
      * injection E as <-. unfold closes, ginv, gmain in *. cbn [running closing main raised total_chunk answers queues processes inner threads]. rewrite R, C in *. split; [|split; [exact B|]].
        -- destruct G as [_ G]. split; [exact M|exact G].
        -- intros i Hi. specialize (H i Hi). cbn [marked] in *. replace (i <? k) with true in H by lia. exact H.
    + assert (m = false /\ running st = false /\ main st = InClose) as (-> & R & M).
      { unfold gmain in G. rewrite C in G. destruct (running st); [destruct G as (X & _); discriminate|]. destruct m; tauto. }
      destruct (forallb _ _) eqn:F; [|discriminate]. injection E as <-. unfold leave, closes, ginv, gmain in *. cbn [running closing main raised total_chunk answers queues processes inner threads]. rewrite R, C in *. split; [|split; [exact B|]].
      * destruct G as [_ G]. split; [split; [reflexivity|]|exact G]. rewrite forallb_forall in F. intros i Hi. specialize (F i ltac:(apply in_seq; lia)). destruct (processes st i); (discriminate||reflexivity).
      * intros i Hi. exact (H i Hi).
  - (* Watch *)
    destruct (running st) eqn:R; [|discriminate]. cbn [andb] in E. destruct (existsb _ _) eqn:F; [|discriminate]. exfalso. apply existsb_exists in F as (i & Hi & F). apply in_seq in Hi.
    rewrite (ginv_gone pat st i I) in R; [discriminate|lia|]. destruct (processes st i); (discriminate||reflexivity).
  - (* Pump *)
    destruct (i <? P) eqn:Hi; [|discriminate]. destruct (processes st i) eqn:Ep; try discriminate. destruct (queues st i) as [|x q] eqn:Eq; [discriminate|]. injection E as <-.
    pose proof (H i ltac:(lia)) as Hp. rewrite Ep, Eq in Hp. apply pinv_pump in Hp; [|apply share_ne].
    eapply (ginv_at pat st _ i I); [lia|destruct (falsy x); repeat split|..].
    + intros j N. destruct (falsy x); cbn [queues processes inner threads becomes]; rewrite ?upd_other by assumption; auto.
    + intros C. unfold gmain in G. rewrite C in G. destruct (running st); [destruct G as (X & _); discriminate|]. destruct G as ((_ & G) & _). rewrite (G i) in Ep by lia. discriminate.
    + destruct (falsy x); cbn [queues processes inner threads becomes]; rewrite !upd_same; exact Hp.
  - (* Stop *)
    destruct (i <? P) eqn:Hi; [|discriminate]. pose proof (H i ltac:(lia)) as Hp. destruct (processes st i) as [|k| |] eqn:Ep; try discriminate.
    + destruct (k <? T) eqn:Hk; injection E as <-.
      * apply pinv_stop in Hp; [|lia]. eapply (ginv_at pat st _ i I); [lia|repeat split|..]; cbn [queues processes inner threads becomes].
        -- intros j N. rewrite ?upd_other by assumption. auto.
        -- intros C. unfold gmain in G. rewrite C in G. destruct (running st); [destruct G as (X & _); discriminate|]. destruct G as ((_ & G) & _). rewrite (G i) in Ep by lia. discriminate.
        -- rewrite !upd_same. exact Hp.
      * apply pinv_stopped in Hp; [|lia]. eapply (ginv_at pat st _ i I); [lia|repeat split|..]; cbn [queues processes inner threads becomes].
        -- intros j N. rewrite ?upd_other by assumption. auto.
        -- intros C. unfold gmain in G. rewrite C in G. destruct (running st); [destruct G as (X & _); discriminate|]. destruct G as ((_ & G) & _). rewrite (G i) in Ep by lia. discriminate.
        -- rewrite !upd_same. exact Hp.
    + destruct (forallb _ _) eqn:F; [|discriminate]. injection E as <-. apply deads_all in F. apply pinv_gone in Hp; [|exact F]. eapply (ginv_at pat st _ i I); [lia|repeat split|..]; cbn [queues processes inner threads becomes].
      * intros j N. rewrite ?upd_other by assumption. auto.
      * intros _. now rewrite upd_same.
      * rewrite !upd_same. exact Hp.
  - (* Take *)
    destruct (i <? P) eqn:Hi; [|discriminate]. destruct (j <? T) eqn:Hj; [|discriminate]. cbn [andb] in E. destruct (alive (threads st i j)) eqn:Al; [|discriminate]. destruct (inner st i) as [|x q] eqn:Ei; [discriminate|]. injection E as <-.
    pose proof (H i ltac:(lia)) as Hp. rewrite Ei in Hp. apply (pinv_take T limit pat _ _ _ _ _ _ _ j) in Hp; [|apply share_ne|lia|exact Al|].
    2:{ intros Hpat -> k Hk. specialize (Pat Hpat). cbn [patient] in Pat. rewrite Ei in Pat. eapply Pat; [exact Hk|reflexivity]. }
    eapply (ginv_at pat st _ i I); [lia|repeat split|..]; cbn [queues processes inner threads].
    + intros j' N. rewrite ?upd_other by assumption. auto.
    + intros C. unfold gmain in G. rewrite C in G. destruct (running st); [destruct G as (X & _); discriminate|]. destruct G as ((_ & G) & _). apply G. lia.
    + rewrite !upd_same. exact Hp.
Qed.
Lemma ginv_run pat es : forall st st', ginv pat st -> (pat = true -> all_patient P T Qs limit st es) -> run P T Qs limit st es = Some st' -> ginv pat st'.
Proof.
  induction es as [|e es IH]; intros st st' I Pat R; cbn [run] in R; [now injection R as <-|]. destruct (step P T Qs limit st e) as [st1|] eqn:E; [|discriminate].
  apply (IH st1); [|intros Hp; specialize (Pat Hp); cbn [all_patient] in Pat; rewrite E in Pat; tauto|exact R].
  eapply ginv_step; [exact I| |exact E]. intros Hp. specialize (Pat Hp). cbn [all_patient] in Pat. rewrite E in Pat. tauto.
Qed.

(** At the end the files of process i are those of what its threads took. *)
Definition pfiles (th : nat -> thread) (i : nat) : list (nm * list chunk) := flat_map (fun j => map (fun f => (file_name i j (fst f), snd f)) (pack (th j))) (seq 0 T).
Lemma parts_perm (h : list (nat * chunk)) : Forall (fun x => fst x < T) h -> Permutation (flat_map (part h) (seq 0 T)) (map snd h).
Proof.
  intros H. rewrite Forall_forall in H. unfold part. rewrite <- (map_flat_map snd (fun j => filter (fun x => fst x =? j) h)). apply Permutation_map.
  rewrite flat_map_concat_map. apply (perm_class fst T h H).
Qed.
Lemma pfiles_in th i n cs : In (n, cs) (pfiles th i) -> exists j k, j < T /\ n = file_name i j k /\ In (k, cs) (pack (th j)).
Proof.
  unfold pfiles. intros H. apply in_flat_map in H as (j & Hj & H). apply in_map_iff in H as ([k c] & E & H). cbn [fst snd] in E. injection E as <- <-. exists j, k. apply in_seq in Hj. split; [lia|]. auto.
Qed.
Lemma seq_index {A} (fs : list (nat * A)) k x : map fst fs = seq 0 (length fs) -> In (k, x) fs -> nth_error fs k = Some (k, x).
Proof.
  intros H I. apply In_nth_error in I as (m & Hm). assert (m = k); [|now subst]. assert (X : nth_error (map fst fs) m = Some k) by (rewrite nth_error_map, Hm; reflexivity).
  rewrite H in X. assert (L : m < length fs) by (apply nth_error_Some; congruence). rewrite (nth_error_nth' _ 0) in X by (now rewrite seq_length). injection X as X. rewrite seq_nth in X by exact L. lia.
Qed.
Lemma removelast_nth {A} (fs : list A) k x y : nth_error fs k = Some x -> nth_error fs (S k) = Some y -> In x (removelast fs).
Proof.
  revert k. induction fs as [|a fs IH]; intros k H1 H2; [destruct k; discriminate|]. destruct fs as [|b fs]; [destruct k; discriminate|].
  change (removelast (a :: b :: fs)) with (a :: removelast (b :: fs)). destruct k as [|k]; [left; now injection H1|right]. eapply IH; [exact H1|exact H2].
Qed.

Lemma pinv_end pat A mk q inn th : 0 < T -> pinv T limit pat A mk q Gone inn th ->
  exists h, Forall (fun x => fst x < T) h /\ map snd h = A /\ (forall j, j < T -> alive (th j) = false /\ tinv limit (th j) (part h j)).
Proof.
  intros HT (h & is & qs & n & H1 & H2 & H3 & H4 & H5 & H6 & H7). cbn [phase] in H5. destruct H5 as (_ & -> & D & _). exists h. split; [exact H1|].
  rewrite (H6 ltac:(lia)) in H2. cbn [app] in H2. rewrite app_nil_r in H2. split; [exact H2|]. intros j Hj. split; [|auto].
  apply deads_all in D. rewrite forallb_forall in D. specialize (D j ltac:(apply in_seq; lia)). now destruct (alive (th j)).
Qed.
Lemma complete_end pat st : 0 < T -> ginv pat st -> main st = Returned -> complete P T limit (firstn (total_chunk st) (sent calls)) st.
Proof.
  intros HT (G & B & H) M. set (all := firstn (total_chunk st) (sent calls)) in *.
  assert (Gn : forall i, i < P -> processes st i = Gone).
  { unfold gmain in G. destruct (running st); [destruct G as (_ & cs & X & _); congruence|]. destruct (closing st) as [|[] ?|[]|]; try (destruct G as ([? ?] & _); congruence); try (destruct G as (? & _); congruence); tauto. }
  assert (K : forall i, i < P -> exists h, Forall (fun x => fst x < T) h /\ map snd h = share P i all /\ (forall j, j < T -> alive (threads st i j) = false /\ tinv limit (threads st i j) (part h j))).
  { intros i Hi. specialize (H i Hi). rewrite (Gn i Hi) in H. eapply pinv_end; eassumption. }
  assert (FE : files P T st = flat_map (fun i => pfiles (threads st i) i) (seq 0 P)) by reflexivity.
  assert (FI : forall n cs, In (n, cs) (files P T st) -> exists i j k, i < P /\ j < T /\ n = file_name i j k /\ In (k, cs) (pack (threads st i j))).
  { intros n cs X. rewrite FE in X. apply in_flat_map in X as (i & Hi & X). apply in_seq in Hi. apply pfiles_in in X as (j & k & X). exists i, j, k. split; [lia|exact X]. }
  assert (TI : forall i j, i < P -> j < T -> exists h, map snd h = share P i all /\ tidy limit (part h j) (pack (threads st i j))).
  { intros i j Hi Hj. destruct (K i Hi) as (h & _ & K2 & K3). exists h. split; [exact K2|]. now destruct (K3 j Hj) as (_ & _ & _ & X & _). }
  constructor.
  - rewrite FE, map_flat_map. apply nodup_flat; [apply seq_NoDup|..].
    + intros i Hi. apply in_seq in Hi. unfold pfiles. rewrite map_flat_map. apply nodup_flat; [apply seq_NoDup|..].
      * intros j Hj. apply in_seq in Hj. destruct (TI i j ltac:(lia) ltac:(lia)) as (h & _ & F1 & _). rewrite map_map. cbn [fst].
        rewrite <- (map_map fst (fun k => file_name i j k)), F1. apply FinFun.Injective_map_NoDup; [|apply seq_NoDup]. intros a b X. now apply file_name_inj in X as (_ & _ & ->).
      * intros j j' n _ _ X X'. rewrite map_map in X, X'. apply in_map_iff in X as (f & <- & _). apply in_map_iff in X' as (f' & E & _). cbn [fst] in E. now apply file_name_inj in E as (_ & -> & _).
    + intros i i' n _ _ X X'. apply in_map_iff in X as ([n1 c1] & <- & X). apply in_map_iff in X' as ([n2 c2] & E & X'). cbn [fst] in E. subst n2.
      apply pfiles_in in X as (j & k & _ & -> & _). apply pfiles_in in X' as (j' & k' & _ & E & _). now apply file_name_inj in E as (-> & _).
  - rewrite FE, map_flat_map, concat_flat_map. etransitivity; [|apply (shares_perm P all HP)]. rewrite <- flat_map_concat_map. apply flat_map_perm. intros i Hi. apply in_seq in Hi.
    destruct (K i ltac:(lia)) as (h & K1 & K2 & K3). rewrite <- K2. etransitivity; [|apply parts_perm; exact K1]. unfold pfiles. rewrite map_flat_map, concat_flat_map.
    rewrite (flat_map_ext_in _ (part h)); [reflexivity|]. intros j Hj. apply in_seq in Hj. destruct (K3 j ltac:(lia)) as (_ & _ & _ & (_ & F2 & _) & _). rewrite map_map. exact F2.
  - intros i j Hi Hj. destruct (K i Hi) as (h & _ & _ & K3). destruct (K3 j Hj) as (A & _ & _ & _ & _ & X). auto.
  - intros n cs X. apply FI in X as (i & j & k & Hi & Hj & -> & X). destruct (TI i j Hi Hj) as (h & _ & _ & _ & F3 & _ & F5). rewrite Forall_forall in F3. split; [exact (F3 _ X)|].
    intros Hl. destruct (F5 Hl) as [F5' _]. rewrite Forall_forall in F5'. exact (F5' _ X).
  - intros n cs X. apply FI in X as (i & j & k & Hi & Hj & -> & X). destruct (TI i j Hi Hj) as (h & K2 & _ & F2 & _). exists i. split; [exact Hi|]. rewrite <- K2.
    eapply sub_trans; [|apply (sub_filter (fun x => fst x =? j) snd h)]. change (map snd (filter (fun x => fst x =? j) h)) with (part h j). rewrite <- F2. apply sub_concat. apply in_map_iff. exists (k, cs). auto.
  - intros i j k cs cs' X X'. apply FI in X as (i1 & j1 & k1 & Hi & Hj & E & X). apply file_name_inj in E as (<- & <- & <-).
    apply FI in X' as (i1 & j1 & k1 & _ & _ & E & X'). apply file_name_inj in E as (<- & <- & <-).
    destruct (TI i j Hi Hj) as (h & _ & F1 & _ & _ & F4 & F5). pose proof (seq_index _ _ _ F1 X) as N1. pose proof (seq_index _ _ _ F1 X') as N2.
    destruct limit as [|l] eqn:El; [exfalso; specialize (F4 eq_refl); assert (Y : S k < length (pack (threads st i j))) by (apply nth_error_Some; congruence); lia|].
    destruct (F5 ltac:(lia)) as [_ F5']. rewrite Forall_forall in F5'. apply (F5' (k, cs)). eapply removelast_nth; eassumption.
Qed.

Theorem upload_result es st : 0 < T -> run P T Qs limit (init calls) es = Some st -> main st = Returned ->
  total_chunk st <= length (sent calls) /\ complete P T limit (firstn (total_chunk st) (sent calls)) st /\
  (raised st = false -> total_chunk st = length (sent calls) /\ answers st = lines_calls calls).
Proof.
  intros HT R M. assert (I : ginv false st) by (eapply ginv_run; [apply ginv_init|discriminate|exact R]). split; [apply I|]. split; [now apply (complete_end false)|].
  destruct I as (G & _). unfold gmain in G. destruct (running st); [destruct G as (_ & cs & X & _); congruence|]. apply G.
Qed.

(** ** No deadlock if no thread ends too early *)
Lemma room_nil : room P Qs [] = true.
Proof. unfold room. cbn [length]. destruct (Qs / P); reflexivity. Qed.
Lemma progress es st : 0 < T -> run P T Qs limit (init calls) es = Some st -> all_patient P T Qs limit (init calls) es ->
  main st = Returned \/ exists e st', step P T Qs limit st e = Some st' /\ patient T st e.
Proof.
  intros HT R Pat. assert (I : ginv true st) by (eapply ginv_run; [apply ginv_init|intros _; exact Pat|exact R]). destruct I as (G & B & H).
  (* a process that is not gone can act, unless it waits for its queue *)
  assert (Proc : forall i, i < P -> processes st i = Gone \/ (processes st i = Pumping /\ queues st i = []) \/ exists e st', step P T Qs limit st e = Some st' /\ patient T st e).
  { intros i Hi. specialize (H i Hi). destruct (processes st i) as [|k| |] eqn:Ep.
    - right. destruct (queues st i) as [|x q] eqn:Eq; [now left|right]. exists (Pump i). cbn [step patient]. replace (i <? P) with true by lia. rewrite Ep, Eq. eexists. split; [reflexivity|exact Logic.I].
    - right. right. exists (Stop i). cbn [step patient]. replace (i <? P) with true by lia. rewrite Ep. destruct (k <? T); eexists; (split; [reflexivity|exact Logic.I]).
    - right. right. destruct (forallb (fun j => negb (alive (threads st i j))) (seq 0 T)) eqn:F.
      + exists (Stop i). cbn [step patient]. replace (i <? P) with true by lia. rewrite Ep, F. eexists. split; [reflexivity|exact Logic.I].
      + destruct H as (h & is & qs & n & _ & _ & H3 & _ & H5 & H6 & _). cbn [phase] in H5. destruct H5 as (_ & _ & _ & H5). specialize (H5 eq_refl).
        assert (X : exists j, j < T /\ alive (threads st i j) = true).
        { clear - F. assert (Y : forall l, forallb (fun j => negb (alive (threads st i j))) l = false -> exists j, In j l /\ alive (threads st i j) = true).
          { induction l as [|a l IH]; [discriminate|]. cbn [forallb]. destruct (alive (threads st i a)) eqn:E; [intros _; exists a; split; [now left|exact E]|]. cbn [negb andb]. intros X. destruct (IH X) as (j & J1 & J2). exists j. split; [now right|exact J2]. }
          destruct (Y _ F) as (j & J1 & J2). apply in_seq in J1. exists j. split; [lia|exact J2]. }
        destruct X as (j & Hj & Al). assert (D : deads T (threads st i) <> T). { intros X. apply deads_all in X. congruence. }
        exists (Take i j). cbn [step patient]. replace (i <? P) with true by lia. replace (j <? T) with true by lia. cbn [andb]. rewrite Al.
        destruct (inner st i) as [|x q] eqn:Ei.
        * exfalso. destruct n; [|destruct is; discriminate]. pose proof (deads_le T (threads st i)). lia.
        * eexists. split; [reflexivity|]. intros k Hk. congruence.
    - now left. }
  assert (Some_proc : (forall i, i < P -> processes st i = Gone) \/ (exists i, i < P /\ processes st i = Pumping /\ queues st i = []) \/ exists e st', step P T Qs limit st e = Some st' /\ patient T st e).
  { clear - Proc. assert (Y : forall m, m <= P -> (forall i, i < m -> processes st i = Gone) \/ (exists i, i < P /\ processes st i = Pumping /\ queues st i = []) \/ exists e st', step P T Qs limit st e = Some st' /\ patient T st e).
    { induction m as [|m IH]; intros Hm; [left; lia|]. destruct (IH ltac:(lia)) as [A|A]; [|now right]. destruct (Proc m ltac:(lia)) as [X|[X|X]]; [left|right; left; exists m; split; [lia|exact X]|now right; right].
      intros i Hi. destruct (Nat.eq_dec i m) as [->|N]; [exact X|apply A; lia]. }
    apply Y. lia. }
  (* the queue of a process that waits has room *)
  assert (Room : forall i, i < P -> room P Qs (queues st i) = true \/ exists e st', step P T Qs limit st e = Some st' /\ patient T st e).
  { intros i Hi. destruct (Proc i Hi) as [X|[[_ X]|X]]; [|left; rewrite X; apply room_nil|now right].
    left. destruct (H i Hi) as (h & is & qs & n & _ & _ & _ & H4 & H5 & _). rewrite X in *. cbn [phase] in H5. destruct H5 as (_ & -> & _). rewrite H4. apply room_nil. }
  unfold gmain in G. destruct (running st) eqn:Er.
  - destruct G as (C & cs & M & G). assert (Hm : total_chunk st mod P < P) by (apply Nat.mod_upper_bound; lia). destruct (Room _ Hm) as [Rm|]; [|now right]. right. exists Put. cbn [step patient]. rewrite M, Er.
    destruct cs as [|[c|[|c cs]] t]; [eexists; split; [reflexivity|exact Logic.I]|..]; unfold accept; try rewrite Rm; eexists; (split; [reflexivity|exact Logic.I]).
  - destruct G as [G _]. destruct (closing st) as [|[] k|[]|] eqn:C; try tauto; [destruct G as [Hk M]|].
    + right. destruct (k <? P) eqn:Lk.
      * destruct (Room k ltac:(lia)) as [Rm|X]; [|exact X]. exists Close. cbn [step patient]. rewrite C, Lk. destruct (gone _); [|rewrite Rm]; eexists; (split; [reflexivity|exact Logic.I]).
      * exists Close. cbn [step patient]. rewrite C, Lk. eexists; (split; [reflexivity|exact Logic.I]).
    + right. destruct Some_proc as [X|[(i & Hi & X1 & X2)|X]]; [|exfalso|exact X].
      * exists Close. cbn [step patient]. rewrite C. replace (forallb (fun i => gone (processes st i)) (seq 0 P)) with true; [eexists; split; [reflexivity|exact Logic.I]|].
        symmetry. apply forallb_forall. intros i Hi. apply in_seq in Hi. rewrite X by lia. reflexivity.
      * destruct (H i Hi) as (h & is & qs & n & _ & _ & _ & H4 & _). rewrite X1, X2, ?C in H4. cbn [marked] in H4. destruct qs; discriminate.
Qed.
(** With one thread nobody can take the None of another. *)
Lemma one_patient es : forall st, T = 1 -> ginv false st -> all_patient P T Qs limit st es.
Proof.
  induction es as [|e es IH]; intros st HT I; cbn [all_patient]; [exact Logic.I|]. destruct (step P T Qs limit st e) as [st'|] eqn:E; [|exact Logic.I]. split.
  - destruct e; cbn [patient]; try exact Logic.I. intros k Hk He. cbn [step] in E. destruct (Nat.ltb_spec i P) as [Hi|Hi]; [|discriminate].
    destruct I as (_ & _ & I). destruct (I i Hi) as (h & is & qs & n & _ & _ & H3 & _ & H5 & _). rewrite Hk in H5. cbn [phase] in H5. rewrite H3 in He.
    destruct is; [|discriminate]. destruct n; [discriminate|]. lia.
  - apply IH; [exact HT|]. eapply ginv_step; [exact I|discriminate|exact E].
Qed.
Theorem one_thread_progress es st : T = 1 -> run P T Qs limit (init calls) es = Some st -> main st = Returned \/ exists e st', step P T Qs limit st e = Some st'.
Proof.
  intros HT R. destruct (progress es st ltac:(lia) R) as [X|(e & st' & X & _)]; [|now left|right; eauto]. apply one_patient; [exact HT|apply ginv_init].
Qed.

(** ** Every execution ends *)
Definition ccost (c : call) : nat := match c with Write _ => 4 | Lines cs => 1 + 3 * length cs end.
Definition mcost (m : caller) : nat := match m with Calling cs => 1 + list_sum (map ccost cs) | _ => 0 end.
Definition kcost (c : closer) : nat := match c with NoClose => 3 * P + 3 | Marking _ k => 3 * (P - k) + 2 | Waiting _ => 1 | Finished => 0 end.
Definition pcost (p : process) : nat := match p with Pumping => 2 * T + 3 | Stopping k => 2 * (T - k) + 2 | Joining => 1 | Gone => 0 end.
Definition each (st : state) (i : nat) : nat := 2 * length (queues st i) + pcost (processes st i) + length (inner st i).
Definition cost (st : state) : nat := mcost (main st) + kcost (closing st) + total (each st) P.
Definition quiet (st : state) : Prop := running st = true -> closing st = NoClose.
Lemma total_ext f g k : (forall i, i < k -> f i = g i) -> total f k = total g k.
Proof. induction k as [|k IH]; intros X; [reflexivity|]. cbn [total]. rewrite IH by (intros; apply X; lia). rewrite X by lia. reflexivity. Qed.
Lemma each_upd st st' i : i < P -> (forall j, j <> i -> each st' j = each st j) -> total (each st') P + each st i = total (each st) P + each st' i.
Proof. intros Hi X. now apply total_upd. Qed.
Lemma accept_cost st c rest st' : accept P Qs st c rest = Some st' -> total (each st') P = total (each st) P + 2 /\ main st' = Calling rest /\ closing st' = closing st /\ running st' = running st.
Proof.
  unfold accept. destruct (room _ _ _); [|discriminate]. intros E. injection E as <-. cbn [main closing running]. split; [|auto].
  assert (Hi : total_chunk st mod P < P) by (apply Nat.mod_upper_bound; lia).
  match goal with |- total (each ?s) P = _ => pose proof (each_upd st s _ Hi) as X end.
  unfold each in X at 1 2 4 6. cbn [queues processes inner] in X. rewrite upd_same, app_length in X. cbn [length] in X.
  match type of X with ?A -> _ => assert (Y : A) by (intros j N; rewrite upd_other by assumption; reflexivity) end. specialize (X Y). lia.
Qed.
Lemma cost_at st st' i : i < P -> main st' = main st -> closing st' = closing st -> (forall j, j <> i -> each st' j = each st j) -> each st' i < each st i -> cost st' < cost st.
Proof. intros Hi M C O L. unfold cost. rewrite M, C. pose proof (each_upd st st' i Hi O). lia. Qed.
Lemma cost_step st e st' : quiet st -> step P T Qs limit st e = Some st' -> quiet st' /\ cost st' < cost st.
Proof.
  intros Q E. destruct e; cbn [step] in E.
  - destruct (main st) as [[|[c|[|c cs]] t]| |] eqn:M; try discriminate.
    + destruct (running st) eqn:R; injection E as <-.
      * split; [intros X; discriminate X|]. unfold cost. cbn [main closing]. rewrite M, (Q R). cbn [mcost kcost map list_sum].
        change (total (each _) P) with (total (each st) P) at 1. cbn; unfold list_sum; lia.
      * split; [intros X; cbn in X; congruence|]. unfold cost, leave. cbn [main closing]. rewrite M. change (total (each _) P) with (total (each st) P) at 1. cbn [mcost]. lia.
    + destruct (accept_cost _ _ _ _ E) as (A1 & A2 & A3 & A4). split; [unfold quiet; now rewrite A3, A4|]. unfold cost. rewrite A1, A2, A3, M. cbn; unfold list_sum; lia.
    + injection E as <-. split; [exact Q|]. unfold cost, answer. cbn [main closing]. rewrite M. change (total (each _) P) with (total (each st) P) at 1. cbn; unfold list_sum; lia.
    + destruct (running st) eqn:R.
      * destruct (accept_cost _ _ _ _ E) as (A1 & A2 & A3 & A4). split; [intros _; rewrite A3; exact (Q R)|]. unfold cost. rewrite A1, A2, A3, M. cbn; unfold list_sum; lia.
      * injection E as <-. split; [exact Q|]. unfold cost, answer. cbn [main closing]. rewrite M. change (total (each _) P) with (total (each st) P) at 1. cbn; unfold list_sum; lia.
  - destruct (main st) as [[|[c|[|c cs]] t]| |] eqn:M; try discriminate. destruct (running st) eqn:R; [|discriminate]. destruct (room _ _ _); [discriminate|]. injection E as <-. split; [intros _; exact (Q R)|].
    unfold cost. cbn [main closing]. rewrite M. change (total (each _) P) with (total (each st) P) at 1. cbn; unfold list_sum; lia.
  - destruct (closing st) as [|m k|m|] eqn:C; try discriminate.
    + destruct (k <? P) eqn:L.
      * destruct (gone _).
        -- injection E as <-. split; [intros X; cbn in *; specialize (Q X); congruence|]. unfold cost, closes. cbn [main closing]. rewrite C. change (total (each _) P) with (total (each st) P) at 1. cbn [kcost]. lia.
        -- destruct (room _ _ _); [|discriminate]. injection E as <-. split; [intros X; cbn in *; specialize (Q X); congruence|]. unfold cost. cbn [main closing]. rewrite C. cbn [kcost].
           match goal with |- _ + total (each ?s) P < _ => assert (X : total (each s) P = total (each st) P + 2) end; [|lia].
           assert (Hi : k < P) by lia. match goal with |- total (each ?s) P = _ => pose proof (each_upd st s _ Hi) as X end.
           unfold each in X at 1 2 4 6. cbn [queues processes inner] in X. rewrite upd_same, app_length in X. cbn [length] in X.
           match type of X with ?A -> _ => assert (Y : A) by (intros j N; rewrite upd_other by assumption; reflexivity) end. specialize (X Y). lia.
      * injection E as <-. split; [intros X; cbn in *; specialize (Q X); congruence|]. unfold cost, closes. cbn [main closing]. rewrite C. change (total (each _) P) with (total (each st) P) at 1. cbn [kcost]. lia.
    + destruct (forallb _ _); [|discriminate]. injection E as <-. destruct m; (split; [intros X; cbn in *; specialize (Q X); congruence|]); unfold cost, leave, closes; cbn [main closing]; rewrite C; change (total (each _) P) with (total (each st) P) at 1; cbn [kcost mcost]; lia.
  - destruct (running st) eqn:R; [|discriminate]. destruct (existsb _ _); [|discriminate]. injection E as <-. split; [intros X; discriminate X|]. unfold cost. cbn [main closing]. rewrite (Q R). change (total (each _) P) with (total (each st) P) at 1. cbn [kcost]. lia.
  - destruct (i <? P) eqn:Hi; [|discriminate]. destruct (processes st i) eqn:Ep; try discriminate. destruct (queues st i) as [|x q] eqn:Eq; [discriminate|]. injection E as <-.
    assert (Hi' : i < P) by lia. destruct (falsy x); (split; [exact Q|]); apply (cost_at st _ i Hi'); try reflexivity.
    1, 3: intros j N; unfold each, becomes; cbn [queues processes inner]; now rewrite !upd_other by assumption.
    all: unfold each, becomes; cbn [queues processes inner]; rewrite !upd_same, Ep, Eq, ?app_length; cbn [length pcost]; lia.
  - destruct (i <? P) eqn:Hi; [|discriminate]. assert (Hi' : i < P) by lia. destruct (processes st i) as [|k| |] eqn:Ep; try discriminate.
    + destruct (k <? T) eqn:Hk; injection E as <-; (split; [exact Q|]); apply (cost_at st _ i Hi'); try reflexivity.
      1, 3: intros j N; unfold each, becomes; cbn [queues processes inner]; now rewrite !upd_other by assumption.
      all: unfold each, becomes; cbn [queues processes inner]; rewrite !upd_same, Ep; try (destruct (alive _)); rewrite ?app_length; cbn [length pcost]; lia.
    + destruct (forallb _ _); [|discriminate]. injection E as <-. split; [exact Q|]. apply (cost_at st _ i Hi'); try reflexivity.
      * intros j N; unfold each, becomes; cbn [queues processes inner]; now rewrite !upd_other by assumption.
      * unfold each, becomes; cbn [queues processes inner]; rewrite !upd_same, Ep; cbn [length pcost]; lia.
  - destruct (i <? P) eqn:Hi; [|discriminate]. destruct (j <? T); [|discriminate]. cbn [andb] in E. destruct (alive _); [|discriminate]. destruct (inner st i) as [|x q] eqn:Ei; [discriminate|]. injection E as <-.
    assert (Hi' : i < P) by lia. split; [exact Q|]. apply (cost_at st _ i Hi'); try reflexivity.
    + intros j' N; unfold each; cbn [queues processes inner]; now rewrite !upd_other by assumption.
    + unfold each; cbn [queues processes inner]; rewrite !upd_same, Ei; cbn [length]; lia.
Qed.
Lemma cost_run es : forall st st', quiet st -> run P T Qs limit st es = Some st' -> length es + cost st' <= cost st.
Proof.
  induction es as [|e es IH]; intros st st' Q R; cbn [run] in R; [injection R as <-; cbn; lia|]. destruct (step P T Qs limit st e) as [st1|] eqn:E; [|discriminate].
  destruct (cost_step _ _ _ Q E) as [Q1 C1]. specialize (IH _ _ Q1 R). cbn [length]. lia.
Qed.
Lemma sent_cost cs : list_sum (map ccost cs) = length cs + 3 * length (sent cs).
Proof. induction cs as [|[c|l] cs IH]; [reflexivity|..]; cbn [map list_sum fold_right ccost length]; fold (list_sum (map ccost cs)); rewrite IH; unfold sent; cbn [flat_map]; rewrite app_length; cbn [length]; lia. Qed.
Theorem terminates es st : run P T Qs limit (init calls) es = Some st -> length es <= 3 * length (sent calls) + length calls + P * (2 * T + 6) + 4.
Proof.
  intros R. assert (Q : quiet (init calls)) by (intros X; reflexivity). pose proof (cost_run es _ _ Q R) as C. unfold cost at 2 in C. cbn [init main closing mcost kcost] in C. rewrite sent_cost in C.
  assert (X : total (each (init calls)) P = P * (2 * T + 3)). { clear. induction P as [|p IH]; [reflexivity|]. cbn [total]. rewrite IH. unfold each. cbn. lia. }
  rewrite X in C. lia.
Qed.
End Global.
