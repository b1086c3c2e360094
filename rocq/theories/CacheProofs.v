(** Proofs about the cache of downloads. *)
From Verif Require Import Base FilesModel FilesProofs CacheModel CacheSpec.
From Coq Require Import Ascii String DecimalNat.
From Coq Require Import ZifyBool ZifyNat.
Import ListNotations.
Open Scope list_scope.
Local Notation length := List.length.

(** ** Names *)
Lemma split_dot (a : nm) : forall b r r', ~ In "."%char a -> ~ In "."%char b -> a ++ "."%char :: r = b ++ "."%char :: r' -> a = b /\ r = r'.
Proof.
  induction a as [|x a IH]; intros [|y b] r r' Ha Hb E; cbn in E.
  - injection E as E. auto.
  - injection E as E _. exfalso. apply Hb. left. now symmetry.
  - injection E as E _. exfalso. apply Ha. now left.
  - injection E as -> E. destruct (IH b r r') as [-> ->]; auto.
    + intros H. apply Ha. now right.
    + intros H. apply Hb. now right.
Qed.

Section Names.
Variable sha : nm -> nm.
Hypothesis Hex : hexadecimal sha.
Local Notation name := (url_to_filename sha).
Lemma sha_no s c : In c (str ".json") -> ~ In c hex_digits -> ~ In c (sha s).
Proof. intros _ H J. exact (H (Hex _ _ J)). Qed.
Lemma sha_dot s : ~ In "."%char (sha s).
Proof. intros J. apply Hex in J. cbn in J. repeat (destruct J as [J|J]; [discriminate J|]). exact J. Qed.
Lemma sha_j s : ~ In "j"%char (sha s).
Proof. intros J. apply Hex in J. cbn in J. repeat (destruct J as [J|J]; [discriminate J|]). exact J. Qed.
Lemma name_truthy u e : name u e = match truthy e with Some v => sha u ++ "."%char :: sha v | None => sha u end.
Proof. destruct e as [[|c t]|]; reflexivity. Qed.
Lemma name_eq u e u' e' : name u e = name u' e' ->
  sha u = sha u' /\ match truthy e, truthy e' with Some v, Some v' => sha v = sha v' | None, None => True | _, _ => False end.
Proof.
  rewrite !name_truthy. destruct (truthy e) as [v|], (truthy e') as [v'|]; intros E.
  - apply split_dot in E; auto using sha_dot.
  - exfalso. apply (sha_dot u'). rewrite <- E. apply in_or_app. right. now left.
  - exfalso. apply (sha_dot u). rewrite E. apply in_or_app. right. now left.
  - auto.
Qed.
Lemma name_no_j u e : ~ In "j"%char (name u e).
Proof.
  rewrite name_truthy. destruct (truthy e) as [v|]; intros J; [|now apply sha_j in J].
  apply in_app_or in J. destruct J as [J|[J|J]]; [now apply sha_j in J|discriminate|now apply sha_j in J].
Qed.
Lemma meta_name u e u' e' : meta_path (name u e) <> name u' e'.
Proof. intros E. apply (name_no_j u' e'). rewrite <- E. apply in_or_app. right. cbn. tauto. Qed.
Lemma meta_eq a b : meta_path a = meta_path b -> a = b.
Proof. apply app_inv_tail. Qed.
Lemma names_apart u e u' e' : no_collision sha (fun x => x = u \/ x = u') ->
  no_collision sha (fun x => truthy e = Some x \/ truthy e' = Some x) ->
  name u e = name u' e' -> u = u' /\ truthy e = truthy e'.
Proof.
  intros Hu He E. apply name_eq in E. destruct E as [E1 E2]. split; [apply Hu; auto|].
  destruct (truthy e) as [v|], (truthy e') as [v'|]; try contradiction; auto. f_equal. apply He; auto.
Qed.
End Names.

(** ** Files *)
Lemma put_same d n c : put d n c n = Some c. Proof. unfold put. now rewrite nm_eqb_refl. Qed.
Lemma put_other d n c m : m <> n -> put d n c m = d m.
Proof. intros H. unfold put. destruct (nm_eqb m n) eqn:E; auto. apply nm_eqb_spec in E. contradiction. Qed.
Lemma at_same th i p : at_ th i p i = p. Proof. unfold at_. now rewrite Nat.eqb_refl. Qed.
Lemma at_other th i p j : j <> i -> at_ th i p j = th j. Proof. intros H. unfold at_. now rewrite (proj2 (Nat.eqb_neq j i) H). Qed.

Lemma write_at_length l off x n : length l <= n -> off < n -> length (write_at l off x) <= n.
Proof.
  intros A B. unfold write_at. destruct (off <? length l) eqn:E.
  - rewrite app_length. cbn [List.length]. rewrite firstn_length, skipn_length. lia.
  - rewrite !app_length, repeat_length. cbn. lia.
Qed.
Lemma nth_skip {A} k : forall (l : list A) j, nth_error (skipn k l) j = nth_error l (k + j).
Proof. induction k; intros [|x l] j; cbn; auto. now destruct j. Qed.
Lemma nth_first {A} k : forall (l : list A) j, j < k -> nth_error (firstn k l) j = nth_error l j.
Proof. induction k; intros l j H; [lia|]. destruct l, j; cbn; auto. apply IHk. lia. Qed.
Lemma write_at_nth l off x : nth_error (write_at l off x) off = Some x.
Proof.
  unfold write_at. destruct (off <? length l) eqn:E.
  - rewrite nth_error_app2; rewrite firstn_length; [|lia]. replace (off - Nat.min off (length l)) with 0 by lia. reflexivity.
  - rewrite nth_error_app2; [|lia]. rewrite nth_error_app2; rewrite repeat_length; [|lia]. now rewrite Nat.sub_diag.
Qed.
Lemma write_at_old l off x k : k <> off -> k < length l -> nth_error (write_at l off x) k = nth_error l k.
Proof.
  intros N K. unfold write_at. destruct (off <? length l) eqn:E.
  - destruct (Nat.lt_ge_cases k off).
    + rewrite nth_error_app1; [|rewrite firstn_length; lia]. now apply nth_first.
    + rewrite nth_error_app2; rewrite firstn_length; [|lia]. replace (k - Nat.min off (length l)) with (S (k - S off)) by lia.
      cbn [nth_error]. rewrite nth_skip. f_equal. lia.
  - now rewrite nth_error_app1.
Qed.
Lemma write_at_end l x : write_at l (length l) x = l ++ [x].
Proof. unfold write_at. rewrite Nat.ltb_irrefl, Nat.sub_diag. reflexivity. Qed.
Lemma nth_ext_err {A} : forall l m : list A, length l <= length m -> (forall k, k < length m -> nth_error l k = nth_error m k) -> l = m.
Proof.
  induction l as [|x l IH]; intros [|y m] L H; cbn in *; auto; try lia.
  - specialize (H 0). cbn in H. discriminate H. lia.
  - f_equal. specialize (H 0). cbn in H. assert (0 < S (length m)) by lia. apply H in H0. now injection H0.
    apply IH; [lia|]. intros k K. apply (H (S k)). lia.
Qed.

(** ** All interleavings with a server that does not change *)
Section Inv.
Variable sha : nm -> nm.
Variable urls : nat -> nm.
Variable w : server.
Hypothesis Hex : hexadecimal sha.
Hypothesis Apart : no_collision sha (fun u => exists i, u = urls i).
Local Notation name := (url_to_filename sha).

(** Process [i] is somewhere in the download of [u] for etag [e]. *)
Definition at_write (p : pc) (e : option nm) (off : nat) (b : list Z) : Prop := p = Write e off b.
Definition busy (p : pc) (e : option nm) : Prop :=
  (exists off b, p = Write e off b) \/ p = MetaOpen e \/ p = MetaWrite e.
Definition shape (u : nm) (p : pc) : Prop :=
  match p with
  | Head | Crashed => True
  | Check e | Fetch e => head w u = Value e
  | Open_ e b => head w u = Value e /\ get_body w u = Value b
  | Write e off b => head w u = Value e /\ get_body w u = Value b /\ off <= length b
  | MetaOpen e | MetaWrite e => head w u = Value e
  | Stop (Value p) => exists e, head w u = Value e /\ p = name u e
  | Stop (Raised _) => True
  end.
Definition past (p : pc) : bool := match p with Write _ _ _ | MetaOpen _ | MetaWrite _ | Stop (Value _) => true | _ => false end.
Definition covered (s : state) (u : nm) (e : option nm) (b l : list Z) : Prop :=
  length l <= length b /\ forall k, k < length b -> nth_error l k = nth_error b k \/ exists j off, urls j = u /\ procs s j = Write e off b /\ off <= k.
Definition entry (s : state) (u : nm) (e : option nm) : Prop :=
  match files s (name u e) with
  | None => forall j, urls j = u -> past (procs s j) = false
  | Some (Bytes l) => (exists b, get_body w u = Value b /\ covered s u e b l) /\
      (files s (meta_path (name u e)) = Some (Meta (Some (u, e))) \/ exists j, urls j = u /\ busy (procs s j) e)
  | Some (Meta _) => False
  end.
Definition inv (s : state) : Prop :=
  (forall i, shape (urls i) (procs s i)) /\ (forall i e, head w (urls i) = Value e -> entry s (urls i) e).

(** Others are not disturbed: the step of [i] changes files of its own url only. *)
Definition own (u : nm) (e : option nm) (n : nm) : Prop := n = name u e \/ n = meta_path (name u e).
Lemma own_apart i j e e' n : urls i <> urls j -> own (urls i) e n -> own (urls j) e' n -> False.
Proof.
  intros N [->| ->] [E|E].
  - apply name_eq in E; auto. destruct E as [E _]. apply N, Apart; eauto.
  - symmetry in E. now apply meta_name in E.
  - now apply meta_name in E.
  - apply meta_eq in E. apply name_eq in E; auto. destruct E as [E _]. apply N, Apart; eauto.
Qed.
Lemma act_own u p d p' d' g : act sha w u p d = (p', d', g) -> shape u p -> forall e, head w u = Value e -> forall n, ~ own u e n -> d' n = d n.
Proof.
  intros A Sh e He n N. unfold own in N.
  destruct p; cbn in A; try (injection A as _ <- _; reflexivity).
  - injection A as _ <- _. cbn in Sh. destruct Sh as [Sh _]. rewrite Sh in He. injection He as ->. rewrite put_other; auto.
  - cbn in Sh. destruct Sh as [Sh _]. rewrite Sh in He. injection He as ->. destruct (nth_error body off); injection A as _ <- _; auto. rewrite put_other; auto.
  - injection A as _ <- _. cbn in Sh. rewrite Sh in He. injection He as ->. rewrite put_other; auto.
  - injection A as _ <- _. cbn in Sh. rewrite Sh in He. injection He as ->. rewrite put_other; auto.
Qed.
Lemma act_raised u p d p' d' g : act sha w u p d = (p', d', g) -> shape u p -> (forall e, head w u <> Value e) -> d' = d.
Proof.
  intros A Sh N. destruct p; cbn in A; try (injection A as _ <- _; reflexivity); cbn in Sh; exfalso; try (now destruct (N etag)); destruct Sh as [Sh _]; now destruct (N etag).
Qed.
Lemma act_shape u p d p' d' g : act sha w u p d = (p', d', g) -> shape u p -> shape u p'.
Proof.
  intros A Sh. destruct p; cbn in A; try (injection A as <- _ _; exact Sh).
  - injection A as <- _ _. destruct (head w u) eqn:E; cbn; auto.
  - injection A as <- _ _. destruct (d (name u etag)); cbn; eauto.
  - injection A as <- _ _. destruct (get_body w u) eqn:E; cbn; auto.
  - injection A as <- _ _. cbn in *. destruct Sh. repeat split; auto. lia.
  - cbn in Sh. destruct Sh as (A1 & A2 & A3). destruct (nth_error body off) eqn:E; injection A as <- _ _; cbn; auto.
    repeat split; auto. apply nth_error_Some. now rewrite E.
  - injection A as <- _ _. cbn in *. eauto.
Qed.

Lemma entry_other s d p g i u e : (forall n, own u e n -> d n = files s n) -> urls i <> u -> entry s u e -> entry (State d (at_ (procs s) i p) g) u e.
Proof.
  intros Hd N En. unfold entry in *. cbn. rewrite (Hd (name u e)), (Hd (meta_path (name u e))) by (unfold own; auto).
  assert (Q : forall j, urls j = u -> at_ (procs s) i p j = procs s j). { intros j Hj. apply at_other. intros ->. contradiction. }
  destruct (files s (name u e)) as [[l|m]|].
  - destruct En as [(b & Hb & C1 & C2) M]. split.
    + exists b. split; auto. split; auto. intros k K. destruct (C2 k K) as [H|(j & off & J1 & J2 & J3)]; auto.
      right. exists j, off. cbn. rewrite Q; auto.
    + destruct M as [M|(j & J1 & J2)]; auto. right. exists j. now rewrite Q.
  - exact En.
  - intros j Hj. rewrite Q; auto.
Qed.

Lemma step_inv i s : inv s -> inv (step sha urls i w false s).
Proof.
  intros [I1 I2]. unfold step. destruct (ended (procs s i)) eqn:En; [split; auto|].
  destruct (act sha w (urls i) (procs s i) (files s)) as [[p d] g] eqn:A. cbn.
  assert (Sh := I1 i). assert (Sh' := act_shape _ _ _ _ _ _ A Sh). split.
  { intros j. cbn. destruct (Nat.eq_dec j i) as [->|N]; [now rewrite at_same|rewrite at_other; auto]. }
  intros j e He. destruct (list_eq_dec ascii_dec (urls j) (urls i)) as [Ej|N].
  2:{ apply entry_other; [|auto|auto]. intros n O.
      destruct (head w (urls i)) as [e'|x] eqn:Hi.
      - apply (act_own _ _ _ _ _ _ A Sh e' Hi). intros O'. eapply own_apart; [|exact O|exact O']; auto.
      - assert (D : d = files s). { eapply act_raised; [exact A|exact Sh|]. intros e'. rewrite Hi. discriminate. } now rewrite D. }
  rewrite Ej in He |- *. clear j Ej. set (u := urls i) in *. assert (E := I2 i e He). fold u in E. unfold entry in *. cbn [files procs gets].
  destruct (procs s i) as [|e0|e0|e0 b0|e0 off b0|e0|e0|o|] eqn:Pi; cbn in A; try discriminate En.
  - (* Head *)
    injection A as <- <- _.
    assert (NP : past (match head w u with Value e => Check e | Raised x => Stop (Raised x) end) = false) by (destruct (head w u); reflexivity).
    destruct (files s (name u e)) as [[l|m]|]; auto.
    + destruct E as [(b & Hb & C1 & C2) M]. split.
      * exists b. split; auto. split; auto. intros k K. destruct (C2 k K) as [H|(j & off & J1 & J2 & J3)]; auto.
        right. exists j, off. cbn. rewrite at_other; auto. intros ->. congruence.
      * destruct M as [M|(j & J1 & J2)]; auto. right. exists j. rewrite at_other; auto. intros ->. rewrite Pi in J2. destruct J2 as [(?&?&?)|[?|?]]; discriminate.
    + intros j Hj. destruct (Nat.eq_dec j i) as [->|N]; [now rewrite at_same|rewrite at_other; auto].
  - (* Check *)
    injection A as <- <- _. cbn in Sh. rewrite Sh in He. injection He as ->.
    destruct (files s (name u e)) as [[l|m]|] eqn:F; auto.
    + destruct E as [(b & Hb & C1 & C2) M]. split.
      * exists b. split; auto. split; auto. intros k K. destruct (C2 k K) as [H|(j & off & J1 & J2 & J3)]; auto.
        right. exists j, off. cbn. rewrite at_other; auto. intros ->. congruence.
      * destruct M as [M|(j & J1 & J2)]; auto. right. exists j. rewrite at_other; auto. intros ->. rewrite Pi in J2. destruct J2 as [(?&?&?)|[?|?]]; discriminate.
    + intros j Hj. destruct (Nat.eq_dec j i) as [->|N]; [now rewrite at_same|rewrite at_other; auto].
  - (* Fetch *)
    injection A as <- <- _.
    assert (NP : past (match get_body w u with Value b => Open_ e0 b | Raised x => Stop (Raised x) end) = false) by (destruct (get_body w u); reflexivity).
    destruct (files s (name u e)) as [[l|m]|]; auto.
    + destruct E as [(b & Hb & C1 & C2) M]. split.
      * exists b. split; auto. split; auto. intros k K. destruct (C2 k K) as [H|(j & off & J1 & J2 & J3)]; auto.
        right. exists j, off. cbn. rewrite at_other; auto. intros ->. congruence.
      * destruct M as [M|(j & J1 & J2)]; auto. right. exists j. rewrite at_other; auto. intros ->. rewrite Pi in J2. destruct J2 as [(?&?&?)|[?|?]]; discriminate.
    + intros j Hj. destruct (Nat.eq_dec j i) as [->|N]; [now rewrite at_same|rewrite at_other; auto].
  - (* Open *)
    injection A as <- <- _. cbn in Sh. destruct Sh as [Sh Sb]. rewrite Sh in He. injection He as ->. rewrite put_same. split.
    + exists b0. split; auto. split; [cbn; lia|]. intros k K. right. exists i, 0. cbn. rewrite at_same. repeat split; auto. lia.
    + right. exists i. rewrite at_same. split; auto. left. eauto.
  - (* Write *)
    cbn in Sh. destruct Sh as (Sh & Sb & So). rewrite Sh in He. injection He as ->.
    destruct (nth_error b0 off) as [x|] eqn:X; injection A as <- <- _.
    + assert (Off : off < length b0) by (apply nth_error_Some; now rewrite X).
      rewrite put_same. destruct (files s (name u e)) as [[l|m]|] eqn:F; [|contradiction|].
      2:{ exfalso. specialize (E i eq_refl). rewrite Pi in E. discriminate. }
      cbn [bytes_of]. destruct E as [(b & Hb & C1 & C2) M]. assert (b = b0) by congruence. subst b. split.
      * exists b0. split; auto. split; [now apply write_at_length|].
        intros k K. destruct (Nat.eq_dec k off) as [->|Nk]; [left; rewrite write_at_nth; auto|].
        destruct (C2 k K) as [H|(j & o & J1 & J2 & J3)].
        -- left. rewrite <- H. apply write_at_old; auto. apply nth_error_Some. rewrite H. apply nth_error_Some. exact K.
        -- right. destruct (Nat.eq_dec j i) as [->|N].
           ++ exists i, (S off). cbn. rewrite at_same. repeat split; auto. rewrite Pi in J2. injection J2 as <-. lia.
           ++ exists j, o. cbn. rewrite at_other; auto.
      * rewrite put_other by (apply meta_name; auto). destruct M as [M|(j & J1 & J2)]; auto. right.
        exists i. rewrite at_same. split; auto. left. eauto.
    + assert (Off : off = length b0) by (apply nth_error_None in X; lia). subst off.
      destruct (files s (name u e)) as [[l|m]|] eqn:F; [|contradiction|].
      2:{ exfalso. specialize (E i eq_refl). rewrite Pi in E. discriminate. }
      destruct E as [(b & Hb & C1 & C2) M]. assert (b = b0) by congruence. subst b. split.
      * exists b0. split; auto. split; auto.
        intros k K. destruct (C2 k K) as [H|(j & o & J1 & J2 & J3)]; auto. right.
        destruct (Nat.eq_dec j i) as [->|N]; [rewrite Pi in J2; injection J2 as <-; lia|].
        exists j, o. cbn. rewrite at_other; auto.
      * right. exists i. rewrite at_same. split; auto. right. now left.
  - (* MetaOpen *)
    injection A as <- <- _. cbn in Sh. rewrite Sh in He. injection He as ->.
    rewrite put_other by (intros Q; symmetry in Q; revert Q; apply meta_name; auto). rewrite put_same.
    destruct (files s (name u e)) as [[l|m]|] eqn:F; [|contradiction|].
    2:{ exfalso. specialize (E i eq_refl). rewrite Pi in E. discriminate. }
    destruct E as [(b & Hb & C1 & C2) M]. split.
    + exists b. split; auto. split; auto. intros k K. destruct (C2 k K) as [H|(j & o & J1 & J2 & J3)]; auto. right.
      exists j, o. cbn. rewrite at_other; auto. intros ->. congruence.
    + right. exists i. rewrite at_same. split; auto. right. now right.
  - (* MetaWrite *)
    injection A as <- <- _. cbn in Sh. rewrite Sh in He. injection He as ->.
    rewrite put_other by (intros Q; symmetry in Q; revert Q; apply meta_name; auto). rewrite put_same.
    destruct (files s (name u e)) as [[l|m]|] eqn:F; [|contradiction|].
    2:{ exfalso. specialize (E i eq_refl). rewrite Pi in E. discriminate. }
    destruct E as [(b & Hb & C1 & C2) M]. split.
    + exists b. split; auto. split; auto. intros k K. destruct (C2 k K) as [H|(j & o & J1 & J2 & J3)]; auto. right.
      exists j, o. cbn. rewrite at_other; auto. intros ->. congruence.
    + left. reflexivity.
Qed.
Lemma start_inv d : (forall i, clean sha w d (urls i)) -> inv (start d).
Proof.
  intros C. split; [intros i; exact I|]. intros i e He. unfold entry, start. cbn.
  destruct (C i e He) as [->|(b & Hb & [F M])]; [reflexivity|]. rewrite F, M. split; [|now left].
  exists b. split; auto. split; auto.
Qed.
Local Notation steady := (steady w).
Lemma run_inv sched : steady sched -> forall s, inv s -> inv (run sha urls sched s).
Proof.
  induction sched as [|[[i w'] c] t IH]; intros St s I; [exact I|]. cbn.
  destruct (St i w' c) as [-> ->]; [now left|]. apply IH; [|now apply step_inv].
  intros j w'' c'' H. apply (St j). now right.
Qed.
(** When nobody writes a file any more, it is complete. *)
Theorem settled d sched i p : (forall i, clean sha w d (urls i)) -> steady sched ->
  let s := run sha urls sched (start d) in
  procs s i = Stop (Value p) -> (forall j, urls j = urls i -> writing (procs s j) = false) ->
  exists e b, head w (urls i) = Value e /\ get_body w (urls i) = Value b /\ p = name (urls i) e /\ holds sha (files s) (urls i) e b.
Proof.
  intros C St s P Q. assert (I := run_inv sched St _ (start_inv d C)). fold s in I. clearbody s. destruct I as [I1 I2].
  assert (Sh := I1 i). rewrite P in Sh. cbn in Sh. destruct Sh as (e & He & ->). assert (E := I2 i e He). unfold entry in E.
  destruct (files s (name (urls i) e)) as [[l|m]|] eqn:F; [|contradiction|].
  2:{ specialize (E i eq_refl). rewrite P in E. discriminate. }
  destruct E as [(b & Hb & C1 & C2) M]. exists e, b. repeat split; auto.
  - rewrite F. f_equal. f_equal. apply nth_ext_err; auto. intros k K.
    destruct (C2 k K) as [H|(j & o & J1 & J2 & J3)]; auto. exfalso. apply Q in J1. rewrite J2 in J1. discriminate.
  - destruct M as [M|(j & J1 & J2)]; auto. exfalso. apply Q in J1. destruct J2 as [(?&?&J2)|[J2|J2]]; rewrite J2 in J1; discriminate.
Qed.
End Inv.

(** ** One call alone *)
Section Alone.
Variable sha : nm -> nm.
Local Notation name := (url_to_filename sha).
Lemma alone_ended n w u p d g : ended p = true -> alone sha n w u p d g = (p, d, g).
Proof. intros H. destruct n; cbn; auto. now rewrite H. Qed.
Lemma alone_write w u e b m : forall k off d g, off + k = length b -> d (name u e) = Some (Bytes (firstn off b)) ->
  exists d', alone sha (k + m) w u (Write e off b) d g = alone sha m w u (Write e (length b) b) d' g /\
    d' (name u e) = Some (Bytes b) /\ forall n, n <> name u e -> d' n = d n.
Proof.
  induction k as [|k IH]; intros off d g L D.
  - exists d. rewrite Nat.add_0_r in L. subst off. rewrite firstn_all in D. auto.
  - destruct (nth_error b off) as [x|] eqn:X. 2:{ apply nth_error_None in X. lia. }
    cbn. rewrite X, D. cbn [bytes_of app].
    destruct (IH (S off) (put d (name u e) (Bytes (write_at (firstn off b) off x))) g) as (d' & E & D1 & D2).
    + lia.
    + rewrite put_same. f_equal. f_equal. assert (Lf : length (firstn off b) = off) by (rewrite firstn_length; lia).
      replace (write_at (firstn off b) off x) with (write_at (firstn off b) (length (firstn off b)) x) by now rewrite Lf.
      rewrite write_at_end. clear -X. revert b X. induction off as [|o IH]; intros [|y b] X; cbn in *; try discriminate.
      * now injection X as ->.
      * f_equal. now apply IH.
    + exists d'. rewrite E. split; auto. split; auto. intros n N. rewrite D2 by auto. now apply put_other.
Qed.
Theorem call_hit w u e d : head w u = Value e -> d (name u e) <> None -> get_from_cache sha w u d = (Stop (Value (name u e)), d, []).
Proof.
  intros H D. unfold get_from_cache, work. cbn. rewrite H. cbn. destruct (d (name u e)); [|contradiction]. reflexivity.
Qed.
Theorem call_head w u x d : head w u = Raised x -> get_from_cache sha w u d = (Stop (Raised x), d, []).
Proof. intros H. unfold get_from_cache, work. cbn. rewrite H. reflexivity. Qed.
Theorem call_get w u e x d : head w u = Value e -> d (name u e) = None -> get_body w u = Raised x ->
  get_from_cache sha w u d = (Stop (Raised x), d, [u]).
Proof. intros H D B. unfold get_from_cache, work. rewrite B. cbn. rewrite H. cbn. rewrite D. cbn. rewrite B. reflexivity. Qed.
Theorem call_miss w u e b d : head w u = Value e -> d (name u e) = None -> get_body w u = Value b ->
  exists d', get_from_cache sha w u d = (Stop (Value (name u e)), d', [u]) /\ holds sha d' u e b /\
    forall n, n <> name u e -> n <> meta_path (name u e) -> d' n = d n.
Proof.
  intros H D B. unfold get_from_cache, work. rewrite B. rewrite (Nat.add_comm 8). replace (length b + 8) with (4 + (length b + 4)) by lia.
  cbn -[Nat.add]. cbn [Nat.add]. cbn [alone]. cbn [ended act]. rewrite H. cbn [ended act alone]. rewrite D. cbn [ended act alone]. rewrite B. cbn [ended act alone app].
  destruct (alone_write w u e b 4 (length b) 0 (put d (name u e) (Bytes [])) [u]) as (d' & E & D1 & D2); [lia|now rewrite put_same|].
  rewrite E. cbn. rewrite (proj2 (nth_error_None b (length b))) by lia. cbn.
  eexists. split; [reflexivity|]. split; [split|].
  - rewrite put_other by (intros Q; apply (f_equal (@List.length ascii)) in Q; unfold meta_path in Q; rewrite app_length in Q; cbn in Q; lia).
    rewrite put_other by (intros Q; apply (f_equal (@List.length ascii)) in Q; unfold meta_path in Q; rewrite app_length in Q; cbn in Q; lia). exact D1.
  - apply put_same.
  - intros n N1 N2. rewrite put_other, put_other, D2, put_other; auto.
Qed.

Theorem ranked B : exists rank : pc -> nat, forall w u p d p' d' g, (forall b, get_body w u = Value b -> length b <= B) ->
  ended p = false -> act sha w u p d = (p', d', g) -> rank p' < rank p.
Proof.
  exists (fun p => match p with
    | Head => B + 8 | Check _ => B + 7 | Fetch _ => B + 6 | Open_ _ b => length b + 5 | Write _ off b => length b - off + 3
    | MetaOpen _ => 2 | MetaWrite _ => 1 | _ => 0 end).
  intros w u p d p' d' g HB En A. destruct p; try discriminate; cbn in A.
  - injection A as <- _ _. destruct (head w u); lia.
  - injection A as <- _ _. destruct (d (name u etag)); lia.
  - injection A as <- _ _. destruct (get_body w u) as [b|]; [specialize (HB b eq_refl)|]; lia.
  - injection A as <- _ _. lia.
  - destruct (nth_error body off) eqn:E; injection A as <- _ _; [|lia].
    assert (off < length body) by (apply nth_error_Some; now rewrite E). lia.
  - injection A as <- _ _. lia.
  - injection A as <- _ _. lia.
Qed.

(** ** Calls one after the other *)
Hypothesis Hex : hexadecimal sha.
Variable content : nm -> nm -> list Z.
Variables (KU KV : nm -> Prop).
Hypothesis Hu : no_collision sha KU.
Hypothesis Hv : no_collision sha KV.
Local Notation good := (good sha content KU KV).
Local Notation known := (known content KU KV).
Local Notation fine := (fine sha content).
Lemma name_inj u v u' v' : KU u -> KU u' -> KV v -> KV v' -> v <> [] -> v' <> [] -> name u (Some v) = name u' (Some v') -> u = u' /\ v = v'.
Proof.
  intros A B C D N N' E. apply name_eq in E; auto. destruct E as [E1 E2]. split; [now apply Hu|].
  destruct v, v'; try contradiction. now apply Hv.
Qed.
Lemma one_call w u d : good d -> KU u -> versioned content w u -> (forall v, head w u = Value (Some v) -> KV v) ->
  exists p d' g, get_from_cache sha w u d = (p, d', g) /\ good d' /\ fine d' (w, u) p /\
    (forall u v, KU u -> KV v -> v <> [] -> holds sha d u (Some v) (content u v) -> holds sha d' u (Some v) (content u v)).
Proof.
  intros G Ku V Kv. destruct (head w u) as [e|x] eqn:H.
  2:{ exists (Stop (Raised x)), d, []. rewrite (call_head w u x d H). split; auto. split; auto. split; [|auto]. unfold CacheSpec.fine. cbn. now rewrite H. }
  destruct (V e H) as (v & -> & Nv & B). assert (Kvv := Kv v eq_refl).
  destruct (d (name u (Some v))) as [c|] eqn:D.
  - exists (Stop (Value (name u (Some v)))), d, []. rewrite (call_hit w u (Some v) d H) by (rewrite D; discriminate).
    split; auto. split; auto. split; [|auto].
    unfold CacheSpec.fine. cbn. rewrite H. exists v. repeat split; destruct (G u v Ku Kvv Nv) as [Q|[Q1 Q2]]; congruence.
  - destruct (call_miss w u (Some v) (content u v) d H D B) as (d' & E & Ho & Oth). exists (Stop (Value (name u (Some v)))), d', [u].
    assert (Keep : forall u0 v0, KU u0 -> KV v0 -> v0 <> [] -> (u0 <> u \/ v0 <> v) ->
       d' (name u0 (Some v0)) = d (name u0 (Some v0)) /\ d' (meta_path (name u0 (Some v0))) = d (meta_path (name u0 (Some v0)))).
    { intros u0 v0 K1 K2 K3 N. split; apply Oth.
      - intros Q. apply name_inj in Q; auto. destruct Q; subst; tauto.
      - intros Q. symmetry in Q. now apply meta_name in Q.
      - now apply meta_name.
      - intros Q. apply meta_eq in Q. apply name_inj in Q; auto. destruct Q; subst; tauto. }
    assert (Dec : forall u0 v0, (u0 = u /\ v0 = v) \/ (u0 <> u \/ v0 <> v)).
    { intros u0 v0. destruct (list_eq_dec ascii_dec u0 u), (list_eq_dec ascii_dec v0 v); tauto. }
    split; auto. split; [|split].
    + intros u0 v0 K1 K2 K3. destruct (Dec u0 v0) as [[-> ->]|N]; auto.
      destruct (Keep u0 v0 K1 K2 K3 N) as [E1 E2]. unfold holds. rewrite E1, E2. now apply G.
    + unfold CacheSpec.fine. cbn. rewrite H. exists v. auto.
    + intros u0 v0 K1 K2 K3 Hh. destruct (Dec u0 v0) as [[-> ->]|N]; auto.
      destruct (Keep u0 v0 K1 K2 K3 N) as [E1 E2]. unfold holds. rewrite E1, E2. exact Hh.
Qed.
Theorem sequence l : known l -> forall d, good d -> exists ps d' g, calls sha l d = (ps, d', g) /\ good d' /\ Forall2 (fine d') l ps /\
    (forall u v, KU u -> KV v -> v <> [] -> holds sha d u (Some v) (content u v) -> holds sha d' u (Some v) (content u v)).
Proof.
  induction l as [|[w u] l IH]; intros K d G.
  - exists [], d, []. split; auto.
  - destruct (K w u) as (Ku & V & Kv); [now left|].
    destruct (one_call w u d G Ku V Kv) as (p & d1 & g & E & G1 & F & P1).
    destruct (IH (fun w' u' I => K w' u' (or_intror I)) d1 G1) as (ps & d2 & g2 & E2 & G2 & F2 & P2).
    exists (p :: ps), d2, (g ++ g2). cbn [calls]. rewrite E, E2. split; auto. split; auto. split.
    + constructor; auto. revert F. unfold CacheSpec.fine. cbn. destruct (head w u) as [e|x] eqn:Hd; auto.
      intros (v & -> & Ep & Ho). exists v. split; auto. split; auto. destruct (V _ Hd) as (v' & Q & Nv & _). injection Q as <-. apply P2; auto.
    + intros; apply P2; auto.
Qed.
End Alone.

(** ** URLs *)
Lemma cut_stop p : forall a c r, forallb (fun x => negb (p x)) a = true -> p c = true -> cut p (a ++ c :: r) = (a, c :: r).
Proof.
  induction a as [|x a IH]; intros c r H P; cbn.
  - now rewrite P.
  - cbn in H. apply andb_prop in H. destruct H as [H1 H2]. destruct (p x); [discriminate|]. now rewrite IH.
Qed.
Lemma cut_all p : forall a, forallb (fun x => negb (p x)) a = true -> cut p a = (a, []).
Proof.
  induction a as [|x a IH]; intros H; cbn; auto. cbn in H. apply andb_prop in H. destruct H as [H1 H2]. destruct (p x); [discriminate|]. now rewrite IH.
Qed.
Lemma scheme_colon c : scheme_char c = true -> is ":" c = false.
Proof. destruct c as [[] [] [] [] [] [] [] []]; vm_compute; congruence. Qed.
Lemma scheme_of s r : s <> [] -> forallb scheme_char s = true -> scheme (s ++ str ":" ++ r) = (map lower s, r).
Proof.
  intros N F. unfold scheme. change (str ":" ++ r) with (":"%char :: r). rewrite cut_stop; auto.
  - destruct s; [contradiction|]. now rewrite F.
  - apply forallb_forall. intros x Hx. rewrite scheme_colon; auto. now apply (proj1 (forallb_forall _ _) F).
Qed.
Lemma no_scheme s : ~ In ":"%char s -> scheme s = ([], s).
Proof.
  intros N. unfold scheme. rewrite cut_all. now destruct s.
  apply forallb_forall. intros x Hx. destruct (is ":" x) eqn:E; auto. apply Ascii.eqb_eq in E. subst. contradiction.
Qed.
Lemma proto_scheme u : proto (urlparse u) = fst (scheme u).
Proof. unfold urlparse. destruct (scheme u) as [sc rest]. cbn. now destruct (match rest with [] => _ | _ => _ end). Qed.
Theorem dispatch local s r : s <> [] -> forallb scheme_char s = true ->
  cached_path local (s ++ str ":" ++ r) =
    if existsb (nm_eqb (map lower s)) [str "http"; str "https"; str "s3"] then FromCache
    else if local (s ++ str ":" ++ r) then Local else Refuse BadValue.
Proof.
  intros N F. unfold cached_path. rewrite proto_scheme, scheme_of by auto. cbn [fst existsb]. rewrite orb_false_r, orb_assoc.
  assert (Z : nm_eqb (map lower s) [] = false). { destruct (nm_eqb (map lower s) []) eqn:E; auto. apply nm_eqb_spec in E. destruct s; [contradiction|discriminate]. }
  rewrite Z. reflexivity.
Qed.
Theorem dispatch_local local s : ~ In ":"%char s -> cached_path local s = if local s then Local else Refuse NotFound.
Proof. intros N. unfold cached_path. rewrite proto_scheme, no_scheme by auto. reflexivity. Qed.
Lemma plain_cut p l s : (forall c, p c = true -> In c l) -> plain l s -> forallb (fun x => negb (p x)) s = true.
Proof. intros P H. apply forallb_forall. intros x Hx. destruct (p x) eqn:E; auto. exfalso. exact (H x Hx (P x E)). Qed.
Theorem s3_split bucket key : bucket <> [] -> plain (str "/?#") bucket -> plain (str "?#") key ->
  split_s3_path (str "s3://" ++ bucket ++ str "/" ++ key) = Value (bucket, key).
Proof.
  intros N Hb Hk. unfold split_s3_path, urlparse. change (str "s3://" ++ bucket ++ str "/" ++ key) with (str "s3" ++ str ":" ++ "/"%char :: "/"%char :: bucket ++ "/"%char :: key).
  rewrite scheme_of by (try reflexivity; discriminate). change (is "/" "/" && is "/" "/") with true. cbv iota.
  rewrite cut_stop; [|apply (plain_cut _ (str "/?#")); auto|reflexivity].
  - cbn [netloc path]. rewrite (cut_all (is "#")).
    + cbn [fst]. rewrite (cut_all (is "?")).
      * cbn [fst]. destruct bucket; [contradiction|]. reflexivity.
      * apply (plain_cut _ (str "?#")); [intros c E; apply Ascii.eqb_eq in E; subst; cbn; tauto|intros c [<-|Hc]; [cbn; intuition discriminate|now apply Hk]].
    + apply (plain_cut _ (str "?#")); [intros c E; apply Ascii.eqb_eq in E; subst; cbn; tauto|intros c [<-|Hc]; [cbn; intuition discriminate|now apply Hk]].
  - intros c E. apply orb_prop in E. destruct E as [E|E]; [apply orb_prop in E; destruct E as [E|E]|]; apply Ascii.eqb_eq in E; subst; cbn; tauto.
Qed.
Theorem s3_bare bucket : plain (str "/?#") bucket -> split_s3_path (str "s3://" ++ bucket) = Raised BadValue.
Proof.
  intros Hb. unfold split_s3_path, urlparse. change (str "s3://" ++ bucket) with (str "s3" ++ str ":" ++ "/"%char :: "/"%char :: bucket).
  rewrite scheme_of by (try reflexivity; discriminate). change (is "/" "/" && is "/" "/") with true. cbv iota.
  rewrite cut_all.
  - cbn. now destruct bucket.
  - apply (plain_cut _ (str "/?#")); auto.
    intros c E. apply orb_prop in E. destruct E as [E|E]; [apply orb_prop in E; destruct E as [E|E]|]; apply Ascii.eqb_eq in E; subst; cbn; tauto.
Qed.
Lemma int_step c d acc t : digit_val c = Some d -> int_of acc (c :: t) = int_of (10 * acc + d) t.
Proof. intros H. cbn [int_of]. now rewrite H. Qed.
Lemma int_digits u : forall acc, int_of acc (digits u) = Some (Nat.of_uint_acc u acc).
Proof.
  induction u; intros acc; cbn [digits]; [reflexivity|..]; (erewrite int_step by reflexivity); rewrite IHu; cbn [Nat.of_uint_acc]; f_equal; f_equal; rewrite Nat.tail_mul_spec; cbn; lia.
Qed.
Theorem code_number n : client_error (dec n) = if n =? 404 then NotFound else Library.
Proof.
  destruct (dec_head n []) as (c & t & E & _). rewrite app_nil_r in E.
  assert (V : int_of 0 (dec n) = Some n) by (unfold dec; rewrite int_digits; f_equal; exact (DecimalNat.Unsigned.of_to n)).
  rewrite E in V |- *. unfold client_error. now rewrite V.
Qed.

(** ** A digest for examples: two hexadecimal digits for a character. *)
Definition toy (s : nm) : nm := flat_map (fun c => [nth (nat_of_ascii c / 16) hex_digits "0"; nth (nat_of_ascii c mod 16) hex_digits "0"]%char) s.
Lemma toy_hex : hexadecimal toy.
Proof.
  intros s c H. apply in_flat_map in H. destruct H as (x & _ & H).
  assert (L : forall k, k < 16 -> In (nth k hex_digits "0"%char) hex_digits) by (intros k K; apply nth_In; exact K).
  destruct H as [<-|[<-|[]]]; apply L.
  - apply Nat.div_lt_upper_bound; [lia|]. apply nat_ascii_bounded.
  - apply Nat.mod_upper_bound. lia.
Qed.
Lemma toy_inj a : forall b, toy a = toy b -> a = b.
Proof.
  induction a as [|x a IH]; intros [|y b] E; auto; try discriminate. cbn [toy flat_map app] in E. injection E as E1 E2 E3.
  f_equal; [|now apply IH].
  assert (I : forall j k, j < 16 -> k < 16 -> nth j hex_digits "0"%char = nth k hex_digits "0"%char -> j = k).
  { intros j k J K Q. apply (proj1 (NoDup_nth hex_digits "0"%char)) in Q; auto. repeat constructor; cbn; intuition discriminate. }
  apply (I (nat_of_ascii x / 16) (nat_of_ascii y / 16)) in E1; [|apply Nat.div_lt_upper_bound; [lia|]; apply nat_ascii_bounded..].
  apply (I (nat_of_ascii x mod 16) (nat_of_ascii y mod 16)) in E2; [|apply Nat.mod_upper_bound; lia..].
  rewrite <- (ascii_nat_embedding x), <- (ascii_nat_embedding y). f_equal.
  rewrite (Nat.div_mod (nat_of_ascii x) 16), (Nat.div_mod (nat_of_ascii y) 16) by lia. now rewrite E1, E2.
Qed.

(** ** Letters *)
Lemma small_lower c : small c = lower c.
Proof. destruct c as [[] [] [] [] [] [] [] []]; vm_compute; reflexivity. Qed.
Lemma scheme_letter c : scheme_char c = true <-> In c scheme_letters.
Proof.
  assert (E : existsb (Ascii.eqb c) scheme_letters = scheme_char c) by (destruct c as [[] [] [] [] [] [] [] []]; vm_compute; reflexivity).
  rewrite <- E, existsb_exists. split.
  - intros (x & I & D). apply Ascii.eqb_eq in D. now subst.
  - intros I. exists c. split; [exact I|apply Ascii.eqb_refl].
Qed.
Theorem dispatch_letters local s r : s <> [] -> (forall c, In c s -> In c scheme_letters) ->
  cached_path local (s ++ str ":" ++ r) =
    if existsb (nm_eqb (map small s)) [str "http"; str "https"; str "s3"] then FromCache
    else if local (s ++ str ":" ++ r) then Local else Refuse BadValue.
Proof.
  intros N F. rewrite dispatch; [|exact N|].
  - rewrite (map_ext small lower small_lower). reflexivity.
  - apply forallb_forall. intros c I. apply scheme_letter, F, I.
Qed.
Theorem dispatch_other local s c t r : In c (s ++ t) -> ~ In c scheme_letters -> ~ In ":"%char (s ++ t) ->
  cached_path local (s ++ t ++ str ":" ++ r) = if local (s ++ t ++ str ":" ++ r) then Local else Refuse NotFound.
Proof.
  intros I N F. assert (S : scheme (s ++ t ++ str ":" ++ r) = ([], s ++ t ++ str ":" ++ r)).
  { rewrite app_assoc. set (u := s ++ t) in *. unfold scheme.
    assert (C : cut (is ":") (u ++ str ":" ++ r) = (u, ":"%char :: r)).
    { clear I. clearbody u. induction u as [|x u IH]; [reflexivity|]. cbn [List.app cut]. unfold is at 1. destruct (Ascii.eqb_spec ":" x) as [<-|D]; [destruct F; left; reflexivity|].
      rewrite IH by (intros J; apply F; right; exact J). reflexivity. }
    rewrite C. destruct u as [|x u]; [destruct I|]. destruct (forallb scheme_char (x :: u)) eqn:E; [|reflexivity].
    exfalso. apply N, scheme_letter. exact (proj1 (forallb_forall _ _) E c I). }
  unfold cached_path, urlparse. rewrite S. cbv zeta. destruct (match _ with [] => _ | _ => _ end) as [net tail]. reflexivity.
Qed.
Theorem http_case w s r : In (map small s) [str "http"; str "https"] -> let url := s ++ str "://" ++ r in
  head w url = (if head_status (pages w url) =? 200 then Value (head_etag (pages w url)) else Raised HeadFailed) /\
  get_body w url = Value (List.concat (get_chunks (pages w url))).
Proof.
  intros I url. rewrite (map_ext small lower small_lower) in I.
  assert (H : is_s3 url = false /\ is_http url = true).
  { unfold is_s3, is_http, url. destruct I as [I|[I|[]]].
    - destruct s as [|a [|b [|c [|d [|e s]]]]]; try discriminate I. cbn [map] in I. injection I as Ia Ib Ic Id.
      split.
      + apply not_true_iff_false. rewrite nm_eqb_spec. intros E. cbn in E. injection E as E1 _. subst a. discriminate Ia.
      + change (firstn 7 _) with [a; b; c; d; ":"%char; "/"%char; "/"%char]. cbn [map]. rewrite <- Ia, <- Ib, <- Ic, <- Id. reflexivity.
    - destruct s as [|a [|b [|c [|d [|e [|f s]]]]]]; try discriminate I. cbn [map] in I. injection I as Ia Ib Ic Id Ie.
      split.
      + apply not_true_iff_false. rewrite nm_eqb_spec. intros E. cbn in E. injection E as E1 _. subst a. discriminate Ia.
      + change (firstn 8 _) with [a; b; c; d; e; ":"%char; "/"%char; "/"%char]. cbn [map]. rewrite <- Ia, <- Ib, <- Ic, <- Id, <- Ie. apply orb_true_r. }
  destruct H as [H1 H2]. unfold head, get_body. rewrite H1, H2. split; reflexivity.
Qed.
Theorem no_meta d name : d name = None \/ d (meta_path name) = None -> filename_to_url d name = Raised NotFound.
Proof. intros H. unfold filename_to_url. destruct (d name); [|reflexivity]. destruct H as [H|H]; [discriminate|]. rewrite H. reflexivity. Qed.

