From Verif Require Import Base FilesModel CkptModel CkptSpec.
From Coq Require Import Ascii String Lia.
Import ListNotations.
Open Scope list_scope.
Notation len := (@List.length _).

Lemma nm_eqb_true : forall a b, nm_eqb a b = true <-> a = b.
Proof. intros a b; unfold nm_eqb; destruct (list_eq_dec ascii_dec a b); split; congruence. Qed.
Lemma nm_eqb_false : forall a b, nm_eqb a b = false <-> a <> b.
Proof. intros a b; unfold nm_eqb; destruct (list_eq_dec ascii_dec a b); split; congruence. Qed.
Lemma nm_eqb_refl : forall a, nm_eqb a a = true.
Proof. intros; apply nm_eqb_true; reflexivity. Qed.

Lemma starts_spec : forall p s, starts p s = true <-> exists b, s = p ++ b.
Proof.
  induction p as [|c p IH]; intros s; cbn.
  - split; [intros _; exists s; reflexivity | trivial].
  - destruct s as [|d s].
    + split; [discriminate | intros (b & E); discriminate E].
    + destruct (ascii_dec c d) as [->|N].
      * rewrite IH. split; intros (b & E); exists b; [congruence | injection E as E; exact E].
      * split; [discriminate | intros (b & E); injection E as E1 E2; congruence].
Qed.
Lemma find_some : forall p s i, find p s = Some i ->
  exists a b, s = a ++ p ++ b /\ List.length a = i /\ forall a' b', s = a' ++ p ++ b' -> i <= List.length a'.
Proof.
  intros p s; induction s as [|c s IH]; intros i E; cbn in E.
  - destruct (starts p []) eqn:S0; [|discriminate E]. injection E as <-.
    apply starts_spec in S0. destruct S0 as (b & S0). exists [], b. repeat split; [exact S0 | intros; lia].
  - destruct (starts p (c :: s)) eqn:S0.
    + injection E as <-. apply starts_spec in S0. destruct S0 as (b & S0). exists [], b.
      repeat split; [exact S0 | intros; lia].
    + destruct (find p s) as [j|] eqn:F; [|discriminate E]. injection E as <-.
      destruct (IH j eq_refl) as (a & b & Es & La & Lm). exists (c :: a), b. repeat split.
      * cbn. congruence.
      * cbn. congruence.
      * intros a' b' E'. destruct a' as [|c' a'].
        -- exfalso. assert (T : starts p (c :: s) = true) by (apply starts_spec; exists b'; exact E'). congruence.
        -- injection E' as _ E'. cbn. apply le_n_S, (Lm a' b' E').
Qed.
Lemma find_none : forall p s, find p s = None -> ~ inside p s.
Proof.
  intros p s; induction s as [|c s IH]; intros E (a & b & I); cbn in E.
  - destruct a; [|discriminate I]. cbn in I.
    assert (T : starts p [] = true) by (apply starts_spec; exists b; exact I). rewrite T in E. discriminate E.
  - destruct (starts p (c :: s)) eqn:S0; [discriminate E|].
    destruct (find p s) eqn:F; [discriminate E|]. destruct a as [|c' a].
    + assert (T : starts p (c :: s) = true) by (apply starts_spec; exists b; exact I). congruence.
    + injection I as _ I. apply (IH eq_refl). exists a, b. exact I.
Qed.
Lemma contains_spec : forall p s, contains p s = true <-> inside p s.
Proof.
  intros p s; unfold contains. destruct (find p s) eqn:F.
  - split; [intros _ | trivial]. destruct (find_some _ _ _ F) as (a & b & E & _). exists a, b; exact E.
  - split; [discriminate | intros I; destruct (find_none _ _ F I)].
Qed.
Lemma find_after : forall p s i, find p s = Some i -> after p s (skipn (i + List.length p) s).
Proof.
  intros p s i F. destruct (find_some _ _ _ F) as (a & b & E & La & Lm). exists a.
  assert (X : skipn (i + List.length p) s = b).
  { rewrite E, app_assoc, skipn_app, app_length.
    replace (i + List.length p - (List.length a + List.length p)) with 0 by lia.
    rewrite skipn_all2 by (rewrite app_length; lia). reflexivity. }
  rewrite X. split; [exact E|]. intros a' b' E'. rewrite La. exact (Lm a' b' E').
Qed.
Lemma after_unique : forall p s b b', after p s b -> after p s b' -> b = b'.
Proof.
  intros p s b b' (a & E & L) (a' & E' & L').
  assert (N : List.length a = List.length a') by (specialize (L _ _ E'); specialize (L' _ _ E); lia).
  rewrite E in E'. apply (f_equal (skipn (List.length (a ++ p)))) in E'.
  rewrite !app_assoc in E'. rewrite skipn_app, skipn_all, Nat.sub_diag in E'.
  assert (N2 : List.length (a ++ p) = List.length (a' ++ p)) by (rewrite !app_length; lia).
  rewrite N2, skipn_app, skipn_all, Nat.sub_diag in E'. exact E'.
Qed.
Lemma after_find : forall p s b, after p s b -> exists i, find p s = Some i /\ b = skipn (i + List.length p) s.
Proof.
  intros p s b A. destruct (find p s) as [i|] eqn:F.
  - exists i. split; [reflexivity|]. exact (after_unique _ _ _ _ A (find_after _ _ _ F)).
  - exfalso. destruct A as (a & E & _). apply (find_none _ _ F). exists a, b; exact E.
Qed.

(** ** split *)
Lemma split_plain : forall w, plain w -> split bar w = [w].
Proof.
  induction w as [|c w IH]; intros P; [reflexivity|]. cbn [split].
  destruct (ascii_dec bar c) as [<-|N]; [destruct P; left; reflexivity|].
  rewrite IH; [reflexivity | intros I; apply P; right; exact I].
Qed.
Lemma split_app : forall w s, plain w -> split bar (w ++ bar :: s) = w :: split bar s.
Proof.
  induction w as [|c w IH]; intros s P.
  - reflexivity.
  - cbn [app split]. destruct (ascii_dec bar c) as [<-|N]; [destruct P; left; reflexivity|].
    rewrite IH; [reflexivity | intros I; apply P; right; exact I].
Qed.
Lemma split_joined : forall l, l <> [] -> Forall plain l -> split bar (joined l) = l.
Proof.
  induction l as [|w l IH]; intros N F; [congruence|]. inversion_clear F. destruct l as [|w' l].
  - apply split_plain; assumption.
  - change (joined (w :: w' :: l)) with (w ++ bar :: joined (w' :: l)). rewrite split_app by assumption.
    rewrite IH; [reflexivity | discriminate | assumption].
Qed.

Section P.
Context {V : Type}.
Notation dict := (list (nm * V)).

Lemma dget_dput : forall (d : dict) k k' v, dget k (dput k' v d) = if nm_eqb k k' then Some v else dget k d.
Proof.
  induction d as [|e d IH]; intros k k' v; cbn.
  - reflexivity.
  - destruct (nm_eqb k' (fst e)) eqn:E; cbn.
    + apply nm_eqb_true in E. subst k'. destruct (nm_eqb k (fst e)); reflexivity.
    + rewrite IH. destruct (nm_eqb k (fst e)) eqn:E2; [|reflexivity].
      apply nm_eqb_true in E2. subst k. destruct (nm_eqb (fst e) k') eqn:E3; [|reflexivity].
      apply nm_eqb_true in E3. subst k'. rewrite nm_eqb_refl in E. discriminate E.
Qed.
Lemma dget_in : forall (d : dict) k v, dget k d = Some v -> In (k, v) d.
Proof.
  induction d as [|[a b] d IH]; intros k v E; cbn in *; [discriminate E|].
  destruct (nm_eqb k a) eqn:X; [apply nm_eqb_true in X; left; congruence | right; apply IH; exact E].
Qed.
Lemma dget_none : forall (d : dict) k, dget k d = None <-> ~ In k (names d).
Proof.
  induction d as [|[a b] d IH]; intros k; cbn; [tauto|].
  destruct (nm_eqb k a) eqn:X.
  - apply nm_eqb_true in X. split; [discriminate | intros H; destruct H; left; congruence].
  - apply nm_eqb_false in X. rewrite IH. split; [intros H [E|I]; [congruence | exact (H I)] | intros H I; apply H; right; exact I].
Qed.
Lemma dget_nodup : forall (d : dict) k v, NoDup (names d) -> In (k, v) d -> dget k d = Some v.
Proof.
  induction d as [|[a b] d IH]; intros k v N I; [destruct I|]. cbn. inversion_clear N as [|? ? N1 N2].
  destruct I as [E|I].
  - injection E as <- <-. rewrite nm_eqb_refl. reflexivity.
  - destruct (nm_eqb k a) eqn:X; [|apply IH; assumption].
    apply nm_eqb_true in X. subst a. destruct N1. apply (in_map fst) in I. exact I.
Qed.

Fixpoint hits (dst : list nm) (key k : nm) (i : nat) (src : list nm) : bool :=
  match src with
  | [] => false
  | s :: src' =>
      (match find s key, nth_error dst i with
       | Some a, Some d => nm_eqb k (d ++ skipn (a + List.length s) key)
       | _, _ => false
       end) || hits dst key k (S i) src'
  end.
Fixpoint seen (key : nm) (src : list nm) (flags : list bool) : list bool :=
  match src, flags with s :: src', f :: fl => (contains s key || f) :: seen key src' fl | _, _ => flags end.

Lemma take_key_ok : forall dst key (v : V) src i flags r, List.length flags = List.length src -> i + List.length src <= List.length dst ->
  exists r', take_key dst key v i src flags r = Ok (seen key src flags, r')
    /\ forall k, dget k r' = if hits dst key k i src then Some v else dget k r.
Proof.
  intros dst key v. induction src as [|s src IH]; intros i flags r L B; destruct flags as [|f flags]; try discriminate L.
  - exists r. split; reflexivity.
  - cbn [take_key seen hits]. unfold contains. cbn in L, B.
    destruct (find s key) as [a|] eqn:F.
    + unfold nth_name. destruct (nth_error dst i) as [d|] eqn:N; [|apply nth_error_None in N; lia]. cbn [bind].
      destruct (IH (S i) flags (dput (d ++ skipn (a + List.length s) key) v r)) as (r' & E & G); [lia | lia|].
      rewrite E. cbn [bind fst snd]. exists r'. split; [reflexivity|]. intros k. rewrite G, dget_dput.
      destruct (hits dst key k (S i) src); destruct (nm_eqb k (d ++ skipn (a + List.length s) key)); reflexivity.
    + destruct (IH (S i) flags r) as (r' & E & G); [lia | lia|]. rewrite E. cbn [bind fst snd]. exists r'.
      split; [reflexivity | exact G].
Qed.
Lemma seen_len : forall key src flags, List.length flags = List.length src -> List.length (seen key src flags) = List.length src.
Proof.
  intros key src; induction src as [|s src IH]; intros [|f flags] L; try discriminate L; [reflexivity|].
  cbn. cbn in L. rewrite IH; lia.
Qed.

Definition newest (dst src : list nm) (ckpt : dict) (k : nm) (v0 : option V) : option V :=
  fold_left (fun acc e => if hits dst (fst e) k 0 src then Some (snd e) else acc) ckpt v0.
Lemma take_all_ok : forall src dst, List.length src <= List.length dst -> forall (ckpt : dict) flags r, List.length flags = List.length src ->
  exists r', take_all src dst ckpt flags r = Ok (fold_left (fun fl e => seen (fst e) src fl) ckpt flags, r')
    /\ forall k, dget k r' = newest dst src ckpt k (dget k r).
Proof.
  intros src dst B. induction ckpt as [|[key v] ckpt IH]; intros flags r L.
  - exists r. split; reflexivity.
  - cbn [take_all]. destruct (take_key_ok dst key v src 0 flags r L B) as (r1 & E & G). rewrite E. cbn [bind fst snd].
    destruct (IH (seen key src flags) r1 (seen_len _ _ _ L)) as (r2 & E2 & G2). rewrite E2. exists r2.
    split; [reflexivity|]. intros k. rewrite G2, G. reflexivity.
Qed.

Fixpoint keeps (dst : list nm) (key : nm) (i : nat) (flags : list bool) : bool :=
  match flags with
  | [] => false
  | f :: fl => (negb f && match nth_error dst i with Some d => starts d key | None => false end) || keeps dst key (S i) fl
  end.
Lemma keep_key_ok : forall dst key (v : V) flags i r, i + List.length flags <= List.length dst ->
  exists r', keep_key dst key v i flags r = Ok r'
    /\ forall k, dget k r' = if nm_eqb k key && keeps dst key i flags then Some v else dget k r.
Proof.
  intros dst key v. induction flags as [|f flags IH]; intros i r B.
  - exists r. split; [reflexivity|]. intros k. cbn. rewrite andb_false_r. reflexivity.
  - cbn [keep_key keeps]. cbn in B. destruct f.
    + destruct (IH (S i) r) as (r' & E & G); [lia|]. exists r'. split; [exact E | exact G].
    + unfold nth_name. destruct (nth_error dst i) as [d|] eqn:N; [|apply nth_error_None in N; lia]. cbn [bind negb andb].
      destruct (IH (S i) (if starts d key then dput key v r else r)) as (r' & E & G); [lia|]. exists r'.
      split; [exact E|]. intros k. rewrite G. destruct (starts d key); cbn [orb]; [|reflexivity].
      rewrite dget_dput. destruct (nm_eqb k key); cbn; [|reflexivity]. destruct (keeps dst key (S i) flags); reflexivity.
Qed.
Lemma keep_all_ok : forall dst flags, List.length flags <= List.length dst -> forall (own r : dict), NoDup (names own) ->
  exists r', keep_all dst own flags r = Ok r'
    /\ forall k, dget k r' = match dget k own with Some v => if keeps dst k 0 flags then Some v else dget k r | None => dget k r end.
Proof.
  intros dst flags B. induction own as [|[key v] own IH]; intros r N.
  - exists r. split; reflexivity.
  - cbn [keep_all dget fst snd]. destruct (keep_key_ok dst key v flags 0 r B) as (r1 & E & G). rewrite E. cbn [bind].
    inversion_clear N as [|? ? N1 N2].
    destruct (IH r1 N2) as (r2 & E2 & G2). exists r2. split; [exact E2|]. intros k. rewrite G2, G.
    destruct (nm_eqb k key) eqn:X; [|reflexivity].
    apply nm_eqb_true in X. subst key. apply dget_none in N1. rewrite N1. reflexivity.
Qed.

(** ** reading *)
Lemma hits_reads : forall dst key k src i, i + List.length src <= List.length dst ->
  (hits dst key k i src = true <-> reads (combine src (skipn i dst)) key k).
Proof.
  intros dst key k. induction src as [|s src IH]; intros i B; cbn in B.
  - cbn. split; [discriminate | intros (? & ? & ? & [] & _)].
  - cbn [hits]. destruct (nth_error dst i) as [d|] eqn:N; [|apply nth_error_None in N; lia].
    assert (Sk : skipn i dst = d :: skipn (S i) dst).
    { clear - N. revert i N. induction dst as [|x dst IH]; intros [|i] N; try discriminate N.
      - cbn in N. injection N as ->. reflexivity.
      - exact (IH i N). }
    rewrite Sk. cbn [combine]. rewrite orb_true_iff, IH by lia. split.
    + intros [H|(s' & d' & rest & I & A & E)].
      * destruct (find s key) as [a|] eqn:F; [|discriminate H]. apply nm_eqb_true in H.
        exists s, d, (skipn (a + List.length s) key). repeat split; [left; reflexivity | apply find_after; exact F | exact H].
      * exists s', d', rest. repeat split; [right; exact I | exact A | exact E].
    + intros (s' & d' & rest & I & A & E). destruct I as [I|I].
      * left. injection I as -> ->. destruct (after_find _ _ _ A) as (a & F & Er). rewrite F. apply nm_eqb_true. congruence.
      * right. exists s', d', rest. repeat split; assumption.
Qed.
Lemma newest_spec : forall dst src (ckpt : dict) k, List.length src <= List.length dst -> forall v0 v,
  (newest dst src ckpt k v0 = Some v <->
   last_read (combine src dst) ckpt k v \/ (v0 = Some v /\ forall key, In key (names ckpt) -> ~ reads (combine src dst) key k)).
Proof.
  intros dst src ckpt k B. induction ckpt as [|[key w] ckpt IH]; intros v0 v.
  - cbn. split; [intros E; right; split; [exact E | intros ? []] | intros [(bf & ? & ? & E & _)|[E _]]; [destruct bf; discriminate E | exact E]].
  - unfold newest in *. cbn [fold_left fst snd]. rewrite IH. clear IH.
    pose proof (hits_reads dst key k src 0 B) as HR. cbn [skipn] in HR.
    destruct (hits dst key k 0 src) eqn:H.
    + split.
      * intros [(bf & key' & af & E & R & Nx)|[E Nx]].
        -- left. exists ((key, w) :: bf), key', af. repeat split; [rewrite E; reflexivity | exact R | exact Nx].
        -- injection E as <-. left. exists [], key, ckpt. repeat split; [apply HR; reflexivity | exact Nx].
      * intros [(bf & key' & af & E & R & Nx)|[_ Nx]].
        -- destruct bf as [|e bf].
           ++ injection E as -> -> ->. right. split; [reflexivity | exact Nx].
           ++ injection E as _ E. left. exists bf, key', af. repeat split; assumption.
        -- exfalso. apply (Nx key); [left; reflexivity | apply HR; reflexivity].
    + assert (NR : ~ reads (combine src dst) key k) by (intros R; apply HR in R; discriminate R). split.
      * intros [(bf & key' & af & E & R & Nx)|[E Nx]].
        -- left. exists ((key, w) :: bf), key', af. repeat split; [rewrite E; reflexivity | exact R | exact Nx].
        -- right. split; [exact E|]. intros key' [<-|I]; [exact NR | exact (Nx key' I)].
      * intros [(bf & key' & af & E & R & Nx)|[E Nx]].
        -- destruct bf as [|e bf]; [injection E as -> -> ->; destruct (NR R)|].
           injection E as _ E. left. exists bf, key', af. repeat split; assumption.
        -- right. split; [exact E|]. intros key' I. apply Nx. right. exact I.
Qed.
Lemma flags_spec : forall (ckpt : dict) src flags i, List.length flags = List.length src ->
  (nth_error (fold_left (fun fl e => seen (fst e) src fl) ckpt flags) i = Some false <->
   nth_error flags i = Some false /\ exists s, nth_error src i = Some s /\ unused ckpt s).
Proof.
  induction ckpt as [|[key v] ckpt IH]; intros src flags i L.
  - cbn. split; [|tauto]. intros E. split; [exact E|].
    destruct (nth_error src i) as [s|] eqn:N; [exists s; split; [reflexivity | intros ? []]|].
    apply nth_error_None in N. assert (X : nth_error flags i <> None) by congruence. apply nth_error_Some in X. lia.
  - cbn [fold_left fst]. rewrite IH by (apply seen_len; exact L). clear IH.
    assert (SE : forall s, nth_error src i = Some s ->
      (nth_error (seen key src flags) i = Some false <-> nth_error flags i = Some false /\ ~ inside s key)).
    { clear - L. revert flags i L. induction src as [|s src IH]; intros [|f flags] i L s0 N; try discriminate L; [destruct i; discriminate N|].
      destruct i as [|i]; cbn in N |- *.
      - injection N as ->. rewrite <- contains_spec. destruct (contains s0 key), f; cbn; split; [discriminate | intros [? ?]; congruence | discriminate | intros [_ ?]; congruence | discriminate | intros [? _]; congruence | intros; split; congruence | reflexivity].
      - apply IH; [cbn in L; lia | exact N]. }
    split.
    + intros (E & s & N & U). apply (SE s N) in E. destruct E as [E NI]. split; [exact E|]. exists s. split; [exact N|].
      intros key' [<-|I]; [exact NI | exact (U key' I)].
    + intros (E & s & N & U). split.
      * apply (SE s N). split; [exact E | apply U; left; reflexivity].
      * exists s. split; [exact N|]. intros key' I. apply U. right. exact I.
Qed.
Lemma keeps_spec : forall dst key flags i, i + List.length flags <= List.length dst ->
  (keeps dst key i flags = true <-> exists j d, nth_error flags j = Some false /\ nth_error dst (i + j) = Some d /\ begins d key).
Proof.
  intros dst key. induction flags as [|f flags IH]; intros i B; cbn in B.
  - cbn. split; [discriminate | intros (j & d & E & _); destruct j; discriminate E].
  - cbn [keeps]. rewrite orb_true_iff, IH by lia. split.
    + intros [H|(j & d & E & N & P)].
      * apply andb_true_iff in H. destruct H as [H1 H2]. destruct (nth_error dst i) as [d|] eqn:N; [|discriminate H2].
        exists 0, d. rewrite Nat.add_0_r. repeat split; [destruct f; [discriminate H1 | reflexivity] | exact N | apply starts_spec in H2; exact H2].
      * exists (S j), d. rewrite Nat.add_succ_r. repeat split; assumption.
    + intros (j & d & E & N & P). destruct j as [|j].
      * left. injection E as ->. rewrite Nat.add_0_r in N. rewrite N. apply starts_spec. exact P.
      * right. exists j, d. rewrite Nat.add_succ_r in N. repeat split; assumption.
Qed.
Lemma in_combine_nth : forall {A B} (l : list A) (m : list B) a b,
  In (a, b) (combine l m) <-> exists j, nth_error l j = Some a /\ nth_error m j = Some b.
Proof.
  intros A B. induction l as [|x l IH]; intros m a b.
  - cbn. split; [intros [] | intros (j & E & _); destruct j; discriminate E].
  - destruct m as [|y m].
    + cbn. split; [intros [] | intros (j & _ & E); destruct j; discriminate E].
    + cbn [combine In]. rewrite IH. split.
      * intros [E|(j & E)]; [injection E as -> ->; exists 0; split; reflexivity | exists (S j); exact E].
      * intros (j & E1 & E2). destruct j as [|j]; [left; cbn in *; congruence | right; exists j; split; assumption].
Qed.

Lemma extract_ok : forall (own ckpt : dict) srcs dsts,
  srcs <> [] -> Forall plain srcs -> dsts <> [] -> Forall plain dsts -> List.length srcs <= List.length dsts -> NoDup (names own) ->
  exists r, extract own ckpt (joined srcs) (joined dsts) = Ok r
    /\ forall k v, dget k r = Some v <->
         (kept (combine srcs dsts) own ckpt k /\ In (k, v) own)
         \/ (~ kept (combine srcs dsts) own ckpt k /\ last_read (combine srcs dsts) ckpt k v).
Proof.
  intros own ckpt srcs dsts N1 P1 N2 P2 B ND. unfold extract. rewrite !split_joined by assumption.
  destruct (take_all_ok srcs dsts B ckpt (repeat false (List.length srcs)) [] (repeat_length _ _)) as (r1 & E1 & G1).
  rewrite E1. cbn [bind fst snd].
  set (flags := fold_left (fun fl e => seen (fst e) srcs fl) ckpt (repeat false (List.length srcs))) in *.
  assert (LF : List.length flags = List.length srcs).
  { unfold flags. clear. assert (L : List.length (repeat false (List.length srcs)) = List.length srcs) by apply repeat_length.
    revert L. generalize (repeat false (List.length srcs)). induction ckpt as [|e c IH]; intros fl L; [exact L|].
    cbn. apply IH, seen_len, L. }
  destruct (keep_all_ok dsts flags ltac:(lia) own r1 ND) as (r2 & E2 & G2). exists r2. split; [exact E2|].
  assert (KP : forall k, keeps dsts k 0 flags = true <-> exists s d, In (s, d) (combine srcs dsts) /\ unused ckpt s /\ begins d k).
  { intros k. rewrite keeps_spec by lia. cbn [Nat.add]. split.
    - intros (j & d & E & Nd & Bg). apply flags_spec in E; [|apply repeat_length]. destruct E as (_ & s & Ns & U).
      exists s, d. repeat split; [apply in_combine_nth; exists j; split; assumption | exact U | exact Bg].
    - intros (s & d & I & U & Bg). apply in_combine_nth in I. destruct I as (j & Ns & Nd). exists j, d.
      repeat split; [|exact Nd|exact Bg]. apply flags_spec; [apply repeat_length|]. split.
      + rewrite nth_error_repeat; [reflexivity|]. apply nth_error_Some. congruence.
      + exists s. split; assumption. }
  intros k v. rewrite G2, G1. cbn [dget].
  assert (NW : newest dsts srcs ckpt k None = Some v <-> last_read (combine srcs dsts) ckpt k v).
  { rewrite newest_spec by exact B. split; [intros [H|[H _]]; [exact H | discriminate H] | intros H; left; exact H]. }
  destruct (dget k own) as [w|] eqn:Go.
  - assert (Ik : In k (names own)) by (apply dget_in in Go; apply (in_map fst) in Go; exact Go).
    destruct (keeps dsts k 0 flags) eqn:K.
    + apply KP in K. assert (Kt : kept (combine srcs dsts) own ckpt k) by (split; assumption). split.
      * intros E. left. split; [exact Kt|]. injection E as <-. apply dget_in. exact Go.
      * intros [[_ I]|[NK _]]; [|destruct (NK Kt)]. rewrite (dget_nodup _ _ _ ND I) in Go. congruence.
    + assert (NK : ~ kept (combine srcs dsts) own ckpt k) by (intros [_ H]; apply KP in H; congruence).
      rewrite NW. split; [intros H; right; split; assumption | intros [[Kt _]|[_ H]]; [destruct (NK Kt) | exact H]].
  - assert (NK : ~ kept (combine srcs dsts) own ckpt k) by (intros [H _]; apply dget_none in Go; exact (Go H)).
    rewrite NW. split; [intros H; right; split; assumption | intros [[Kt _]|[_ H]]; [destruct (NK Kt) | exact H]].
Qed.

(** ** load_state_dict *)
Lemma load_strict_ok : forall fits (own d r : dict), NoDup (names own) -> NoDup (names d) ->
  (load_strict fits own d = Ok r <->
   (forall k, In k (names d) <-> In k (names own)) /\ (forall k v, In (k, v) d -> fits k v = true)
   /\ names r = names own /\ (forall k v, In (k, v) r <-> In (k, v) d)).
Proof.
  intros fits own d r N1 N2. unfold load_strict.
  set (c1 := forallb _ own). set (c2 := forallb _ d).
  assert (C1 : c1 = true <-> forall k, In k (names own) -> In k (names d)).
  { unfold c1. rewrite forallb_forall. split.
    - intros H k I. apply in_map_iff in I. destruct I as (e & <- & I). specialize (H e I).
      destruct (dget (fst e) d) as [w|] eqn:G; [|discriminate H]. apply dget_in in G. apply (in_map fst) in G. exact G.
    - intros H e I. destruct (dget (fst e) d) eqn:G; [reflexivity|]. apply dget_none in G. destruct G. apply H.
      apply in_map. exact I. }
  assert (C2 : c2 = true <-> (forall k, In k (names d) -> In k (names own)) /\ forall k v, In (k, v) d -> fits k v = true).
  { unfold c2. rewrite forallb_forall. split.
    - intros H. split.
      + intros k I. apply in_map_iff in I. destruct I as (e & <- & I). specialize (H e I).
        destruct (dget (fst e) own) as [w|] eqn:G; [|discriminate H]. apply dget_in in G. apply (in_map fst) in G. exact G.
      + intros k v I. specialize (H (k, v) I). cbn in H. destruct (dget k own); [exact H | discriminate H].
    - intros [H1 H2] [k v] I. cbn. destruct (dget k own) eqn:G; [apply H2; exact I|]. apply dget_none in G. destruct G.
      apply H1. apply (in_map fst) in I. exact I. }
  assert (R : c1 = true -> forall k v,
    In (k, v) (map (fun e => (fst e, match dget (fst e) d with Some v => v | None => snd e end)) own) <-> In (k, v) d /\ In k (names own)).
  { intros H k v. rewrite C1 in H. rewrite in_map_iff. split.
    - intros ([a w] & E & I). cbn in E. injection E as -> E.
      assert (Ik : In k (names own)) by (apply (in_map fst) in I; exact I).
      destruct (dget k d) as [u|] eqn:G; [|apply dget_none in G; destruct (G (H k Ik))].
      split; [apply dget_in; congruence | exact Ik].
    - intros [I Ik]. apply in_map_iff in Ik. destruct Ik as ([a w] & Ea & Io). cbn in Ea. subst a.
      exists (k, w). split; [|exact Io]. cbn. rewrite (dget_nodup _ _ _ N2 I). reflexivity. }
  assert (NM : names (map (fun e => (fst e, match dget (fst e) d with Some v => v | None => snd e end)) own) = names own).
  { unfold names. rewrite map_map. cbn. reflexivity. }
  destruct (c1 && c2) eqn:C.
  - apply andb_true_iff in C. destruct C as [H1 H2]. specialize (R H1). rewrite C1 in H1. rewrite C2 in H2. destruct H2 as [H2 H3].
    split.
    + intros E. injection E as <-. repeat split.
      * apply H2. * apply H1. * exact H3. * exact NM.
      * intros I. apply R in I. exact (proj1 I).
      * intros I. apply R. split; [exact I|]. apply H2. apply (in_map fst) in I. exact I.
    + intros (K & F & Nr & Vr). f_equal.
      assert (X : forall l1 l2 : dict, names l1 = names l2 -> NoDup (names l1) -> (forall k v, In (k, v) l1 <-> In (k, v) l2) -> l1 = l2).
      { clear. induction l1 as [|[k v] l1 IH]; intros [|[k2 v2] l2] E N H; try discriminate E; [reflexivity|].
        injection E as <- E. inversion_clear N as [|? ? Na Nb].
        assert (Ev : v = v2).
        { destruct (proj1 (H k v) (or_introl eq_refl)) as [X|X]; [congruence|]. apply (in_map fst) in X. cbn in X. unfold names in *. rewrite <- E in X. destruct (Na X). }
        subst v2. f_equal. apply IH; [exact E | exact Nb|]. intros a b. split; intros I.
        - destruct (proj1 (H a b) (or_intror I)) as [X|X]; [|exact X]. injection X as <- <-. apply (in_map fst) in I. destruct (Na I).
        - destruct (proj2 (H a b) (or_intror I)) as [X|X]; [|exact X]. injection X as <- <-. apply (in_map fst) in I. cbn in I. unfold names in *. rewrite <- E in I. destruct (Na I). }
      apply X; [rewrite NM; congruence | rewrite NM; exact N1|]. intros k v. rewrite R, Vr. split; [tauto|]. intros I. split; [exact I|].
      apply K. apply (in_map fst) in I. exact I.
  - split; [discriminate|]. intros (K & F & _). exfalso.
    assert (H1 : c1 = true) by (apply C1; intros k I; apply K; exact I).
    assert (H2 : c2 = true) by (apply C2; split; [intros k I; apply K; exact I | exact F]).
    rewrite H1, H2 in C. discriminate C.
Qed.
Lemma load_strict_fail : forall fits (own d : dict) e, load_strict fits own d = Fail e -> e = EAssert.
Proof. intros fits own d e; unfold load_strict. destruct (_ && _); congruence. Qed.

Lemma dput_names : forall (d : dict) k v x, In x (names (dput k v d)) <-> x = k \/ In x (names d).
Proof.
  intros d k v x. destruct (dget x (dput k v d)) eqn:G.
  - assert (I : In x (names (dput k v d))) by (apply dget_in in G; apply (in_map fst) in G; exact G).
    split; [intros _|tauto]. rewrite dget_dput in G. destruct (nm_eqb x k) eqn:E; [left; apply nm_eqb_true; exact E|].
    right. apply dget_in in G. apply (in_map fst) in G. exact G.
  - pose proof G as G'. apply dget_none in G'. rewrite dget_dput in G. destruct (nm_eqb x k) eqn:E; [discriminate G|].
    apply nm_eqb_false in E. apply dget_none in G. tauto.
Qed.
Lemma dput_nodup : forall (d : dict) k v, NoDup (names d) -> NoDup (names (dput k v d)).
Proof.
  induction d as [|e d IH]; intros k v N; cbn.
  - constructor; [intros [] | constructor].
  - inversion_clear N as [|? ? N1 N2]. destruct (nm_eqb k (fst e)) eqn:E; cbn.
    + constructor; assumption.
    + constructor; [|apply IH; exact N2]. intros I. apply dput_names in I. destruct I as [I|I]; [|exact (N1 I)].
      apply nm_eqb_false in E. congruence.
Qed.
Lemma take_key_nodup : forall dst key (v : V) src i flags r x, NoDup (names r) ->
  take_key dst key v i src flags r = Ok x -> NoDup (names (snd x)).
Proof.
  intros dst key v. induction src as [|s src IH]; intros i flags r x N E.
  - cbn in E. injection E as <-. exact N.
  - destruct flags as [|f flags]; [injection E as <-; exact N|]. cbn [take_key] in E.
    destruct (find s key) as [a|].
    + destruct (nth_name dst i) as [d|]; [|discriminate E]. cbn [bind] in E.
      destruct (take_key dst key v (S i) src flags _) as [y|] eqn:T in E; [|discriminate E]. injection E as <-.
      exact (IH _ _ _ _ (dput_nodup _ _ _ N) T).
    + destruct (take_key dst key v (S i) src flags r) as [y|] eqn:T; [|discriminate E]. injection E as <-.
      exact (IH _ _ _ _ N T).
Qed.
Lemma take_all_nodup : forall src dst (ckpt : dict) flags r x, NoDup (names r) ->
  take_all src dst ckpt flags r = Ok x -> NoDup (names (snd x)).
Proof.
  intros src dst. induction ckpt as [|[key v] ckpt IH]; intros flags r x N E.
  - injection E as <-. exact N.
  - cbn [take_all] in E. destruct (take_key dst key v 0 src flags r) as [y|] eqn:T; [|discriminate E]. cbn [bind] in E.
    exact (IH _ _ _ (take_key_nodup _ _ _ _ _ _ _ _ N T) E).
Qed.
Lemma keep_key_nodup : forall dst key (v : V) flags i r x, NoDup (names r) -> keep_key dst key v i flags r = Ok x -> NoDup (names x).
Proof.
  intros dst key v. induction flags as [|f flags IH]; intros i r x N E.
  - injection E as <-. exact N.
  - cbn [keep_key] in E. destruct f; [exact (IH _ _ _ N E)|]. destruct (nth_name dst i) as [d|]; [|discriminate E].
    cbn [bind] in E. refine (IH _ _ _ _ E). destruct (starts d key); [apply dput_nodup|]; exact N.
Qed.
Lemma keep_all_nodup : forall dst (own : dict) flags r x, NoDup (names r) -> keep_all dst own flags r = Ok x -> NoDup (names x).
Proof.
  intros dst. induction own as [|[key v] own IH]; intros flags r x N E.
  - injection E as <-. exact N.
  - cbn [keep_all] in E. destruct (keep_key dst key v 0 flags r) as [y|] eqn:K; [|discriminate E]. cbn [bind] in E.
    exact (IH _ _ _ (keep_key_nodup _ _ _ _ _ _ _ N K) E).
Qed.
Lemma extract_nodup : forall (own ckpt : dict) p t r, extract own ckpt p t = Ok r -> NoDup (names r).
Proof.
  intros own ckpt p t r E. unfold extract in E.
  destruct (take_all _ _ ckpt _ []) as [x|] eqn:T; [|discriminate E]. cbn [bind] in E.
  refine (keep_all_nodup _ _ _ _ _ _ E). refine (take_all_nodup _ _ _ _ _ _ _ T). constructor.
Qed.

Lemma targets_joined : targets = joined [str "bert_encoder"; str "poolers.0"; str "downscale"].
Proof. reflexivity. Qed.
Lemma plain_targets : Forall plain [str "bert_encoder"; str "poolers.0"; str "downscale"].
Proof. repeat constructor; intros I; cbn in I; repeat (destruct I as [I|I]; [discriminate I|]); exact I. Qed.
Lemma plain_dot : forall p w, plain p -> plain (str w) -> plain (dot p w).
Proof. intros p w P W I. unfold dot in I. apply in_app_or in I. destruct I as [I|I]; [exact (P I) | exact (W I)]. Qed.

Ltac plain_str := intros I; cbn in I; repeat (destruct I as [I|I]; [discriminate I|]); exact I.
Lemma sources_ok : forall q p pairs, plain p -> pairs_of q p pairs ->
  exists srcs, sources p (Some q) = Ok (joined srcs) /\ Forall plain srcs /\ srcs <> [] /\ List.length srcs = 3
    /\ pairs = combine srcs [str "bert_encoder"; str "poolers.0"; str "downscale"].
Proof.
  intros q p pairs P H. unfold sources, pairs_of in *. rewrite <- contains_spec in H.
  destruct (contains (str "twinbert") p).
  - destruct H as [[_ ->]|[H _]]; [|destruct H; reflexivity]. destruct q.
    + exists [dot p ".qbert_sentencoder"; dot p ".qpooler"; dot p ".qdownscale"]. split.
      { f_equal. unfold dot, joined. repeat rewrite <- app_assoc. reflexivity. }
      repeat split; try discriminate. repeat constructor; apply plain_dot; try exact P; plain_str.
    + exists [dot p ".kbert_sentencoder"; dot p ".kpooler"; dot p ".kdownscale"]. split.
      { f_equal. unfold dot, joined. repeat rewrite <- app_assoc. reflexivity. }
      repeat split; try discriminate. repeat constructor; apply plain_dot; try exact P; plain_str.
  - destruct H as [[H _]|[_ ->]]; [discriminate H|].
    exists [p; str "qpooler"; str "qdownscale"]. split; [reflexivity|].
    repeat split; try discriminate. repeat constructor; try exact P; plain_str.
Qed.

Lemma last_read_exists : forall pairs (ckpt : dict) k, (exists v, last_read pairs ckpt k v) <-> exists key, In key (names ckpt) /\ reads pairs key k.
Proof.
  intros pairs ckpt k. split.
  - intros (v & bf & key & af & -> & R & _). exists key. split; [|exact R]. unfold names. rewrite map_app. apply in_or_app. right. left. reflexivity.
  - set (srcs := map fst pairs). set (dsts := map snd pairs).
    assert (C : combine srcs dsts = pairs).
    { unfold srcs, dsts. clear. induction pairs as [|[a b] l IH]; [reflexivity|]. cbn. rewrite IH. reflexivity. }
    assert (B : List.length srcs <= List.length dsts) by (unfold srcs, dsts; rewrite !map_length; lia).
    intros (key & I & R). destruct (newest dsts srcs ckpt k None) as [v|] eqn:E.
    + apply newest_spec in E; [|exact B]. rewrite C in E. destruct E as [E|[E _]]; [exists v; exact E | discriminate E].
    + exfalso. apply in_map_iff in I. destruct I as ([key' w] & <- & I). cbn in R.
      assert (H : hits dsts key' k 0 srcs = true) by (apply hits_reads; [exact B|]; cbn [skipn]; rewrite C; exact R).
      clear - E I H. unfold newest in E.
      assert (M : forall (l : dict) a, a <> None -> fold_left (fun acc e => if hits dsts (fst e) k 0 srcs then Some (snd e) else acc) l a <> None).
      { induction l as [|e l IH]; intros a Na; [exact Na|]. cbn. apply IH. destruct (hits dsts (fst e) k 0 srcs); [discriminate | exact Na]. }
      apply in_split in I. destruct I as (l1 & l2 & ->). rewrite fold_left_app in E. cbn [fold_left fst snd] in E. rewrite H in E.
      refine (M l2 (Some w) _ E). discriminate.
Qed.

Lemma kept_dec : forall (own ckpt : dict) srcs dsts k, srcs <> [] -> Forall plain srcs -> dsts <> [] -> Forall plain dsts ->
  List.length srcs <= List.length dsts -> NoDup (names own) -> kept (combine srcs dsts) own ckpt k \/ ~ kept (combine srcs dsts) own ckpt k.
Proof.
  intros own ckpt srcs dsts k N1 P1 N2 P2 B ND.
  assert (X : forall l, (exists s d, In (s, d) l /\ unused ckpt s /\ begins d k) \/ ~ (exists s d, In (s, d) l /\ unused ckpt s /\ begins d k)).
  { induction l as [|[s d] l IH]; [right; intros (? & ? & [] & _)|].
    destruct IH as [(s' & d' & I & H)|IH]; [left; exists s', d'; split; [right; exact I | exact H]|].
    destruct (starts d k) eqn:S0.
    - apply starts_spec in S0. destruct (existsb (contains s) (names ckpt)) eqn:U.
      + right. intros (s' & d' & [E|I] & Us & Bg); [|apply IH; exists s', d'; auto]. injection E as <- <-.
        apply existsb_exists in U. destruct U as (key & I & C). apply contains_spec in C. exact (Us key I C).
      + left. exists s, d. split; [left; reflexivity|]. split; [|exact S0]. intros key I C. apply contains_spec in C.
        assert (T : existsb (contains s) (names ckpt) = true) by (apply existsb_exists; exists key; auto). congruence.
    - right. intros (s' & d' & [E|I] & Us & Bg); [|apply IH; exists s', d'; auto]. injection E as <- <-.
      apply starts_spec in Bg. congruence. }
  destruct (X (combine srcs dsts)) as [H|H].
  - destruct (dget k own) eqn:G.
    + left. split; [|exact H]. apply dget_in in G. apply (in_map fst) in G. exact G.
    + right. intros [I _]. apply dget_none in G. exact (G I).
  - right. intros [_ H']. exact (H H').
Qed.

Lemma load_other_ok : forall fits (own ckpt : dict) q p pairs, plain p -> pairs_of q p pairs -> NoDup (names own) ->
  (forall r, load_other fits own ckpt p (Some q) = Ok r <->
     loadable fits pairs own ckpt /\ names r = names own /\ forall k v, In (k, v) r <-> wanted pairs own ckpt k v)
  /\ (~ loadable fits pairs own ckpt -> load_other fits own ckpt p (Some q) = Fail EAssert)
  /\ (loadable fits pairs own ckpt -> exists r, load_other fits own ckpt p (Some q) = Ok r).
Proof.
  intros fits own ckpt q p pairs P PO ND.
  destruct (sources_ok q p pairs P PO) as (srcs & Es & Ps & Ns & Ls & ->).
  set (dsts := [str "bert_encoder"; str "poolers.0"; str "downscale"]) in *.
  assert (B : List.length srcs <= List.length dsts) by (cbn; lia).
  destruct (extract_ok own ckpt srcs dsts Ns Ps ltac:(discriminate) plain_targets B ND) as (d & Ed & Gd).
  assert (L : load_other fits own ckpt p (Some q) = load_strict fits own d).
  { unfold load_other. rewrite Es. cbn [bind]. rewrite targets_joined. fold dsts. rewrite Ed. reflexivity. }
  assert (Nd : NoDup (names d)) by exact (extract_nodup _ _ _ _ _ Ed).
  set (pairs := combine srcs dsts) in *.
  assert (W : forall k v, In (k, v) d <-> wanted pairs own ckpt k v).
  { intros k v. unfold wanted. rewrite <- Gd. split; [apply dget_nodup; exact Nd | apply dget_in]. }
  assert (KD : forall k, kept pairs own ckpt k \/ ~ kept pairs own ckpt k)
    by (intros k; apply kept_dec; try assumption; [discriminate | exact plain_targets]).
  assert (NM : forall k, In k (names d) <-> kept pairs own ckpt k \/ exists key, In key (names ckpt) /\ reads pairs key k).
  { intros k. split.
    - intros I. apply in_map_iff in I. destruct I as ([k' v] & E & I). cbn in E. subst k'. apply W in I.
      destruct I as [[K _]|[_ R]]; [left; exact K|]. right. apply last_read_exists. exists v. exact R.
    - intros H. assert (X : exists v, wanted pairs own ckpt k v).
      { destruct (KD k) as [K|NK].
        - pose proof K as [I _]. apply in_map_iff in I. destruct I as ([k' v] & E & I). cbn in E. subst k'. exists v. left. split; assumption.
        - destruct H as [K|H]; [destruct (NK K)|]. apply last_read_exists in H. destruct H as (v & R). exists v. right. split; assumption. }
      destruct X as (v & X). apply W in X. apply (in_map fst) in X. exact X. }
  assert (LD : loadable fits pairs own ckpt <->
    (forall k, In k (names d) <-> In k (names own)) /\ (forall k v, In (k, v) d -> fits k v = true)).
  { unfold loadable. split.
    - intros (H1 & H2 & H3). split.
      + intros k. rewrite NM. split; [intros [K|(key & I & R)]; [exact (proj1 K) | exact (H2 key k I R)] | apply H1].
      + intros k v I. apply H3, W, I.
    - intros (H1 & H3). repeat split.
      + intros k I. apply NM, H1, I.
      + intros key k I R. apply H1, NM. right. exists key. split; assumption.
      + intros k v I. apply H3, W, I. }
  assert (R : forall r, load_other fits own ckpt p (Some q) = Ok r <->
     loadable fits pairs own ckpt /\ names r = names own /\ forall k v, In (k, v) r <-> wanted pairs own ckpt k v).
  { intros r. rewrite L, (load_strict_ok fits own d r ND Nd), LD. split.
    - intros (A & C & D & E). split; [split; assumption|]. split; [exact D|]. intros k v. rewrite E. apply W.
    - intros ([A C] & D & E). split; [exact A|]. split; [exact C|]. split; [exact D|]. intros k v. rewrite E. symmetry. apply W. }
  split; [exact R|]. rewrite LD. split.
  - intros NL. rewrite L. destruct (load_strict fits own d) as [r|e] eqn:E.
    + exfalso. apply NL. apply (load_strict_ok fits own d r ND Nd) in E. destruct E as (A & C & _). split; assumption.
    + apply load_strict_fail in E. congruence.
  - intros [H1 H3]. rewrite L. destruct (load_strict fits own d) as [r|e] eqn:E; [exists r; reflexivity|]. exfalso.
    assert (X : load_strict fits own d = Ok (map (fun e => (fst e, match dget (fst e) d with Some v => v | None => snd e end)) own)).
    { unfold load_strict in *.
      destruct (_ && _) eqn:C in |- *; [reflexivity|]. exfalso. apply andb_false_iff in C. destruct C as [C|C].
      - enough (T : forallb (fun e => match dget (fst e) d with Some _ => true | None => false end) own = true) by congruence.
        apply forallb_forall. intros x I. destruct (dget (fst x) d) eqn:G; [reflexivity|]. apply dget_none in G. destruct G.
        apply H1, in_map, I.
      - enough (T : forallb (fun e => match dget (fst e) own with Some _ => fits (fst e) (snd e) | None => false end) d = true) by congruence.
        apply forallb_forall. intros [k v] I. cbn. destruct (dget k own) eqn:G; [apply H3; exact I|]. apply dget_none in G. destruct G.
        apply H1. apply (in_map fst) in I. exact I. }
    congruence.
Qed.

Lemma load_intended : forall fits (own ckpt r : dict) q p pairs, plain p -> pairs_of q p pairs -> NoDup (names own) -> NoDup (names ckpt) ->
  unambiguous pairs own ckpt -> load_other fits own ckpt p (Some q) = Ok r ->
  forall k, (forall key v, In (key, v) ckpt -> reads pairs key k -> In (k, v) r)
         /\ (forall v, In (k, v) own -> (forall key, In key (names ckpt) -> ~ reads pairs key k) -> In (k, v) r).
Proof.
  intros fits own ckpt r q p pairs P PO ND NC (U1 & U2) E k.
  destruct (load_other_ok fits own ckpt q p pairs P PO ND) as (R & _). apply R in E. destruct E as ((L1 & L2 & L3) & Nr & W). split.
  - intros key v I Rd. apply W. right.
    assert (Ik : In key (names ckpt)) by (apply (in_map fst) in I; exact I).
    split; [exact (U2 k key Ik Rd)|]. apply in_split in I. destruct I as (bf & af & ->). exists bf, key, af.
    repeat split; [exact Rd|]. intros key' I' Rd'.
    assert (E : key' = key).
    { apply (U1 k); [|exact Ik|exact Rd'|exact Rd]. unfold names. rewrite map_app. apply in_or_app. right. right. exact I'. }
    subst key'. unfold names in NC. rewrite map_app in NC. cbn in NC. apply NoDup_remove_2 in NC. apply NC. apply in_or_app. right. exact I'.
  - intros v I NR. apply W. left. split; [|exact I].
    destruct (L1 k) as [K|(key & Ik & Rd)]; [apply (in_map fst) in I; exact I | exact K | destruct (NR key Ik Rd)].
Qed.

Lemma load_unreachable : forall fits (own ckpt : dict) q p k, plain p -> NoDup (names own) -> In k (names own) ->
  ~ begins (str "bert_encoder") k -> ~ begins (str "poolers.0") k -> ~ begins (str "downscale") k ->
  load_other fits own ckpt p (Some q) = Fail EAssert.
Proof.
  intros fits own ckpt q p k P ND I N1 N2 N3.
  assert (PO : exists pairs, pairs_of q p pairs).
  { unfold pairs_of. destruct (contains (str "twinbert") p) eqn:C.
    - apply contains_spec in C. eexists. left. split; [exact C | reflexivity].
    - eexists. right. split; [|reflexivity]. intros C'. apply contains_spec in C'. congruence. }
  destruct PO as (pairs & PO).
  destruct (load_other_ok fits own ckpt q p pairs P PO ND) as (_ & F & _). apply F. intros (L1 & _).
  assert (D : forall s d, In (s, d) pairs -> ~ begins d k).
  { intros s d H. destruct PO as [[_ ->]|[_ ->]]; unfold twin_pairs, bert_pairs in H.
    - destruct q; repeat (destruct H as [H|H]; [injection H as <- <-; assumption|]); destruct H.
    - repeat (destruct H as [H|H]; [injection H as <- <-; assumption|]); destruct H. }
  destruct (L1 k I) as [(_ & s & d & H & _ & Bg)|(key & _ & s & d & rest & H & _ & E)].
  - exact (D s d H Bg).
  - apply (D s d H). exists rest. exact E.
Qed.

Lemma load_no_query : forall fits (own ckpt : dict) p, inside (str "twinbert") p -> load_other fits own ckpt p None = Fail EIndex.
Proof. intros fits own ckpt p I. apply contains_spec in I. unfold load_other, sources. rewrite I. reflexivity. Qed.
End P.
