(** Proofs about the migration of scripts. *)
From Verif Require Import Base FilesModel CkptModel CkptSpec CkptProofs MigrateModel MigrateSpec.
From Coq Require Import Ascii String Lia.
Import ListNotations.
Open Scope list_scope.

(** ** Occurrences *)
Lemma starts_app p b : starts p (p ++ b) = true.
Proof. apply starts_spec. now exists b. Qed.
Lemma split_at {A} (a b c d : list A) : a ++ b = c ++ d -> List.length a <= List.length c -> exists x, c = a ++ x /\ b = x ++ d.
Proof.
  revert c. induction a as [|x a IH]; intros c E L; [exists c; now split|]. destruct c as [|y c]; [cbn in L; lia|]. cbn in E. injection E as <- E.
  cbn in L. destruct (IH c E) as (z & -> & ->); [lia|]. exists z. now split.
Qed.
(** One word begins the other. *)
Definition compat (a b : nm) : bool := starts a b || starts b a.
Lemma compat_app a b x y : a ++ x = b ++ y -> compat a b = true.
Proof.
  intros E. unfold compat. destruct (Nat.le_ge_cases (List.length a) (List.length b)) as [L|L].
  - destruct (split_at a x b y E L) as (z & -> & _). rewrite starts_app. reflexivity.
  - destruct (split_at b y a x (eq_sym E) L) as (z & -> & _). rewrite starts_app. apply orb_true_r.
Qed.
(** An occurrence of [P] before [w] may reach into it; one may begin in [w]. *)
Definition clash (P w : nm) : bool := existsb (fun k => compat (skipn k P) w) (seq 1 (List.length P - 1)).
Definition meets (P w : nm) : bool := existsb (fun k => compat P (skipn k w)) (seq 0 (List.length w)).
Lemma existsb_seq f a n k : existsb f (seq a n) = false -> a <= k < a + n -> f k = false.
Proof.
  intros E L. destruct (f k) eqn:F; [|reflexivity]. assert (T : existsb f (seq a n) = true) by (apply existsb_exists; exists k; split; [apply in_seq; lia|exact F]). congruence.
Qed.
Lemma no_start P w p r : clash P w = false -> ~ inside P p -> p <> [] -> starts P (p ++ w ++ r) = false.
Proof.
  intros C N D. destruct (starts P (p ++ w ++ r)) eqn:S; [|reflexivity]. exfalso. apply starts_spec in S. destruct S as (b & E).
  destruct (Nat.le_gt_cases (List.length P) (List.length p)) as [L|L].
  - destruct (split_at P b p (w ++ r) (eq_sym E) L) as (z & -> & _). apply N. exists [], z. reflexivity.
  - destruct (split_at p (w ++ r) P b E) as (z & -> & E2); [lia|]. assert (K : compat (skipn (List.length p) (p ++ z)) w = true).
    { rewrite skipn_app, skipn_all, Nat.sub_diag. cbn [skipn List.app]. now apply (compat_app z w b r). }
    unfold clash in C. rewrite (existsb_seq _ _ _ (List.length p) C) in K; [discriminate|]. destruct p; [congruence|]. rewrite app_length in *. cbn in *. lia.
Qed.
Lemma no_start_in P w a b r : meets P w = false -> w = a ++ b -> b <> [] -> starts P (b ++ r) = false.
Proof.
  intros M E D. destruct (starts P (b ++ r)) eqn:S; [|reflexivity]. exfalso. apply starts_spec in S. destruct S as (y & E2).
  assert (K : compat P (skipn (List.length a) w) = true).
  { subst w. rewrite skipn_app, skipn_all, Nat.sub_diag. cbn [skipn List.app]. now apply (compat_app P b y r). }
  unfold meets in M. rewrite (existsb_seq _ _ _ (List.length a) M) in K; [discriminate|]. subst w. rewrite app_length. destruct b; [congruence|]. cbn. lia.
Qed.
Lemma not_inside_tail P c p : ~ inside P (c :: p) -> ~ inside P p.
Proof. intros N (a & b & ->). apply N. exists (c :: a), b. reflexivity. Qed.
Lemma not_inside_starts P p : ~ inside P p -> starts P p = false.
Proof. intros N. destruct (starts P p) eqn:S; [|reflexivity]. apply starts_spec in S. destruct S as (b & ->). destruct N. exists [], b. reflexivity. Qed.

(** ** replace *)
Lemma go_skip old new x r : forall k, k = List.length x -> go old new k (x ++ r) = go old new 0 r.
Proof. induction x as [|c x IH]; intros k ->; [reflexivity|]. cbn [List.length List.app go]. now apply IH. Qed.
Lemma go_hit old new r : old <> [] -> go old new 0 (old ++ r) = new ++ go old new 0 r.
Proof.
  intros N. destruct old as [|c o]; [congruence|]. cbn [List.app go]. change (c :: o ++ r) with ((c :: o) ++ r). rewrite starts_app. f_equal.
  apply go_skip. cbn. lia.
Qed.
Lemma go_pass old new r : forall x, (forall a b, x = a ++ b -> b <> [] -> starts old (b ++ r) = false) -> go old new 0 (x ++ r) = x ++ go old new 0 r.
Proof.
  induction x as [|c x IH]; intros H; [reflexivity|]. cbn [List.app go]. change (c :: x ++ r) with ((c :: x) ++ r). rewrite (H [] (c :: x)) by (reflexivity || discriminate). f_equal.
  apply IH. intros a b E D. apply (H (c :: a) b); [now rewrite E|exact D].
Qed.
Lemma go_free old new p : ~ inside old p -> go old new 0 p = p.
Proof.
  intros N. rewrite <- (app_nil_r p) at 1. rewrite go_pass; [cbn [go]; apply app_nil_r|].
  intros a b E D. rewrite app_nil_r. apply not_inside_starts. intros (u & v & ->). apply N. exists (a ++ u), v. rewrite E, <- app_assoc. reflexivity.
Qed.
Lemma go_piece old new w p r : clash old w = false -> ~ inside old p -> go old new 0 (p ++ w ++ r) = p ++ go old new 0 (w ++ r).
Proof.
  intros C N. apply go_pass. intros a b E D. apply no_start; [exact C| |exact D]. intros (u & v & ->). apply N. exists (a ++ u), v. rewrite E, <- app_assoc. reflexivity.
Qed.
Lemma go_word old new w r : meets old w = false -> go old new 0 (w ++ r) = w ++ go old new 0 r.
Proof. intros M. apply go_pass. intros a b E D. now apply (no_start_in old w a b). Qed.
Lemma glue_cons w p q ps : glue w (p :: q :: ps) = p ++ w ++ glue w (q :: ps).
Proof. reflexivity. Qed.
Lemma replace_glue old new : old <> [] -> clash old old = false -> forall ps, ps <> [] -> Forall (fun p => ~ inside old p) ps -> replace old new (glue old ps) = glue new ps.
Proof.
  intros N C. unfold replace. induction ps as [|p [|q ps] IH]; intros D F; [congruence|..]; inversion_clear F as [|? ? F1 F2].
  - cbn [glue]. now apply go_free.
  - rewrite !glue_cons. rewrite go_piece by assumption. rewrite go_hit by exact N. rewrite IH by (discriminate || assumption). reflexivity.
Qed.
Lemma unbordered_clash w : unbordered w -> clash w w = false.
Proof.
  intros U. destruct (clash w w) eqn:C; [|reflexivity]. exfalso. unfold clash in C. apply existsb_exists in C. destruct C as (k & I & C). apply in_seq in I.
  assert (S : exists x, w = skipn k w ++ x).
  { unfold compat in C. apply orb_prop in C. destruct C as [C|C]; apply starts_spec in C; destruct C as (b & E).
    - now exists b.
    - exfalso. apply (f_equal (@List.length ascii)) in E. rewrite skipn_length, app_length in E. lia. }
  destruct S as (x & E). destruct (U (firstn k w) (skipn k w) x) as [Z|Z]; [symmetry; apply firstn_skipn|exact E| |];
    apply (f_equal (@List.length ascii)) in Z; rewrite ?firstn_length, ?skipn_length in Z; cbn in Z; lia.
Qed.
Theorem replace_ok old new ps : old <> [] -> unbordered old -> ps <> [] -> Forall (fun p => ~ inside old p) ps -> replace old new (glue old ps) = glue new ps.
Proof. intros N U. apply replace_glue; [exact N|now apply unbordered_clash]. Qed.
Theorem pieces_of old : old <> [] -> forall s, exists ps, ps <> [] /\ s = glue old ps /\ Forall (fun p => ~ inside old p) ps.
Proof.
  intros N s. remember (List.length s) as n eqn:L. revert s L. induction n as [n IH] using lt_wf_ind. intros s ->.
  destruct (find old s) as [i|] eqn:F.
  - destruct (find_some _ _ _ F) as (a & b & E & La & M). destruct (IH (List.length b)) with (s := b) as (ps & D & Eb & G); [|reflexivity|].
    { rewrite E, !app_length. destruct old; [congruence|]. cbn. lia. }
    exists (a :: ps). split; [discriminate|]. split.
    + rewrite E. destruct ps as [|q ps]; [congruence|]. rewrite glue_cons, <- Eb. reflexivity.
    + constructor; [|exact G]. intros (u & v & Ea). subst a. specialize (M u (v ++ old ++ b)). rewrite E, <- !app_assoc in M. specialize (M eq_refl).
      rewrite !app_length in La. destruct old; [congruence|]. cbn in La. lia.
  - exists [s]. split; [discriminate|]. split; [reflexivity|]. constructor; [now apply find_none|constructor].
Qed.
Lemma inside_word P w a b : clash P w = false -> meets P w = false -> inside P (a ++ w ++ b) -> inside P a \/ inside P b.
Proof.
  intros C M (u & v & E). destruct (Nat.le_gt_cases (List.length a) (List.length u)) as [L|L].
  - destruct (split_at a (w ++ b) u (P ++ v) E L) as (z & -> & E2). destruct (Nat.le_gt_cases (List.length w) (List.length z)) as [L2|L2].
    + destruct (split_at w b z (P ++ v) E2 L2) as (y & -> & ->). right. now exists y, v.
    + exfalso. destruct (split_at z (P ++ v) w b (eq_sym E2)) as (y & -> & E3); [lia|].
      assert (S : starts P (y ++ b) = true) by (rewrite <- E3; apply starts_app).
      rewrite (no_start_in P (z ++ y) z y b M eq_refl) in S; [discriminate|]. intros ->. rewrite app_nil_r in L2. lia.
  - destruct (split_at u (P ++ v) a (w ++ b) (eq_sym E)) as (z & -> & E2); [lia|]. left.
    destruct (contains P z) eqn:K; [apply contains_spec in K; destruct K as (x & y & ->); exists (u ++ x), y; now rewrite <- app_assoc|].
    exfalso. assert (S : starts P (z ++ w ++ b) = true) by (rewrite <- E2; apply starts_app).
    rewrite (no_start P w z b C) in S; [discriminate| |].
    + rewrite <- contains_spec. congruence.
    + intros ->. rewrite app_nil_r in L. lia.
Qed.
Lemma inside_glue P w : P <> [] -> clash P w = false -> meets P w = false -> forall ps, inside P (glue w ps) -> exists p, In p ps /\ inside P p.
Proof.
  intros N C M. induction ps as [|p [|q ps] IH]; intros I.
  - destruct I as (a & b & E). cbn [glue] in E. apply (f_equal (@List.length ascii)) in E. rewrite !app_length in E. destruct P; [congruence|]. cbn in E. lia.
  - exists p. split; [now left|exact I].
  - rewrite glue_cons in I. destruct (inside_word P w p _ C M I) as [I1|I1]; [exists p; split; [now left|exact I1]|].
    destruct (IH I1) as (x & J & K). exists x. split; [now right|exact K].
Qed.
(** A word that is absent stays absent. *)
Lemma replace_none P old new s : P <> [] -> old <> [] -> clash old old = false -> clash P new = false -> meets P new = false -> inside P (replace old new s) -> inside P s /\ P <> old.
Proof.
  intros NP N U C M I. destruct (pieces_of old N s) as (ps & D & E & F). rewrite E, replace_glue in I by assumption.
  destruct (inside_glue P new NP C M ps I) as (p & J & K). split.
  - rewrite E. clear - J K. induction ps as [|x [|y ps] IH]; [destruct J|destruct J as [<-|[]]; exact K|].
    rewrite glue_cons. destruct J as [<-|J].
    + destruct K as (a & b & ->). exists a, (b ++ old ++ glue old (y :: ps)). now rewrite <- !app_assoc.
    + destruct (IH J) as (a & b & E). exists (x ++ old ++ a), b. rewrite E, <- !app_assoc. reflexivity.
  - intros ->. rewrite Forall_forall in F. exact (F p J K).
Qed.
Lemma replace_id old new s : ~ inside old s -> replace old new s = s.
Proof. apply go_free. Qed.

(** ** 0_1_57 *)
Definition W57 := str "get_feature_type".
Definition N57 := str "get_python_type".
Theorem text57_ok pasta s : (forall t t', pasta t = Some t' -> t' = t) -> pasta s <> None ->
  exists ps, ps <> [] /\ s = glue (str "get_feature_type") ps /\ Forall (fun p => ~ inside (str "get_feature_type") p) ps /\
    text57 pasta s = Some (glue (str "get_python_type") ps).
Proof.
  intros R D. destruct (pieces_of (str "get_feature_type")) with (s := s) as (ps & N & E & F); [discriminate|]. exists ps.
  split; [exact N|]. split; [exact E|]. split; [exact F|]. unfold text57. destruct (pasta s) as [t|] eqn:P; [|congruence]. apply R in P. subst t.
  cbn [option_map]. rewrite E. f_equal. now apply replace_glue.
Qed.
Theorem text57_done pasta s s' : text57 pasta s = Some s' -> ~ inside (str "get_feature_type") s'.
Proof.
  unfold text57. destruct (pasta s) as [t|]; [|discriminate]. cbn [option_map]. intros E. injection E as <-. intros I.
  apply replace_none in I; try discriminate; try reflexivity. destruct I as [_ I]. now apply I.
Qed.
Theorem text57_again pasta s s' s'' : (forall t t', pasta t = Some t' -> t' = t) -> text57 pasta s = Some s' -> text57 pasta s' = Some s'' -> s'' = s'.
Proof.
  intros R E E2. pose proof (text57_done _ _ _ E) as D. unfold text57 in E2. destruct (pasta s') as [t|] eqn:P; [|discriminate]. apply R in P. subst t.
  cbn [option_map] in E2. injection E2 as <-. now apply replace_id.
Qed.

(** ** 0_1_56 *)
Theorem types56_done s k : ~ inside (before k) (types56 s).
Proof.
  intros I. unfold types56 in I. destruct k;
    repeat (apply replace_none in I; try discriminate; try reflexivity; destruct I as [I Q]; try (exact (Q eq_refl)); clear Q).
Qed.
Definition stage (n : nat) (k : kind) : nm :=
  match k, n with Float, 0 => before k | Float, _ => now k | Int64, (0 | 1) => before k | Int64, _ => now k | Binary, (0 | 1 | 2) => before k | Binary, _ => now k end.
Lemma stage_step n k (old := before k) : (n, k) = (0, Float) \/ (n, k) = (1, Int64) \/ (n, k) = (2, Binary) ->
  forall l p, ~ inside (str "FeatureType.") p -> Forall (fun e => ~ inside (str "FeatureType.") (snd e)) l ->
  replace old (now k) (script (stage n) p l) = script (stage (S n)) p l.
Proof.
  intros H. assert (B : forall p, ~ inside (str "FeatureType.") p -> ~ inside old p).
  { intros p N (a & b & ->). apply N. unfold old, before. exists a, ((match k with Float => str "FLOAT" | Int64 => str "INT64" | Binary => str "BINARY" end) ++ b). now rewrite <- app_assoc. }
  unfold replace. induction l as [|[j q] l IH]; intros p N F; cbn [script]; [apply go_free; now apply B|]. inversion_clear F as [|? ? F1 F2].
  rewrite go_piece; [|destruct H as [H|[H|H]]; injection H as -> ->; destruct j; reflexivity|now apply B]. f_equal.
  cbn [snd] in F1. rewrite <- (IH q F1 F2). clear IH N F1 F2.
  assert (D : (j = k /\ stage n j = old /\ stage (S n) j = now k) \/ (meets old (stage n j) = false /\ stage (S n) j = stage n j)).
  { destruct H as [H|[H|H]]; injection H as -> ->; destruct j; (left; repeat split; reflexivity) || (right; split; reflexivity). }
  destruct D as [(_ & -> & ->)|(M & ->)].
  - apply go_hit. unfold old, before. discriminate.
  - now apply go_word.
Qed.
Theorem types56_ok p l : ~ inside (str "FeatureType.") p -> Forall (fun e => ~ inside (str "FeatureType.") (snd e)) l ->
  types56 (script before p l) = script now p l.
Proof.
  intros N F. unfold types56. assert (E : forall f g p l, (forall k, f k = g k) -> script f p l = script g p l).
  { intros f g q m H. revert q. induction m as [|[k r] m IH]; intros q; cbn [script]; [reflexivity|]. now rewrite H, IH. }
  rewrite (E before (stage 0)) by (intros []; reflexivity). rewrite (E now (stage 3)) by (intros []; reflexivity).
  change (str "FeatureType.FLOAT") with (before Float). change (str "np.float32") with (now Float). rewrite (stage_step 0 Float) by tauto.
  change (str "FeatureType.INT64") with (before Int64). change (str "np.int64") with (now Int64). rewrite (stage_step 1 Int64) by tauto.
  change (str "FeatureType.BINARY") with (before Binary). change (str "np.uint8") with (now Binary). rewrite (stage_step 2 Binary) by tauto. reflexivity.
Qed.
Theorem names56_import a b : ~ inside (str "dtype_temp") a -> ~ inside (str "dtype_temp") b ->
  names56 (a ++ str "from numpy import dtype_temp" ++ b) = a ++ str "import numpy as np" ++ b.
Proof.
  intros A B. assert (L : forall s, ~ inside (str "dtype_temp") s -> ~ inside (str "from numpy import dtype_temp") s).
  { intros s N (u & v & ->). apply N. exists (u ++ str "from numpy import "), v. now rewrite <- !app_assoc. }
  unfold names56. change (a ++ str "from numpy import dtype_temp" ++ b) with (glue (str "from numpy import dtype_temp") [a; b]).
  rewrite replace_glue; [|discriminate|reflexivity|discriminate|repeat constructor; now apply L]. cbn [glue].
  apply replace_id. intros I. apply inside_word in I; try reflexivity. tauto.
Qed.
Theorem names56_uses ps : ps <> [] -> Forall (fun p => ~ inside (str "dtype_temp") p /\ ~ inside (str "from numpy import ") p) ps ->
  names56 (glue (str "dtype_temp") ps) = glue (str "np.dtype") ps.
Proof.
  intros D F. unfold names56. rewrite (replace_id (str "from numpy import dtype_temp")).
  - apply replace_glue; [discriminate|reflexivity|exact D|]. eapply Forall_impl; [|exact F]. now intros p [H _].
  - intros (a & b & E). assert (I : inside (str "from numpy import ") (glue (str "dtype_temp") ps)) by (exists a, (str "dtype_temp" ++ b); rewrite E; reflexivity).
    apply inside_glue in I; try reflexivity; [|discriminate]. destruct I as (p & J & K). rewrite Forall_forall in F. destruct (F p J) as [_ H]. contradiction.
Qed.
Theorem text56_ok renamed p l : let s := script now p l in ~ inside (str "FeatureType.") p -> Forall (fun e => ~ inside (str "FeatureType.") (snd e)) l ->
  renamed s = Some s -> ~ inside (str "dtype_temp") s -> text56 renamed (script before p l) = Some s.
Proof.
  intros s N F R D. unfold text56. rewrite types56_ok by assumption. fold s. rewrite R. cbn [option_map]. f_equal. unfold names56.
  assert (L : ~ inside (str "from numpy import dtype_temp") s) by (intros (u & v & E); apply D; exists (u ++ str "from numpy import "), v; rewrite E, <- !app_assoc; reflexivity).
  rewrite (replace_id _ _ s L). now apply replace_id.
Qed.

(** ** Ends of lines *)
Lemma eqb_cr c : Ascii.eqb c cr = true <-> c = ascii_of_nat 13.
Proof. rewrite Ascii.eqb_eq. reflexivity. Qed.
Lemma universal_id s : unix s -> universal s = s.
Proof.
  induction s as [|c s IH]; intros U; [reflexivity|]. cbn [universal]. destruct (Ascii.eqb c cr) eqn:E.
  - apply eqb_cr in E. destruct U. left. exact E.
  - f_equal. apply IH. intros I. apply U. right. exact I.
Qed.
Lemma universal_unix s : unix (universal s).
Proof.
  remember (List.length s) as n eqn:L. revert s L. induction n as [n IH] using lt_wf_ind. intros s -> I. destruct s as [|c s]; [destruct I|]. cbn [universal] in I.
  destruct (Ascii.eqb c cr) eqn:E.
  - destruct s as [|d s]; [destruct I as [I|[]]; discriminate I|]. destruct (Ascii.eqb d lf).
    + destruct I as [I|I]; [discriminate I|]. revert I. apply (IH (List.length s)); [cbn; lia|reflexivity].
    + destruct I as [I|I]; [discriminate I|]. revert I. apply (IH (List.length (d :: s))); [cbn; lia|reflexivity].
  - destruct I as [I|I]; [apply (proj2 (eqb_cr c)) in I; congruence|]. revert I. apply (IH (List.length s)); [cbn; lia|reflexivity].
Qed.
Lemma universal_app a r : unix a -> universal (a ++ r) = a ++ universal r.
Proof.
  induction a as [|c a IH]; intros U; [reflexivity|]. cbn [universal List.app]. destruct (Ascii.eqb c cr) eqn:E.
  - apply eqb_cr in E. destruct U. left. exact E.
  - f_equal. apply IH. intros I. apply U. right. exact I.
Qed.
Theorem universal_crlf ls : Forall unix ls -> universal (glue [ascii_of_nat 13; ascii_of_nat 10] ls) = glue [ascii_of_nat 10] ls.
Proof.
  induction ls as [|a [|b ls] IH]; intros F; inversion_clear F as [|? ? F1 F2]; [reflexivity|cbn [glue]; now apply universal_id|].
  rewrite !glue_cons, universal_app by exact F1. f_equal. rewrite <- (IH F2). reflexivity.
Qed.

(** ** Directories *)
Lemma py_spec name : py name = true <-> is_script name.
Proof.
  unfold py, is_script. rewrite starts_spec. split.
  - intros (b & E). exists (rev b). apply (f_equal (@rev ascii)) in E. now rewrite rev_app_distr, !rev_involutive in E.
  - intros (a & ->). exists (rev a). apply rev_app_distr.
Qed.
Theorem run_ok text : forall l l', run text l = (l', None) -> Forall2 (migrated text) l l'.
Proof.
  induction l as [|[n x] t IH]; intros l' E; cbn [run] in E; [injection E as <-; constructor|].
  destruct (py n) eqn:P.
  - destruct x as [s|]; [|discriminate]. destruct (text (universal s)) as [s'|] eqn:T; [|discriminate]. destruct (run text t) as [t' e]. injection E as <- ->.
    constructor; [|now apply IH]. split; [reflexivity|]. right. split; [now apply py_spec|]. exists s, s'. repeat split; auto.
  - destruct (run text t) as [t' e]. injection E as <- ->. constructor; [|now apply IH]. split; [reflexivity|]. left. split; [|reflexivity].
    cbn [fst]. rewrite <- py_spec. congruence.
Qed.
Theorem run_stop text : forall l l' e, run text l = (l', Some e) -> exists done x rest done', l = done ++ x :: rest /\ l' = done' ++ x :: rest /\
  Forall2 (migrated text) done done' /\ stops text x.
Proof.
  induction l as [|[n x] t IH]; intros l' e E; cbn [run] in E; [discriminate|].
  destruct (py n) eqn:P.
  - destruct x as [s|].
    + destruct (text (universal s)) as [s'|] eqn:T.
      * destruct (run text t) as [t' e'] eqn:R. injection E as <- ->. destruct (IH _ _ eq_refl) as (d & y & r & d' & -> & -> & M & S).
        exists ((n, Text s) :: d), y, r, ((n, Text s') :: d'). split; [reflexivity|]. split; [reflexivity|]. split; [|exact S]. constructor; [|exact M]. split; [reflexivity|]. right.
        split; [now apply py_spec|]. exists s, s'. repeat split; auto.
      * injection E as <- <-. exists [], (n, Text s), t, []. split; [reflexivity|]. split; [reflexivity|]. split; [constructor|]. split; [now apply py_spec|]. right. exists s. now split.
    + injection E as <- <-. exists [], (n, Folder), t, []. split; [reflexivity|]. split; [reflexivity|]. split; [constructor|]. split; [now apply py_spec|]. now left.
  - destruct (run text t) as [t' e'] eqn:R. injection E as <- ->. destruct (IH _ _ eq_refl) as (d & y & r & d' & -> & -> & M & S).
    exists ((n, x) :: d), y, r, ((n, x) :: d'). split; [reflexivity|]. split; [reflexivity|]. split; [|exact S]. constructor; [|exact M]. split; [reflexivity|]. left. split; [|reflexivity].
    cbn [fst]. rewrite <- py_spec. congruence.
Qed.
Theorem run_total text l : Forall (fun e => ~ stops text e) l -> snd (run text l) = None.
Proof.
  intros F. destruct (run text l) as [l' [e|]] eqn:R; [|reflexivity]. exfalso. destruct (run_stop _ _ _ _ R) as (d & x & r & d' & -> & _ & _ & S).
  apply Forall_app in F. destruct F as [_ F]. inversion_clear F. contradiction.
Qed.
