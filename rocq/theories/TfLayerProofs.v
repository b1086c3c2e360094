From Coq Require Import Ascii String List Arith Bool Sorted Lia.
From Verif Require Import Base FilesModel FilesProofs TfLayerModel TfLayerSpec.
Import ListNotations.
Open Scope list_scope.

(** ** Names *)
Lemma last_sep {A} (c : A) : forall a b x y, ~ In c x -> ~ In c y ->
  a ++ c :: x = b ++ c :: y -> a = b /\ x = y.
Proof.
  induction a as [|d a IH]; intros [|e b] x y X Y H; simpl in H.
  - injection H as ->; auto.
  - injection H as <- ->. exfalso; apply X. rewrite in_app_iff; simpl; auto.
  - injection H as -> <-. exfalso; apply Y. rewrite in_app_iff; simpl; auto.
  - injection H as <- H. destruct (IH b x y X Y H) as [-> ->]; auto.
Qed.
Lemma digits_plain : forall u, ~ In "_"%char (digits u).
Proof. induction u; simpl; [tauto|..]; (intros [H|H]; [discriminate|tauto]). Qed.
Lemma auto_inj : forall k u k' u', k ++ "_"%char :: dec u = k' ++ "_"%char :: dec u' -> k = k' /\ u = u'.
Proof.
  intros k u k' u' H. apply last_sep in H; [|apply digits_plain|apply digits_plain].
  destruct H as [-> H]. split; [reflexivity|].
  apply (dec_inj u u' [] []); simpl; auto. now rewrite !app_nil_r.
Qed.
Lemma uid_next : forall c k k', uid (snd (next_uid c k)) k' = if nm_eqb k k' then S (uid c k) else uid c k'.
Proof. reflexivity. Qed.
Lemma eqb_nm : forall a b : nm, nm_eqb a b = true <-> a = b.
Proof. intros a b; unfold nm_eqb; destruct (list_eq_dec ascii_dec a b); split; congruence. Qed.
Lemma auto_of : forall cls c n, In n (fst (layer_names c (map (fun k => (k, None)) cls))) ->
  exists k u, n = k ++ "_"%char :: dec u /\ uid c k < u.
Proof.
  induction cls as [|x t IH]; intros c n H; simpl in H; [tauto|].
  set (c1 := (lower x, S (uid c (lower x))) :: c) in *.
  specialize (IH c1 n). destruct (layer_names c1 _) as [ns c2]; simpl in *.
  destruct H as [<-|H]; [eauto|].
  destruct (IH H) as (k & u & -> & L). exists k, u; split; [reflexivity|].
  destruct (nm_eqb (lower x) k) eqn:E; [|exact L]. apply eqb_nm in E; subst k. lia.
Qed.
Lemma auto_distinct : forall cls c, NoDup (fst (layer_names c (map (fun k => (k, None)) cls))).
Proof.
  induction cls as [|x t IH]; intros c; simpl; [constructor|].
  set (c1 := (lower x, S (uid c (lower x))) :: c).
  specialize (IH c1). pose proof (auto_of t c1) as A.
  destruct (layer_names c1 _) as [ns c2]; simpl in *. constructor; [|exact IH].
  intros H. destruct (A _ H) as (k & u & E & L). apply auto_inj in E. destruct E as [<- <-].
  destruct (nm_eqb (lower x) (lower x)) eqn:E; [lia|].
  assert (nm_eqb (lower x) (lower x) = true) by (apply eqb_nm; reflexivity). congruence.
Qed.
Lemma auto_number : forall cls c, NoDup (map lower cls) -> (forall x, In x cls -> uid c (lower x) = 0) ->
  fst (layer_names c (map (fun k => (k, None)) cls)) = map (fun x => lower x ++ str "_1") cls.
Proof.
  induction cls as [|x t IH]; intros c N H; simpl; [reflexivity|]. inversion N as [|? ? I N']; subst.
  rewrite (H x) by (simpl; auto).
  specialize (IH ((lower x, 1) :: c) N').
  destruct (layer_names _ _) as [ns c2]; simpl in *. f_equal. apply IH.
  intros y Y. destruct (nm_eqb (lower x) (lower y)) eqn:E; [|apply H; auto].
  apply eqb_nm in E. exfalso; apply I. rewrite E. apply in_map; exact Y.
Qed.
Lemma explicit_kept : forall l c i n k, nth_error l i = Some (k, Some n) ->
  nth_error (fst (layer_names c l)) i = Some n.
Proof.
  induction l as [|[k m] t IH]; intros c [|i] n k0 H; simpl in *; try discriminate.
  - injection H as -> ->. simpl. destruct (layer_names c t); reflexivity.
  - destruct (layer_name c k m) as [x c1]. specialize (IH c1 i n k0 H).
    destruct (layer_names c1 t); exact IH.
Qed.

Lemma lower_ok : forall c,
  match find (fun p => Ascii.eqb (fst p) c) (combine upper_letters lower_letters) with
  | Some (_, d) => lower [c] = [d]
  | None => lower [c] = [c]
  end.
Proof. intros [[|] [|] [|] [|] [|] [|] [|] [|]]; vm_compute; reflexivity. Qed.

(** ** Variables *)
Section Calls.
Variable name : nat -> nm.
Variable vars : nat -> list nm.
Definition all_vars (ls : list nat) : list nm := concat (map (fun l => map (fun v => name l ++ "/"%char :: v) (vars l)) ls).

Lemma exists_nm : forall n g, existsb (nm_eqb n) g = true <-> In n g.
Proof.
  intros n g; rewrite existsb_exists; split.
  - intros (x & I & E). apply eqb_nm in E; subst; exact I.
  - intros I; exists n; split; [exact I|apply eqb_nm; reflexivity].
Qed.
Lemma var_inj : forall a v b w, ~ In "/"%char v -> ~ In "/"%char w ->
  var_name name a v = var_name name b w -> name a = name b /\ v = w.
Proof. intros a v b w X Y H; apply last_sep in H; assumption. Qed.
Lemma build_ok : forall l vs g, plain_vars vs -> (forall v, In v vs -> ~ In (var_name name l v) g) ->
  build name l vs g = Some (g ++ map (var_name name l) vs).
Proof.
  intros l; induction vs as [|v t IH]; intros g [N P] H; simpl; [now rewrite app_nil_r|].
  inversion N as [|? ? I N']; subst. unfold get_variable.
  destruct (existsb (nm_eqb (var_name name l v)) g) eqn:E.
  - apply exists_nm in E. exfalso; apply (H v); simpl; auto.
  - rewrite IH.
    + now rewrite <- app_assoc.
    + split; [exact N'|]. intros w W; apply P; simpl; auto.
    + intros w W. rewrite in_app_iff. intros [K|[K|[]]].
      * apply (H w); simpl; auto.
      * apply var_inj in K; [|apply P; simpl; auto..]. destruct K as [_ ->]. auto.
Qed.
Lemma build_mono : forall l vs g g', build name l vs g = Some g' ->
  (forall n, In n g -> In n g') /\ forall v, In v vs -> In (var_name name l v) g'.
Proof.
  intros l; induction vs as [|v t IH]; intros g g' H; simpl in H.
  - injection H as <-. split; [auto|]. intros v [].
  - unfold get_variable in H. destruct (existsb _ g); [discriminate|].
    apply IH in H. destruct H as [A B]. split.
    + intros n I. apply A. rewrite in_app_iff; auto.
    + intros w [<-|W]; [|auto]. apply A. rewrite in_app_iff; simpl; auto.
Qed.
Lemma build_clash : forall l vs v g, In v vs -> In (var_name name l v) g -> build name l vs g = None.
Proof.
  intros l; induction vs as [|w t IH]; intros v g K G; simpl in K; [tauto|].
  simpl; unfold get_variable. destruct K as [->|I].
  - apply exists_nm in G. rewrite G. reflexivity.
  - destruct (existsb _ g); [reflexivity|]. apply (IH v); [exact I|]. rewrite in_app_iff; auto.
Qed.
Lemma all_vars_in : forall ls n, In n (all_vars ls) <-> exists l v, In l ls /\ In v (vars l) /\ n = var_name name l v.
Proof.
  intros ls n; unfold all_vars. rewrite in_concat. split.
  - intros (x & X & I). apply in_map_iff in X. destruct X as (l & <- & L).
    apply in_map_iff in I. destruct I as (v & <- & W). exists l, v; auto.
  - intros (l & v & L & W & ->). exists (map (fun v => name l ++ "/"%char :: v) (vars l)). split.
    + apply in_map_iff. exists l; split; [reflexivity|exact L].
    + apply in_map_iff. exists v; split; [reflexivity|exact W].
Qed.
Lemma all_vars_app : forall a b, all_vars (a ++ b) = all_vars a ++ all_vars b.
Proof. intros a b; unfold all_vars; now rewrite map_app, concat_app. Qed.
Lemma exists_nat : forall l b, existsb (Nat.eqb l) b = true <-> In l b.
Proof.
  intros l b; rewrite existsb_exists; split.
  - intros (x & I & E). apply Nat.eqb_eq in E; subst; exact I.
  - intros I; exists l; split; [exact I|apply Nat.eqb_refl].
Qed.
Lemma calls_from : forall ls built,
  (forall a b, In a (built ++ ls) -> In b (built ++ ls) -> name a = name b -> a = b) ->
  (forall l, In l (built ++ ls) -> plain_vars (vars l)) -> NoDup built ->
  exists built', calls name vars ls (built, all_vars built) = Some (built', all_vars built')
  /\ NoDup built' /\ forall l, In l built' <-> In l built \/ In l ls.
Proof.
  induction ls as [|l t IH]; intros built U P N; simpl.
  - exists built. split; [reflexivity|]. split; [exact N|]. intros; tauto.
  - destruct (existsb (Nat.eqb l) built) eqn:E.
    + apply exists_nat in E. destruct (IH built) as (b' & C & N' & I); auto.
      * intros a b A B; apply U; rewrite in_app_iff in *; simpl; tauto.
      * intros a A; apply P; rewrite in_app_iff in *; simpl; tauto.
      * exists b'. split; [exact C|]. split; [exact N'|]. intros x; rewrite I.
        split; intros [K|K]; auto. destruct K as [<-|K]; auto.
    + assert (NL : ~ In l built) by (intros K; apply exists_nat in K; congruence).
      rewrite build_ok.
      * replace (all_vars built ++ map (var_name name l) (vars l)) with (all_vars (built ++ [l]))
          by (rewrite all_vars_app; unfold all_vars at 2; simpl; rewrite app_nil_r; reflexivity).
        destruct (IH (built ++ [l])) as (b' & C & N' & I).
        -- intros a b A B; apply U; repeat rewrite in_app_iff in *; simpl in *; tauto.
        -- intros a A; apply P; repeat rewrite in_app_iff in *; simpl in *; tauto.
        -- apply NoDup_rev in N. rewrite <- (rev_involutive (built ++ [l])). apply NoDup_rev.
           rewrite rev_app_distr. simpl. constructor; [rewrite <- in_rev; exact NL|exact N].
        -- exists b'. split; [exact C|]. split; [exact N'|]. intros x; rewrite I, in_app_iff; simpl; tauto.
      * apply P. rewrite in_app_iff; simpl; auto.
      * intros v W K. apply all_vars_in in K. destruct K as (a & w & A & W' & K).
        assert (PL : plain_vars (vars l)) by (apply P; rewrite in_app_iff; simpl; auto).
        assert (PA : plain_vars (vars a)) by (apply P; rewrite in_app_iff; simpl; auto).
        apply var_inj in K; [|apply PL; exact W|apply PA; exact W']. destruct K as [K _].
        apply NL. rewrite (U l a); auto; rewrite in_app_iff; simpl; auto.
Qed.
Lemma calls_once : forall ls,
  (forall a b, In a ls -> In b ls -> name a = name b -> a = b) ->
  (forall l, In l ls -> plain_vars (vars l)) ->
  exists built g, calls name vars ls ([], []) = Some (built, g)
  /\ NoDup built /\ (forall l, In l built <-> In l ls) /\ NoDup g
  /\ forall n, In n g <-> exists l v, In l ls /\ In v (vars l) /\ n = name l ++ "/"%char :: v.
Proof.
  intros ls U P. destruct (calls_from ls [] U P (NoDup_nil _)) as (b & C & N & I).
  exists b, (all_vars b). split; [exact C|]. split; [exact N|].
  assert (I' : forall l, In l b <-> In l ls) by (intros l; rewrite I; simpl; tauto).
  split; [exact I'|]. split.
  - assert (U' : forall x y, In x b -> In y b -> name x = name y -> x = y)
      by (intros x y X Y; apply U; apply I'; assumption).
    assert (P' : forall x, In x b -> plain_vars (vars x)) by (intros x X; apply P, I', X).
    clear C I I' U P. induction b as [|l t IH]; [constructor|].
    inversion N as [|? ? NL N']; subst. change (l :: t) with ([l] ++ t). rewrite all_vars_app.
    assert (T : NoDup (all_vars t)).
    { apply IH; [exact N'| |].
      - intros x y X Y; apply U'; simpl; auto.
      - intros x X; apply P'; simpl; auto. }
    unfold all_vars at 1; simpl. rewrite app_nil_r.
    destruct (P' l (or_introl eq_refl)) as [D S].
    assert (D' : forall v, In v (vars l) -> ~ In (var_name name l v) (all_vars t)).
    { intros v W K. apply all_vars_in in K. destruct K as (a & w & A & W' & K).
      destruct (P' a (or_intror A)) as [_ S']. apply var_inj in K; auto. destruct K as [K _].
      apply NL. rewrite (U' l a); simpl; auto. }
    clear IH N NL P' U'. induction (vars l) as [|v vs IHv]; simpl; [exact T|].
    inversion D as [|? ? NV D2]; subst. constructor.
    + rewrite in_app_iff. intros [K|K]; [|apply (D' v); simpl; auto].
      apply in_map_iff in K. destruct K as (w & K & W). apply (var_inj l w l v) in K; [|apply S; simpl; auto..].
      destruct K as [_ ->]. auto.
    + apply IHv; auto; intros w W; [apply S|apply D']; simpl; auto.
  - intros n. rewrite all_vars_in. split; intros (l & v & L & R); exists l, v; (split; [apply I'; exact L|exact R]).
Qed.
Lemma calls_clash : forall a b v, a <> b -> name a = name b -> In v (vars a) -> In v (vars b) ->
  forall t, calls name vars (a :: b :: t) ([], []) = None.
Proof.
  intros a b v NE E A B t. simpl. destruct (build name a (vars a) []) as [g|] eqn:G; [|reflexivity].
  simpl. destruct (Nat.eqb_spec b a) as [K|_]; [congruence|]. simpl.
  rewrite (build_clash b (vars b) v g); [reflexivity|exact B|].
  apply build_mono in G. destruct G as [_ G]. unfold var_name. rewrite <- E. apply G, A.
Qed.
End Calls.

(** ** Dense *)
Lemma concat_length {V} : forall (L : list (list V)) n, Forall (fun l => length l = n) L -> length (concat L) = length L * n.
Proof.
  induction 1 as [|l L E H IH]; simpl; [reflexivity|]. rewrite app_length, E, IH. reflexivity.
Qed.
Lemma nth_map : forall {A B} (f : A -> B) l i d d', i < length l -> nth i (map f l) d = f (nth i l d').
Proof. intros A B f l i d d' H. rewrite nth_indep with (d' := f d') by (now rewrite map_length). apply map_nth. Qed.
Section Values.
Context {V : Type}.
Variable dot : list V -> list V -> V.
Variable add : V -> V -> V.
Variable act : V -> V.
Variable dflt : V.
Implicit Types data bias o : list V.

Lemma prod_size : forall s, prod s = size s.
Proof. reflexivity. Qed.
Lemma rows_length : forall r w data, length (rows r w data) = r.
Proof. induction r as [|r IH]; intros w data; simpl; [reflexivity|]. now rewrite IH. Qed.
Lemma skipn_add : forall a b data, skipn a (skipn b data) = skipn (b + a) data.
Proof.
  intros a b; induction b as [|b IH]; intros data; [reflexivity|].
  destruct data; simpl; [now rewrite skipn_nil|]. apply IH.
Qed.
Lemma rows_nth : forall r w data i, i < r -> nth i (rows r w data) [] = slice i w data.
Proof.
  induction r as [|r IH]; intros w data i H; [lia|]. destruct i as [|i]; [reflexivity|].
  simpl. rewrite IH by lia. unfold slice. rewrite skipn_add. reflexivity.
Qed.
Lemma concat_nth : forall (L : list (list V)) n i j, Forall (fun l => length l = n) L ->
  i < length L -> j < n -> nth (i * n + j) (concat L) dflt = nth j (nth i L []) dflt.
Proof.
  induction L as [|l L IH]; intros n i j H I J; simpl in I; [lia|].
  inversion H as [|? ? E H']; subst. simpl. destruct i as [|i].
  - simpl. rewrite app_nth1 by lia. reflexivity.
  - rewrite app_nth2 by (simpl; lia). replace (S i * length l + j - length l) with (i * length l + j) by (simpl; lia).
    apply IH; auto; lia.
Qed.
Lemma matmul_rows : forall r w data kernel,
  Forall (fun l => length l = length kernel) (map (fun row => map (dot row) kernel) (rows r w data)).
Proof. intros. apply Forall_forall. intros l H. apply in_map_iff in H. destruct H as (x & <- & _). apply map_length. Qed.
Lemma matmul_length : forall r w data kernel, length (matmul dot r w data kernel) = r * length kernel.
Proof.
  intros. unfold matmul. rewrite (concat_length _ (length kernel)) by apply matmul_rows.
  now rewrite map_length, rows_length.
Qed.
Lemma matmul_nth : forall r w data kernel i j, i < r -> j < length kernel ->
  nth (i * length kernel + j) (matmul dot r w data kernel) dflt = dot (slice i w data) (nth j kernel []).
Proof.
  intros r w data kernel i j I J. unfold matmul.
  rewrite concat_nth; [|apply matmul_rows|rewrite map_length, rows_length; exact I|exact J].
  rewrite (nth_map _ _ i [] []) by (rewrite rows_length; exact I).
  rewrite rows_nth by exact I. apply nth_map; exact J.
Qed.
Lemma slice_length : forall r w data i, length data = r * w -> i < r -> length (slice i w data) = w.
Proof. intros r w data i L I. unfold slice. rewrite firstn_length, skipn_length. nia. Qed.
Lemma slice_nth : forall w data i j, j < w -> nth j (slice i w data) dflt = nth (i * w + j) data dflt.
Proof.
  intros w data i j J. unfold slice. rewrite <- (firstn_skipn (i * w) data) at 2.
  destruct (Nat.le_gt_cases (i * w) (length data)) as [L|L].
  - rewrite app_nth2; rewrite firstn_length; [|lia]. replace (i * w + j - Nat.min (i * w) (length data)) with j by lia.
    generalize (skipn (i * w) data). clear L i data. intros l. revert j J l.
    induction w as [|w IH]; intros j J l; [lia|]. destruct l; [reflexivity|]. destruct j; [reflexivity|].
    simpl. apply IH; lia.
  - rewrite skipn_all2 by lia. rewrite firstn_nil, app_nil_r.
    rewrite !nth_overflow; [reflexivity|rewrite firstn_length; lia|simpl; lia].
Qed.
Lemma bias_rows : forall r dim o bias, length o = r * dim -> length bias = dim ->
  Forall (fun l => length l = dim) (map (fun row => map (fun p => add (fst p) (snd p)) (combine row bias)) (rows r dim o)).
Proof.
  intros r dim o bias L B. apply Forall_forall. intros l H. apply in_map_iff in H. destruct H as (x & <- & X).
  apply In_nth with (d := []) in X. destruct X as (i & I & <-). rewrite rows_length in I.
  rewrite rows_nth by exact I. rewrite map_length, combine_length, (slice_length r) by auto. lia.
Qed.
Lemma bias_length : forall r dim o bias, length o = r * dim -> length bias = dim ->
  length (bias_add add r dim o bias) = r * dim.
Proof.
  intros r dim o bias L B. unfold bias_add. rewrite (concat_length _ dim) by (apply bias_rows; auto).
  now rewrite map_length, rows_length.
Qed.
Lemma bias_nth : forall r dim o bias i j, length o = r * dim -> length bias = dim -> i < r -> j < dim ->
  nth (i * dim + j) (bias_add add r dim o bias) dflt = add (nth (i * dim + j) o dflt) (nth j bias dflt).
Proof.
  intros r dim o bias i j L B I J. unfold bias_add.
  rewrite concat_nth; [|apply bias_rows; auto|rewrite map_length, rows_length; exact I|exact J].
  rewrite (nth_map _ _ i [] []) by (rewrite rows_length; exact I).
  rewrite rows_nth by exact I.
  rewrite (nth_map _ _ j dflt (dflt, dflt)) by (rewrite combine_length, (slice_length r) by auto; lia).
  rewrite combine_nth by (rewrite (slice_length r) by auto; lia). simpl.
  rewrite slice_nth by exact J. reflexivity.
Qed.

Lemma removelast_snoc : forall (s : list nat) x, removelast (s ++ [x]) = s.
Proof. intros s x. rewrite removelast_app by discriminate. simpl. apply app_nil_r. Qed.
Lemma dense_core : forall w kernel b a shape data, 2 <= length shape -> last shape 0 = w ->
  dense dot add act w kernel b a shape data =
  let r := size (removelast shape) in
  let o := matmul dot r w data kernel in
  let o := match b with Some b => bias_add add r (length kernel) o b | None => o end in
  Some (removelast shape ++ [length kernel], if a then map act o else o).
Proof.
  intros w kernel b a shape data R L. unfold dense. rewrite L, Nat.eqb_refl. cbn [negb].
  destruct (Nat.ltb_spec 2 (length shape)) as [H|H].
  - rewrite removelast_snoc. reflexivity.
  - destruct shape as [|r [|x [|? ?]]]; simpl in R, H; try lia.
    simpl. rewrite Nat.mul_1_r. reflexivity.
Qed.
Lemma dense_spec : forall w kernel b a shape data, 2 <= length shape -> last shape 0 = w ->
  match b with Some b => length b = length kernel | None => True end ->
  let r := size (removelast shape) in
  exists o, dense dot add act w kernel b a shape data = Some (removelast shape ++ [length kernel], o)
  /\ length o = r * length kernel
  /\ forall i j, i < r -> j < length kernel ->
     nth (i * length kernel + j) o dflt =
     let x := dot (slice i w data) (nth j kernel []) in
     let x := match b with Some b => add x (nth j b dflt) | None => x end in
     if a then act x else x.
Proof.
  intros w kernel b a shape data R L B r. rewrite dense_core by assumption. fold r. cbv zeta.
  eexists; split; [reflexivity|].
  set (o := match b with Some _ => _ | None => _ end).
  assert (LO : length o = r * length kernel).
  { unfold o; destruct b; [apply bias_length; [apply matmul_length|exact B]|apply matmul_length]. }
  split; [destruct a; [now rewrite map_length|exact LO]|]. intros i j I J.
  assert (X : nth (i * length kernel + j) o dflt =
     match b with Some b => add (dot (slice i w data) (nth j kernel [])) (nth j b dflt)
     | None => dot (slice i w data) (nth j kernel []) end).
  { unfold o; destruct b; [|apply matmul_nth; auto].
    rewrite bias_nth by (auto using matmul_length). rewrite matmul_nth by auto. reflexivity. }
  destruct a; [|exact X]. rewrite (nth_map act _ _ dflt dflt) by nia. now rewrite X.
Qed.
Lemma dense_rejects : forall w kernel b a shape data,
  dense dot add act w kernel b a shape data = None <-> length shape < 2 \/ last shape 0 <> w.
Proof.
  intros w kernel b a shape data; split; intros H.
  - destruct (Nat.eq_dec (last shape 0) w) as [E|E]; [|auto].
    destruct (Nat.lt_ge_cases (length shape) 2) as [K|K]; [auto|].
    rewrite dense_core in H by assumption. discriminate.
  - unfold dense. destruct (Nat.eqb_spec (last shape 0) w) as [E|E]; [|reflexivity].
    destruct H as [H|H]; [|congruence]. cbn [negb].
    destruct shape as [|r [|x ?]]; simpl in H; try lia; reflexivity.
Qed.

End Values.

(** ** Embedding *)
Section Embedding.
Context {V : Type}.
Lemma size_app : forall a b, size (a ++ b) = size a * size b.
Proof. induction a as [|x a IH]; intros b; simpl; [lia|]. unfold size in *. simpl. rewrite IH. lia. Qed.
Lemma unknown_cons : forall d t, unknown (d :: t) = match d with None => S (unknown t) | Some _ => unknown t end.
Proof. intros [x|] t; reflexivity. Qed.
Lemma known_all : forall t s, agrees t s -> unknown t = 0 -> known t = s.
Proof.
  induction 1 as [|d x t s D H IH]; intros U; [reflexivity|].
  rewrite unknown_cons in U. destruct D as [->| ->]; [discriminate|]. simpl. rewrite IH; auto.
Qed.
Lemma known_one : forall t s, agrees t s -> unknown t = 1 ->
  exists x, size s = prod (known t) * x /\ map (fun d => match d with Some y => y | None => x end) t = s.
Proof.
  induction 1 as [|d y t s D H IH]; intros U; [discriminate|].
  rewrite unknown_cons in U. destruct D as [->| ->].
  - injection U as U. exists y. pose proof (known_all t s H U) as K. simpl. rewrite K. split.
    + apply Nat.mul_comm.
    + f_equal. clear IH K. revert U. induction H as [|d z t s D H IH]; intros U; [reflexivity|].
      rewrite unknown_cons in U. destruct D as [->| ->]; [discriminate|]. simpl. rewrite IH; auto.
  - destruct (IH U) as (x & S & M). exists x. simpl. rewrite M. split; [|reflexivity].
    unfold size in *. simpl. rewrite S. fold (prod (known t)). lia.
Qed.
Lemma infer_ok : forall t s, agrees t s -> unknown t <= 1 -> (forall d, In (Some d) t -> 0 < d) ->
  infer (size s) t = Some s.
Proof.
  intros t s A U P. unfold infer. destruct (unknown t) as [|[|u]] eqn:E; [| |lia].
  - rewrite (known_all t s A E). rewrite prod_size, Nat.eqb_refl. reflexivity.
  - destruct (known_one t s A E) as (x & S & M).
    assert (Q : 0 < prod (known t)).
    { clear - P. induction t as [|[d|] t IH]; simpl; [unfold prod; simpl; lia| |].
      - unfold prod in *. simpl. specialize (P d (or_introl eq_refl)) as D.
        assert (0 < fold_right Nat.mul 1 (known t)) by (apply IH; intros e I; apply P; simpl; auto). nia.
      - apply IH; intros e I; apply P; simpl; auto. }
    destruct (Nat.eqb_spec (prod (known t)) 0) as [Z|Z]; [lia|].
    rewrite S. rewrite Nat.mul_comm, Nat.mod_mul, Nat.div_mul by lia. cbn [negb Nat.eqb]. now rewrite M.
Qed.
Lemma table_length : forall (table : list (list V)) dim ids,
  Forall (fun r => length r = dim) table -> Forall (fun i => i < length table) ids ->
  length (concat (map (fun i => nth i table []) ids)) = length ids * dim.
Proof.
  intros table dim ids T I. rewrite (concat_length _ dim), map_length; [reflexivity|].
  apply Forall_forall. intros l H. apply in_map_iff in H. destruct H as (i & <- & K).
  rewrite Forall_forall in T, I. apply T, nth_In, I, K.
Qed.
Lemma embedding_ok : forall (table : list (list V)) dim static shape ids,
  Forall (fun r => length r = dim) table -> Forall (fun i => i < length table) ids ->
  agrees static shape -> length ids = size shape -> unknown static <= 1 ->
  0 < dim -> (forall d, In (Some d) static -> 0 < d) ->
  embedding_call table dim static ids = Some (shape ++ [dim], concat (map (fun i => nth i table []) ids)).
Proof.
  intros table dim static shape ids T I A L U D P. unfold embedding_call.
  destruct (existsb _ ids) eqn:E.
  - apply existsb_exists in E. destruct E as (i & K & Q). rewrite Forall_forall in I.
    specialize (I i K). apply Nat.leb_le in Q. lia.
  - rewrite (table_length table dim ids T I), L.
    replace (size shape * dim) with (size (shape ++ [dim])) by (rewrite size_app; unfold size at 2; simpl; lia).
    rewrite infer_ok; [reflexivity| | |].
    + apply Forall2_app; [exact A|]. constructor; [right; reflexivity|constructor].
    + unfold unknown in *. rewrite filter_app, app_length. simpl. lia.
    + intros d K. apply in_app_iff in K. destruct K as [K|[K|[]]]; [auto|]. injection K as <-; exact D.
Qed.
Lemma embedding_unknown : forall (table : list (list V)) dim static ids, 2 <= unknown static ->
  embedding_call table dim static ids = None.
Proof.
  intros table dim static ids U. unfold embedding_call. destruct (existsb _ ids); [reflexivity|].
  unfold infer. assert (K : 2 <= unknown (static ++ [Some dim]))
    by (unfold unknown in *; rewrite filter_app, app_length; simpl; lia).
  destruct (unknown (static ++ [Some dim])) as [|[|u]]; [lia|lia|reflexivity].
Qed.
Lemma embedding_range : forall (table : list (list V)) dim static ids r, embedding_call table dim static ids = Some r ->
  forall i, In i ids -> i < length table.
Proof.
  intros table dim static ids r H i I. unfold embedding_call in H. destruct (existsb _ ids) eqn:E; [discriminate|].
  destruct (Nat.lt_ge_cases i (length table)) as [K|K]; [exact K|]. exfalso.
  assert (X : existsb (fun i => length table <=? i) ids = true)
    by (apply existsb_exists; exists i; split; [exact I|apply Nat.leb_le; exact K]). congruence.
Qed.
Lemma max_id_ok : forall max i, i < table_rows max <-> i <= max.
Proof. intros; unfold table_rows; lia. Qed.

End Embedding.

(** ** Sparse embedding *)
Section Sparse.
Context {V : Type}.
Variable dflt : V.
Lemma sorted_last : forall l, StronglySorted Peano.le l -> forall x, In x l -> x <= last l 0.
Proof.
  induction 1 as [|a l S IH F]; intros x H; [destruct H|].
  destruct l as [|b l]; simpl in *; [lia|]. destruct H as [<-|H]; [|apply IH; exact H].
  inversion F; subst. specialize (IH b (or_introl eq_refl)). simpl in *. lia.
Qed.
Lemma sparse_length : forall comb table dim entries (o : list (list V)) n, sparse_embedding dflt comb table dim entries = Some o ->
  ordered entries -> (forall e, In e entries -> fst e < S n) ->
  (length o = S n <-> exists e, In e entries /\ fst e = n).
Proof.
  intros comb table dim entries o n H S B. unfold sparse_embedding in H.
  destruct (existsb _ entries); [discriminate|]. injection H as <-. rewrite map_length, seq_length.
  unfold sparse_rows. destruct entries as [|e t].
  - split; [discriminate|]. intros (e & [] & _).
  - set (l := e :: t) in *. assert (N : map fst l <> []) by discriminate.
    assert (I : In (last (map fst l) 0) (map fst l)).
    { rewrite (app_removelast_last 0 N) at 2. rewrite in_app_iff; simpl; auto. }
    split.
    + intros K. apply Nat.succ_inj in K. apply in_map_iff in I. destruct I as (x & E & X). exists x; split; [exact X|]. rewrite E; exact K.
    + intros (x & X & E). f_equal. apply Nat.le_antisymm.
      * apply in_map_iff in I. destruct I as (y & <- & Y). specialize (B y Y). lia.
      * rewrite <- E. apply sorted_last; [exact S|]. apply in_map; exact X.
Qed.
Lemma sparse_row : forall comb table dim entries (o : list (list V)) r, sparse_embedding dflt comb table dim entries = Some o ->
  r < length o -> ids_of r entries <> [] ->
  nth r o [] = comb (map (fun i => nth i table []) (ids_of r entries)).
Proof.
  intros comb table dim entries o r H L N. unfold sparse_embedding in H.
  destruct (existsb _ entries); [discriminate|]. injection H as <-. rewrite map_length in L.
  rewrite (nth_map _ _ r [] 0) by exact L. rewrite seq_length in L. rewrite seq_nth by exact L.
  unfold ids_of in *. rewrite map_map. simpl.
  destruct (filter (fun e => fst e =? r) entries) as [|e t]; [simpl in N; congruence|reflexivity].
Qed.
Lemma sparse_covers : forall comb table dim entries (o : list (list V)) e, sparse_embedding dflt comb table dim entries = Some o ->
  ordered entries -> In e entries -> fst e < length o.
Proof.
  intros comb table dim entries o e H S I. unfold sparse_embedding in H.
  destruct (existsb _ entries); [discriminate|]. injection H as <-. rewrite map_length, seq_length.
  unfold sparse_rows. destruct entries as [|x t]; [destruct I|]. apply Nat.lt_succ_r.
  apply sorted_last; [exact S|]. apply in_map; exact I.
Qed.
Lemma sparse_empty_row : forall comb table dim entries (o : list (list V)) r, sparse_embedding dflt comb table dim entries = Some o ->
  r < length o -> ids_of r entries = [] -> nth r o [] = repeat dflt dim.
Proof.
  intros comb table dim entries o r H L N. unfold sparse_embedding in H.
  destruct (existsb _ entries); [discriminate|]. injection H as <-. rewrite map_length in L.
  rewrite (nth_map _ _ r [] 0) by exact L. rewrite seq_length in L. rewrite seq_nth by exact L.
  unfold ids_of in *. apply map_eq_nil in N. simpl. rewrite N. reflexivity.
Qed.
Lemma sparse_range : forall comb table dim entries,
  sparse_embedding dflt comb table dim entries = None <-> exists e, In e entries /\ length table <= snd e.
Proof.
  intros comb table dim entries. unfold sparse_embedding. destruct (existsb _ entries) eqn:E.
  - apply existsb_exists in E. destruct E as (e & I & L). apply Nat.leb_le in L. split; eauto.
  - split; [discriminate|]. intros (e & I & L). exfalso.
    assert (X : existsb (fun e => length table <=? snd e) entries = true)
      by (apply existsb_exists; exists e; split; [exact I|apply Nat.leb_le; exact L]). congruence.
Qed.
End Sparse.
