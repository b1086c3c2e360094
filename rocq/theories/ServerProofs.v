(** Proofs about queries through servers: schedules, splits, types, counts, neighbors. *)
From Coq Require Import Permutation ZifyBool ZifyNat ZifyN.
From Verif Require Import Base WriterModel LoaderModel GraphModel GraphSpec FeatureModel ServerModel
  WriterProofs LoaderProofs QueryProofs GraphProofs ConvertProofs AnswerProofs.
Local Open Scope nat_scope.

(** ** Schedules *)
Definition calls (es : list event) : list nat := flat_map (fun e => match e with Call i => [i] | Fill _ => [] end) es.
Definition causal (es : list event) : Prop := forall i l1 l2, es = l1 ++ Call i :: l2 -> In (Fill i) l1.

Lemma calls_app l l' : calls (l ++ l') = calls l ++ calls l'.
Proof. apply flat_map_app. Qed.

Lemma set_nth_length {A} i (x : A) l : length (set_nth i x l) = length l.
Proof. revert i; induction l as [|a l IH]; intros [|i]; cbn; auto. Qed.

Lemma set_nth_same {A} i (x : A) l : i < length l -> nth_error (set_nth i x l) i = Some x.
Proof. revert i; induction l as [|a l IH]; intros [|i] H; cbn in *; try lia; [reflexivity|]. apply IH. lia. Qed.

Lemma set_nth_other {A} i j (x : A) l : i <> j -> nth_error (set_nth i x l) j = nth_error l j.
Proof. revert i j; induction l as [|a l IH]; intros [|i] [|j] H; cbn; try reflexivity; try lia. apply IH. lia. Qed.

Lemma calls_in i es : In i (calls es) -> exists l1 l2, es = l1 ++ Call i :: l2.
Proof.
  unfold calls. intro H. apply in_flat_map in H. destruct H as (e & He & Hi). destruct e as [j|j]; [contradiction|].
  destruct Hi as [->|[]]. apply in_split in He. exact He.
Qed.

Lemma calls_schedule n es : schedule n es -> Permutation (calls es) (seq 0 n).
Proof.
  intros [H _]. unfold calls. rewrite H, flat_map_app.
  assert (E1 : forall l, flat_map (fun e => match e with Call i => [i] | Fill _ => [] end) (map Fill l) = []).
  { induction l; cbn; auto. }
  assert (E2 : forall l, flat_map (fun e => match e with Call i => [i] | Fill _ => [] end) (map Call l) = l).
  { induction l as [|a l IH]; cbn; [reflexivity|]. now f_equal. }
  rewrite E1, E2. reflexivity.
Qed.

Lemma nth_error_same {A} (l : list A) : forall l', (forall i, nth_error l i = nth_error l' i) -> l = l'.
Proof.
  induction l as [|a l IH]; intros [|b l'] H; [reflexivity|specialize (H 0); discriminate|specialize (H 0); discriminate|].
  f_equal; [specialize (H 0); cbn in H; congruence|]. apply IH. intro i. apply (H (S i)).
Qed.

Section Runs.
Context {R A : Type}.
Variables (empty : R) (served : list R) (cb : nat -> list R -> A -> A).

Notation state l a := (fold_left (run_event served cb) l (repeat empty (length served), a)).

Lemma replies_length l a : length (fst (state l a)) = length served.
Proof.
  induction l as [|e l IH] using rev_ind; [apply repeat_length|]. rewrite fold_left_app. cbn [fold_left].
  destruct e as [i|i]; cbn [run_event fst]; [|exact IH]. destruct (nth_error served i); [|exact IH].
  cbn [fst]. now rewrite set_nth_length.
Qed.

Lemma replies_filled l a i : In (Fill i) l -> nth_error (fst (state l a)) i = nth_error served i.
Proof.
  induction l as [|e l IH] using rev_ind; [contradiction|]. rewrite in_app_iff, fold_left_app. cbn [fold_left].
  intro H. pose proof (replies_length l a) as HL.
  destruct e as [j|j]; cbn [run_event fst].
  - destruct (Nat.eq_dec j i) as [->|Hne].
    + destruct (nth_error served i) eqn:E.
      * cbn [fst]. apply set_nth_same. rewrite HL. apply nth_error_Some. congruence.
      * apply nth_error_None. rewrite HL. now apply nth_error_None.
    + assert (Hin : In (Fill i) l) by (destruct H as [H|[H|[]]]; [assumption|congruence]).
      destruct (nth_error served j); [|now apply IH]. cbn [fst]. rewrite set_nth_other by assumption. now apply IH.
  - apply IH. destruct H as [H|[H|[]]]; [assumption|discriminate].
Qed.
End Runs.

Lemma causal_prefix l l' : causal (l ++ l') -> causal l.
Proof. intros H i l1 l2 ->. apply (H i l1 (l2 ++ l')). now rewrite <- app_assoc. Qed.

Lemma run_own_calls {R A} (empty : R) served (f : nat -> R -> res A -> res A) es a :
  causal es ->
  run_call empty served (own f) es a = fold_left (fun a i => own f i served a) (calls es) a.
Proof.
  unfold run_call. intro H. induction es as [|e es IH] using rev_ind; [reflexivity|].
  pose proof (IH (causal_prefix _ _ H)) as IH'. clear IH.
  rewrite calls_app, !fold_left_app. cbn [fold_left].
  destruct e as [i|i]; cbn [run_event snd calls flat_map app fold_left].
  - destruct (nth_error served i); exact IH'.
  - assert (Hf : In (Fill i) es) by (apply (H i es []); reflexivity).
    unfold own at 1. rewrite (replies_filled empty served (own f) es a i Hf). rewrite IH'. reflexivity.
Qed.

Lemma run_own {R A} (empty : R) served (f : nat -> R -> res A -> res A) n es a :
  schedule n es ->
  run_call empty served (own f) es a = fold_left (fun a i => own f i served a) (calls es) a.
Proof. intros [_ H]. now apply run_own_calls. Qed.

Lemma run_last {R A} (empty : R) served (merge : list R -> res A -> res A) es a :
  schedule (length served) es -> served <> [] ->
  run_call empty served (last_call merge) es (length served, a) = (0, merge served a).
Proof.
  intros HS Hne. pose proof (calls_schedule _ _ HS) as HP. destruct HS as [_ HC].
  set (n := length served) in *.
  assert (Hn : 0 < n) by (destruct served; cbn in *; [congruence|subst n; lia]).
  assert (Lc : length (calls es) = n) by (rewrite HP, seq_length; reflexivity).
  assert (G : forall l l', es = l ++ l' ->
     snd (fold_left (run_event served (last_call merge)) l (repeat empty n, (n, a))) =
     (n - length (calls l), if length (calls l) <? n then a else merge served a)).
  { induction l as [|e l IH] using rev_ind; intros l' E.
    - cbn [fold_left snd calls flat_map length]. rewrite Nat.sub_0_r. destruct (Nat.ltb_spec 0 n); [reflexivity|lia].
    - rewrite <- app_assoc in E. specialize (IH _ E). cbn [app] in E.
      rewrite fold_left_app. cbn [fold_left]. rewrite calls_app, app_length.
      destruct e as [i|i]; cbn [run_event].
      + cbn [calls flat_map length]. rewrite Nat.add_0_r. destruct (nth_error served i); exact IH.
      + cbn [snd calls flat_map app length]. rewrite IH. unfold last_call. cbn [fst snd].
        assert (Ll : length (calls l) + 1 <= n).
        { rewrite <- Lc, E, calls_app, app_length. cbn [calls flat_map app length]. lia. }
        destruct (Nat.ltb_spec (length (calls l)) n); [|lia].
        f_equal; [lia|].
        destruct (Nat.ltb_spec 1 (n - length (calls l))) as [H1|H1];
          destruct (Nat.ltb_spec (length (calls l) + 1) n) as [H2|H2]; try lia; [reflexivity|].
        f_equal.
        (* all replies are there *)
        assert (E' : calls l ++ [i] = calls es).
        { rewrite E, calls_app. cbn [calls flat_map app]. f_equal. f_equal.
          assert (length (calls es) = length (calls l) + 1 + length (calls l')).
          { rewrite E, calls_app, app_length. cbn [calls flat_map app length]. fold (calls l'). lia. }
          destruct (calls l') as [|x y] eqn:El; [|cbn in *; lia].
          symmetry. exact El. }
        apply nth_error_same. intro j.
        destruct (Nat.lt_ge_cases j n) as [Hj|Hj].
        * apply replies_filled.
          assert (Hin : In j (calls l ++ [i])).
          { rewrite E'. eapply Permutation_in; [symmetry; exact HP|]. apply in_seq. lia. }
          apply in_app_iff in Hin. destruct Hin as [Hin|[->|[]]].
          -- apply calls_in in Hin. destruct Hin as (p & q & Hl).
             assert (In (Fill j) p).
             { apply (HC j p (q ++ Call i :: l')). rewrite E, Hl. now rewrite <- app_assoc. }
             rewrite Hl. apply in_or_app. now left.
          -- apply (HC j l l'). exact E.
        * rewrite (proj2 (nth_error_None _ _)).
          -- symmetry. apply nth_error_None. exact Hj.
          -- unfold n. rewrite replies_length. exact Hj. }
  unfold run_call. fold n. specialize (G es [] (eq_sym (app_nil_r es))).
  transitivity (n - length (calls es), if length (calls es) <? n then a else merge served a); [exact G|]. rewrite Lc.
  rewrite Nat.sub_diag. destruct (Nat.ltb_spec n n); [lia|reflexivity].
Qed.

(** ** Servers that hold the partitions of a graph *)

(** The places of every node in [g] are those in the servers, server after server. *)
Definition split_of (gs : list graph) (g : graph) : Prop :=
  forall n, exists oss, Forall2 (fun g' os => occurrences g' n = Ok (found os)) gs oss /\
                        occurrences g n = Ok (found (concat oss)).
(** The same up to the order of the places. *)
Definition spread_of (gs : list graph) (g : graph) : Prop :=
  forall n, exists oss os, Forall2 (fun g' os => occurrences g' n = Ok (found os)) gs oss /\
                           occurrences g n = Ok (found os) /\ Permutation os (concat oss).

Section Load.
Variable fadd : N -> N -> N.
Definition load_files (m : lmeta) (fs : list pfiles) : res graph := load_graph fadd m (map (fun f => [f]) fs).

Lemma load_parts m fs : forall k g0 g, load_paths fadd m k (map (fun f => [f]) fs) g0 = Ok g ->
  exists pes, Forall2 (loads_to fadd m) fs pes.
Proof.
  induction fs as [|f fs IH]; intros k g0 g H; [exists []; constructor|]. cbn [map load_paths] in H.
  apply bind_ok in H. destruct H as (g1 & H1 & H2). destruct (IH _ _ _ H2) as (pes & HF).
  cbn [load_suffixes] in H1. apply bind_ok in H1. destruct H1 as (g2 & H1 & _).
  unfold load_suffix in H1. apply bind_ok in H1. destruct H1 as (p & Hp & _).
  exists ((p, map_entries (f_nm f)) :: pes). constructor; [split; [assumption|reflexivity]|assumption].
Qed.

Lemma load_occurrences m fs g : load_files m fs = Ok g ->
  exists pes, Forall2 (loads_to fadd m) fs pes /\ forall n, occurrences g n = Ok (found (gplaces n pes)).
Proof.
  intro H. destruct (load_parts m fs 0 _ g H) as (pes & HF). exists pes. split; [assumption|].
  destruct (load_graph_places fadd m fs pes HF) as (g' & E & _ & Ho). unfold load_files in H. congruence.
Qed.

Lemma loads_to_unique m fs : forall pes pes', Forall2 (loads_to fadd m) fs pes -> Forall2 (loads_to fadd m) fs pes' -> pes = pes'.
Proof.
  induction fs as [|f fs IH]; intros pes pes' H H'; inversion H as [|? y ? ? A B]; inversion H' as [|? y' ? ? A' B']; subst; [reflexivity|].
  f_equal; [|now apply IH].
  destruct y, y'. destruct A, A'. cbn [fst snd] in *. congruence.
Qed.

Lemma gplaces_app n l l' : gplaces n (l ++ l') = gplaces n l ++ gplaces n l'.
Proof. apply flat_map_app. Qed.

Lemma gplaces_concat n pess : gplaces n (concat pess) = concat (map (gplaces n) pess).
Proof. induction pess as [|p pess IH]; [reflexivity|]. cbn [concat map]. now rewrite gplaces_app, IH. Qed.

Lemma servers_parts m fss gs : Forall2 (fun fs g => load_files m fs = Ok g) fss gs ->
  exists pess, Forall2 (loads_to fadd m) (concat fss) (concat pess) /\
    forall n, Forall2 (fun g os => occurrences g n = Ok (found os)) gs (map (gplaces n) pess).
Proof.
  induction 1 as [|fs g fss gs H HF (pess & I1 & I2)].
  - exists []. split; [constructor|]. intro n. constructor.
  - destruct (load_occurrences m fs g H) as (pes & J1 & J2). exists (pes :: pess). split.
    + cbn [concat]. now apply Forall2_app.
    + intro n. cbn [map]. constructor; [apply J2|apply I2].
Qed.

Theorem load_split m fss gs g :
  Forall2 (fun fs g' => load_files m fs = Ok g') fss gs -> load_files m (concat fss) = Ok g -> split_of gs g.
Proof.
  intros HF H n. destruct (servers_parts m fss gs HF) as (pess & I1 & I2).
  destruct (load_occurrences m _ g H) as (pes & J1 & J2).
  pose proof (loads_to_unique m _ _ _ I1 J1) as <-.
  exists (map (gplaces n) pess). split; [apply I2|]. now rewrite J2, gplaces_concat.
Qed.

Theorem load_spread m fss fs gs g :
  Forall2 (fun fs g' => load_files m fs = Ok g') fss gs -> load_files m fs = Ok g -> Permutation (concat fss) fs ->
  spread_of gs g.
Proof.
  intros HF H HP n. destruct (servers_parts m fss gs HF) as (pess & I1 & I2).
  destruct (load_occurrences m _ g H) as (pes & J1 & J2).
  destruct (Permutation_Forall2 HP I1) as (pes' & K1 & K2).
  pose proof (loads_to_unique m _ _ _ K2 J1) as ->.
  exists (map (gplaces n) pess), (gplaces n pes). split; [apply I2|]. split; [apply J2|].
  rewrite <- gplaces_concat. unfold gplaces. now rewrite <- K1.
Qed.
End Load.

Lemma split_spread gs g : split_of gs g -> spread_of gs g.
Proof. intros H n. destruct (H n) as (oss & H1 & H2). exists oss, (concat oss). auto. Qed.

(** ** Grids of answers *)
Fixpoint zcons {A} (xs : list A) (xss : list (list A)) : list (list A) :=
  match xs, xss with x :: xs', l :: xss' => (x :: l) :: zcons xs' xss' | _, _ => [] end.
(** The columns of a list of rows of length [k]. *)
Definition cols {A} (k : nat) (rows : list (list A)) : list (list A) := fold_right zcons (repeat [] k) rows.

Lemma mapM_ok_iff {A B} (f : A -> res B) l r : mapM f l = Ok r <-> Forall2 (fun a b => f a = Ok b) l r.
Proof.
  split; [apply mapM_ok_inv|]. induction 1 as [|a b l r H _ IH]; [reflexivity|]. cbn [mapM]. now rewrite H, IH.
Qed.

Lemma mapM_len {A B} (f : A -> res B) l r : mapM f l = Ok r -> length r = length l.
Proof. intro H. apply mapM_ok_inv in H. symmetry. eapply Forall2_len0; eassumption. Qed.

Lemma zcons_ok {G A} (h : G -> res A) (hs : G -> res (list A)) gs : forall rs,
  mapM (fun g => do b <- h g ;; do bs <- hs g ;; Ok (b :: bs)) gs = Ok rs <->
  exists c cs, mapM h gs = Ok c /\ mapM hs gs = Ok cs /\ rs = zcons c cs.
Proof.
  induction gs as [|g gs IH]; intro rs; cbn [mapM].
  - split; [intro H; inversion H; now exists [], []|]. intros (c & cs & H1 & H2 & ->). now inversion H1.
  - destruct (h g) as [b|e]; cbn [bind].
    2:{ split; [discriminate|]. intros (? & ? & H & _). discriminate. }
    destruct (hs g) as [bs|e]; cbn [bind].
    2:{ split; [discriminate|]. intros (c & cs & _ & H & _). discriminate. }
    split.
    + intro H. apply bind_ok in H. destruct H as (rs' & H1 & H2). apply IH in H1. destruct H1 as (c & cs & H3 & H4 & ->).
      exists (b :: c), (bs :: cs). rewrite H3, H4. inversion H2. auto.
    + intros (c & cs & H1 & H2 & ->). apply bind_ok in H1. destruct H1 as (c' & H1 & E1). apply bind_ok in H2.
      destruct H2 as (cs' & H2 & E2). inversion E1; inversion E2; subst.
      rewrite (proj2 (IH (zcons c' cs'))) by eauto. reflexivity.
Qed.

Lemma grid {G X A} (q : G -> X -> res A) gs xs : forall rs,
  mapM (fun g => mapM (q g) xs) gs = Ok rs <->
  exists css, mapM (fun x => mapM (fun g => q g x) gs) xs = Ok css /\ rs = cols (length gs) css.
Proof.
  induction xs as [|x xs IH]; intro rs; cbn [mapM].
  - assert (E : mapM (fun _ : G => Ok (@nil A)) gs = Ok (repeat [] (length gs))).
    { clear. induction gs as [|g gs IH]; [reflexivity|]. cbn [mapM length repeat]. now rewrite IH. }
    rewrite E. split; [intro H; inversion H; exists []; auto|]. intros (css & H & ->). inversion H. reflexivity.
  - rewrite zcons_ok. split.
    + intros (c & cs & H1 & H2 & ->). apply IH in H2. destruct H2 as (css & H2 & ->).
      exists (c :: css). rewrite H1, H2. auto.
    + intros (css & H & ->). apply bind_ok in H. destruct H as (c & H1 & H). apply bind_ok in H.
      destruct H as (css' & H2 & H). inversion H; subst. exists c, (cols (length gs) css'). split; [assumption|].
      split; [|reflexivity]. apply IH. eauto.
Qed.

Lemma zcons_length {A} (xs : list A) xss : length xs = length xss -> length (zcons xs xss) = length xs.
Proof. revert xss; induction xs as [|x xs IH]; intros [|l xss] H; cbn in *; try lia. rewrite IH; lia. Qed.

Lemma cols_length {A} k (css : list (list A)) : Forall (fun r => length r = k) css -> length (cols k css) = k.
Proof.
  induction 1 as [|r css H _ IH]; [apply repeat_length|]. cbn [cols fold_right]. rewrite zcons_length; [assumption|].
  unfold cols in IH. lia.
Qed.

Lemma grid_widths {G X A} (q : G -> X -> res A) gs xs css :
  mapM (fun x => mapM (fun g => q g x) gs) xs = Ok css -> Forall (fun r => length r = length gs) css.
Proof.
  intro H. apply mapM_ok_inv in H. induction H as [|x r xs css H _ IH]; constructor; [|assumption]. eapply mapM_len; eassumption.
Qed.

Lemma per_node_stamps {A} (q : Z -> option Z -> res A) nodes ts :
  per_node q nodes ts = mapM (fun x => q (fst x) (snd x)) (stamps nodes ts).
Proof.
  unfold per_node, stamps. destruct ts as [l|].
  - induction (combine nodes l) as [|x r IH]; [reflexivity|]. cbn [map mapM fst snd]. now rewrite IH.
  - induction nodes as [|x r IH]; [reflexivity|]. cbn [map mapM fst snd]. now rewrite IH.
Qed.

(** One timestamp per node, if any. *)
Definition stamped {X} (xs : list X) (ts : option (list Z)) : Prop :=
  match ts with None => True | Some l => length l = length xs end.
Lemma stamps_length {X} (xs : list X) ts : stamped xs ts -> length (stamps xs ts) = length xs.
Proof. unfold stamped, stamps. destruct ts; intro H; rewrite map_length; [rewrite combine_length; lia|reflexivity]. Qed.

(** ** Counts *)
Lemma add_counts_zcons c : forall cs o out, length c = length cs ->
  fold_left add_counts (zcons c cs) (o :: out) = (o + sum c) :: fold_left add_counts cs out.
Proof.
  induction c as [|x c IH]; intros [|l cs] o out H; cbn in H; try lia; cbn [zcons fold_left add_counts].
  - change (sum []) with 0. f_equal. lia.
  - rewrite IH by lia. rewrite sum_cons. f_equal. lia.
Qed.

Lemma add_counts_cols k css : Forall (fun r => length r = k) css ->
  fold_left add_counts (cols k css) (repeat 0 (length css)) = map sum css.
Proof.
  induction 1 as [|c css H HF IH].
  - cbn [cols fold_right length repeat map]. generalize k. clear. induction k as [|k IH]; [reflexivity|]. exact IH.
  - cbn [cols fold_right length repeat map]. rewrite add_counts_zcons.
    + cbn [Nat.add]. f_equal. exact IH.
    + rewrite H. symmetry. now apply cols_length.
Qed.

Lemma count_found g T n t os : occurrences g n = Ok (found os) ->
  g_neighbor_count g T n t = do ls <- mapM (fun x => neighbor_count (fst x) (snd x) t T) os ;; Ok (sum ls).
Proof.
  intro H. unfold g_neighbor_count. rewrite H. cbn [bind]. destruct os as [|o os]; [reflexivity|].
  cbn [found]. destruct (mapM _ (o :: os)); cbn [bind]; [|reflexivity]. f_equal. apply fold_add_sum.
Qed.

Lemma sum_concat ls : sum (concat ls) = sum (map sum ls).
Proof. induction ls as [|l ls IH]; [reflexivity|]. cbn [concat map]. now rewrite sum_app, sum_cons, IH. Qed.

Lemma sum_perm l l' : Permutation l l' -> sum l = sum l'.
Proof.
  induction 1; rewrite ?sum_cons; try lia.
Qed.

Lemma mapM_app {A B} (f : A -> res B) l l' :
  mapM f (l ++ l') = do a <- mapM f l ;; do b <- mapM f l' ;; Ok (a ++ b).
Proof.
  induction l as [|x l IH]; cbn [app mapM bind].
  - destruct (mapM f l'); reflexivity.
  - destruct (f x); cbn [bind]; [|reflexivity]. rewrite IH. destruct (mapM f l); cbn [bind]; [|reflexivity].
    destruct (mapM f l'); reflexivity.
Qed.

(** Per place queries, folded per server or over all places. *)
Lemma places_split {G P B C} (q : P -> res B) (fold : list B -> C) (gs : list G) (h : G -> res C) oss :
  Forall2 (fun g os => h g = do ls <- mapM q os ;; Ok (fold ls)) gs oss ->
  forall cs, mapM h gs = Ok cs <-> exists bss, mapM (mapM q) oss = Ok bss /\ cs = map fold bss.
Proof.
  induction 1 as [|g os gs oss H HF IH]; intro cs; cbn [mapM].
  - split; [intro E; inversion E; exists []; auto|]. intros (bss & E & ->). now inversion E.
  - rewrite H. destruct (mapM q os) as [b|e]; cbn [bind].
    2:{ split; [discriminate|]. intros (? & E & _). discriminate. }
    split.
    + intro E. apply bind_ok in E. destruct E as (cs' & E1 & E2). apply IH in E1. destruct E1 as (bss & E1 & ->).
      exists (b :: bss). rewrite E1. inversion E2. auto.
    + intros (bss & E & ->). apply bind_ok in E. destruct E as (bss' & E1 & E2). inversion E2; subst.
      rewrite (proj2 (IH (map fold bss'))) by eauto. reflexivity.
Qed.

Lemma mapM_concat {A B} (f : A -> res B) ls : forall r,
  mapM f (concat ls) = Ok r <-> exists rs, mapM (mapM f) ls = Ok rs /\ r = concat rs.
Proof.
  induction ls as [|l ls IH]; intro r; cbn [concat mapM].
  - split; [intro E; inversion E; exists []; auto|]. intros (rs & E & ->). now inversion E.
  - rewrite mapM_app. destruct (mapM f l) as [b|e]; cbn [bind].
    2:{ split; [discriminate|]. intros (? & E & _). discriminate. }
    split.
    + intro E. apply bind_ok in E. destruct E as (r' & E1 & E2). apply IH in E1. destruct E1 as (rs & E1 & ->).
      exists (b :: rs). rewrite E1. inversion E2. auto.
    + intros (rs & E & ->). apply bind_ok in E. destruct E as (rs' & E1 & E2). inversion E2; subst.
      rewrite (proj2 (IH (concat rs'))) by eauto. reflexivity.
Qed.

Lemma mapM_perm {A B} (f : A -> res B) l l' r : Permutation l l' -> mapM f l = Ok r ->
  exists r', mapM f l' = Ok r' /\ Permutation r r'.
Proof.
  intros HP H. apply mapM_ok_inv in H. destruct (Permutation_Forall2 HP H) as (r' & H1 & H2).
  exists r'. split; [now apply mapM_ok_iff|assumption].
Qed.

Lemma count_spread gs g T n t : spread_of gs g -> forall c,
  g_neighbor_count g T n t = Ok c <-> exists cs, mapM (fun g' => g_neighbor_count g' T n t) gs = Ok cs /\ c = sum cs.
Proof.
  intros H c. destruct (H n) as (oss & os & HF & Ho & HP).
  rewrite (count_found g T n t os Ho).
  assert (HF' : Forall2 (fun g' os => g_neighbor_count g' T n t =
            do ls <- mapM (fun x => neighbor_count (fst x) (snd x) t T) os ;; Ok (sum ls)) gs oss).
  { clear -HF. induction HF; constructor; [now apply count_found|assumption]. }
  pose proof (places_split _ sum gs (fun g' => g_neighbor_count g' T n t) oss HF') as PS.
  split.
  - intro E. apply bind_ok in E. destruct E as (ls & E1 & E2). inversion E2; subst; clear E2.
    destruct (mapM_perm _ _ _ _ HP E1) as (ls' & E3 & HP'). apply mapM_concat in E3. destruct E3 as (bss & E3 & ->).
    exists (map sum bss). split; [apply PS; eauto|]. rewrite <- sum_concat. now apply sum_perm.
  - intros (cs & E & ->). apply PS in E. destruct E as (bss & E & ->).
    assert (E3 : mapM (fun x => neighbor_count (fst x) (snd x) t T) (concat oss) = Ok (concat bss)) by (apply mapM_concat; eauto).
    destruct (mapM_perm _ _ _ _ (Permutation_sym HP) E3) as (ls & E1 & HP'). rewrite E1. cbn [bind].
    f_equal. rewrite <- sum_concat. symmetry. now apply sum_perm.
Qed.

Lemma rows_combine {X A B} (q : X -> res B) (h : X -> res (list A)) (f : list A -> B) xs :
  (forall x c, q x = Ok c <-> exists cs, h x = Ok cs /\ c = f cs) ->
  forall out, mapM q xs = Ok out <-> exists css, mapM h xs = Ok css /\ out = map f css.
Proof.
  intros H. induction xs as [|x xs IH]; intro out; cbn [mapM].
  - split; [intro E; inversion E; exists []; auto|]. intros (css & E & ->). now inversion E.
  - split.
    + intro E. apply bind_ok in E. destruct E as (c & E1 & E). apply bind_ok in E. destruct E as (out' & E2 & E).
      apply H in E1. destruct E1 as (cs & E1 & ->). apply IH in E2. destruct E2 as (css & E2 & ->).
      exists (cs :: css). rewrite E1, E2. inversion E. auto.
    + intros (css & E & ->). apply bind_ok in E. destruct E as (cs & E1 & E). apply bind_ok in E.
      destruct E as (css' & E2 & E). inversion E; subst.
      rewrite (proj2 (H x (f cs))) by eauto. cbn [bind]. rewrite (proj2 (IH (map f css'))) by eauto. reflexivity.
Qed.

Theorem counts_spread gs g nodes types ts es out :
  spread_of gs g -> stamped nodes ts -> schedule (length gs) es -> gs <> [] ->
  (d_neighbor_counts gs nodes types ts es = Ok out <-> neighbor_counts g nodes types ts = Ok out).
Proof.
  intros HS Hst Hes Hne. unfold d_neighbor_counts, neighbor_counts, serve_counts.
  set (T := make_sorted_list types). rewrite per_node_stamps.
  set (xs := stamps nodes ts).
  assert (Lx : length xs = length nodes) by now apply stamps_length.
  rewrite (rows_combine _ (fun x => mapM (fun g' => g_neighbor_count g' T (fst x) (snd x)) gs) sum)
    by (intros x c; now apply count_spread).
  assert (ES : mapM (fun g => per_node (g_neighbor_count g T) nodes ts) gs =
               mapM (fun g => mapM (fun x => g_neighbor_count g T (fst x) (snd x)) xs) gs).
  { clear -xs. induction gs as [|g gs IH]; [reflexivity|]. cbn [mapM]. now rewrite per_node_stamps, IH. }
  rewrite ES. clear ES.
  assert (M : forall rs, length rs = length gs -> client_counts (length nodes) rs es = Ok (fold_left add_counts rs (repeat 0 (length nodes)))).
  { intros rs L. unfold client_counts.
    rewrite run_last; [reflexivity|now rewrite L|]. intros ->. cbn in L. destruct gs; [congruence|discriminate]. }
  split.
  - intro E. apply bind_ok in E. destruct E as (rs & E1 & E2). pose proof (mapM_len _ _ _ E1) as L1. apply grid in E1.
    destruct E1 as (css & E1 & Ers). exists css. split; [assumption|]. rewrite (M rs L1) in E2.
    inversion E2. rewrite Ers, <- Lx, <- (mapM_len _ _ _ E1). apply add_counts_cols. exact (grid_widths (fun g x => g_neighbor_count g T (fst x) (snd x)) gs xs css E1).
  - intros (css & E1 & ->).
    assert (E : mapM (fun g => mapM (fun x => g_neighbor_count g T (fst x) (snd x)) xs) gs = Ok (cols (length gs) css))
      by (apply grid; eauto).
    rewrite E. cbn [bind]. rewrite (M _ (mapM_len _ _ _ E)). f_equal.
    rewrite <- Lx, <- (mapM_len _ _ _ E1). apply add_counts_cols. exact (grid_widths (fun g x => g_neighbor_count g T (fst x) (snd x)) gs xs css E1).
Qed.

(** ** Neighbors *)
Section Neighbors.
Variable fsub : N -> N -> N.

Lemma full_found g T n t os : occurrences g n = Ok (found os) ->
  g_full_neighbor fsub g T n t = do ls <- mapM (fun x => full_neighbor fsub (fst x) (snd x) t T) os ;; Ok (concat ls).
Proof. intro H. unfold g_full_neighbor. rewrite H. cbn [bind]. destruct os as [|o os]; reflexivity. Qed.

Lemma part_full_count p id t T l : full_neighbor fsub p id t T = Ok l -> full_neighbor_count fsub p id t T = Ok (length l).
Proof.
  unfold full_neighbor_count. destruct t as [t|]; [intro H; now rewrite H|].
  unfold full_neighbor. intro H. apply bind_ok in H. destruct H as (gs & H1 & H). rewrite H1. cbn [bind].
  apply bind_ok in H. destruct H as (ls & H2 & H). inversion H; subst; clear H. f_equal.
  assert (G : forall gs ls c, mapM (full_group fsub p) gs = Ok ls ->
     fold_left (fun c g => let '(s, l, _) := g in c + (l - s)) gs c = c + length (concat ls)).
  { clear. induction gs as [|[[s l] i] gs IH]; intros ls c H; cbn [mapM] in H.
    - inversion H. cbn. lia.
    - apply bind_ok in H. destruct H as (x & H1 & H). apply bind_ok in H. destruct H as (xs & H2 & H). inversion H; subst.
      cbn [fold_left]. rewrite (IH _ _ H2). cbn [concat]. rewrite app_length.
      unfold full_group in H1. apply mapM_len in H1. rewrite seq_length in H1. lia. }
  rewrite (G gs ls 0 H2). reflexivity.
Qed.

Lemma full_count g T n t l : g_full_neighbor fsub g T n t = Ok l -> g_full_neighbor_count fsub g T n t = Ok (length l).
Proof.
  unfold g_full_neighbor, g_full_neighbor_count. destruct (occurrences g n) as [o|e]; cbn [bind]; [|discriminate].
  destruct o as [os|]; [|intro H; inversion H; reflexivity].
  intro H. apply bind_ok in H. destruct H as (ls & H & E). inversion E; subst l; clear E.
  assert (M : mapM (fun x : partition * nat => full_neighbor_count fsub (fst x) (snd x) t T) os = Ok (map (@length nbr) ls)).
  { revert ls H. induction os as [|o os IH]; intros ls H; cbn [mapM] in *.
    - inversion H. reflexivity.
    - apply bind_ok in H. destruct H as (x & H1 & H). apply bind_ok in H. destruct H as (xs & H2 & H). inversion H; subst.
      rewrite (part_full_count _ _ _ _ _ H1), (IH xs H2). reflexivity. }
  rewrite M. cbn [bind]. rewrite fold_add_sum. f_equal. cbn [Nat.add].
  clear. induction ls as [|l ls IH]; [reflexivity|]. cbn [map concat]. rewrite sum_cons, app_length, IH. reflexivity.
Qed.

(** A whole answer in terms of the answers per node. *)
Lemma whole_answer g T nodes ts out :
  (do ls <- per_node (g_full_neighbor fsub g T) nodes ts ;;
   do cs <- per_node (g_full_neighbor_count fsub g T) nodes ts ;; Ok (concat ls, cs)) = Ok out <->
  exists ls, mapM (fun x => g_full_neighbor fsub g T (fst x) (snd x)) (stamps nodes ts) = Ok ls /\
             out = (concat ls, map (@length nbr) ls).
Proof.
  rewrite !per_node_stamps.
  assert (M : forall xs ls, mapM (fun x : Z * option Z => g_full_neighbor fsub g T (fst x) (snd x)) xs = Ok ls ->
     mapM (fun x => g_full_neighbor_count fsub g T (fst x) (snd x)) xs = Ok (map (@length nbr) ls)).
  { induction xs as [|x xs IH]; intros ls H; cbn [mapM] in *; [inversion H; reflexivity|].
    apply bind_ok in H. destruct H as (l & H1 & H). apply bind_ok in H. destruct H as (ls' & H2 & H). inversion H; subst.
    rewrite (full_count _ _ _ _ _ H1), (IH _ H2). reflexivity. }
  split.
  - intro H. apply bind_ok in H. destruct H as (ls & H1 & H). rewrite (M _ _ H1) in H. cbn [bind] in H. inversion H. eauto.
  - intros (ls & H1 & ->). rewrite H1. cbn [bind]. rewrite (M _ _ H1). reflexivity.
Qed.

(** The reply of a server after [st] = (what was read, its counts) with [rem] left. *)
Definition left_reply (st : list nbr * list nat) (rem : list (list nbr)) : list nbr * list nat :=
  (fst st ++ concat rem, snd st ++ map (@length nbr) rem).
Definition advance (st : list nbr * list nat) (r : list nbr) : list nbr * list nat := (fst st ++ r, snd st ++ [length r]).

Fixpoint zipw {A B C} (f : A -> B -> C) (l : list A) (l' : list B) : list C :=
  match l, l' with a :: t, b :: t' => f a b :: zipw f t t' | _, _ => [] end.

Lemma zipw_advance sts : forall row rems,
  zipw left_reply sts (zcons row rems) = zipw left_reply (zipw advance sts row) rems.
Proof.
  induction sts as [|st sts IH]; intros [|r row] [|rem rems]; cbn [zipw zcons]; try reflexivity. f_equal; [|apply IH].
  unfold left_reply, advance. cbn [fst snd concat map]. now rewrite <- !app_assoc.
Qed.

Lemma merge_node_row curr : forall sts row rems,
  length row = length sts -> length rems = length sts -> Forall (fun st => length (snd st) = curr) sts ->
  merge_node curr (zipw left_reply sts (zcons row rems)) (map (fun st => length (fst st)) sts) =
  Ok (concat row, sum (map (@length nbr) row), map (fun st => length (fst st)) (zipw advance sts row)).
Proof.
  induction sts as [|st sts IH]; intros [|r row] [|rem rems] L1 L2 HF; cbn in L1, L2; try lia; [reflexivity|].
  cbn [zipw zcons map merge_node]. inversion HF; subst. rewrite IH by (auto; lia). cbn [bind].
  assert (E : nth_error (snd (left_reply st (r :: rem))) (length (snd st)) = Some (length r)).
  { unfold left_reply. cbn [snd map]. rewrite nth_error_app2 by lia. now rewrite Nat.sub_diag. }
  rewrite E.
  assert (S' : slice (fst (left_reply st (r :: rem))) (length (fst st)) (length r) = r).
  { unfold left_reply, slice. cbn [fst concat]. rewrite skipn_app, skipn_all, Nat.sub_diag. cbn [skipn app].
    rewrite firstn_app, Nat.sub_diag, firstn_all. cbn [firstn]. apply app_nil_r. }
  replace (length (fst (advance st r))) with (length (fst st) + length r) by (unfold advance; cbn [fst]; now rewrite app_length).
  cbn [concat map]. rewrite sum_cons.
  destruct (length r) as [|c] eqn:Er.
  - destruct r; [|discriminate]. cbn [app length sum fold_right Nat.add]. rewrite Nat.add_0_r. reflexivity.
  - rewrite S'. destruct (Nat.leb_spec (length (fst st) + S c) (length (fst (left_reply st (r :: rem))))) as [H|H]; [reflexivity|].
    unfold left_reply in H. cbn [fst concat] in H. rewrite !app_length, Er in H. lia.
Qed.

Lemma zipw_length {A B C} (f : A -> B -> C) l : forall l', length l = length l' -> length (zipw f l l') = length l.
Proof. induction l as [|a l IH]; intros [|b l'] H; cbn in *; try lia. now rewrite IH by lia. Qed.

Lemma merge_nodes_rows css : forall curr sts, Forall (fun r => length r = length sts) css ->
  Forall (fun st => length (snd st) = curr) sts ->
  merge_nodes curr (zipw left_reply sts (cols (length sts) css)) (map (fun st => length (fst st)) sts) (repeat 0 (length css)) =
  Ok (concat (map (@concat nbr) css), map (@length nbr) (map (@concat nbr) css)).
Proof.
  induction css as [|row css IH]; intros curr sts HL HS; [reflexivity|].
  inversion HL as [|? ? Hr HL']; subst. cbn [cols fold_right length repeat merge_nodes]. fold (cols (length sts) css).
  assert (Lc : length (cols (length sts) css) = length sts) by now apply cols_length.
  rewrite (merge_node_row curr sts row (cols (length sts) css)) by assumption.
  cbn [bind]. rewrite zipw_advance.
  assert (La : length (zipw advance sts row) = length sts) by (apply zipw_length; lia).
  rewrite <- La.
  rewrite IH.
  - cbn [bind map concat fst snd Nat.add]. f_equal. f_equal. f_equal.
    clear. induction row as [|l ls IH]; [reflexivity|]. cbn [map concat]. now rewrite sum_cons, app_length, IH.
  - rewrite La. assumption.
  - clear -HS Hr. revert row Hr. induction HS as [|st sts H HS IH]; intros [|r row] Hr; cbn in Hr; try lia; cbn [zipw]; constructor.
    + unfold advance. cbn [snd]. rewrite app_length. cbn. lia.
    + apply IH. lia.
Qed.

Lemma merge_replies k css : Forall (fun r => length r = k) css ->
  merge_neighbors (map (fun rem => (concat rem, map (@length nbr) rem)) (cols k css)) (Ok ([], repeat 0 (length css))) =
  Ok (concat (map (@concat nbr) css), map (@length nbr) (map (@concat nbr) css)).
Proof.
  intro H. unfold merge_neighbors. cbn [bind fst snd]. rewrite map_length, (cols_length k css H).
  pose proof (merge_nodes_rows css 0 (repeat ([], []) k)) as M. rewrite repeat_length in M.
  assert (E1 : forall (rems : list (list (list nbr))), length rems = k ->
     zipw left_reply (repeat ([], []) k) rems = map (fun rem => (concat rem, map (@length nbr) rem)) rems).
  { clear. intro rems. revert k. induction rems as [|r rems IH]; intros [|k] L; cbn in L; try lia; [reflexivity|].
    cbn [repeat zipw map]. rewrite IH by lia. reflexivity. }
  rewrite E1 in M by (now apply cols_length).
  assert (E2 : map (fun st : list nbr * list nat => length (fst st)) (repeat ([], []) k) = repeat 0 k).
  { clear. induction k as [|k IH]; [reflexivity|]. cbn. now rewrite IH. }
  rewrite E2 in M. rewrite M; [reflexivity|assumption|].
  apply Forall_forall. intros st Hin. apply repeat_spec in Hin. now subst.
Qed.

(** The answer through servers: per node, the lists of the servers in server order. *)
Lemma d_neighbors_rows gs nodes types ts es out :
  stamped nodes ts -> schedule (length gs) es -> gs <> [] ->
  (d_neighbors fsub gs nodes types ts es = Ok out <->
   exists css, mapM (fun x => mapM (fun g => g_full_neighbor fsub g (make_sorted_list types) (fst x) (snd x)) gs) (stamps nodes ts) = Ok css /\
     out = (concat (map (@concat nbr) css), map (@length nbr) (map (@concat nbr) css))).
Proof.
  intros Hst Hes Hne. unfold d_neighbors. set (T := make_sorted_list types).
  assert (Lx : length (stamps nodes ts) = length nodes) by now apply stamps_length.
  set (xs := stamps nodes ts) in *.
  assert (ES : forall rs, mapM (fun g => serve_neighbors fsub g T nodes ts) gs = Ok rs <->
     exists lss, mapM (fun g => mapM (fun x => g_full_neighbor fsub g T (fst x) (snd x)) xs) gs = Ok lss /\
       rs = map (fun ls => (concat ls, map (@length nbr) ls)) lss).
  { apply rows_combine. intros g r. unfold serve_neighbors. apply whole_answer. }
  assert (M : forall css, mapM (fun x => mapM (fun g => g_full_neighbor fsub g T (fst x) (snd x)) gs) xs = Ok css ->
     client_neighbors (length nodes) (map (fun ls => (concat ls, map (@length nbr) ls)) (cols (length gs) css)) es =
     Ok (concat (map (@concat nbr) css), map (@length nbr) (map (@concat nbr) css))).
  { intros css E.
    pose proof (grid_widths (fun g x => g_full_neighbor fsub g T (fst x) (snd x)) gs xs css E) as W.
    assert (L : length (map (fun ls => (concat ls, map (@length nbr) ls)) (cols (length gs) css)) = length gs)
      by (rewrite map_length; now apply cols_length).
    unfold client_neighbors. rewrite run_last; [|now rewrite L|].
    - cbn [snd]. rewrite <- Lx, <- (mapM_len _ _ _ E). now apply merge_replies.
    - intro E0. rewrite E0 in L. destruct gs; [congruence|discriminate]. }
  split.
  - intro E. apply bind_ok in E. destruct E as (rs & E1 & E2). apply ES in E1. destruct E1 as (lss & E1 & ->).
    apply grid in E1. destruct E1 as (css & E1 & ->). exists css. split; [assumption|]. rewrite (M css E1) in E2. congruence.
  - intros (css & E1 & ->).
    rewrite (proj2 (ES (map (fun ls => (concat ls, map (@length nbr) ls)) (cols (length gs) css)))).
    + cbn [bind]. now apply M.
    + exists (cols (length gs) css). split; [|reflexivity]. apply grid. eauto.
Qed.

Lemma full_split gs g T n t : split_of gs g -> forall l,
  g_full_neighbor fsub g T n t = Ok l <->
  exists row, mapM (fun g' => g_full_neighbor fsub g' T n t) gs = Ok row /\ l = concat row.
Proof.
  intros H l. destruct (H n) as (oss & HF & Ho). rewrite (full_found g T n t _ Ho).
  assert (HF' : Forall2 (fun g' os => g_full_neighbor fsub g' T n t =
            do ls <- mapM (fun x => full_neighbor fsub (fst x) (snd x) t T) os ;; Ok (concat ls)) gs oss).
  { clear -HF. induction HF; constructor; [now apply full_found|assumption]. }
  pose proof (places_split _ (@concat nbr) gs (fun g' => g_full_neighbor fsub g' T n t) oss HF') as PS.
  assert (CC : forall bss : list (list (list nbr)), concat (concat bss) = concat (map (@concat nbr) bss)).
  { induction bss as [|b bss IH]; [reflexivity|]. cbn [concat map]. now rewrite concat_app, IH. }
  split.
  - intro E. apply bind_ok in E. destruct E as (ls & E1 & E2). inversion E2; subst; clear E2.
    apply mapM_concat in E1. destruct E1 as (bss & E1 & ->). exists (map (@concat nbr) bss). split; [apply PS; eauto|]. apply CC.
  - intros (row & E & ->). apply PS in E. destruct E as (bss & E & ->).
    rewrite (proj2 (mapM_concat _ oss (concat bss))) by eauto. cbn [bind]. now rewrite CC.
Qed.

Theorem neighbors_split gs g nodes types ts es out :
  split_of gs g -> stamped nodes ts -> schedule (length gs) es -> gs <> [] ->
  (d_neighbors fsub gs nodes types ts es = Ok out <-> neighbors fsub g nodes types ts = Ok out).
Proof.
  intros HS Hst Hes Hne. rewrite d_neighbors_rows by assumption. unfold neighbors. rewrite whole_answer.
  set (T := make_sorted_list types).
  pose proof (rows_combine (fun x : Z * option Z => g_full_neighbor fsub g T (fst x) (snd x))
     (fun x => mapM (fun g' => g_full_neighbor fsub g' T (fst x) (snd x)) gs) (@concat nbr) (stamps nodes ts)) as RC.
  assert (H : forall ls, mapM (fun x : Z * option Z => g_full_neighbor fsub g T (fst x) (snd x)) (stamps nodes ts) = Ok ls <->
     exists css, mapM (fun x => mapM (fun g' => g_full_neighbor fsub g' T (fst x) (snd x)) gs) (stamps nodes ts) = Ok css /\ ls = map (@concat nbr) css).
  { apply RC. intros x c. now apply full_split. }
  split.
  - intros (css & E & ->). exists (map (@concat nbr) css). split; [apply H; eauto|reflexivity].
  - intros (ls & E & ->). apply H in E. destruct E as (css & E & ->). eauto.
Qed.

Lemma concat_perm {A} (l l' : list (list A)) : Permutation l l' -> Permutation (concat l) (concat l').
Proof.
  induction 1; cbn [concat]; auto.
  - now apply Permutation_app_head.
  - rewrite !app_assoc. apply Permutation_app_tail. apply Permutation_app_comm.
  - etransitivity; eassumption.
Qed.

Lemma full_spread gs g T n t row : spread_of gs g -> mapM (fun g' => g_full_neighbor fsub g' T n t) gs = Ok row ->
  exists l, g_full_neighbor fsub g T n t = Ok l /\ Permutation (concat row) l.
Proof.
  intros H E. destruct (H n) as (oss & os & HF & Ho & HP). rewrite (full_found g T n t _ Ho).
  assert (HF' : Forall2 (fun g' os => g_full_neighbor fsub g' T n t =
            do ls <- mapM (fun x => full_neighbor fsub (fst x) (snd x) t T) os ;; Ok (concat ls)) gs oss).
  { clear -HF. induction HF; constructor; [now apply full_found|assumption]. }
  apply (places_split _ (@concat nbr) gs (fun g' => g_full_neighbor fsub g' T n t) oss HF') in E.
  destruct E as (bss & E & ->).
  assert (CC : forall bss : list (list (list nbr)), concat (concat bss) = concat (map (@concat nbr) bss)).
  { clear. induction bss as [|b bss IH]; [reflexivity|]. cbn [concat map]. now rewrite concat_app, IH. }
  assert (E3 := proj2 (mapM_concat _ oss (concat bss)) (ex_intro _ bss (conj E eq_refl))).
  destruct (mapM_perm _ _ _ _ (Permutation_sym HP) E3) as (ls & E1 & HP'). rewrite E1. cbn [bind].
  exists (concat ls). split; [reflexivity|]. rewrite <- CC. now apply concat_perm.
Qed.

(** Any placement of the partitions: per node the same entries, the same counts. *)
Theorem neighbors_spread gs g nodes types ts es nbs cs :
  spread_of gs g -> stamped nodes ts -> schedule (length gs) es -> gs <> [] ->
  d_neighbors fsub gs nodes types ts es = Ok (nbs, cs) ->
  exists ls ls', nbs = concat ls /\ cs = map (@length nbr) ls /\ length ls = length nodes /\
    neighbors fsub g nodes types ts = Ok (concat ls', cs) /\ Forall2 (@Permutation nbr) ls ls'.
Proof.
  intros HS Hst Hes Hne E. apply d_neighbors_rows in E; [|assumption..]. destruct E as (css & E & Eo). inversion Eo; subst; clear Eo.
  unfold neighbors. set (T := make_sorted_list types) in *.
  assert (G : exists ls', mapM (fun x : Z * option Z => g_full_neighbor fsub g T (fst x) (snd x)) (stamps nodes ts) = Ok ls' /\
     Forall2 (@Permutation nbr) (map (@concat nbr) css) ls').
  { apply mapM_ok_iff in E. induction E as [|x row xs css H _ (ls' & I1 & I2)]; [exists []; split; [reflexivity|constructor]|].
    destruct (full_spread gs g T (fst x) (snd x) row HS H) as (l & J1 & J2).
    exists (l :: ls'). cbn [mapM map]. rewrite J1, I1. split; [reflexivity|now constructor]. }
  destruct G as (ls' & G1 & G2). exists (map (@concat nbr) css), ls'. split; [reflexivity|]. split; [reflexivity|].
  split. { rewrite map_length, (mapM_len _ _ _ E). now apply stamps_length. }
  split; [|assumption]. apply whole_answer. exists ls'. split; [assumption|]. f_equal.
  clear -G2. induction G2 as [|a b l l' H _ IH]; [reflexivity|]. cbn [map]. f_equal; [now apply Permutation_length|assumption].
Qed.
End Neighbors.

(** ** Node types *)
Lemma fold_writes_length ws : forall out, length (fold_left write_type ws out) = length out.
Proof. induction ws as [|w ws IH]; intro out; [reflexivity|]. cbn [fold_left]. rewrite IH. apply set_nth_length. Qed.

(** All writes to a slot agree: the slot holds that value, in any order. *)
Lemma fold_writes_agree ws k v : forall out, k < length out ->
  (forall w, In w ws -> fst w = k -> snd w = v) ->
  nth_error (fold_left write_type ws out) k =
  if existsb (fun w => fst w =? k) ws then Some (Some v) else nth_error out k.
Proof.
  induction ws as [|w ws IH]; intros out Hk H; [reflexivity|]. cbn [fold_left existsb].
  rewrite IH; [|unfold write_type; now rewrite set_nth_length|intros w' Hw'; apply H; now right].
  destruct (existsb (fun w => fst w =? k) ws) eqn:E; [now rewrite orb_true_r|]. rewrite orb_false_r.
  unfold write_type. destruct (Nat.eqb_spec (fst w) k) as [<-|Hne].
  - rewrite set_nth_same by assumption. f_equal. f_equal. apply H; [now left|reflexivity].
  - now apply set_nth_other.
Qed.

(** Every slot holds one of the values written to it. *)
Lemma fold_writes_some ws k : forall out, k < length out ->
  nth_error (fold_left write_type ws out) k = nth_error out k /\ (forall w, In w ws -> fst w <> k) \/
  exists w, In w ws /\ fst w = k /\ nth_error (fold_left write_type ws out) k = Some (Some (snd w)).
Proof.
  induction ws as [|w ws IH]; intros out Hk; [left; split; [reflexivity|contradiction]|]. cbn [fold_left].
  destruct (IH (write_type out w)) as [[E N]|(w' & H1 & H2 & H3)].
  - unfold write_type. now rewrite set_nth_length.
  - destruct (Nat.eq_dec (fst w) k) as [Hw|Hw].
    + right. exists w. split; [now left|]. split; [assumption|]. rewrite E. unfold write_type. subst k.
      now apply set_nth_same.
    + left. split; [rewrite E; unfold write_type; now apply set_nth_other|]. intros w' [<-|Hin]; [assumption|now apply N].
  - right. exists w'. auto using in_cons.
Qed.

Lemma indexed_in {A} (l : list A) : forall k i x, In (i, x) (indexed_from k l) <-> k <= i /\ nth_error l (i - k) = Some x.
Proof.
  induction l as [|a l IH]; intros k i x; cbn [indexed_from In].
  - split; [contradiction|]. intros [_ H]. destruct (i - k); discriminate.
  - rewrite IH. split.
    + intros [H|[H1 H2]].
      * inversion H; subst. rewrite Nat.sub_diag. split; [lia|reflexivity].
      * split; [lia|]. replace (i - k) with (S (i - S k)) by lia. exact H2.
    + intros [H1 H2]. destruct (Nat.eq_dec i k) as [->|Hne].
      * rewrite Nat.sub_diag in H2. cbn in H2. inversion H2. now left.
      * right. split; [lia|]. replace (i - k) with (S (i - S k)) in H2 by lia. exact H2.
Qed.

(** Some record of the input gives node [n] the type [t]. *)
Definition typed (parts : list (list (list record))) (n t : Z) : Prop :=
  t <> (-1)%Z /\ exists r, In r (concat (concat parts)) /\ rsrc r = n /\ is_node r = true /\ rtyp r = t.
(** Some record of the input is about node [n]: a node record or an edge from it. *)
Definition mentioned (parts : list (list (list record))) (n : Z) : Prop :=
  exists r, In r (concat (concat parts)) /\ rsrc r = n.

Lemma typed_filter parts n t :
  typed parts n t <-> exists r, In r (filter (fun r => is_node r && negb (rtyp r =? -1)%Z) (filter (fun r => rsrc r =? n)%Z (concat (concat parts)))) /\ rtyp r = t.
Proof.
  unfold typed. split.
  - intros (H & r & H1 & H2 & H3 & H4). exists r. split; [|assumption]. apply filter_In. split; [apply filter_In; split; [assumption|lia]|].
    rewrite H3. cbn [andb]. lia.
  - intros (r & H & Ht). apply filter_In in H. destruct H as [H1 H2]. apply filter_In in H1. destruct H1 as [H1 H3].
    apply andb_true_iff in H2. destruct H2 as [H2 H4]. split; [lia|]. exists r. repeat split; try assumption. lia.
Qed.

Lemma spec_type_typed parts d n :
  (exists t, typed parts n t /\ spec_node_type parts d n = t) \/
  ((forall t, ~ typed parts n t) /\ mentioned parts n /\ spec_node_type parts d n = (-1)%Z) \/
  (~ mentioned parts n /\ spec_node_type parts d n = d).
Proof.
  unfold spec_node_type. set (rs := filter (fun r => rsrc r =? n)%Z (concat (concat parts))).
  destruct (filter (fun r => is_node r && negb (rtyp r =? -1)%Z) rs) as [|r l] eqn:E.
  - right.
    assert (M : mentioned parts n <-> rs <> []).
    { split.
      - intros (r & H1 & H2). assert (Hin : In r rs) by (apply filter_In; split; [assumption|lia]). destruct rs; [contradiction|discriminate].
      - intro H. destruct rs as [|r l] eqn:Er; [congruence|]. assert (Hin : In r (filter (fun r => rsrc r =? n)%Z (concat (concat parts)))).
        { fold rs. rewrite Er. now left. }
        apply filter_In in Hin. exists r. split; [apply Hin|]. destruct Hin. lia. }
    destruct rs as [|r l] eqn:Er.
    + right. split; [|reflexivity]. rewrite M. congruence.
    + left. split; [|split; [apply M; discriminate|reflexivity]]. intros t Ht. apply typed_filter in Ht. fold rs in Ht.
      rewrite Er in Ht. destruct Ht as (r' & Hin & _). rewrite E in Hin. contradiction.
  - left. exists (rtyp r). split; [|reflexivity]. apply typed_filter. exists r. fold rs. rewrite E. split; [now left|reflexivity].
Qed.

Section Types.
Variables (fadd : N -> N -> N) (wval : N -> Z).
Notation converted := (converted fadd wval).

Definition type_writes (parts : list (list (list record))) (nodes : list Z) : list (nat * Z) :=
  concat (map (fun x => let t := spec_node_type parts (-1) (snd x) in if (t =? -1)%Z then [] else [(fst x, t)]) (indexed_from 0 nodes)).

Lemma serve_types_spec wm parts g nodes : converted wm parts g -> serve_types g nodes = Ok (type_writes parts nodes).
Proof.
  intro C. unfold serve_types, type_writes.
  assert (M : forall n, get_node_type g (-1) n = Ok (spec_node_type parts (-1) n)).
  { intro n. pose proof (converted_node_types fadd wval wm parts g (-1) [n] C) as H. cbn in H.
    destruct (get_node_type g (-1) n); cbn in H; congruence. }
  rewrite (mapM_pure _ (fun x => let t := spec_node_type parts (-1) (snd x) in if (t =? -1)%Z then [] else [(fst x, t)])).
  - reflexivity.
  - intros [k n] _. cbn [fst snd]. specialize (M n). unfold get_node_type in M.
    destruct (occurrences g n) as [o|]; cbn [bind] in *; [|discriminate]. destruct o as [os|].
    + rewrite M. reflexivity.
    + assert (E : spec_node_type parts (-1) n = (-1)%Z) by congruence. cbn zeta. rewrite E. reflexivity.
Qed.

Lemma type_writes_in parts nodes w : In w (type_writes parts nodes) <->
  exists n, nth_error nodes (fst w) = Some n /\ spec_node_type parts (-1) n = snd w /\ snd w <> (-1)%Z.
Proof.
  unfold type_writes. rewrite in_concat. split.
  - intros (l & Hl & Hw). apply in_map_iff in Hl. destruct Hl as ([k n] & <- & Hk). apply indexed_in in Hk. cbn [fst snd] in Hw.
    destruct (Z.eqb_spec (spec_node_type parts (-1) n) (-1)); [contradiction|]. destruct Hw as [<-|[]]. exists n. cbn [fst snd].
    rewrite Nat.sub_0_r in Hk. tauto.
  - intros (n & H1 & H2 & H3). exists [w]. split; [|now left]. apply in_map_iff. exists (fst w, n). split.
    + cbn [fst snd]. cbn zeta. rewrite H2. destruct (Z.eqb_spec (snd w) (-1)); [congruence|]. now destruct w.
    + apply indexed_in. rewrite Nat.sub_0_r. split; [lia|assumption].
Qed.

Lemma servers_types wm split gs nodes : Forall2 (converted wm) split gs ->
  mapM (fun g => serve_types g nodes) gs = Ok (map (fun parts => type_writes parts nodes) split).
Proof.
  induction 1 as [|parts g split gs H _ IH]; [reflexivity|]. cbn [mapM map]. now rewrite (serve_types_spec wm parts g nodes H), IH.
Qed.

Lemma client_types_length n ws d : length (client_types n ws d) = n.
Proof. unfold client_types. rewrite map_length, fold_writes_length. apply repeat_length. Qed.

(** Every answer is the type given by one of the servers, or the default. *)
Theorem d_types_any wm split gs nodes default out :
  Forall2 (converted wm) split gs -> d_node_types gs nodes default out ->
  length out = length nodes /\
  forall k n, nth_error nodes k = Some n ->
    (nth_error out k = Some default /\ forall parts t, In parts split -> ~ typed parts n t) \/
    exists parts t, In parts split /\ typed parts n t /\ spec_node_type parts (-1) n = t /\ nth_error out k = Some t.
Proof.
  intros HF (rs & ws & E & HP & ->). rewrite (servers_types wm split gs nodes HF) in E. inversion E; subst; clear E.
  split; [apply client_types_length|]. intros k n Hk.
  assert (Hlt : k < length nodes) by (apply nth_error_Some; congruence).
  unfold client_types. rewrite nth_error_map.
  assert (In_ws : forall w, In w ws <-> exists parts, In parts split /\ In w (type_writes parts nodes)).
  { intro w. split.
    - intro H. eapply Permutation_in in H; [|exact HP]. apply in_concat in H. destruct H as (l & H1 & H2).
      apply in_map_iff in H1. destruct H1 as (parts & <- & H1). eauto.
    - intros (parts & H1 & H2). eapply Permutation_in; [symmetry; exact HP|]. apply in_concat. exists (type_writes parts nodes).
      split; [|assumption]. apply in_map_iff. eauto. }
  destruct (fold_writes_some ws k (repeat None (length nodes)) ltac:(now rewrite repeat_length)) as [[E N]|(w & H1 & H2 & E)].
  - left. rewrite E. rewrite nth_error_repeat by assumption. split; [reflexivity|]. intros parts t Hp Ht.
    destruct (spec_type_typed parts (-1) n) as [(t' & Ht' & Es)|[(Hn & _)|(Hm & _)]].
    + apply (N (k, t')); [|reflexivity]. apply In_ws. exists parts. split; [assumption|]. apply type_writes_in. exists n.
      cbn [fst snd]. split; [assumption|]. split; [assumption|]. apply Ht'.
    + now apply (Hn t).
    + apply Hm. destruct Ht as (_ & r & Hr & Hs & _). exists r. auto.
  - right. rewrite E. cbn [option_map]. apply In_ws in H1. destruct H1 as (parts & Hp & Hw). apply type_writes_in in Hw.
    destruct Hw as (n' & J1 & J2 & J3). rewrite H2 in J1. assert (n' = n) by congruence. subst n'.
    exists parts, (snd w). split; [assumption|]. split; [|split; [assumption|reflexivity]].
    destruct (spec_type_typed parts (-1) n) as [(t' & Ht' & Es)|[(_ & _ & Es)|(_ & Es)]]; congruence.
Qed.

Lemma d_types_exists wm split gs nodes default : Forall2 (converted wm) split gs -> exists out, d_node_types gs nodes default out.
Proof.
  intro HF. exists (client_types (length nodes) (concat (map (fun parts => type_writes parts nodes) split)) default).
  exists (map (fun parts => type_writes parts nodes) split), (concat (map (fun parts => type_writes parts nodes) split)).
  split; [now apply (servers_types wm)|]. split; reflexivity.
Qed.

(** One type per node: every possible answer is the local one. *)
Theorem d_types_local wm split gs all g nodes default :
  Forall2 (converted wm) split gs -> converted wm all g -> Permutation (concat split) all ->
  (forall n t t', In n nodes -> typed all n t -> typed all n t' -> t = t') ->
  (forall n, In n nodes -> mentioned all n -> exists t, typed all n t) ->
  forall out, d_node_types gs nodes default out <-> node_types g nodes default = Ok out.
Proof.
  intros HF C HP Hone Hsome.
  assert (Hin : forall parts, In parts split -> forall r, In r (concat (concat parts)) -> In r (concat (concat all))).
  { intros parts Hp r Hr. apply in_concat in Hr. destruct Hr as (b & Hb & Hr). apply in_concat in Hb. destruct Hb as (p & Hpp & Hb).
    apply in_concat. exists b. split; [|assumption]. apply in_concat. exists p. split; [|assumption].
    eapply Permutation_in; [exact HP|]. apply in_concat. exists parts. auto. }
  assert (Hout : forall r, In r (concat (concat all)) -> exists parts, In parts split /\ In r (concat (concat parts))).
  { intros r Hr. apply in_concat in Hr. destruct Hr as (b & Hb & Hr). apply in_concat in Hb. destruct Hb as (p & Hpp & Hb).
    eapply Permutation_in in Hpp; [|symmetry; exact HP]. apply in_concat in Hpp. destruct Hpp as (parts & Hp & Hpp).
    exists parts. split; [assumption|]. apply in_concat. exists b. split; [|assumption]. apply in_concat. exists p. auto. }
  assert (G : forall out, d_node_types gs nodes default out -> out = map (spec_node_type all default) nodes).
  { intros out Hd. destruct (d_types_any wm split gs nodes default out HF Hd) as [HL HK].
    apply nth_error_same. intro k. rewrite nth_error_map. destruct (nth_error nodes k) as [n|] eqn:Ek; cbn [option_map].
    2:{ apply nth_error_None in Ek. apply nth_error_None. lia. }
    assert (Hn : In n nodes) by (eapply nth_error_In; eassumption).
    destruct (HK k n Ek) as [[E Hno]|(parts & t & Hp & Ht & _ & E)]; rewrite E; f_equal.
    - destruct (spec_type_typed all default n) as [(t & Ht & Es)|[(Hno' & Hm & _)|(_ & Es)]].
      + destruct Ht as (Ht & r & Hr & Hrest). destruct (Hout r Hr) as (parts & Hp & Hr'). elim (Hno parts t Hp). split; [assumption|]. eauto.
      + destruct (Hsome n Hn Hm) as (t & Ht). now elim (Hno' t).
      + congruence.
    - assert (Hta : typed all n t). { destruct Ht as (Ht & r & Hr & Hrest). split; [assumption|]. exists r. split; [eapply Hin; eassumption|assumption]. }
      destruct (spec_type_typed all default n) as [(t' & Ht' & Es)|[(Hno' & Hm & _)|(Hm & Es)]].
      + rewrite Es. now apply (Hone n).
      + now elim (Hno' t).
      + elim Hm. destruct Hta as (_ & r & Hr & Hs & _). exists r. auto. }
  intro out. rewrite (converted_node_types fadd wval wm all g default nodes C). split.
  - intro Hd. f_equal. symmetry. now apply G.
  - intro E. destruct (d_types_exists wm split gs nodes default HF) as (out' & Hd). pose proof (G out' Hd). congruence.
Qed.
End Types.
