(** Proofs about node string features through servers. *)
From Coq Require Import Permutation ZifyBool ZifyNat ZifyN.
From Verif Require Import Base WriterModel LoaderModel GraphModel GraphSpec FeatureModel FeatureSpec ServerModel
  WriterProofs LoaderProofs QueryProofs GraphProofs ConvertProofs AnswerProofs FeatureProofs SearchProofs TemporalProofs EdgeFeatureProofs
  StringProofs TemporalStringProofs ServerProofs ServerFeatureProofs.
Local Open Scope Z_scope.

Definition zlen (c : list N) : Z := Z.of_nat (length c).
Definition empty (c : list N) : bool := match c with [] => true | _ => false end.

(** ** The client loop *)

(** A reply listing [cells]: lengths, bytes and enough timestamps. *)
Definition listing (cells : list (list N)) (r : streply) : Prop :=
  sr_dims r = map zlen cells /\ sr_val r = concat cells /\ Forall (fun t => -1 <= t) (sr_ts r) /\
  (length (filter (fun c => negb (empty c)) cells) <= length (sr_ts r))%nat.

Definition fine (served : list streply) (x : rentry * Z) (b : option (list N)) : Prop :=
  match b with
  | None => x = ((0, 0, -1), 0)
  | Some c => snd x = zlen c /\ exists sh off t r, fst x = (Z.of_nat sh, off, t) /\ get served sh = Ok r /\ sread (sr_val r) off (zlen c) = Ok c
  end.
Definition put (c : list N) (b : option (list N)) : option (list N) := if empty c then b else Some c.

Lemma note_strings_spec served shard r : get served shard = Ok r ->
  forall cells ts xs bs hs pre,
    Forall2 (fine served) xs bs -> Forall2 (fun c b => c = [] \/ b = None) cells bs ->
    Forall (fun t => -1 <= t) ts -> (length (filter (fun c => negb (empty c)) cells) <= length ts)%nat ->
    sr_val r = pre ++ concat cells ->
    exists xs', note_strings shard (length hs) (map zlen cells) ts (zlen pre) (map fst (hs ++ xs), map snd (hs ++ xs)) =
                  Ok (map fst (hs ++ xs'), map snd (hs ++ xs')) /\ Forall2 (fine served) xs' (zipw put cells bs).
Proof.
  intro Hr. induction cells as [|c cells IH]; intros ts xs bs hs pre HF HC HT HL HV.
  { inversion HC; subst. inversion HF; subst. exists []. split; [reflexivity|constructor]. }
  inversion HC as [|? b ? bs' Hc HC']; subst. inversion HF as [|x ? xs0 ? Hx HF']; subst.
  cbn [map note_strings]. destruct c as [|c0 c].
  - change (zlen [] =? 0) with true. cbv iota. cbn [filter empty negb] in HL. cbn [concat app] in HV.
    destruct (IH ts xs0 bs' (hs ++ [x]) pre HF' HC' HT HL HV) as (xs' & E & H').
    exists (x :: xs'). rewrite app_length in E. cbn [length] in E. rewrite Nat.add_1_r, <- !app_assoc in E. cbn [app] in E.
    split; [exact E|]. cbn [zipw]. unfold put at 1. cbn [empty]. constructor; assumption.
  - destruct Hc as [Hc| ->]; [discriminate|]. cbn [fine] in Hx. subst x. set (c' := c0 :: c) in *.
    destruct (Z.eqb_spec (zlen c') 0) as [E0|_]; [unfold zlen in E0; cbn in E0; lia|].
    cbn [filter] in HL. change (negb (empty c')) with true in HL. cbv iota in HL. cbn [length] in HL.
    destruct ts as [|t ts]; [cbn in HL; lia|]. inversion HT as [|? ? Ht HT']; subst. cbn [fst snd].
    rewrite !map_app. cbn [map fst snd]. unfold get at 1.
    assert (N1 : nth_error (map fst hs ++ ((0, 0, -1) : rentry) :: map fst xs0) (length hs) = Some (0, 0, -1)).
    { rewrite nth_error_app2; rewrite map_length; [|lia]. now rewrite Nat.sub_diag. }
    rewrite N1. cbn [bind]. change (re_ts (0, 0, -1)) with (-1). destruct (Z.leb_spec (-1) t); [|lia].
    pose proof (set_nth_mid (map fst hs) (0, 0, -1) (Z.of_nat shard, zlen pre, t) (map fst xs0)) as S1. rewrite map_length in S1.
    pose proof (set_nth_mid (map snd hs) 0 (zlen c') (map snd xs0)) as S2. rewrite map_length in S2.
    unfold rentry in *. rewrite S1, S2.
    destruct (IH ts xs0 bs' (hs ++ [((Z.of_nat shard, zlen pre, t), zlen c')]) (pre ++ c') HF' HC' HT' ltac:(cbn in HL; lia)) as (xs' & E & H').
    { rewrite HV. cbn [concat]. now rewrite <- app_assoc. }
    exists (((Z.of_nat shard, zlen pre, t), zlen c') :: xs').
    rewrite app_length in E. cbn [length] in E. rewrite Nat.add_1_r, <- !app_assoc in E. cbn [app] in E.
    split.
    + rewrite !map_app in *. cbn [map fst snd] in *.
      replace (zlen pre + zlen c') with (zlen (pre ++ c')) by (unfold zlen; rewrite app_length; lia). exact E.
    + cbn [zipw]. unfold put at 1. change (empty c') with false. cbv iota. constructor; [|assumption].
      cbn [fine fst snd]. split; [reflexivity|]. exists shard, (zlen pre), t, r. split; [reflexivity|]. split; [assumption|].
      apply (sread_ok _ pre c' (concat cells)); [|reflexivity|reflexivity]. rewrite HV. reflexivity.
Qed.

Lemma put_empty cells : concat cells = [] -> forall bs, length bs = length cells -> zipw put cells bs = bs.
Proof.
  induction cells as [|c cells IH]; intros E [|b bs] L; try discriminate; [reflexivity|]. cbn [concat] in E. apply app_eq_nil in E.
  destruct E as [-> E]. cbn [zipw]. unfold put at 1. cbn [empty]. f_equal. apply IH; [assumption|]. now inversion L.
Qed.

Lemma reply_step served shard r cells xs bs : get served shard = Ok r -> listing cells r ->
  Forall2 (fine served) xs bs -> Forall2 (fun c b => c = [] \/ b = None) cells bs ->
  exists xs', note_string_reply shard r (Ok (map fst xs, map snd xs)) = Ok (map fst xs', map snd xs') /\
              Forall2 (fine served) xs' (zipw put cells bs).
Proof.
  intros Hr (Hd & Hv & Ht & Hn) HF HC. unfold note_string_reply. cbn [bind]. rewrite Hd, Hv.
  destruct (concat cells) as [|b0 bb] eqn:E.
  - exists xs. split; [reflexivity|]. rewrite put_empty; [assumption|assumption|]. now apply Forall2_len0 in HC.
  - destruct (note_strings_spec served shard r Hr cells (sr_ts r) xs bs [] [] HF HC Ht Hn) as (xs' & E' & H'); [now rewrite Hv|].
    exists xs'. split; [exact E'|exact H'].
Qed.

Lemma extract_ok served xs bs : served <> [] -> Forall2 (fine served) xs bs ->
  map snd xs = map (fun b => match b with Some c => zlen c | None => 0 end) bs /\
  extract_strings served (map fst xs) (map snd xs) = Ok (concat (map (fun b => match b with Some c => c | None => [] end) bs)).
Proof.
  intros Hne HF. induction HF as [|x b xs bs Hx HF [IH1 IH2]]; [split; reflexivity|].
  cbn [map]. split; [f_equal; [|exact IH1]|].
  - destruct b; cbn [fine] in Hx; [apply Hx|subst; reflexivity].
  - destruct b as [c|]; cbn [fine] in Hx.
    + destruct Hx as (Ed & sh & off & t & r & Ex & Hg & Hs). rewrite Ex, Ed. cbn [extract_strings]. rewrite Nat2Z.id, Hg. cbn [bind].
      rewrite Hs. cbn [bind]. rewrite IH2. reflexivity.
    + subst x. cbn [fst snd extract_strings]. destruct served as [|s0 served]; [congruence|].
      change (get (s0 :: served) (Z.to_nat 0)) with (Ok s0). cbn [bind].
      unfold sread. change (Z.to_nat 0) with 0%nat.
      destruct (Z.leb_spec (0 + 0) (Z.of_nat (length (sr_val s0)))); [|lia]. cbn [bind andb Z.leb].
      change (0 <=? 0) with true. cbn [andb bind]. rewrite IH2. reflexivity.
Qed.

(** ** A table of cells over servers *)
Section Table.
Variables (X : Type) (xs : list X) (cell : nat -> X -> list N) (served : list streply).
Hypothesis Hserved : forall s r, nth_error served s = Some r -> listing (map (cell s) xs) r.
Hypothesis Hone : forall x s s', In x xs -> (s < length served)%nat -> (s' < length served)%nat -> s <> s' -> cell s x = [] \/ cell s' x = [].

Definition puts (order : list nat) (x : X) : option (list N) := fold_left (fun b s => put (cell s x) b) order None.

Lemma puts_none order x : (forall s, In s order -> cell s x = []) -> puts order x = None.
Proof.
  unfold puts. induction order as [|s order IH] using rev_ind; intro H; [reflexivity|]. rewrite fold_left_app. cbn [fold_left].
  rewrite IH by (intros; apply H, in_or_app; now left). rewrite (H s) by (apply in_or_app; right; now left). reflexivity.
Qed.

Lemma zipw_puts order s : zipw put (map (cell s) xs) (map (puts order) xs) = map (puts (order ++ [s])) xs.
Proof.
  clear Hserved Hone. induction xs as [|x l IH]; [reflexivity|]. cbn [map zipw]. rewrite IH. f_equal. unfold puts. now rewrite fold_left_app.
Qed.

Lemma calls_table order : Forall (fun s => (s < length served)%nat) order -> NoDup order ->
  exists ys, fold_left (fun a i => own note_string_reply i served a) order
               (Ok (repeat (0, 0, -1) (length xs), repeat 0 (length xs))) = Ok (map fst ys, map snd ys) /\
             Forall2 (fine served) ys (map (puts order) xs).
Proof.
  induction order as [|s order IH] using rev_ind; intros HB HN.
  - exists (map (fun _ => ((0, 0, -1), 0)) xs). split.
    + cbn [fold_left]. rewrite !map_map. cbn [fst snd].
      assert (G : forall (A : Type) (a : A), map (fun _ => a) xs = repeat a (length xs))
        by (intros A a; clear; induction xs; cbn; congruence).
      rewrite <- !G. reflexivity.
    + clear. induction xs; cbn; constructor; auto. reflexivity.
  - apply Forall_app in HB. destruct HB as [HB Hs]. apply Forall_inv in Hs.
    apply NoDup_remove in HN. rewrite app_nil_r in HN. destruct HN as [HN Hni].
    destruct (IH HB HN) as (ys & E & HF). rewrite fold_left_app. cbn [fold_left]. rewrite E. unfold own.
    destruct (nth_error served s) as [r|] eqn:Er; [|apply nth_error_None in Er; lia].
    assert (Hg : get served s = Ok r) by (unfold get; now rewrite Er).
    destruct (reply_step served s r (map (cell s) xs) ys (map (puts order) xs) Hg (Hserved s r Er) HF) as (ys' & E' & HF').
    { clear -Hone HB Hs Hni. revert Hone.
      assert (G : forall l, (forall x s s', In x l -> (s < length served)%nat -> (s' < length served)%nat -> s <> s' -> cell s x = [] \/ cell s' x = []) ->
        Forall2 (fun c b => c = [] \/ b = None) (map (cell s) l) (map (puts order) l)).
      { induction l as [|x l IH]; intro H; cbn; constructor; [|apply IH; intros; eapply H; eauto; now right].
        destruct (cell s x) as [|c0 c] eqn:Ec; [now left|right]. apply puts_none. intros s' Hs'.
        rewrite Forall_forall in HB. specialize (HB s' Hs').
        destruct (H x s s' ltac:(now left) Hs HB) as [H'|H']; [intros ->; contradiction|congruence|assumption]. }
      apply G. }
    exists ys'. split; [exact E'|]. now rewrite zipw_puts in HF'.
Qed.

Lemma puts_concat order x : In x xs -> Forall (fun s => (s < length served)%nat) order -> NoDup order ->
  match puts order x with Some c => c | None => [] end = concat (map (fun s => cell s x) order).
Proof.
  intro Hx. induction order as [|s order IH] using rev_ind; intros HB HN; [reflexivity|].
  apply Forall_app in HB. destruct HB as [HB Hs]. apply Forall_inv in Hs.
  apply NoDup_remove in HN. rewrite app_nil_r in HN. destruct HN as [HN Hni]. specialize (IH HB HN).
  rewrite map_app, concat_app. cbn [map concat]. rewrite app_nil_r, <- IH. unfold puts in *. rewrite fold_left_app. cbn [fold_left].
  unfold put at 1. destruct (cell s x) as [|c0 c] eqn:Ec; cbn [empty]; [now rewrite app_nil_r|].
  fold (puts order x). rewrite puts_none; [reflexivity|]. intros s' Hs'. rewrite Forall_forall in HB. specialize (HB s' Hs').
  destruct (Hone x s s' Hx Hs HB) as [H'|H']; [intros ->; contradiction|congruence|assumption].
Qed.

Lemma concat_unique (f : nat -> list N) l l' : Permutation l l' -> NoDup l ->
  (forall s s', In s l -> In s' l -> s <> s' -> f s = [] \/ f s' = []) -> concat (map f l) = concat (map f l').
Proof.
  induction 1 as [|s l l' HP IH|s s' l|l l' l'' HP1 IH1 HP2 IH2]; intros HN HO; [reflexivity| | |].
  - cbn. f_equal. apply IH; [now inversion HN|]. intros; apply HO; auto; now right.
  - cbn. inversion HN as [|? ? Hn _]; subst.
    destruct (HO s' s) as [E|E]; [now left|right; now left|intros ->; apply Hn; now left| |]; rewrite E; cbn; reflexivity.
  - rewrite IH1 by assumption. apply IH2; [eapply Permutation_NoDup; eassumption|].
    intros s s' Hs Hs'. apply HO; eapply Permutation_in; try eassumption; now symmetry.
Qed.

Theorem client_cells es : schedule (length served) es -> served <> [] ->
  forall n nf, length xs = (n * nf)%nat ->
  client_strings n nf served es =
  Ok (map (fun x => zlen (concat (map (fun s => cell s x) (seq 0 (length served))))) xs,
      concat (map (fun x => concat (map (fun s => cell s x) (seq 0 (length served)))) xs)).
Proof.
  intros Hes Hne n nf Hl. unfold client_strings. rewrite (run_own _ _ _ _ _ _ Hes).
  pose proof (calls_schedule _ _ Hes) as HP.
  assert (HN : NoDup (calls es)) by (eapply Permutation_NoDup; [symmetry; exact HP|apply seq_NoDup]).
  assert (HB : Forall (fun s => (s < length served)%nat) (calls es)).
  { apply Forall_forall. intros s Hs. eapply Permutation_in in Hs; [|exact HP]. apply in_seq in Hs. lia. }
  destruct (calls_table (calls es) HB HN) as (ys & E & HF). rewrite <- Hl. unfold rentry in *. rewrite E. cbn [bind fst snd].
  destruct (extract_ok served ys _ Hne HF) as [E1 E2]. unfold rentry in *. rewrite E2. cbn [bind]. rewrite E1, !map_map.
  assert (V : forall x, In x xs -> match puts (calls es) x with Some c => c | None => [] end = concat (map (fun s => cell s x) (seq 0 (length served)))).
  { intros x Hx. rewrite (puts_concat _ x Hx HB HN). apply concat_unique; [assumption|assumption|].
    rewrite Forall_forall in HB. intros; apply Hone; auto. }
  f_equal. f_equal; [|f_equal]; apply map_ext_in; intros x Hx; rewrite <- (V x Hx); [|reflexivity].
  destruct (puts (calls es) x); reflexivity.
Qed.
End Table.

(** ** The replies *)
Definition lit (x : Z * Z) : Prop := -1 <= fst x /\ (snd x <> 0 -> 0 <= fst x).

Lemma srow_lit ts look feats fs st :
  (forall f v, In f fs -> given feats f = Some v -> look_ok look v) ->
  length (fst st) = length fs -> Forall lit (fst st) ->
  length (fst (srow ts look feats fs st)) = length fs /\ Forall lit (fst (srow ts look feats fs st)).
Proof.
  destruct st as [segs out]. unfold srow. cbn [fst snd]. clear out. revert segs.
  induction fs as [|f fs IH]; intros [|x segs] Hl HL HF; try discriminate; [split; [reflexivity|constructor]|].
  cbn [zip_with length]. inversion HF as [|? ? Hx HF']; subst. destruct (IH segs) as [L F]; [intros f' v Hf'; apply Hl; now right|now inversion HL|assumption|].
  split; [now rewrite L|]. constructor; [|assumption]. unfold sres. destruct (already ts (fst x)); [exact Hx|].
  destruct (given feats f) as [v|] eqn:Eg; [|exact Hx]. cbn [fst]. unfold lit. cbn [fst snd].
  destruct (Hl f v (or_introl eq_refl) Eg) as [H|H]; [split; lia|].
  rewrite H. cbn. split; lia.
Qed.

Lemma fold_lit ts look (F : row -> list (option (list N))) fs rws st :
  (forall r f v, In r rws -> In f fs -> given (F r) f = Some v -> look_ok look v) ->
  length (fst st) = length fs -> Forall lit (fst st) ->
  let st' := fold_left (fun st r => srow ts look (F r) fs st) rws st in
  length (fst st') = length fs /\ Forall lit (fst st').
Proof.
  cbn zeta. revert st. induction rws as [|r rws IH]; intros st Hl L HF0; [split; assumption|]. cbn [fold_left].
  destruct (srow_lit ts look (F r) fs st) as [L' HF']; [intros; eapply Hl; eauto; now left|assumption|assumption|].
  apply IH; [intros; eapply Hl; eauto; now right|assumption|assumption].
Qed.

Lemma filter_len {A} (f : A -> bool) l : (length (filter f l) <= length l)%nat.
Proof. induction l as [|x l IH]; cbn; [lia|]. destruct (f x); cbn; lia. Qed.

(** What one element adds to the reply. *)
Definition reads (q : list N -> res (option (list Z * list Z * list N))) (cs : list (list N)) : Prop :=
  forall out, (q out = Ok None /\ Forall (eq []) cs) \/
  exists flags, q out = Ok (Some (flags, map zlen cs, out ++ concat cs)) /\ length flags = length cs /\
    Forall lit (combine flags (map zlen cs)).

Lemma serve_listing {X} nf (q : X -> option Z -> list N -> res (option (list Z * list Z * list N))) (D : X * option Z -> list (list N)) xs :
  (forall x t, In (x, t) xs -> length (D (x, t)) = nf /\ reads (q x t) (D (x, t))) ->
  forall out, exists r, serve_strings nf q xs out = Ok r /\
    sr_dims r = map zlen (concat (map D xs)) /\ sr_val r = out ++ concat (concat (map D xs)) /\
    Forall (fun t => -1 <= t) (sr_ts r) /\ (length (filter (fun c => negb (empty c)) (concat (map D xs))) <= length (sr_ts r))%nat.
Proof.
  induction xs as [|[x t] xs IH]; intros H out.
  { exists (SR [] [] out). cbn. rewrite app_nil_r. repeat split; auto. }
  destruct (H x t) as [Hn HR]; [now left|]. specialize (HR out).
  assert (H' : forall x t, In (x, t) xs -> length (D (x, t)) = nf /\ reads (q x t) (D (x, t))) by (intros; apply H; now right).
  cbn [serve_strings map concat]. destruct HR as [[E Hc]|(flags & E & Lf & Fl)]; rewrite E; cbn [bind].
  - destruct (IH H' out) as (r & Er & R1 & R2 & R3 & R4). rewrite Er. cbn [bind]. eexists. split; [reflexivity|]. cbn [sr_dims sr_val sr_ts].
    assert (G : forall l, Forall (eq []) l -> map zlen l = repeat 0 (length l) /\ concat l = [] /\ filter (fun c => negb (empty c)) l = []).
    { clear. induction 1 as [|c l <- _ (I1 & I2 & I3)]; [auto|]. cbn. now rewrite I1, I2, I3. }
    destruct (G _ Hc) as (G1 & G2 & G3). rewrite map_app, concat_app, filter_app, G1, G2, G3, Hn, R1. auto.
  - destruct (IH H' (out ++ concat (D (x, t)))) as (r & Er & R1 & R2 & R3 & R4). rewrite Er. cbn [bind].
    eexists. split; [reflexivity|]. cbn [sr_dims sr_val sr_ts]. rewrite map_app, concat_app, filter_app, R1, R2, <- app_assoc.
    split; [reflexivity|]. split; [reflexivity|].
    assert (F1 : Forall (fun t => -1 <= t) flags).
    { assert (Ef : flags = map fst (combine flags (map zlen (D (x, t))))).
      { clear -Lf. revert Lf. generalize (D (x, t)). induction flags as [|f flags IH]; intros [|d l] L; cbn in *; try discriminate; [reflexivity|].
        now rewrite <- IH by lia. }
      rewrite Ef. apply Forall_map. eapply Forall_impl; [|exact Fl]. intros a [Ha _]. exact Ha. }
    rewrite !app_length.
    destruct (existsb (fun t0 => 0 <=? t0) flags) eqn:Ex.
    + split; [apply Forall_app; auto|]. pose proof (filter_len (fun c => negb (empty c)) (D (x, t))). lia.
    + split; [assumption|]. enough (E0 : filter (fun c => negb (empty c)) (D (x, t)) = []) by (rewrite E0; cbn; lia).
      clear -Lf Fl Ex. revert Lf Fl Ex. generalize (D (x, t)). induction flags as [|f flags IH]; intros [|d l] L F E; cbn in *; try discriminate; [reflexivity|].
      apply orb_false_iff in E. destruct E as [E1 E2]. inversion F as [|? ? [_ Hd] F']; subst. cbn [fst snd] in Hd.
      rewrite IH by (assumption || lia). destruct d; [reflexivity|]. unfold zlen in Hd. cbn in Hd. lia.
Qed.

Section Servers.
Variables (fadd : N -> N -> N) (wval : N -> Z).
Notation converted := (converted fadd wval).
Notation part_of := (part_of fadd).

(** Bytes of feature [f] of a node in the partitions [parts], at the time of the request. *)
Definition string_of (hist : list N -> list (Z * list N)) (parts : list (list (list record))) (x : Z * option Z) (f : Z) : list N :=
  match snd x with
  | None => spec_node_string parts (fst x) f
  | Some t => entry_bytes hist t (node_values parts (fst x) f)
  end.

(** At most one row of a requested node gives a requested feature (or a single feature is
    requested without a timestamp). *)
Definition plain_rows (parts : list (list (list record))) (nodes fs : list Z) (ts : option (list Z)) : Prop :=
  forall n, In n nodes ->
    (ts = None /\ exists f, fs = [f]) \/ (length (filter (fun r => gives fs (row_feats r)) (node_rows n (map rows parts))) <= 1)%nat.

Lemma row_values parts n r f v : In r (node_rows n (map rows parts)) -> given (row_feats r) f = Some v -> In v (node_values parts n f).
Proof.
  intros Hr Hv. rewrite <- node_values_offered. unfold offered. apply in_flat_map. exists r. split; [assumption|].
  unfold given in Hv. destruct (value_at (row_feats r) f) as [w|]; [|discriminate].
  destruct (length (bytes_of w) =? 0)%nat; [discriminate|]. injection Hv as ->. now left.
Qed.

Lemma serve_node_reads wm parts g fs n t look :
  converted wm parts g -> Forall int32 fs ->
  unmixed t row_feats fs (node_rows n (map rows parts)) ->
  (t = None -> forall v, fst (look v) = 0) ->
  (forall r f v, In r (node_rows n (map rows parts)) -> In f fs -> given (row_feats r) f = Some v ->
     (forall data, resolves data t look v) /\ look_ok look v /\ timely t look v) ->
  reads (fun out => do o <- occurrences g n ;;
    match o with
    | None => Ok None
    | Some os => do st <- foldM (fun x st => part_node_string (fst x) (snd x) t fs st) os (map (fun _ => -1) fs, map (fun _ => 0) fs, out) ;;
                 Ok (Some st)
    end) (map (fun f => chosen look (node_values parts n f)) fs).
Proof.
  intros C Hi Hu H0 Hl out. destruct (converted_small fadd wval wm parts g C) as (m & Hg & HRF & HF).
  cbn beta.
  assert (Hl' : forall r f v, In r (node_rows n (map rows parts)) -> In f fs -> given (row_feats r) f = Some v -> look_ok look v /\ timely t look v)
    by (intros r f v H1 H2 H3; now apply (Hl r f v)).
  destruct (srows_fold t look row_feats fs _ out Hu Hl' H0) as [R1 R2]. cbn zeta in R1, R2.
  rewrite (map_ext _ (fun f => Z.of_nat (length (chosen look (node_values parts n f))))) in R1
    by (intro f; now rewrite node_values_offered).
  rewrite (map_ext _ (fun f => chosen look (node_values parts n f))) in R2 by (intro f; now rewrite node_values_offered).
  destruct (places (part_of m (is_temporal wm)) n (map rows parts)) as [|o os] eqn:Ep.
  - left. split; [rewrite Hg; unfold lookup, found; now rewrite Ep|]. apply places_nil in Ep. apply Forall_map, Forall_forall. intros f _.
    rewrite <- node_values_offered, Ep. reflexivity.
  - right. eexists. rewrite Hg. unfold lookup, found. rewrite Ep. cbn [bind]. rewrite <- Ep. rewrite fresh_enc.
    rewrite (foldM_rows (fun p i st => part_node_string p i t fs st) senc (fun st r => srow t look (row_feats r) fs st)
               _ _ _ _ _ (fresh fs, out) (places_rows _ n (map rows parts))).
    + cbn [bind]. unfold senc. destruct (fold_lit t look row_feats fs (node_rows n (map rows parts)) (fresh fs, out)) as [L F].
      * intros r f v H1 H2 H3. now apply (Hl' r f v).
      * unfold fresh. cbn [fst]. now rewrite map_length.
      * unfold fresh. cbn [fst]. apply Forall_map, Forall_forall. intros ? _. split; cbn; lia.
      * cbn zeta in L, F. rewrite R1, R2 in *. split; [rewrite map_map; reflexivity|]. rewrite !map_length.
        split; [exact L|]. rewrite map_map. unfold zlen. rewrite <- R1.
        match goal with |- Forall lit (combine (map fst ?l) (map snd ?l)) => replace (combine (map fst l) (map snd l)) with l; [exact F|] end.
        clear. induction (fst _) as [|[a b] l IH]; cbn; [reflexivity|]. now rewrite <- IH.
    + intros d r rest ps r1 r2 E Hin Eps Hn. rewrite Forall_forall in HF. destruct (HF ps Hin) as [Hs Hc]. subst ps.
      apply part_node_string_spec; try assumption.
      * eapply unmixed_ready; [|exact H0]. rewrite <- E. exact Hu.
      * intros f v data Hf Hv. destruct (Hl r f v) as (L1 & L2 & _); auto. now apply row_in_parts with r1 r2.
Qed.

Lemma looks_zero hist t : t = None -> forall v, fst (looks hist t v) = 0.
Proof. intros -> v. reflexivity. Qed.

Lemma chosen_string hist parts n t fs f : In f fs ->
  (t <> None -> (length (filter (fun r => gives fs (row_feats r)) (node_rows n (map rows parts))) <= 1)%nat) ->
  (t <> None -> forall f v, In f fs -> In v (node_values parts n f) -> explains hist v) ->
  chosen (looks hist t) (node_values parts n f) = string_of hist parts (n, t) f.
Proof.
  intros Hf Hu He. unfold string_of. cbn [fst snd]. destruct t as [t|]; cbn [looks].
  - apply chosen_temporal.
    + apply Forall_forall. intros v Hv. eapply He; eauto. discriminate.
    + rewrite <- node_values_offered. eapply offered_one; [eassumption|apply Hu; discriminate|]. intros v Hv. rewrite node_values_offered in Hv.
      eapply explains_nonempty, He; eauto. discriminate.
  - apply chosen_plain.
Qed.

Lemma serve_node_listing wm parts g nodes fs ts hist :
  converted wm parts g -> Forall int32 fs -> explained hist parts nodes fs ts -> plain_rows parts nodes fs ts ->
  exists r, serve_node_strings g fs nodes ts = Ok r /\
    listing (concat (map (fun x => map (string_of hist parts x) fs) (stamps nodes ts))) r.
Proof.
  intros C Hi He Hu. unfold serve_node_strings.
  destruct (serve_listing (length fs) (fun n t out => do o <- occurrences g n ;;
    match o with
    | None => Ok None
    | Some os => do st <- foldM (fun x st => part_node_string (fst x) (snd x) t fs st) os (map (fun _ => -1) fs, map (fun _ => 0) fs, out) ;;
                 Ok (Some st)
    end) (fun x => map (string_of hist parts x) fs) (stamps nodes ts)) with (out := @nil N) as (r & E & R).
  - intros n t Hin. split; [now rewrite map_length|]. destruct (stamps_in _ _ _ _ Hin) as [Hn Hts].
    assert (Hrows : t <> None -> (length (filter (fun r => gives fs (row_feats r)) (node_rows n (map rows parts))) <= 1)%nat).
    { intro Ht. destruct (Hu n Hn) as [[H _]|H]; [|assumption]. apply Hts in H. contradiction. }
    assert (Hex : t <> None -> forall f v, In f fs -> In v (node_values parts n f) -> explains hist v).
    { intros Ht f v Hf Hv. eapply explained_at; eassumption. }
    rewrite <- (map_ext_in (fun f => chosen (looks hist t) (node_values parts n f))) by (intros f Hf; now apply (chosen_string hist parts n t fs f)).
    apply (serve_node_reads wm parts g fs n t (looks hist t) C Hi).
    + destruct (Hu n Hn) as [[H Hf]|H]; [left; split; [now apply Hts|assumption]|now right].
    + apply looks_zero.
    + intros r f v H1 H2 H3. destruct t as [t|]; cbn [looks]; [|apply plain_facts].
      apply tlook_facts. apply (Hex ltac:(discriminate) f v H2). now apply (row_values parts n r).
  - exists r. split; [exact E|]. exact R.
Qed.

Definition single_holder (hist : list N -> list (Z * list N)) (split : list (list (list (list record)))) (nodes fs : list Z) (ts : option (list Z)) : Prop :=
  forall x f i j p p', In x (stamps nodes ts) -> In f fs -> i <> j ->
    nth_error split i = Some p -> nth_error split j = Some p' -> string_of hist p x f = [] \/ string_of hist p' x f = [].

Lemma explained_part hist split p nodes fs ts : explained hist (concat split) nodes fs ts -> In p split -> explained hist p nodes fs ts.
Proof.
  intros [E|H] Hp; [now left|right]. intros n f v Hn Hf Hv. apply (H n f v Hn Hf). rewrite node_values_concat. apply in_concat.
  exists (node_values p n f). split; [|assumption]. apply in_map_iff. eauto.
Qed.

(** Every string has the bytes of the only server holding it. *)
Theorem d_strings_holder wm split gs nodes fs ts hist es :
  Forall2 (converted wm) split gs -> gs <> [] -> Forall int32 fs -> explained hist (concat split) nodes fs ts -> stamped nodes ts ->
  (forall p, In p split -> plain_rows p nodes fs ts) -> single_holder hist split nodes fs ts ->
  schedule (length gs) es ->
  let val x f := concat (map (fun p => string_of hist p x f) split) in
  d_node_strings gs nodes fs ts es =
  Ok (concat (map (fun x => map (fun f => Z.of_nat (length (val x f))) fs) (stamps nodes ts)),
      concat (map (fun x => concat (map (val x) fs)) (stamps nodes ts))).
Proof.
  intros HF Hne Hi He Hst Hu Ho Hes val. unfold d_node_strings.
  assert (ES : exists rs, mapM (fun g => serve_node_strings g fs nodes ts) gs = Ok rs /\
     Forall2 (fun p r => listing (concat (map (fun x => map (string_of hist p x) fs) (stamps nodes ts))) r) split rs).
  { assert (He' : forall p, In p split -> explained hist p nodes fs ts) by (intros; eapply explained_part; eassumption).
    clear Ho Hes Hne He val. induction HF as [|p g split gs H HF IH]; [exists []; split; [reflexivity|constructor]|].
    destruct (serve_node_listing wm p g nodes fs ts hist H Hi) as (r & Er & R); [apply He'; now left|apply Hu; now left|].
    destruct IH as (rs & Ers & Rs); [intros; apply Hu; now right|intros; apply He'; now right|].
    exists (r :: rs). cbn [mapM]. rewrite Er. cbn [bind]. rewrite Ers. cbn [bind]. split; [reflexivity|]. now constructor. }
  destruct ES as (rs & Ers & HR). rewrite Ers. cbn [bind].
  pose proof (Forall2_len0 _ _ _ HF) as L1. pose proof (Forall2_len0 _ _ _ HR) as L2.
  set (keys := concat (map (fun x => map (fun f => (x, f)) fs) (stamps nodes ts))).
  set (cell := fun s (k : (Z * option Z) * Z) => string_of hist (nth s split []) (fst k) (snd k)).
  assert (K : forall (A : Type) (h : (Z * option Z) * Z -> A), map h keys = concat (map (fun x => map (fun f => h (x, f)) fs) (stamps nodes ts))).
  { intros A h. subst keys. rewrite concat_map, map_map. f_equal. apply map_ext. intro x. now rewrite map_map. }
  rewrite (client_cells _ keys cell rs).
  - rewrite !K. unfold cell. cbn [fst snd].
    assert (V : forall x f, concat (map (fun s => string_of hist (nth s split []) x f) (seq 0 (length rs))) = val x f).
    { intros x f. subst val. cbn beta. f_equal. rewrite <- L2. clear. induction split as [|p sp IH]; [reflexivity|]. cbn [length seq map nth]. f_equal.
      rewrite <- seq_shift, map_map. exact IH. }
    f_equal. f_equal.
    + f_equal. apply map_ext. intro x. apply map_ext. intro f. unfold zlen. now rewrite V.
    + assert (CC : forall (l : list (list (list N))), concat (concat l) = concat (map (@concat N) l)).
      { clear. induction l as [|a l IH]; [reflexivity|]. cbn. now rewrite concat_app, IH. }
      rewrite CC, map_map. f_equal. apply map_ext. intro x. f_equal. apply map_ext. intro f. apply V.
  - intros s r Hr. rewrite K. unfold cell. cbn [fst snd].
    assert (Hs : exists p, nth_error split s = Some p).
    { destruct (nth_error split s) eqn:E; [eauto|]. apply nth_error_None in E. assert (s < length rs)%nat by (apply nth_error_Some; congruence). lia. }
    destruct Hs as (p & Hp). rewrite (nth_error_nth _ _ _ Hp).
    clear -HR Hr Hp. revert s Hr Hp. induction HR as [|p0 r0 sp rs H HR IH]; intros [|s] Hr Hp; try discriminate.
    + cbn in Hr, Hp. injection Hr as <-. injection Hp as <-. exact H.
    + cbn in Hr, Hp. eapply IH; eassumption.
  - intros [x f] s s' Hk Hs Hs' Hn. unfold cell. cbn [fst snd]. rewrite <- L2 in Hs, Hs'.
    subst keys. apply in_concat in Hk. destruct Hk as (l & Hl & Hk). apply in_map_iff in Hl. destruct Hl as (x' & <- & Hx).
    apply in_map_iff in Hk. destruct Hk as (f' & E & Hf). injection E as -> ->.
    apply (Ho x f s s'); auto; now apply nth_error_nth'.
  - assert (LE : length rs = length gs) by lia. rewrite LE. exact Hes.
  - destruct rs; [cbn in *; destruct gs; [congruence|cbn in *; lia]|discriminate].
  - rewrite <- (stamps_length nodes ts Hst). subst keys. clear. induction (stamps nodes ts) as [|x l IH]; [reflexivity|].
    cbn [map concat length Nat.mul]. rewrite app_length, map_length, IH. lia.
Qed.

(** ** Comparison with the whole graph *)
Definition giving (fs : list Z) (parts : list (list (list record))) (n : Z) : list row :=
  filter (fun r => gives fs (row_feats r)) (node_rows n (map rows parts)).
Definition row_string (hist : list N -> list (Z * list N)) (t : option Z) (f : Z) (r : row) : list N :=
  match given (row_feats r) f with Some v => snd (looks hist t v) | None => [] end.

Lemma string_rows hist parts n t fs f : In f fs -> (length (giving fs parts n) <= 1)%nat ->
  (t <> None -> forall f v, In f fs -> In v (node_values parts n f) -> explains hist v) ->
  string_of hist parts (n, t) f = concat (map (row_string hist t f) (giving fs parts n)).
Proof.
  intros Hf Hl He. rewrite <- (chosen_string hist parts n t fs f Hf (fun _ => Hl) He). rewrite <- node_values_offered.
  unfold chosen at 1. rewrite (offered_filter row_feats fs _ f Hf). fold (giving fs parts n).
  pose proof (fun r => chosen_one (looks hist t) row_feats r f) as H1. unfold chosen in H1.
  destruct (giving fs parts n) as [|r [|r' l]]; [reflexivity| |cbn in Hl; lia]. rewrite H1. cbn. now rewrite app_nil_r.
Qed.

Lemma giving_concat fs split n : giving fs (concat split) n = concat (map (fun p => giving fs p n) split).
Proof.
  unfold giving, node_rows. induction split as [|p split IH]; [reflexivity|].
  cbn [map concat]. rewrite map_app, concat_app, !filter_app. now rewrite IH.
Qed.

Lemma giving_perm fs parts parts' n : Permutation parts parts' -> Permutation (giving fs parts n) (giving fs parts' n).
Proof.
  intro H. unfold giving, node_rows.
  assert (F : forall (A : Type) (f : A -> bool) l l', Permutation l l' -> Permutation (filter f l) (filter f l')).
  { clear. intros A f l l'. induction 1 as [|x l l' H IH|x y l|l l1 l2 H1 IH1 H2 IH2]; cbn; [constructor| | |].
    - destruct (f x); [now constructor|assumption].
    - destruct (f x), (f y); try reflexivity. apply perm_swap.
    - now rewrite IH1. }
  apply F, F. apply concat_perm. now apply Permutation_map.
Qed.

Lemma one_concat {A} (l : list (list A)) i j a b : (length (concat l) <= 1)%nat -> i <> j ->
  nth_error l i = Some a -> nth_error l j = Some b -> a = [] \/ b = [].
Proof.
  revert i j. induction l as [|x l IH]; intros [|i] [|j] Hl Hn Ha Hb; try discriminate; [congruence| | |].
  - cbn in *. injection Ha as ->. apply nth_error_In in Hb. destruct a; [now left|right]. rewrite app_length in Hl. cbn in Hl.
    destruct b; [reflexivity|]. apply in_split in Hb. destruct Hb as (l1 & l2 & ->). rewrite concat_app, app_length in Hl. cbn in Hl. lia.
  - cbn in *. injection Hb as ->. apply nth_error_In in Ha. destruct b; [now right|left]. rewrite app_length in Hl. cbn in Hl.
    destruct a; [reflexivity|]. apply in_split in Ha. destruct Ha as (l1 & l2 & ->). rewrite concat_app, app_length in Hl. cbn in Hl. lia.
  - cbn in *. rewrite app_length in Hl. apply (IH i j); try assumption; lia.
Qed.

Lemma len_concat_in {A} (l : list (list A)) a : In a l -> (length a <= length (concat l))%nat.
Proof. intro H. apply in_split in H. destruct H as (l1 & l2 & ->). rewrite concat_app. cbn. rewrite !app_length. lia. Qed.

(** At most one row of the whole graph gives the requested features of a node: the answer is
    the local one. *)
Theorem d_strings_local wm split gs all g nodes fs ts hist es :
  Forall2 (converted wm) split gs -> gs <> [] -> converted wm all g -> Permutation (concat split) all ->
  Forall int32 fs -> explained hist all nodes fs ts -> stamped nodes ts ->
  (forall n, In n nodes -> (length (giving fs all n) <= 1)%nat) ->
  schedule (length gs) es ->
  exists dims vals, node_string_features g nodes fs ts = Ok (dims, vals) /\ d_node_strings gs nodes fs ts es = Ok (concat dims, vals).
Proof.
  intros HF Hne C HP Hi He Hst H1 Hes.
  assert (H1' : forall n, In n nodes -> (length (concat (map (fun p => giving fs p n) split)) <= 1)%nat).
  { intros n Hn. rewrite <- giving_concat, (Permutation_length (giving_perm fs _ _ n HP)). now apply H1. }
  assert (He' : explained hist (concat split) nodes fs ts).
  { destruct He as [He|He]; [now left|right]. intros n f v Hn Hf Hv. apply (He n f v Hn Hf). revert Hv. unfold node_values.
    intro Hv. apply in_flat_map in Hv. destruct Hv as (r & Hr & Hv). apply in_flat_map. exists r. split; [|assumption].
    apply in_concat in Hr. destruct Hr as (b & Hb & Hr). apply in_concat in Hb. destruct Hb as (p & Hp & Hb).
    apply in_concat. exists b. split; [|assumption]. apply in_concat. exists p. split; [|assumption]. eapply Permutation_in; eassumption. }
  assert (Hp1 : forall p n, In p split -> In n nodes -> (length (giving fs p n) <= 1)%nat).
  { intros p n Hp Hn. etransitivity; [|exact (H1' n Hn)]. apply len_concat_in, in_map_iff. eauto. }
  assert (Hrow : forall p n t f, In p split -> In (n, t) (stamps nodes ts) -> In f fs ->
     string_of hist p (n, t) f = concat (map (row_string hist t f) (giving fs p n))).
  { intros p n t f Hp Hin Hf. destruct (stamps_in _ _ _ _ Hin) as [Hn Hts]. apply string_rows; [assumption|now apply Hp1|].
    intros Ht f' v Hf' Hv. eapply explained_at; [eapply explained_part; [exact He'|exact Hp]|eassumption|exact Hf'|eassumption|assumption]. }
  assert (LS : node_string_features g nodes fs ts =
    Ok (map (fun x => map (fun f => Z.of_nat (length (string_of hist all x f))) fs) (stamps nodes ts),
        concat (map (fun x => concat (map (string_of hist all x) fs)) (stamps nodes ts)))).
  { destruct ts as [l|].
    - destruct He as [He|He]; [discriminate|]. rewrite (converted_node_strings_ts fadd wval wm all g nodes fs l hist C Hi H1 He).
      unfold stamps, string_of. rewrite !map_map. reflexivity.
    - rewrite (converted_node_strings fadd wval wm all g nodes fs C Hi) by (intros n Hn; right; now apply H1).
      unfold stamps, string_of. rewrite !map_map. reflexivity. }
  rewrite LS. eexists. eexists. split; [reflexivity|].
  rewrite (d_strings_holder wm split gs nodes fs ts hist es HF Hne Hi He' Hst); [| |  |assumption].
  - assert (V : forall x f, In x (stamps nodes ts) -> In f fs -> concat (map (fun p => string_of hist p x f) split) = string_of hist all x f).
    { intros [n t] f Hx Hf. destruct (stamps_in _ _ _ _ Hx) as [Hn Hts].
      rewrite (string_rows hist all n t fs f Hf (H1 n Hn)).
      2:{ intros Ht f' v Hf' Hv. exact (explained_at hist all nodes fs ts n t f' v He Hx Hf' Hv Ht). }
      assert (EP : giving fs all n = concat (map (fun p => giving fs p n) split)).
      { rewrite <- giving_concat. pose proof (giving_perm fs _ _ n HP) as P. pose proof (H1 n Hn) as Hl. revert P Hl.
        generalize (giving fs (concat split) n) (giving fs all n). intros a b P Hl. symmetry in P. destruct b as [|r [|r' b]]; [|  |cbn in Hl; lia].
        - now apply Permutation_nil in P.
        - now apply Permutation_length_1_inv in P. }
      rewrite EP, concat_map, map_map.
      rewrite (map_ext_in _ (fun p => concat (map (row_string hist t f) (giving fs p n)))) by (intros p Hp; now apply Hrow).
      clear. induction split as [|p sp IH]; [reflexivity|]. cbn [map concat]. now rewrite concat_app, IH. }
    f_equal. f_equal.
    + f_equal. apply map_ext_in. intros x Hx. apply map_ext_in. intros f Hf. now rewrite V.
    + f_equal. apply map_ext_in. intros x Hx. f_equal. apply map_ext_in. intros f Hf. now apply V.
  - intros p Hp n Hn. right. now apply Hp1.
  - intros [n t] f i j p p' Hx Hf Hij Hi' Hj'. destruct (stamps_in _ _ _ _ Hx) as [Hn _].
    rewrite (Hrow p n t f), (Hrow p' n t f) by (assumption || (eapply nth_error_In; eassumption)).
    destruct (one_concat (map (fun p => giving fs p n) split) i j (giving fs p n) (giving fs p' n) (H1' n Hn) Hij) as [E|E].
    + now rewrite nth_error_map, Hi'.
    + now rewrite nth_error_map, Hj'.
    + left. now rewrite E.
    + right. now rewrite E.
Qed.
End Servers.
