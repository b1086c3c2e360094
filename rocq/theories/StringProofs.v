(** String features of nodes and edges. *)
From Verif Require Import Base WriterModel LoaderModel GraphModel GraphSpec FeatureModel FeatureSpec
  WriterProofs LoaderProofs QueryProofs GraphProofs ConvertProofs AnswerProofs FeatureProofs EdgeFeatureProofs.
From Coq Require Import Sorting.Sorted ZifyBool ZifyNat ZifyN.
Local Open Scope Z_scope.

(** The value of feature [f] when it has bytes. *)
Definition given (feats : list (option (list N))) (f : Z) : option (option (list N)) :=
  match value_at feats f with
  | Some v => if (length (bytes_of v) =? 0)%nat then None else Some v
  | None => None
  end.
Definition gives (fs : list Z) (feats : list (option (list N))) : bool :=
  existsb (fun f => match given feats f with Some _ => true | None => false end) fs.

(** One feature: (flag, dimension) and the bytes appended. *)
Definition sres (ts : option Z) (look : option (list N) -> Z * list N) (feats : list (option (list N))) (f : Z) (x : Z * Z)
  : Z * Z * list N :=
  if already ts (fst x) then (x, [])
  else match given feats f with
       | None => (x, [])
       | Some v => (fst (look v), Z.of_nat (length (snd (look v))), snd (look v))
       end.

Definition srow ts look feats fs (st : list (Z * Z) * list N) : list (Z * Z) * list N :=
  (zip_with (fun f x => fst (sres ts look feats f x)) fs (fst st),
   snd st ++ concat (zip_with (fun f x => snd (sres ts look feats f x)) fs (fst st))).
Definition senc (st : list (Z * Z) * list N) : list Z * list Z * list N := (map fst (fst st), map snd (fst st), snd st).

Definition ready (ts : option Z) (feats : list (option (list N))) (f : Z) (x : Z * Z) : Prop :=
  x = (-1, 0) \/ already ts (fst x) = true \/ given feats f = None.

(** [look] of a value without a visible entry is (-1, []). *)
Definition look_ok (look : option (list N) -> Z * list N) (v : option (list N)) : Prop :=
  0 <= fst (look v) \/ look v = (-1, []).

Lemma fbytes_bytes v : fbytes v = bytes_of v. Proof. destruct v; reflexivity. Qed.

Lemma slot_given pre feats post f :
  (N.of_nat (8 * length feats) < 2 ^ 64)%N -> (N.of_nat (sum (map flen (pre ++ feats ++ post))) < 2 ^ 64)%N -> int32 f ->
  match given feats f with
  | Some v => In v feats /\ exists a b, fdata (pre ++ feats ++ post) = a ++ fbytes v ++ b /\ fbytes v <> [] /\
      feature_slot (findex (pre ++ feats ++ post)) (length pre) (length pre + length feats) f =
      Ok (Some (Z.of_nat (length a), Z.of_nat (length (fbytes v))))
  | None => feature_slot (findex (pre ++ feats ++ post)) (length pre) (length pre + length feats) f = Ok None \/
      exists a, feature_slot (findex (pre ++ feats ++ post)) (length pre) (length pre + length feats) f = Ok (Some (a, 0))
  end.
Proof.
  intros Hsz1 Hsz2 Hf. unfold given. destruct (value_at feats f) as [v|] eqn:Ev.
  - destruct (slot_some pre feats post f v Hsz2 Hf Ev) as (a & b & Ed & Es).
    destruct (Nat.eqb_spec (length (bytes_of v)) 0) as [E|E].
    + right. exists (Z.of_nat (length a)). rewrite Es, fbytes_bytes, E. reflexivity.
    + split; [apply value_at_nth in Ev; destruct Ev as [_ Ev]; eapply nth_error_In; eassumption|].
      exists a, b. split; [assumption|]. split; [|assumption]. rewrite fbytes_bytes. destruct (bytes_of v); [cbn in E; lia|discriminate].
  - left. apply (slot_none _ _ _ feats); auto.
Qed.

Section Loops.
Variables (p : partition) (pre feats post : list (option (list N))) (ts : option Z) (look : option (list N) -> Z * list N).
Hypothesis Hsz1 : (N.of_nat (8 * length feats) < 2 ^ 64)%N.
Hypothesis Hsz2 : (N.of_nat (sum (map flen (pre ++ feats ++ post))) < 2 ^ 64)%N.

Lemma node_string_spec fs : p_nfidx p = findex (pre ++ feats ++ post) -> p_nfd p = fdata (pre ++ feats ++ post) ->
  forall segs out,
  (forall f v, In f fs -> given feats f = Some v -> resolves (fdata (pre ++ feats ++ post)) ts look v /\ look_ok look v) ->
  Forall int32 fs -> Forall2 (ready ts feats) fs segs ->
  node_string_loop p (length pre) (length pre + length feats) ts fs (map fst segs) (map snd segs) out =
  Ok (senc (srow ts look feats fs (segs, out))).
Proof.
  intros Hidx Hdat.
  induction fs as [|f fs IH]; intros segs out Hlook Hi HS; inversion HS as [|? [flag d] ? segs' Hl HS']; subst.
  - unfold senc, srow. cbn. now rewrite app_nil_r.
  - inversion Hi as [|? ? Hf Hi']; subst. cbn [node_string_loop map]. cbn [fst snd].
    assert (Next : forall fl dm o,
      (do r <- node_string_loop p (length pre) (length pre + length feats) ts fs (map fst segs') (map snd segs') (out ++ o) ;;
       let '(fls, dms, o') := r in Ok (fl :: fls, dm :: dms, o')) =
      Ok (fl :: map fst (zip_with (fun f x => fst (sres ts look feats f x)) fs segs'),
          dm :: map snd (zip_with (fun f x => fst (sres ts look feats f x)) fs segs'),
          (out ++ o) ++ concat (zip_with (fun f x => snd (sres ts look feats f x)) fs segs'))).
    { intros fl dm o. rewrite IH by (assumption || (intros; eapply Hlook; [right|]; eassumption)). reflexivity. }
    unfold senc, srow. cbn [fst snd zip_with map concat].
    set (x' := sres ts look feats f (flag, d)). unfold sres in x'. cbn [fst snd] in x'.
    unfold ready in Hl. cbn [fst] in Hl.
    destruct (already ts flag) eqn:Eal.
    { subst x'. cbn [fst snd]. specialize (Next flag d []). rewrite app_nil_r in Next. rewrite Next. reflexivity. }
    rewrite Hidx. pose proof (slot_given pre feats post f Hsz1 Hsz2 Hf) as Hg. destruct (given feats f) as [v|] eqn:Eg.
    + destruct Hg as (Hv & a & b & Ed & Hne & Es). rewrite Es. cbn [bind snd].
      destruct (Z.eqb_spec (Z.of_nat (length (fbytes v))) 0) as [E0|_].
      { destruct (fbytes v); [congruence|cbn in E0; lia]. }
      destruct (Hlook f v (or_introl eq_refl) Eg) as [Hr Hok].
      destruct (Hr a b Ed) as (a' & b' & Ed' & Er). rewrite Hdat, Er. cbn [bind].
      destruct Hl as [Hl|[Hl|Hl]]; [|congruence|congruence]. injection Hl as -> ->.
      subst x'. cbn [fst snd]. destruct Hok as [Hok|Hok].
      * destruct (Z.leb_spec (fst (look v)) (-1)); [lia|]. change (0 <=? -1) with false. cbv iota. cbn [bind].
        rewrite (sread_ok _ a' (snd (look v)) b') by (assumption || reflexivity). cbn [bind].
        rewrite Next. rewrite <- app_assoc. reflexivity.
      * rewrite Hok. cbn [fst snd length app]. change (-1 <=? -1) with true. cbv iota.
        specialize (Next (-1) 0 []). rewrite app_nil_r in Next. rewrite Next. reflexivity.
    + subst x'. cbn [fst snd]. specialize (Next flag d []). rewrite app_nil_r in Next.
      destruct Hg as [Hg|(a & Hg)]; rewrite Hg; cbn [bind snd]; [|change (0 =? 0) with true; cbv iota]; rewrite Next; reflexivity.
Qed.

Lemma edge_string_spec fs : p_efidx p = findex (pre ++ feats ++ post) -> p_efd p = fdata (pre ++ feats ++ post) ->
  forall segs out,
  (forall f v, In f fs -> given feats f = Some v -> resolves (fdata (pre ++ feats ++ post)) ts look v /\ look_ok look v) ->
  Forall int32 fs -> Forall2 (ready ts feats) fs segs ->
  edge_string_loop p (length pre) (length pre + length feats) ts fs (map fst segs) (map snd segs) out =
  Ok (senc (srow ts look feats fs (segs, out))).
Proof.
  intros Hidx Hdat.
  induction fs as [|f fs IH]; intros segs out Hlook Hi HS; inversion HS as [|? [flag d] ? segs' Hl HS']; subst.
  - unfold senc, srow. cbn. now rewrite app_nil_r.
  - inversion Hi as [|? ? Hf Hi']; subst. cbn [edge_string_loop map]. cbn [fst snd].
    assert (Next : forall fl dm o,
      (do r <- edge_string_loop p (length pre) (length pre + length feats) ts fs (map fst segs') (map snd segs') (out ++ o) ;;
       let '(fls, dms, o') := r in Ok (fl :: fls, dm :: dms, o')) =
      Ok (fl :: map fst (zip_with (fun f x => fst (sres ts look feats f x)) fs segs'),
          dm :: map snd (zip_with (fun f x => fst (sres ts look feats f x)) fs segs'),
          (out ++ o) ++ concat (zip_with (fun f x => snd (sres ts look feats f x)) fs segs'))).
    { intros fl dm o. rewrite IH by (assumption || (intros; eapply Hlook; [right|]; eassumption)). reflexivity. }
    unfold senc, srow. cbn [fst snd zip_with map concat].
    set (x' := sres ts look feats f (flag, d)). unfold sres in x'. cbn [fst snd] in x'.
    destruct (already ts flag) eqn:Eal.
    { subst x'. cbn [fst snd]. specialize (Next flag d []). rewrite app_nil_r in Next. rewrite Next. reflexivity. }
    rewrite Hidx. pose proof (slot_given pre feats post f Hsz1 Hsz2 Hf) as Hg. destruct (given feats f) as [v|] eqn:Eg.
    + destruct Hg as (Hv & a & b & Ed & Hne & Es). rewrite Es. cbn [bind snd].
      destruct (Z.eqb_spec (Z.of_nat (length (fbytes v))) 0) as [E0|_].
      { destruct (fbytes v); [congruence|cbn in E0; lia]. }
      destruct (Hlook f v (or_introl eq_refl) Eg) as [Hr Hok].
      destruct (Hr a b Ed) as (a' & b' & Ed' & Er). rewrite Hdat, Er. cbn [bind].
      subst x'. cbn [fst snd].
      rewrite (sread_ok _ a' (snd (look v)) b') by (assumption || reflexivity). cbn [bind].
      rewrite Next. rewrite <- app_assoc. reflexivity.
    + subst x'. cbn [fst snd]. specialize (Next flag d []). rewrite app_nil_r in Next.
      destruct Hg as [Hg|(a & Hg)]; rewrite Hg; cbn [bind snd]; [|change (0 =? 0) with true; cbv iota]; rewrite Next; reflexivity.
Qed.
End Loops.

Lemma given_nil f : given [] f = None.
Proof. unfold given, value_at. destruct (f <? 0); [reflexivity|]. rewrite (proj2 (nth_error_None _ _)) by (cbn; lia). reflexivity. Qed.

Lemma srow_none ts look feats fs st : length fs = length (fst st) -> (forall f, In f fs -> given feats f = None) ->
  srow ts look feats fs st = st.
Proof.
  destruct st as [segs out]. unfold srow. cbn [fst snd]. intros Hl Hn.
  assert (H : zip_with (fun f x => fst (sres ts look feats f x)) fs segs = segs /\
              concat (zip_with (fun f x => snd (sres ts look feats f x)) fs segs) = []).
  { revert segs Hl. induction fs as [|f fs IH]; intros [|x segs] Hl; cbn in Hl; try discriminate; [auto|].
    cbn [zip_with concat]. destruct (IH ltac:(intros; apply Hn; now right) segs ltac:(lia)) as [H1 H2]. rewrite H1, H2.
    assert (E : sres ts look feats f x = (x, [])).
    { unfold sres. rewrite (Hn f) by now left. destruct (already ts (fst x)); reflexivity. }
    rewrite E. auto. }
  destruct H as [-> ->]. now rewrite app_nil_r.
Qed.

(** ** Folding over the rows of a node *)

(** Rows seen through the features they offer. *)
Definition offered (F : row -> list (option (list N))) (rws : list row) (f : Z) : list (option (list N)) :=
  flat_map (fun r => opt_list (value_at (F r) f)) rws.
Definition chosen (look : option (list N) -> Z * list N) (vs : list (option (list N))) : list N :=
  match filter (fun v => negb (length (bytes_of v) =? 0)%nat) vs with v :: _ => snd (look v) | [] => [] end.

Definition fresh (fs : list Z) : list (Z * Z) := map (fun _ => (-1, 0)) fs.

(** Either a single feature is requested without a timestamp, or at most one row gives a value
    for a requested feature. *)
Definition unmixed (ts : option Z) (F : row -> list (option (list N))) (fs : list Z) (rws : list row) : Prop :=
  (ts = None /\ exists f, fs = [f]) \/ (length (filter (fun r => gives fs (F r)) rws) <= 1)%nat.

Lemma gives_false fs feats : gives fs feats = false -> forall f, In f fs -> given feats f = None.
Proof.
  unfold gives. intros H f Hf. destruct (given feats f) eqn:E; [|reflexivity].
  assert (existsb (fun f => match given feats f with Some _ => true | None => false end) fs = true).
  { apply existsb_exists. exists f. split; [assumption|]. now rewrite E. }
  congruence.
Qed.

Lemma zip_length {A B C} (h : A -> B -> C) l m : length l = length m -> length (zip_with h l m) = length l.
Proof. revert m; induction l as [|a l IH]; intros [|b m] H; cbn in *; try discriminate; [reflexivity|]. now rewrite IH by lia. Qed.

Lemma srow_fresh ts look feats fs out :
  (forall f v, In f fs -> given feats f = Some v -> look_ok look v) ->
  map snd (fst (srow ts look feats fs (fresh fs, out))) =
    map (fun f => Z.of_nat (length (match given feats f with Some v => if already ts (-1) then [] else snd (look v) | None => [] end))) fs /\
  snd (srow ts look feats fs (fresh fs, out)) =
    out ++ concat (map (fun f => match given feats f with Some v => if already ts (-1) then [] else snd (look v) | None => [] end) fs).
Proof.
  intros _. unfold srow, fresh. cbn [fst snd].
  assert (H : forall f, sres ts look feats f (-1, 0) =
    (fst (sres ts look feats f (-1, 0)),
     match given feats f with Some v => if already ts (-1) then [] else snd (look v) | None => [] end) /\
    snd (fst (sres ts look feats f (-1, 0))) =
    Z.of_nat (length (match given feats f with Some v => if already ts (-1) then [] else snd (look v) | None => [] end))).
  { intro f. unfold sres. cbn [fst]. destruct (given feats f); destruct (already ts (-1)); auto. }
  split; [|f_equal; f_equal].
  - induction fs as [|f fs IH]; [reflexivity|]. cbn [map zip_with]. rewrite IH. f_equal. apply H.
  - induction fs as [|f fs IH]; [reflexivity|]. cbn [map zip_with]. rewrite IH. f_equal. destruct (H f) as [E _]. rewrite E. reflexivity.
Qed.

Lemma offered_filter F fs rws f : In f fs ->
  filter (fun v => negb (length (bytes_of v) =? 0)%nat) (offered F rws f) =
  filter (fun v => negb (length (bytes_of v) =? 0)%nat) (offered F (filter (fun r => gives fs (F r)) rws) f).
Proof.
  intro Hf. unfold offered. induction rws as [|r rws IH]; [reflexivity|]. cbn [flat_map filter]. rewrite filter_app, IH.
  destruct (gives fs (F r)) eqn:E; [cbn [flat_map]; now rewrite filter_app|].
  pose proof (gives_false _ _ E f Hf) as H. unfold given in H.
  destruct (value_at (F r) f) as [v|]; cbn [opt_list filter]; [|reflexivity].
  destruct (length (bytes_of v) =? 0)%nat; [reflexivity|discriminate].
Qed.

Lemma chosen_one look F r f : chosen look (offered F [r] f) = match given (F r) f with Some v => snd (look v) | None => [] end.
Proof.
  unfold chosen, offered, given. cbn [flat_map]. rewrite app_nil_r. destruct (value_at (F r) f) as [v|]; cbn [opt_list filter]; [|reflexivity].
  destruct (length (bytes_of v) =? 0)%nat; reflexivity.
Qed.

(** A visible value is not looked up at time -1 (the flag of "nothing read"). *)
Definition timely (ts : option Z) (look : option (list N) -> Z * list N) (v : option (list N)) : Prop :=
  already ts (-1) = true -> snd (look v) = [].

Lemma srows_fold ts look F fs rws out :
  unmixed ts F fs rws ->
  (forall r f v, In r rws -> In f fs -> given (F r) f = Some v -> look_ok look v /\ timely ts look v) ->
  (ts = None -> forall v, fst (look v) = 0) ->
  let st := fold_left (fun st r => srow ts look (F r) fs st) rws (fresh fs, out) in
  map snd (fst st) = map (fun f => Z.of_nat (length (chosen look (offered F rws f)))) fs /\
  snd st = out ++ concat (map (fun f => chosen look (offered F rws f)) fs).
Proof.
  intros [[Ht (f & Hf)]|H1] Hl H0; cbn zeta.
  - subst ts fs. specialize (H0 eq_refl). cbn [map concat].
    assert (Done : forall rws x o, 0 <= fst x ->
       fold_left (fun st r => srow None look (F r) [f] st) rws ([x], o) = ([x], o)).
    { clear -H0. induction rws as [|r rws IH]; intros x o Hx; [reflexivity|]. cbn [fold_left].
      assert (E : srow None look (F r) [f] ([x], o) = ([x], o)).
      { unfold srow. cbn [fst snd zip_with concat]. unfold sres, already. destruct (Z.leb_spec 0 (fst x)); [|lia].
        cbn. now rewrite app_nil_r. }
      rewrite E. now apply IH. }
    clear Hl. unfold fresh. cbn [map].
    induction rws as [|r rws IH]; [cbn; now rewrite app_nil_r|]. cbn [fold_left].
    assert (E : srow None look (F r) [f] ([(-1, 0)], out) =
      match given (F r) f with
      | Some v => ([(fst (look v), Z.of_nat (length (snd (look v))))], out ++ snd (look v))
      | None => ([(-1, 0)], out)
      end).
    { unfold srow. cbn [fst snd zip_with concat]. unfold sres. cbn [already fst snd]. change (0 <=? -1) with false. cbv iota.
      destruct (given (F r) f); cbn [fst snd]; now rewrite app_nil_r. }
    rewrite E. clear E. unfold chosen, offered. cbn [flat_map]. fold (offered F rws f). unfold given.
    destruct (value_at (F r) f) as [v|]; cbn [opt_list app filter].
    + destruct (length (bytes_of v) =? 0)%nat; cbn [negb].
      * exact IH.
      * rewrite Done by (cbn [fst]; rewrite H0; lia). cbn. rewrite ?app_nil_r. auto.
    + exact IH.
  - assert (Skip : forall rws st, length fs = length (fst st) ->
       fold_left (fun st r => srow ts look (F r) fs st) rws st =
       fold_left (fun st r => srow ts look (F r) fs st) (filter (fun r => gives fs (F r)) rws) st).
    { clear. induction rws as [|r rws IH]; intros st H; [reflexivity|]. cbn [fold_left filter]. destruct (gives fs (F r)) eqn:E.
      - cbn [fold_left]. apply IH. unfold srow. cbn [fst]. now rewrite zip_length.
      - rewrite srow_none by (assumption || now apply gives_false). now apply IH. }
    rewrite Skip by (unfold fresh; cbn [fst]; now rewrite map_length).
    assert (Ch : forall f, In f fs -> chosen look (offered F rws f) = chosen look (offered F (filter (fun r => gives fs (F r)) rws) f)).
    { intros f Hf. unfold chosen. now rewrite (offered_filter F fs rws f Hf). }
    rewrite (map_ext_in _ _ fs (fun f Hf => f_equal (fun l => Z.of_nat (length l)) (Ch f Hf))).
    rewrite (map_ext_in _ _ fs Ch).
    assert (Hin : forall r, In r (filter (fun r => gives fs (F r)) rws) -> In r rws) by (intros r Hr; now apply filter_In in Hr).
    destruct (filter (fun r => gives fs (F r)) rws) as [|r [|r' l]]; [| |cbn in H1; lia].
    + cbn [fold_left fst snd]. unfold fresh. rewrite map_map. cbn [snd]. split; [reflexivity|].
      unfold offered. cbn [flat_map chosen]. clear. rewrite <- (app_nil_r out) at 1. f_equal. induction fs as [|f fs IH]; [reflexivity|exact IH].
    + cbn [fold_left].
      assert (Es : forall f, In f fs -> (match given (F r) f with Some v => if already ts (-1) then [] else snd (look v) | None => [] end) =
                 chosen look (offered F [r] f)).
      { intros f Hf. rewrite chosen_one. destruct (given (F r) f) as [v|] eqn:E; [|reflexivity].
        destruct (Hl r f v (Hin r (or_introl eq_refl)) Hf E) as [_ Htm].
        destruct (already ts (-1)) eqn:Ea; [|reflexivity]. symmetry. now apply Htm. }
      destruct (srow_fresh ts look (F r) fs out) as [E1 E2].
      { intros f v Hf E. apply (Hl r f v (Hin r (or_introl eq_refl)) Hf E). }
      rewrite E1, E2. split.
      * apply map_ext_in. intros f Hf. now rewrite (Es f Hf).
      * f_equal. f_equal. now apply map_ext_in.
Qed.

(** The states met while folding are ready. *)
Lemma unmixed_ready ts look F fs rws1 r rws2 out :
  unmixed ts F fs (rws1 ++ r :: rws2) -> (ts = None -> forall v, fst (look v) = 0) ->
  Forall2 (ready ts (F r)) fs (fst (fold_left (fun st r => srow ts look (F r) fs st) rws1 (fresh fs, out))).
Proof.
  intros [[Ht (f & Hf)]|H1] H0.
  - subst ts fs. specialize (H0 eq_refl).
    assert (H : forall rws1 x o, x = (-1, 0) \/ 0 <= fst x ->
      Forall2 (ready None (F r)) [f] (fst (fold_left (fun st r => srow None look (F r) [f] st) rws1 ([x], o)))).
    { clear -H0. induction rws1 as [|r1 rws1 IH]; intros x o Hx; cbn [fold_left].
      - cbn. constructor; [|constructor]. destruct Hx as [Hx|Hx]; [now left|]. right. left. unfold already. lia.
      - unfold srow at 2. cbn [fst snd zip_with concat]. apply IH. unfold sres.
        destruct (already None (fst x)); [assumption|]. destruct (given (F r1) f); [|assumption]. right. cbn. rewrite H0. lia. }
    apply H. now left.
  - rewrite filter_app, app_length in H1. cbn [filter] in H1. destruct (gives fs (F r)) eqn:E.
    + assert (Hn : filter (fun r => gives fs (F r)) rws1 = []).
      { destruct (filter (fun r => gives fs (F r)) rws1); [reflexivity|]. cbn in H1. lia. }
      assert (Es : fold_left (fun st r => srow ts look (F r) fs st) rws1 (fresh fs, out) = (fresh fs, out)).
      { clear -Hn. induction rws1 as [|r1 rws1 IH]; [reflexivity|]. cbn [filter] in Hn. destruct (gives fs (F r1)) eqn:E; [discriminate|].
        cbn [fold_left]. rewrite srow_none; [now apply IH| |now apply gives_false]. unfold fresh. cbn. now rewrite map_length. }
      rewrite Es. cbn [fst]. unfold fresh. clear. induction fs; constructor; [now left|assumption].
    + assert (Hlen : length fs = length (fst (fold_left (fun st r => srow ts look (F r) fs st) rws1 (fresh fs, out)))).
      { clear. assert (H : forall st, length fs = length (fst st) ->
            length fs = length (fst (fold_left (fun st r => srow ts look (F r) fs st) rws1 st))).
        { induction rws1 as [|r1 rws1 IH]; intros st H; [assumption|]. cbn [fold_left]. apply IH. unfold srow. cbn [fst]. now rewrite zip_length. }
        apply H. unfold fresh. cbn. now rewrite map_length. }
      pose proof (gives_false _ _ E) as Hg. revert Hlen Hg. generalize (fst (fold_left (fun st r => srow ts look (F r) fs st) rws1 (fresh fs, out))).
      clear. induction fs as [|f fs IH]; intros [|x l] Hl Hg; cbn in Hl; try discriminate; constructor.
      * right. right. apply Hg. now left.
      * apply IH; [lia|]. intros; apply Hg; now right.
Qed.

(** ** Queries *)

Definition place_of (P : list row -> partition) (rwss : list (list row)) (n : Z) (o : partition * nat) (r : row) : Prop :=
  exists rws r1 r2, In rws rwss /\ rws = r1 ++ r :: r2 /\ row_id r = n /\ o = (P rws, length r1).

Lemma places_rows P n rwss : Forall2 (place_of P rwss n) (places P n rwss) (node_rows n rwss).
Proof.
  assert (H : forall all, incl rwss all -> Forall2 (place_of P all n) (places P n rwss) (node_rows n rwss)).
  { intros all. induction rwss as [|rws rwss IH]; intro Hi; [constructor|].
    unfold places, node_rows. cbn [flat_map concat]. rewrite filter_app. apply Forall2_app.
    - rewrite <- (filter_indexed (fun r => row_id r =? n)).
      assert (Hx : forall x, In x (filter (fun x : nat * row => row_id (snd x) =? n) (indexed rws)) ->
                place_of P all n (P rws, fst x) (snd x)).
      { intros [i r] Hx. apply filter_In in Hx. destruct Hx as [Hx Hn]. cbn [fst snd] in *.
        apply indexed_split in Hx. destruct Hx as (l1 & l2 & E & ->). exists rws, l1, l2.
        split; [apply Hi; now left|]. split; [assumption|]. split; [lia|reflexivity]. }
      induction (filter _ (indexed rws)) as [|x l IHl]; [constructor|]. cbn [map]. constructor; [apply Hx; now left|].
      apply IHl. intros; apply Hx; now right.
    - apply IH. intros x Hx. apply Hi. now right. }
  apply H. apply incl_refl.
Qed.

Lemma foldM_rows {S T} (q : partition -> nat -> S -> res S) (enc : T -> S) (h : T -> row -> T) P rwss n os rws : forall s0,
  Forall2 (place_of P rwss n) os rws ->
  (forall d r rest ps r1 r2, rws = d ++ r :: rest -> In ps rwss -> ps = r1 ++ r :: r2 -> row_id r = n ->
     q (P ps) (length r1) (enc (fold_left h d s0)) = Ok (enc (h (fold_left h d s0) r))) ->
  foldM (fun x s => q (fst x) (snd x) s) os (enc s0) = Ok (enc (fold_left h rws s0)).
Proof.
  intros s0 HF. revert s0. induction HF as [|o r os rws (ps & r1 & r2 & Hin & E & Hn & Eo) HF IH]; intros s0 H; [reflexivity|].
  subst o. cbn [foldM fold_left fst snd]. pose proof (H [] r rws ps r1 r2 eq_refl Hin E Hn) as H'. cbn [fold_left] in H'. rewrite H'.
  cbn [bind]. apply IH.
  intros d r' rest ps' r1' r2' E' Hin' Ep' Hn'. apply (H (r :: d) r' rest ps' r1' r2'); try assumption. now rewrite E'.
Qed.

Lemma fresh_enc fs out : (map (fun _ => -1) fs, map (fun _ => 0) fs, out) = senc (fresh fs, out).
Proof. unfold senc, fresh. cbn [fst snd]. rewrite !map_map. reflexivity. Qed.

Section GraphStrings.
Variables (fadd : N -> N -> N) (wval : N -> Z).
Notation part_of := (part_of fadd).
Notation converted := (converted fadd wval).

Lemma part_node_string_spec m tmp r1 r r2 ts look fs st :
  small (r1 ++ r :: r2) -> counted m (r1 ++ r :: r2) -> Forall int32 fs ->
  Forall2 (ready ts (row_feats r)) fs (fst st) ->
  (forall f v data, In f fs -> given (row_feats r) f = Some v -> resolves data ts look v /\ look_ok look v) ->
  part_node_string (part_of m tmp (r1 ++ r :: r2)) (length r1) ts fs (senc st) = Ok (senc (srow ts look (row_feats r) fs st)).
Proof.
  destruct st as [segs out]. intros (S1 & S2 & _) (C1 & _) Hi HS Hl. unfold part_node_string, senc at 1. cbn [fst snd] in *.
  destruct (nidx_get fadd m tmp r1 r r2) as [G1 G2]. rewrite G1, G2. clear G1 G2. cbn [bind].
  assert (Hidx : p_nfidx (part_of m tmp (r1 ++ r :: r2)) =
     if (0 <? lm_nfc m)%nat then findex (all_nfeats r1 ++ row_feats r ++ all_nfeats r2) else []).
  { cbn [p_nfidx LoaderProofs.part_of]. rewrite all_nfeats_split. reflexivity. }
  assert (Hdat : p_nfd (part_of m tmp (r1 ++ r :: r2)) =
     if (0 <? lm_nfc m)%nat then fdata (all_nfeats r1 ++ row_feats r ++ all_nfeats r2) else []).
  { cbn [p_nfd LoaderProofs.part_of]. rewrite all_nfeats_split. reflexivity. }
  rewrite all_nfeats_split in *.
  destruct (Nat.ltb_spec 0 (lm_nfc m)) as [Hc|Hc].
  - rewrite Hidx. unfold findex at 1.
    destruct (psum_snoc_head 0 (map flen (all_nfeats r1 ++ row_feats r ++ all_nfeats r2))) as (t & Et).
    cbn [Nat.add] in Et. rewrite Et.
    apply (node_string_spec _ (all_nfeats r1) (row_feats r) (all_nfeats r2)); try assumption.
    + rewrite !app_length in S1. lia.
    + intros f v Hf Hv. now apply (Hl f).
  - rewrite Hidx. assert (Hn : lm_nfc m = 0%nat) by lia. apply C1 in Hn.
    apply app_eq_nil in Hn. destruct Hn as [_ Hn]. apply app_eq_nil in Hn. destruct Hn as [Hn _]. rewrite Hn.
    rewrite srow_none; [reflexivity| |intros; apply given_nil]. cbn [fst]. clear -HS. induction HS; cbn; congruence.
Qed.

(** Features of the requested edge in a row. *)
Definition edge_row_feats (e : Z * Z * Z) (r : row) : list (option (list N)) :=
  match find (same_edge e) (row_edges r) with Some x => e_feats x | None => [] end.

Lemma part_edge_string_spec m tmp r1 r r2 s dst ty ts look fs st :
  small (r1 ++ r :: r2) -> (0 < lm_efc m)%nat -> row_facts r -> searchable r -> Forall int32 fs ->
  Forall2 (ready ts (edge_row_feats (s, dst, ty) r)) fs (fst st) ->
  (forall f v data, In f fs -> given (edge_row_feats (s, dst, ty) r) f = Some v -> resolves data ts look v /\ look_ok look v) ->
  part_edge_string (part_of m tmp (r1 ++ r :: r2)) (length r1) dst ty ts fs (senc st) =
  Ok (senc (srow ts look (edge_row_feats (s, dst, ty) r) fs st)).
Proof.
  destruct st as [segs out]. intros (_ & _ & S1 & S2) Hc HR HSr Hi HS Hl. unfold part_edge_string, senc at 1. cbn [fst snd] in *.
  pose proof (edge_place fadd m tmp r1 r r2 s dst ty HR HSr) as EP. unfold edge_row_feats in *.
  destruct (find (same_edge (s, dst, ty)) (row_edges r)) as [x|].
  2:{ rewrite EP. cbn [bind]. rewrite srow_none; [reflexivity| |intros; apply given_nil]. cbn [fst]. clear -HS. induction HS; cbn; congruence. }
  destruct EP as (l1 & l2 & Ea & Hx & ->). cbn [bind].
  destruct (foff_get fadd m tmp _ _ _ _ Ea Hc) as (_ & F2 & F3). cbn zeta in *. rewrite F2, F3. cbn [bind].
  assert (Hidx : p_efidx (part_of m tmp (r1 ++ r :: r2)) = findex (all_efeats l1 ++ e_feats x ++ all_efeats l2)).
  { cbn [p_efidx LoaderProofs.part_of]. rewrite (proj2 (Nat.ltb_lt _ _) Hc), Ea, all_efeats_split. reflexivity. }
  assert (Hdat : p_efd (part_of m tmp (r1 ++ r :: r2)) = fdata (all_efeats l1 ++ e_feats x ++ all_efeats l2)).
  { cbn [p_efd LoaderProofs.part_of]. rewrite (proj2 (Nat.ltb_lt _ _) Hc), Ea, all_efeats_split. reflexivity. }
  rewrite Ea, all_efeats_split in *.
  apply (edge_string_spec _ (all_efeats l1) (e_feats x) (all_efeats l2)); try assumption.
  - rewrite !app_length in S1. lia.
  - intros f v Hf Hv. now apply (Hl f).
Qed.

Lemma string_loop_pure {A} (q : A -> option Z -> list N -> res (list Z * list N)) (D : A * option Z -> list (list N)) xs : forall out,
  (forall x t o, In (x, t) xs -> q x t o = Ok (map (fun s => Z.of_nat (length s)) (D (x, t)), o ++ concat (D (x, t)))) ->
  string_loop q xs out = Ok (map (fun x => map (fun s => Z.of_nat (length s)) (D x)) xs, out ++ concat (map (fun x => concat (D x)) xs)).
Proof.
  induction xs as [|[x t] xs IH]; intros out H; [cbn; now rewrite app_nil_r|]. cbn [string_loop].
  rewrite H by now left. cbn [bind fst snd]. rewrite IH by (intros; apply H; now right). cbn [bind fst snd map concat].
  now rewrite <- app_assoc.
Qed.

Lemma node_values_offered parts n f : offered row_feats (node_rows n (map rows parts)) f = node_values parts n f.
Proof. apply node_values_rows. Qed.

Lemma edge_values_offered parts e f :
  offered (edge_row_feats e) (node_rows (fst (fst e)) (map rows parts)) f = edge_values parts e f.
Proof.
  unfold offered, edge_values, node_rows. rewrite flat_map_concat_map with (l := parts).
  induction (concat (map rows parts)) as [|r rws IH]; [reflexivity|]. cbn [filter flat_map].
  destruct (row_id r =? fst (fst e)); [|exact IH]. cbn [flat_map]. rewrite IH. f_equal. unfold edge_row_feats.
  destruct (find (same_edge e) (row_edges r)); [reflexivity|]. unfold value_at. destruct (f <? 0); [reflexivity|].
  rewrite (proj2 (nth_error_None _ _)) by (cbn; lia). reflexivity.
Qed.

Lemma row_in_parts n rwss r1 r r2 : In (r1 ++ r :: r2) rwss -> row_id r = n -> In r (node_rows n rwss).
Proof.
  intros H E. unfold node_rows. apply filter_In. split; [|lia]. apply in_concat. exists (r1 ++ r :: r2).
  split; [assumption|]. apply in_or_app. right. now left.
Qed.

Lemma g_node_string_spec wm parts g fs ts n out look :
  converted wm parts g -> Forall int32 fs ->
  unmixed ts row_feats fs (node_rows n (map rows parts)) ->
  (ts = None -> forall v, fst (look v) = 0) ->
  (forall r f v, In r (node_rows n (map rows parts)) -> In f fs -> given (row_feats r) f = Some v ->
     (forall data, resolves data ts look v) /\ look_ok look v /\ timely ts look v) ->
  g_node_string g fs ts n out =
  Ok (map (fun f => Z.of_nat (length (chosen look (node_values parts n f)))) fs,
      out ++ concat (map (fun f => chosen look (node_values parts n f)) fs)).
Proof.
  intros C Hi Hu H0 Hl. destruct (converted_small fadd wval wm parts g C) as (m & Hg & HRF & HF).
  unfold g_node_string. rewrite Hg. cbn [bind]. unfold lookup, found.
  assert (Hl' : forall r f v, In r (node_rows n (map rows parts)) -> In f fs -> given (row_feats r) f = Some v -> look_ok look v /\ timely ts look v)
    by (intros r f v H1 H2 H3; now apply (Hl r f v)).
  destruct (srows_fold ts look row_feats fs _ out Hu Hl' H0) as [R1 R2]. cbn zeta in R1, R2.
  rewrite (map_ext _ (fun f => Z.of_nat (length (chosen look (node_values parts n f))))) in R1
    by (intro f; now rewrite node_values_offered).
  rewrite (map_ext _ (fun f => chosen look (node_values parts n f))) in R2 by (intro f; now rewrite node_values_offered).
  destruct (places (part_of m (is_temporal wm)) n (map rows parts)) as [|o os] eqn:Ep.
  - apply places_nil in Ep. rewrite Ep in *. cbn [fold_left fst snd] in *. rewrite <- R1, <- R2.
    unfold fresh. rewrite map_map. reflexivity.
  - rewrite <- Ep. rewrite fresh_enc.
    rewrite (foldM_rows (fun p i st => part_node_string p i ts fs st) senc (fun st r => srow ts look (row_feats r) fs st)
               _ _ _ _ _ (fresh fs, out) (places_rows _ n (map rows parts))).
    + cbn [bind]. unfold senc. rewrite R1, R2. reflexivity.
    + intros d r rest ps r1 r2 E Hin Eps Hn. rewrite Forall_forall in HF. destruct (HF ps Hin) as [Hs Hc]. subst ps.
      apply part_node_string_spec; try assumption.
      * eapply unmixed_ready; [|exact H0]. rewrite <- E. exact Hu.
      * intros f v data Hf Hv. destruct (Hl r f v) as (L1 & L2 & _); auto. now apply row_in_parts with r1 r2.
Qed.

Lemma readable_small wm parts g n : readable fadd wval wm parts g n ->
  exists m, graph_of fadd m (is_temporal wm) (map rows parts) g /\
            Forall (fun rws => Forall row_facts rws) (map rows parts) /\
            Forall (fun rws => small rws /\ counted m rws) (map rows parts) /\
            (node_rows n (map rows parts) <> [] -> (0 < lm_efc m)%nat).
Proof.
  intros (all & ps & m & sel & H & F & R & Ep & L & Hex). exists m.
  pose proof (convert_small wval wm all ps m H F) as HF.
  split; [subst parts; eapply (converted_loads fadd wval); eassumption|]. split; [|split].
  - subst parts. rewrite <- pick_map. apply pick_forall. eapply convert_facts; eassumption.
  - subst parts. rewrite <- pick_map. now apply pick_forall.
  - intros Hn. destruct (Nat.eq_dec (lm_efc m) 0) as [E|]; [|lia]. destruct Hex as [(x & Hx & Hne)|Hno].
    2:{ exfalso. apply Hn. unfold node_rows. rewrite <- flat_map_concat_map. revert Hno. clear. induction (flat_map rows parts) as [|r l IH]; intro H; [reflexivity|].
        cbn [filter]. destruct (Z.eqb_spec (row_id r) n) as [E|_]; [exfalso; now apply (H r (or_introl eq_refl))|]. apply IH. intros; apply H; now right. }
    apply in_flat_map in Hx. destruct Hx as (r & Hr & Hx). rewrite flat_map_concat_map in Hr. apply in_concat in Hr.
    destruct Hr as (rws & Hrws & Hr). rewrite Forall_forall in HF. destruct (HF rws Hrws) as [_ [_ Hcnt]]. specialize (Hcnt E).
    destruct (e_feats x) as [|v l] eqn:Ev; [congruence|].
    assert (In v (all_efeats (all_edges rws))).
    { unfold all_efeats. apply in_flat_map. exists x. split; [|rewrite Ev; now left]. unfold all_edges. apply in_flat_map. exists r. auto. }
    rewrite Hcnt in *. contradiction.
Qed.

Lemma g_edge_string_spec wm parts g fs ts e out look :
  readable fadd wval wm parts g (fst (fst e)) -> Forall int32 fs ->
  Forall (fun r => row_id r = fst (fst e) -> searchable r) (flat_map rows parts) ->
  unmixed ts (edge_row_feats e) fs (node_rows (fst (fst e)) (map rows parts)) ->
  (ts = None -> forall v, fst (look v) = 0) ->
  (forall r f v, In r (node_rows (fst (fst e)) (map rows parts)) -> In f fs -> given (edge_row_feats e r) f = Some v ->
     (forall data, resolves data ts look v) /\ look_ok look v /\ timely ts look v) ->
  g_edge_string g fs ts e out =
  Ok (map (fun f => Z.of_nat (length (chosen look (edge_values parts e f)))) fs,
      out ++ concat (map (fun f => chosen look (edge_values parts e f)) fs)).
Proof.
  intros C Hi HSr Hu H0 Hl. destruct (readable_small wm parts g _ C) as (m & Hg & HRF & HF & Hc).
  destruct e as [[src dst] ty]. cbn [fst snd] in *.
  unfold g_edge_string. rewrite Hg. cbn [bind]. unfold lookup, found.
  assert (Hl' : forall r f v, In r (node_rows src (map rows parts)) -> In f fs -> given (edge_row_feats (src, dst, ty) r) f = Some v ->
     look_ok look v /\ timely ts look v) by (intros r f v H1 H2 H3; now apply (Hl r f v)).
  destruct (srows_fold ts look (edge_row_feats (src, dst, ty)) fs _ out Hu Hl' H0) as [R1 R2]. cbn zeta in R1, R2.
  pose proof (edge_values_offered parts (src, dst, ty)) as EV. cbn [fst] in EV.
  rewrite (map_ext _ (fun f => Z.of_nat (length (chosen look (edge_values parts (src, dst, ty) f))))) in R1
    by (intro f; now rewrite EV).
  rewrite (map_ext _ (fun f => chosen look (edge_values parts (src, dst, ty) f))) in R2 by (intro f; now rewrite EV).
  destruct (places (part_of m (is_temporal wm)) src (map rows parts)) as [|o os] eqn:Ep.
  - apply places_nil in Ep. rewrite Ep in *. cbn [fold_left fst snd] in *. rewrite <- R1, <- R2.
    unfold fresh. rewrite map_map. reflexivity.
  - rewrite <- Ep. rewrite fresh_enc.
    rewrite (foldM_rows (fun p i st => part_edge_string p i dst ty ts fs st) senc
               (fun st r => srow ts look (edge_row_feats (src, dst, ty) r) fs st)
               _ _ _ _ _ (fresh fs, out) (places_rows _ src (map rows parts))).
    + cbn [bind]. unfold senc. rewrite R1, R2. reflexivity.
    + intros d r rest ps r1 r2 E Hin Eps Hn. rewrite Forall_forall in HF, HRF. destruct (HF ps Hin) as [Hs _].
      specialize (HRF ps Hin). subst ps.
      assert (Hr : In r (node_rows src (map rows parts))) by (now apply row_in_parts with r1 r2).
      apply part_edge_string_spec; try assumption.
      * apply Hc. intro Q. rewrite Q in Hr. contradiction.
      * apply Forall_app in HRF. destruct HRF as [_ HRF]. now inversion HRF.
      * rewrite Forall_forall in HSr. apply HSr; [|assumption]. rewrite flat_map_concat_map. unfold node_rows in Hr. now apply filter_In in Hr.
      * eapply (unmixed_ready ts look (edge_row_feats (src, dst, ty))); [|exact H0]. rewrite <- E. exact Hu.
      * intros f v data Hf Hv. destruct (Hl r f v) as (L1 & L2 & _); auto.
Qed.

Lemma chosen_plain vs : chosen plain vs = first_bytes vs.
Proof. unfold chosen, first_bytes. destruct (filter _ vs) as [|v l]; [reflexivity|]. cbn. apply fbytes_bytes. Qed.

Lemma plain_facts v : (forall data, resolves data None plain v) /\ look_ok plain v /\ timely None plain v.
Proof. split; [intro; apply plain_resolves|]. split; [left; cbn; lia|]. unfold timely. cbn. discriminate. Qed.

Theorem converted_node_strings wm parts g nodes fs :
  converted wm parts g -> Forall int32 fs ->
  (forall n, In n nodes -> unmixed None row_feats fs (node_rows n (map rows parts))) ->
  node_string_features g nodes fs None =
  Ok (map (fun n => map (fun f => Z.of_nat (length (spec_node_string parts n f))) fs) nodes,
      concat (map (fun n => concat (map (spec_node_string parts n) fs)) nodes)).
Proof.
  intros C Hi Hu. unfold node_string_features, stamps.
  rewrite (string_loop_pure _ (fun x => map (spec_node_string parts (fst x)) fs)).
  - rewrite !map_map. cbn [fst app]. do 2 f_equal. apply map_ext. intro n. now rewrite map_map.
  - intros n t o Hin. apply in_map_iff in Hin. destruct Hin as (n' & E & Hin). injection E as -> <-. cbn [fst].
    rewrite (g_node_string_spec wm parts g fs None n o plain C Hi (Hu n Hin)).
    + rewrite map_map. reflexivity.
    + reflexivity.
    + intros r f v _ _ _. apply plain_facts.
Qed.

Theorem converted_edge_strings wm parts g edges fs :
  Forall int32 fs ->
  (forall e, In e edges -> readable fadd wval wm parts g (fst (fst e))) ->
  (forall e r, In e edges -> In r (flat_map rows parts) -> row_id r = fst (fst e) -> searchable r) ->
  (forall e, In e edges -> unmixed None (edge_row_feats e) fs (node_rows (fst (fst e)) (map rows parts))) ->
  edge_string_features g edges fs None =
  Ok (map (fun e => map (fun f => Z.of_nat (length (spec_edge_string parts e f))) fs) edges,
      concat (map (fun e => concat (map (spec_edge_string parts e) fs)) edges)).
Proof.
  intros Hi Hex HSr Hu. unfold edge_string_features, stamps.
  rewrite (string_loop_pure _ (fun x => map (spec_edge_string parts (fst x)) fs)).
  - rewrite !map_map. cbn [fst app]. do 2 f_equal. apply map_ext. intro n. now rewrite map_map.
  - intros n t o Hin. apply in_map_iff in Hin. destruct Hin as (n' & E & Hin). injection E as -> <-. cbn [fst].
    rewrite (g_edge_string_spec wm parts g fs None n o plain (Hex n Hin) Hi).
    + rewrite map_map. reflexivity.
    + apply Forall_forall. intros r Hr Hid. eapply HSr; eassumption.
    + now apply Hu.
    + reflexivity.
    + intros r f v _ _ _. apply plain_facts.
Qed.
End GraphStrings.
