(** Proofs about node features through servers. *)
From Coq Require Import Permutation ZifyBool ZifyNat ZifyN.
From Verif Require Import Base WriterModel LoaderModel GraphModel GraphSpec FeatureModel FeatureSpec ServerModel
  WriterProofs LoaderProofs QueryProofs GraphProofs ConvertProofs AnswerProofs FeatureProofs SearchProofs TemporalProofs ServerProofs.
Local Open Scope Z_scope.

(** ** The client loop *)
Definition later (b x : Z * list N) : Z * list N := if fst b <=? fst x then x else b.
Definition live (segs : list (Z * list N)) : bool := existsb (fun t => 0 <=? t) (map fst segs).

Fixpoint mk_reply (k : nat) (rows : list (list (Z * list N))) : freply :=
  match rows with
  | [] => no_freply
  | segs :: rows' => add_freply k (map fst segs, concat (map snd segs)) (mk_reply (S k) rows')
  end.

Definition upd (shard ni : nat) (e : rentry) (x : Z * list N) : rentry :=
  if re_ts e <=? fst x then (Z.of_nat shard, Z.of_nat ni, fst x) else e.
Fixpoint upd_rows (shard ni : nat) (rows : list (list (Z * list N))) (ess : list (list rentry)) : list (list rentry) :=
  match rows, ess with
  | segs :: rows', es :: ess' =>
      if live segs then zipw (upd shard ni) es segs :: upd_rows shard (S ni) rows' ess'
      else es :: upd_rows shard ni rows' ess'
  | _, _ => ess
  end.

Lemma set_nth_mid {A} (h : list A) a b t : set_nth (length h) b (h ++ a :: t) = h ++ b :: t.
Proof. induction h as [|x h IH]; [reflexivity|]. cbn. now rewrite IH. Qed.

Lemma note_features_spec shard ni : forall segs es done tail extra,
  length es = length segs ->
  note_features shard ni (length segs) (length done) (map fst segs ++ extra) (done ++ es ++ tail) =
  Ok (extra, done ++ zipw (upd shard ni) es segs ++ tail).
Proof.
  induction segs as [|x segs IH]; intros [|e es] done tail extra H; cbn in H; try lia; [reflexivity|].
  cbn [length note_features map app zipw]. rewrite get_app_r0 by reflexivity. unfold get at 1. cbn [nth_error bind].
  assert (E : (if re_ts e <=? fst x then set_nth (length done) (Z.of_nat shard, Z.of_nat ni, fst x) (done ++ e :: es ++ tail)
               else done ++ e :: es ++ tail) = (done ++ [upd shard ni e x]) ++ es ++ tail).
  { unfold upd. rewrite <- app_assoc. cbn [app]. destruct (re_ts e <=? fst x); [apply set_nth_mid|reflexivity]. }
  transitivity (note_features shard ni (length segs) (S (length done)) (map fst segs ++ extra) ((done ++ [upd shard ni e x]) ++ es ++ tail));
    [f_equal; exact E|]. clear E. replace (S (length done)) with (length (done ++ [upd shard ni e x])) by (rewrite app_length; cbn; lia).
  rewrite IH by lia. f_equal. f_equal. now rewrite <- app_assoc.
Qed.

Lemma note_nodes_spec shard nf : forall rows ess ni k done,
  length done = (k * nf)%nat -> length ess = length rows ->
  Forall (fun es => length es = nf) ess -> Forall (fun segs => length segs = nf) rows ->
  note_nodes shard ni nf (fr_off (mk_reply k rows)) (fr_ts (mk_reply k rows)) (done ++ concat ess) =
  Ok (done ++ concat (upd_rows shard ni rows ess)).
Proof.
  induction rows as [|segs rows IH]; intros [|es ess] ni k done Hd HL HE HR; cbn in HL; try lia; [reflexivity|].
  pose proof (Forall_inv HE) as He; pose proof (Forall_inv_tail HE) as HE'; pose proof (Forall_inv HR) as Hr; pose proof (Forall_inv_tail HR) as HR'.
  cbn beta in He, Hr.
  cbn [mk_reply upd_rows concat]. unfold add_freply. cbn [fst snd]. fold (live segs). destruct (live segs).
  - cbn [fr_off fr_ts note_nodes]. rewrite <- Hd, <- Hr. rewrite (note_features_spec shard ni segs es done (concat ess)) by (etransitivity; [exact He|symmetry; exact Hr]). cbn [bind fst snd].
    cbn [concat]. rewrite !app_assoc. rewrite Hr. rewrite (IH ess (S ni) (S k)); try assumption; [reflexivity| |lia].
    rewrite app_length, zipw_length by lia. cbn [Nat.mul]. rewrite Hd. unfold rentry in *. lia.
  - rewrite app_assoc. rewrite (IH ess ni (S k)); try assumption; [| |lia].
    + cbn [concat]. now rewrite app_assoc.
    + rewrite app_length. cbn [Nat.mul]. rewrite Hd. unfold rentry in *. lia.
Qed.

(** An entry of response_index stands for the cell [b]. *)
Definition good (served : list freply) (total : nat) (p : nat * nat) (e : rentry) (b : Z * list N) : Prop :=
  if 0 <=? re_ts e then fst b = re_ts e /\ read_entry served total p e = Ok (snd b) else fst b < 0.
Inductive good_row (served : list freply) (total : nat) : list (nat * nat) -> list rentry -> list (Z * list N) -> Prop :=
  | good_nil : good_row served total [] [] []
  | good_cons p e b ps es bs : good served total p e b -> good_row served total ps es bs ->
      good_row served total (p :: ps) (e :: es) (b :: bs).

Lemma good_row_length served total ps es bs : good_row served total ps es bs -> length es = length ps /\ length bs = length ps.
Proof. induction 1; cbn; lia. Qed.

Lemma good_upd served total p e b shard ni x :
  good served total p e b ->
  (0 <= fst x -> read_entry served total p (Z.of_nat shard, Z.of_nat ni, fst x) = Ok (snd x)) ->
  good served total p (upd shard ni e x) (later b x).
Proof.
  unfold good, upd, later, re_ts. intros G R.
  destruct (Z.leb_spec 0 (snd e)) as [H|H].
  - destruct G as [G1 G2]. rewrite G1. destruct (Z.leb_spec (snd e) (fst x)) as [H'|H'].
    + cbn [snd]. destruct (Z.leb_spec 0 (fst x)); [|lia]. split; [reflexivity|]. now apply R.
    + destruct (Z.leb_spec 0 (snd e)); [|lia]. auto.
  - destruct (Z.leb_spec (snd e) (fst x)) as [H'|H'].
    + cbn [snd]. destruct (Z.leb_spec 0 (fst x)).
      * destruct (Z.leb_spec (fst b) (fst x)); [|lia]. split; [reflexivity|]. now apply R.
      * destruct (fst b <=? fst x); lia.
    + destruct (Z.leb_spec 0 (snd e)); [lia|]. destruct (Z.leb_spec (fst b) (fst x)); lia.
Qed.

Lemma good_dead served total p e b x : good served total p e b -> fst x < 0 -> good served total p e (later b x).
Proof.
  unfold good, later. intros G H. destruct (Z.leb_spec 0 (re_ts e)).
  - destruct G as [G1 G2]. destruct (Z.leb_spec (fst b) (fst x)); [lia|auto].
  - destruct (fst b <=? fst x); lia.
Qed.

Lemma live_false segs x : live segs = false -> In x segs -> fst x < 0.
Proof.
  unfold live. intros H Hx. destruct (Z.leb_spec 0 (fst x)); [|assumption]. exfalso.
  assert (existsb (fun t => 0 <=? t) (map fst segs) = true); [|congruence].
  apply existsb_exists. exists (fst x). split; [now apply in_map|lia].
Qed.

Lemma good_row_dead served total ps es bs segs :
  good_row served total ps es bs -> length segs = length ps -> (forall x, In x segs -> fst x < 0) ->
  good_row served total ps es (zipw later bs segs).
Proof.
  intro H. revert segs. induction H as [|p e b ps es bs G _ IH]; intros [|x segs] L N; cbn in L; try lia; cbn [zipw]; constructor.
  - apply good_dead; [assumption|]. apply N. now left.
  - apply IH; [lia|]. intros y Hy. apply N. now right.
Qed.

Lemma good_row_live served total shard ni V r : forall fs pos ps es bs segs pre post,
  get served shard = Ok r -> fr_val r = V -> V = pre ++ concat (map snd segs) ++ post ->
  length pre = (ni * total + pos)%nat -> ps = prefixes pos fs -> sized fs segs ->
  good_row served total ps es bs ->
  good_row served total ps (zipw (upd shard ni) es segs) (zipw later bs segs).
Proof.
  induction fs as [|[f size] fs IH]; intros pos ps es bs segs pre post Hr HV EV Hp -> HS HG; inversion HS as [|? x ? segs' Hx HS']; subst.
  - inversion HG; subst. constructor.
  - cbn [prefixes] in HG. inversion HG as [|p e b ps' es' bs' G HG']; subst. cbn [prefixes zipw]. constructor.
    + apply good_upd; [assumption|]. intro Hx0. unfold read_entry. cbn [fst snd].
      destruct (Z.leb_spec 0 (fst x)); [|lia].
      destruct (Z.leb_spec 0 (Z.of_nat shard)); [|lia]. destruct (Z.leb_spec 0 (Z.of_nat ni)); [|lia]. cbn [andb].
      rewrite !Nat2Z.id, Hr. cbn [bind]. cbn [snd] in Hx.
      assert (E : fr_val r = pre ++ snd x ++ (concat (map snd segs') ++ post)) by (rewrite EV; cbn [map concat]; now rewrite <- app_assoc).
      rewrite E. rewrite <- Hp, <- Hx. rewrite !app_length.
      destruct (Nat.leb_spec (length pre + length (snd x)) (length pre + (length (snd x) + (length (concat (map snd segs')) + length post)))); [|lia].
      f_equal. unfold slice. rewrite skipn_app, skipn_all, Nat.sub_diag. cbn [skipn app].
      rewrite firstn_app, Nat.sub_diag, firstn_all. cbn [firstn]. apply app_nil_r.
    + apply (IH (pos + size)%nat _ _ _ segs' (pre ++ snd x) post); auto.
      * rewrite EV. cbn [map concat]. now rewrite <- !app_assoc.
      * rewrite app_length. cbn [snd] in Hx. lia.
Qed.

Lemma sized_total fs segs : sized fs segs -> length (concat (map snd segs)) = total_size fs.
Proof.
  induction 1 as [|f x fs segs H _ IH]; [reflexivity|]. cbn [map concat]. rewrite app_length, IH, H.
  unfold total_size. destruct f as [f s]. reflexivity.
Qed.

Lemma good_rows_step served fs shard r : get served shard = Ok r ->
  forall rows ess bss ni k pre,
  fr_val r = pre ++ fr_val (mk_reply k rows) -> length pre = (ni * total_size fs)%nat ->
  Forall (sized fs) rows -> Forall2 (good_row served (total_size fs) (prefixes 0 fs)) ess bss -> length ess = length rows ->
  Forall2 (good_row served (total_size fs) (prefixes 0 fs)) (upd_rows shard ni rows ess) (zipw (zipw later) bss rows).
Proof.
  intro Hr. induction rows as [|segs rows IH]; intros ess bss ni k pre HV Hp HR HG HL.
  - inversion HG; subst; [constructor|discriminate].
  - inversion HG as [|es bs ess' bss' G HG']; subst; [discriminate|]. inversion HR as [|? ? HS HR']; subst.
    cbn [upd_rows zipw]. cbn [mk_reply] in HV. unfold add_freply in HV. cbn [fst snd] in HV. fold (live segs) in HV.
    destruct (live segs) eqn:El; cbn [fr_val] in HV.
    + constructor.
      * eapply (good_row_live served (total_size fs) shard ni (fr_val r) r fs 0); eauto. lia.
      * apply (IH _ _ (S ni) (S k) (pre ++ concat (map snd segs))); try assumption.
        -- now rewrite <- app_assoc.
        -- rewrite app_length, (sized_total fs segs HS). lia.
        -- cbn in HL. lia.
    + constructor.
      * apply good_row_dead; [assumption| |intros x Hx; now apply (live_false segs)].
        apply good_row_length in G. rewrite <- (sized_length fs segs HS). destruct G as [_ G]. clear. generalize 0%nat.
        induction fs as [|[f s] fs IH]; intro p; [reflexivity|]. cbn. now rewrite <- IH.
      * apply (IH _ _ ni (S k) pre); try assumption. cbn in HL. lia.
Qed.

Lemma prefixes_length fs : forall p, length (prefixes p fs) = length fs.
Proof. induction fs as [|[f s] fs IH]; intro p; [reflexivity|]. cbn. now rewrite IH. Qed.

Lemma upd_rows_widths shard nf : forall rows ess ni, Forall (fun es => length es = nf) ess -> Forall (fun segs => length segs = nf) rows ->
  length ess = length rows ->
  Forall (fun es => length es = nf) (upd_rows shard ni rows ess) /\ length (upd_rows shard ni rows ess) = length rows.
Proof.
  induction rows as [|segs rows IH]; intros [|es ess] ni HE HR HL; cbn in HL; try lia; [split; [constructor|reflexivity]|].
  pose proof (Forall_inv HE) as He; pose proof (Forall_inv_tail HE) as HE'; pose proof (Forall_inv HR) as Hr; pose proof (Forall_inv_tail HR) as HR'.
  cbn beta in He, Hr. cbn [upd_rows].
  destruct (live segs); cbn [length].
  - destruct (IH ess (S ni)) as [I1 I2]; try assumption; [lia|]. split; [|now rewrite I2]. constructor; [|assumption].
    rewrite zipw_length by lia. assumption.
  - destruct (IH ess ni) as [I1 I2]; try assumption; [lia|]. split; [|now rewrite I2]. now constructor.
Qed.

(** Reading the table at the end. *)
Lemma read_row served total fs0 : forall pos k bs es h tail (ri : list rentry) base,
  good_row served total (prefixes pos fs0) es bs -> ri = h ++ es ++ tail -> length h = (base + k)%nat ->
  mapM (fun x => do e <- get ri (base + fst x) ;; read_entry served total (snd x) e)
       (indexed_from k (prefixes pos fs0)) = Ok (zip_with filled fs0 bs).
Proof.
  induction fs0 as [|[f size] fs0 IH]; intros pos k bs es h tail ri base HG E HL; cbn [prefixes] in *; inversion HG as [|p e b ps es' bs' G HG']; subst.
  - reflexivity.
  - cbn [indexed_from mapM fst snd]. rewrite <- HL. cbn [app]. rewrite get_app_r0 by reflexivity. unfold get at 1. cbn [nth_error bind].
    assert (R : read_entry served total (pos, size) e = Ok (filled (f, size) b)).
    { unfold good in G. unfold filled. cbn [snd]. destruct (Z.leb_spec 0 (re_ts e)) as [Ht|Ht].
      - destruct G as [G1 G2]. rewrite G1. destruct (Z.leb_spec 0 (re_ts e)); [assumption|lia].
      - destruct (Z.leb_spec 0 (fst b)); [lia|]. unfold read_entry, re_ts in *. destruct e as [[s0 s1] t]. cbn [snd] in Ht.
        destruct (Z.leb_spec 0 t); [lia|]. reflexivity. }
    rewrite R. cbn [bind].
    rewrite (IH (pos + size)%nat (S k) bs' es' (h ++ [e]) tail); [reflexivity|assumption| |rewrite app_length; cbn; lia].
    now rewrite <- app_assoc.
Qed.

Lemma read_table served fs : forall ess bss h i0,
  Forall2 (good_row served (total_size fs) (prefixes 0 fs)) ess bss -> length h = (i0 * length fs)%nat ->
  mapM (fun i => do ls <- mapM (fun x => do e <- get (h ++ concat ess) (i * length fs + fst x) ;; read_entry served (total_size fs) (snd x) e)
                               (indexed_from 0 (prefixes 0 fs)) ;;
                 Ok (concat ls)) (seq i0 (length ess)) = Ok (map (fun bs => concat (zip_with filled fs bs)) bss).
Proof.
  intros ess bss h i0 HF. revert h i0. induction HF as [|es bs ess bss HG HF IH]; intros h i0 HL; [reflexivity|].
  cbn [length seq mapM map concat].
  rewrite (read_row served (total_size fs) fs 0 0 bs es h (concat ess) _ (i0 * length fs)%nat HG eq_refl) by lia.
  cbn [bind]. specialize (IH (h ++ es) (S i0)). rewrite <- app_assoc in IH. rewrite IH; [reflexivity|].
  apply good_row_length in HG. rewrite prefixes_length in HG. rewrite app_length. lia.
Qed.

Section Table.
Context {X : Type}.
Variables (fs : list (Z * nat)) (xs : list X) (cell : nat -> X -> Z * nat -> Z * list N) (m : nat).
Hypothesis cell_size : forall s x f, length (snd (cell s x f)) = snd f.

Definition cell_rows (s : nat) : list (list (Z * list N)) := map (fun x => map (cell s x) fs) xs.
Definition cell_replies : list freply := map (fun s => mk_reply 0 (cell_rows s)) (seq 0 m).

Lemma cell_rows_sized s : Forall (sized fs) (cell_rows s).
Proof.
  apply Forall_forall. intros segs H. apply in_map_iff in H. destruct H as (x & <- & _). unfold sized.
  induction fs as [|f fs' IH]; constructor; auto.
Qed.

Lemma zipw_maps {A B C} (h : A -> A -> A) (u v : B -> C -> A) : forall (l : list C) (bs : list B),
  zipw (zipw h) (map (fun b => map (u b) l) bs) (map (fun b => map (v b) l) bs) = map (fun b => map (fun c => h (u b c) (v b c)) l) bs.
Proof.
  intros l bs. induction bs as [|b bs IH]; [reflexivity|]. cbn [map zipw]. rewrite IH. f_equal.
  clear IH. induction l as [|c l IHl]; [reflexivity|]. cbn. now rewrite IHl.
Qed.

Definition best (order : list nat) (x : X) (f : Z * nat) : Z * list N :=
  fold_left (fun b s => later b (cell s x f)) order (-1, []).

Lemma callbacks order : Forall (fun s => (s < m)%nat) order ->
  exists ess, fold_left (fun a i => own (note_reply (length fs)) i cell_replies a) order (Ok (repeat (-1, -1, -1) (length xs * length fs))) = Ok (concat ess) /\
    Forall2 (good_row cell_replies (total_size fs) (prefixes 0 fs)) ess (map (fun x => map (best order x) fs) xs).
Proof.
  induction order as [|s order IH] using rev_ind; intro HF.
  - exists (map (fun _ => repeat (-1, -1, -1) (length fs)) xs). split.
    + cbn [fold_left].
      assert (A : forall l : list X, repeat ((-1, -1, -1) : rentry) (length l * length fs) = concat (map (fun _ => repeat (-1, -1, -1) (length fs)) l)).
      { induction l as [|x l IH]; [reflexivity|]. cbn [length map concat Nat.mul]. rewrite repeat_app. f_equal. exact IH. }
      exact (f_equal Ok (A xs)).
    + clear. induction xs as [|x l IH]; [constructor|]. cbn [map]. constructor; [|assumption].
      generalize 0%nat. generalize (total_size fs). clear. intro total.
      generalize cell_replies. intro reps.
      induction fs as [|[f s] fs' IH]; intro p; [constructor|]. cbn [prefixes length repeat map]. constructor; [|apply IH].
      unfold good, best. cbn. lia.
  - apply Forall_app in HF. destruct HF as [HF Hs]. inversion Hs as [|? ? Hlt _]; subst.
    destruct (IH HF) as (ess & E & HG). rewrite fold_left_app, E. cbn [fold_left]. unfold own.
    assert (Gr : nth_error cell_replies s = Some (mk_reply 0 (cell_rows s))).
    { unfold cell_replies. rewrite nth_error_map.
      replace (nth_error (seq 0 m) s) with (Some s); [reflexivity|]. symmetry.
      rewrite (nth_error_nth' _ 0%nat) by (rewrite seq_length; lia). now rewrite seq_nth by assumption. }
    rewrite Gr. unfold note_reply. cbn [bind].
    assert (Le : length ess = length (cell_rows s)).
    { rewrite (Forall2_len0 _ _ _ HG). unfold cell_rows. now rewrite !map_length. }
    assert (We : Forall (fun es => length es = length fs) ess).
    { clear -HG. induction HG as [|es bs ess bss H _ IH]; constructor; [|assumption]. apply good_row_length in H. rewrite prefixes_length in H. tauto. }
    assert (Wr : Forall (fun segs => length segs = length fs) (cell_rows s)).
    { apply Forall_forall. intros segs H. apply in_map_iff in H. destruct H as (x & <- & _). apply map_length. }
    pose proof (note_nodes_spec s (length fs) (cell_rows s) ess 0 0 [] eq_refl Le We Wr) as N. cbn [app] in N. rewrite N.
    exists (upd_rows s 0 (cell_rows s) ess). split; [reflexivity|].
    assert (EB : map (fun x => map (best (order ++ [s]) x) fs) xs = zipw (zipw later) (map (fun x => map (best order x) fs) xs) (cell_rows s)).
    { unfold cell_rows. rewrite zipw_maps. apply map_ext. intro x. apply map_ext. intro f. unfold best. rewrite fold_left_app. reflexivity. }
    rewrite EB. apply (good_rows_step cell_replies fs s (mk_reply 0 (cell_rows s))) with (k := 0%nat) (pre := []); auto.
    + unfold get. now rewrite Gr.
    + apply cell_rows_sized.
Qed.

Theorem client_table es : schedule m es ->
  client_node_features (length xs) fs cell_replies es =
  Ok (map (fun x => concat (map (fun f => filled f (best (calls es) x f)) fs)) xs).
Proof.
  intro HS. unfold client_node_features.
  rewrite (run_own no_freply cell_replies (note_reply (length fs)) m es _ HS).
  destruct (callbacks (calls es)) as (ess & E & HG).
  - pose proof (calls_schedule m es HS) as HP. apply Forall_forall. intros s Hs.
    eapply Permutation_in in Hs; [|exact HP]. apply in_seq in Hs. lia.
  - rewrite E. cbn [bind].
    pose proof (read_table cell_replies fs ess _ [] 0 HG eq_refl) as R. cbn [app] in R.
    rewrite (Forall2_len0 _ _ _ HG), map_length in R. rewrite R. f_equal.
    rewrite map_map. apply map_ext. intro x. f_equal.
    clear. induction fs as [|f fs' IH]; [reflexivity|]. cbn. now rewrite IH.
Qed.
End Table.

(** ** The handlers of the servers *)
Section Serve.
Variables (fadd : N -> N -> N) (wval : N -> Z).
Notation part_of := (part_of fadd).
Notation converted := (converted fadd wval).

(** Flag and bytes of one feature after the partitions of a server. *)
Definition answered (look : option Z -> option (list N) -> Z * list N) (parts : list (list (list record))) (x : Z * option Z) (f : Z * nat)
  : Z * list N :=
  fold_left (vstep (snd x) (look (snd x)) (snd f)) (node_values parts (fst x) (fst f)) (-1, zeros (snd f)).

Lemma vstep_size ts look size vs : forall x, length (snd x) = size -> length (snd (fold_left (vstep ts look size) vs x)) = size.
Proof.
  induction vs as [|v vs IH]; intros x H; [assumption|]. cbn [fold_left]. apply IH. unfold vstep.
  destruct (already ts (fst x)); [assumption|]. destruct (fst (look v) <=? fst x); [assumption|]. cbn [snd].
  unfold fixed. rewrite firstn_length, app_length, repeat_length. lia.
Qed.

Lemma answered_size look parts x f : length (snd (answered look parts x f)) = snd f.
Proof. apply vstep_size. cbn. unfold zeros. apply repeat_length. Qed.

Lemma fold_answered wm parts g fs n t look :
  converted wm parts g -> Forall (fun f => int32 (fst f)) fs ->
  (forall f v data, In f fs -> In v (node_values parts n (fst f)) -> resolves data t (look t) v) ->
  exists os, occurrences g n = Ok (found os) /\
    foldM (fun x st => part_node_feature (fst x) (snd x) t fs st) os (map (fun _ => -1) fs, zeros (total_size fs)) =
    Ok (map fst (map (answered look parts (n, t)) fs), concat (map snd (map (answered look parts (n, t)) fs))).
Proof.
  intros C Hi Hl. destruct (converted_small fadd wval wm parts g C) as (m & Hg & _ & HF).
  exists (places (part_of m (is_temporal wm)) n (map rows parts)). split; [apply Hg|].
  set (segs0 := map (fun f : Z * nat => (-1, zeros (snd f))) fs).
  assert (S0 : sized fs segs0).
  { subst segs0. unfold sized. clear. induction fs; constructor; auto. cbn. unfold zeros. apply repeat_length. }
  destruct (places_foldM (part_of m (is_temporal wm)) (fun p i st => part_node_feature p i t fs st)
             (fun segs => (map fst segs, concat (map snd segs)))
             (fun segs r => zip_with (nstep t (look t) (row_feats r)) fs segs) (sized fs) n (map rows parts)) with (s := segs0) as [Q1 Q2].
  - intros rws r1 r r2 segs Hin E Hn HS. split; [|now apply nstep_sized].
    rewrite Forall_forall in HF. destruct (HF rws Hin) as [Hs Hc]. subst rws.
    apply part_node_feature_spec; try assumption.
    intros f v data Hf Hv.
    apply (Hl f); [assumption|]. rewrite <- node_values_rows. unfold row_values. apply in_flat_map. exists r. split.
    + unfold node_rows. apply filter_In. split; [|lia]. apply in_concat. exists (r1 ++ r :: r2). split; [assumption|].
      apply in_or_app. right. now left.
    + rewrite Hv. now left.
  - exact S0.
  - rewrite (zip_fold (fun f r x => nstep t (look t) (row_feats r) f x)) in Q1 by (now apply sized_length).
    assert (E0 : (map fst segs0, concat (map snd segs0)) = (map (fun _ => -1) fs, zeros (total_size fs))).
    { subst segs0. rewrite !map_map. cbn [fst snd]. now rewrite total_zero. }
    rewrite E0 in Q1. rewrite Q1.
    assert (E1 : zip_with (fun f x => fold_left (fun x r => nstep t (look t) (row_feats r) f x) (node_rows n (map rows parts)) x) fs segs0 =
                 map (answered look parts (n, t)) fs).
    { subst segs0. clear. induction fs as [|f fs IH]; [reflexivity|]. cbn [map zip_with]. rewrite IH. f_equal.
      unfold answered. cbn [fst snd]. now rewrite nstep_values, node_values_rows. }
    rewrite E1. reflexivity.
Qed.

Lemma serve_spec wm parts g fs nodes ts look :
  converted wm parts g -> Forall (fun f => int32 (fst f)) fs ->
  (forall n t f v data, In (n, t) (stamps nodes ts) -> In f fs -> In v (node_values parts n (fst f)) -> resolves data t (look t) v) ->
  serve_node_features g fs nodes ts = Ok (mk_reply 0 (map (fun x => map (answered look parts x) fs) (stamps nodes ts))).
Proof.
  intros C Hi Hl. unfold serve_node_features. generalize 0%nat. revert Hl.
  induction (stamps nodes ts) as [|[n t] xs IH]; intros Hl k; [reflexivity|]. cbn [serve_rows map mk_reply].
  destruct (fold_answered wm parts g fs n t look C Hi) as (os & Ho & Hf).
  { intros f v data. apply Hl. now left. }
  rewrite Ho. cbn [bind]. rewrite IH by (intros; eapply Hl; [right; eassumption|eassumption|eassumption]).
  destruct os as [|o os]; cbn [found bind].
  - cbn [foldM] in Hf. apply (f_equal (fun r => match r with Ok v => fst v | Fail _ => [] end)) in Hf. cbn [fst] in Hf.
    unfold add_freply. cbn [fst]. rewrite <- Hf.
    assert (E : existsb (fun t => 0 <=? t) (map (fun _ : Z * nat => -1) fs) = false).
    { clear. induction fs; [reflexivity|]. cbn. assumption. }
    rewrite E. reflexivity.
  - rewrite Hf. reflexivity.
Qed.
End Serve.

(** ** Newest values *)

(** The newest of the values the servers offer: the first, resp. the last, on a tie. *)
Definition join (o o' : option (Z * list N)) : option (Z * list N) :=
  match o, o' with
  | Some b, Some x => if fst b <? fst x then Some x else Some b
  | None, _ => o'
  | _, None => o
  end.
Definition rejoin (o o' : option (Z * list N)) : option (Z * list N) :=
  match o, o' with
  | Some b, Some x => if fst b <=? fst x then Some x else Some b
  | None, _ => o'
  | _, None => o
  end.
Definition bytes_in (o : option (Z * list N)) : list N := match o with Some x => snd x | None => [] end.

(** [y] is a newest offer. *)
Definition newest_offer (l : list (option (Z * list N))) (y : Z * list N) : Prop :=
  In (Some y) l /\ forall x, In (Some x) l -> fst x <= fst y.

Lemma fold_join_spec (h : option (Z * list N) -> option (Z * list N) -> option (Z * list N)) :
  (forall o o', h o o' = match o, o' with
     | Some b, Some x => if fst b <? fst x then Some x else if fst x <? fst b then Some b else h o o'
     | None, _ => o' | _, None => o end) ->
  (forall b x, h (Some b) (Some x) = Some b \/ h (Some b) (Some x) = Some x) ->
  forall l o, match fold_left h l o with
            | Some y => newest_offer (o :: l) y
            | None => forall x, ~ In (Some x) (o :: l)
            end.
Proof.
  intros H1 H2. induction l as [|a l IH]; intro o.
  - cbn. destruct o as [y|]; [split; [now left|]; intros x [E|[]]; inversion E; lia|]. intros x [E|[]]. discriminate.
  - cbn [fold_left]. specialize (IH (h o a)). destruct (fold_left h l (h o a)) as [y|].
    + destruct IH as [I1 I2]. split.
      * destruct I1 as [I1|I1]; [|now right; right]. rewrite H1 in I1. destruct o as [b|]; [|right; now left].
        destruct a as [x|]; [|now left]. destruct (fst b <? fst x); [right; now left|]. destruct (fst x <? fst b); [now left|].
        destruct (H2 b x) as [E|E]; rewrite E in I1; [now left|right; now left].
      * intros x Hx. destruct (h o a) as [z|] eqn:Eh.
        -- assert (Hz : fst z <= fst y) by (apply I2; now left).
           enough (Q : o = Some x \/ a = Some x -> fst x <= fst z).
           { destruct Hx as [Hx|[Hx|Hx]]; [specialize (Q (or_introl Hx)); lia|specialize (Q (or_intror Hx)); lia|apply I2; now right]. }
           rewrite H1 in Eh. destruct o as [b|].
           ++ destruct a as [w|].
              ** intro Q. destruct (Z.ltb_spec (fst b) (fst w)); [destruct Q as [Q|Q]; congruence || (inversion Q; inversion Eh; subst; lia)|].
                 destruct (Z.ltb_spec (fst w) (fst b)); [destruct Q as [Q|Q]; inversion Q; inversion Eh; subst; lia|].
                 destruct (H2 b w) as [E|E]; rewrite E in Eh; inversion Eh; subst; destruct Q as [Q|Q]; inversion Q; subst; lia.
              ** intros [Q|Q]; [|discriminate]. assert (x = z) by congruence. subst. lia.
           ++ intros [Q|Q]; [discriminate|]. assert (x = z) by congruence. subst. lia.
        -- rewrite H1 in Eh. destruct o as [b|].
           ++ destruct a as [w|]; [|discriminate]. destruct (fst b <? fst w); [discriminate|]. destruct (fst w <? fst b); [discriminate|].
              destruct (H2 b w) as [E|E]; rewrite E in Eh; discriminate.
           ++ destruct Hx as [Hx|[Hx|Hx]]; [discriminate|congruence|apply I2; now right].
    + intros x Hx. destruct (h o a) as [z|] eqn:Eh; [apply (IH z); now left|].
      rewrite H1 in Eh. destruct o as [b|].
      * destruct a as [w|]; [|discriminate]. destruct (fst b <? fst w); [discriminate|]. destruct (fst w <? fst b); [discriminate|].
        destruct (H2 b w) as [E|E]; rewrite E in Eh; discriminate.
      * destruct Hx as [Hx|[Hx|Hx]]; [discriminate|congruence|apply (IH x); now right].
Qed.

Lemma join_newest l : match fold_left join l None with Some y => newest_offer l y | None => forall x, ~ In (Some x) l end.
Proof.
  pose proof (fold_join_spec join) as F. specialize (F ltac:(intros [b|] [x|]; cbn; try reflexivity; destruct (fst b <? fst x); [reflexivity|]; now destruct (fst x <? fst b))
    ltac:(intros b x; cbn; destruct (fst b <? fst x); auto) l None).
  destruct (fold_left join l None) as [y|].
  - destruct F as [F1 F2]. split; [destruct F1 as [F1|F1]; [discriminate|assumption]|]. intros x Hx. apply F2. now right.
  - intros x Hx. apply (F x). now right.
Qed.

Lemma rejoin_newest l : match fold_left rejoin l None with Some y => newest_offer l y | None => forall x, ~ In (Some x) l end.
Proof.
  pose proof (fold_join_spec rejoin) as F. specialize (F ltac:(intros [b|] [x|]; cbn; try reflexivity;
      destruct (Z.ltb_spec (fst b) (fst x)); destruct (Z.leb_spec (fst b) (fst x)); try lia; try reflexivity; destruct (Z.ltb_spec (fst x) (fst b)); try lia; reflexivity)
    ltac:(intros b x; cbn; destruct (fst b <=? fst x); auto) l None).
  destruct (fold_left rejoin l None) as [y|].
  - destruct F as [F1 F2]. split; [destruct F1 as [F1|F1]; [discriminate|assumption]|]. intros x Hx. apply F2. now right.
  - intros x Hx. apply (F x). now right.
Qed.

(** Offers of the same age agree: the newest bytes do not depend on the order. *)
Lemma newest_agree l l' : Permutation l l' ->
  (forall x y, In (Some x) l -> In (Some y) l -> fst x = fst y -> snd x = snd y) ->
  bytes_in (fold_left rejoin l' None) = bytes_in (fold_left join l None).
Proof.
  intros HP HA. pose proof (join_newest l) as J. pose proof (rejoin_newest l') as R.
  assert (In_iff : forall o, In o l' <-> In o l) by (intro o; split; intro; eapply Permutation_in; try eassumption; now symmetry).
  destruct (fold_left rejoin l' None) as [y|], (fold_left join l None) as [x|]; cbn [bytes_in].
  - destruct J as [J1 J2], R as [R1 R2]. rewrite In_iff in R1. apply HA; try assumption.
    pose proof (J2 y R1). pose proof (R2 x ltac:(now apply In_iff)). lia.
  - destruct R as [R1 _]. rewrite In_iff in R1. now elim (J y).
  - destruct J as [J1 _]. rewrite <- In_iff in J1. now elim (R x).
  - reflexivity.
Qed.

(** ** What a server offers *)

(** Newest value not after the timestamp of the query, or the first value without one. *)
Definition offer (hist : list N -> list (Z * list N)) (parts : list (list (list record))) (x : Z * option Z) (f : Z)
  : option (Z * list N) :=
  match snd x with
  | None => match node_values parts (fst x) f with v :: _ => Some (0, bytes_of v) | [] => None end
  | Some t => spec_temporal hist t (node_values parts (fst x) f)
  end.

Definition looks (hist : list N -> list (Z * list N)) (t : option Z) : option (list N) -> Z * list N :=
  match t with None => plain | Some t => tlook hist t end.

(** Cells and offers say the same. *)
Definition same (size : nat) (c : Z * list N) (o : option (Z * list N)) : Prop :=
  match o with Some y => 0 <= fst y /\ c = (fst y, fixed size (snd y)) | None => fst c = -1 end.

Lemma temporal_cell hist t size vs : Forall (explains hist) vs -> forall x b, same size x b ->
  same size (fold_left (vstep (Some t) (tlook hist t) size) vs x)
    (newest_from b (flat_map (fun v => opt_list (entry_at t (hist (bytes_of v)))) vs)) \/ exists y, b = Some y /\ t < fst y.
Proof.
  induction 1 as [|v vs Hv HF IH]; intros x b Hb; [now left|]. cbn [fold_left flat_map].
  assert (Hy : forall y, entry_at t (hist (bytes_of v)) = Some y -> 0 <= fst y <= t).
  { intros y Hy. pose proof (entry_at_spec t (hist (bytes_of v))) as Hs. rewrite Hy in Hs. destruct Hs as (Hs1 & Hs2 & _).
    destruct Hv as (_ & _ & Hp & _). rewrite Forall_forall in Hp. specialize (Hp y Hs1). lia. }
  assert (Ev : vstep (Some t) (tlook hist t) size x v =
     if fst x =? t then x
     else let y := match entry_at t (hist (bytes_of v)) with Some y => y | None => (-1, []) end in
          if fst y <=? fst x then x else (fst y, fixed size (snd y))) by reflexivity.
  rewrite Ev. clear Ev. cbn zeta.
  destruct b as [b|].
  - destruct (Z.lt_ge_cases t (fst b)) as [Hlt|Hge]; [right; eauto|]. left. cbn [same] in Hb. destruct Hb as [Hb ->]. cbn [fst snd].
    destruct (entry_at t (hist (bytes_of v))) as [y|]; cbn [opt_list app newest_from fst snd].
    + specialize (Hy y eq_refl).
      assert (G : same size (if fst b =? t then (fst b, fixed size (snd b)) else if fst y <=? fst b then (fst b, fixed size (snd b)) else (fst y, fixed size (snd y)))
                   (if fst b <? fst y then Some y else Some b)).
      { destruct (Z.eqb_spec (fst b) t); destruct (Z.ltb_spec (fst b) (fst y)); try lia; destruct (Z.leb_spec (fst y) (fst b)); try lia; cbn [same]; auto; split; auto; lia. }
      destruct (IH _ _ G) as [I|(z & Ez & Hz)]; [exact I|]. destruct (fst b <? fst y); inversion Ez; subst; lia.
    + assert (G : same size (if fst b =? t then (fst b, fixed size (snd b)) else if -1 <=? fst b then (fst b, fixed size (snd b)) else (-1, fixed size [])) (Some b)).
      { destruct (fst b =? t); [cbn; auto|]. destruct (Z.leb_spec (-1) (fst b)); [cbn; auto|lia]. }
      destruct (IH _ _ G) as [I|(z & Ez & Hz)]; [exact I|]. inversion Ez; subst; lia.
  - left. cbn [same] in Hb. rewrite Hb.
    destruct (entry_at t (hist (bytes_of v))) as [y|]; cbn [opt_list app newest_from fst snd].
    + specialize (Hy y eq_refl).
      assert (G : same size (if -1 =? t then x else if fst y <=? -1 then x else (fst y, fixed size (snd y))) (Some y)).
      { destruct (Z.eqb_spec (-1) t); [lia|]. destruct (Z.leb_spec (fst y) (-1)); [lia|]. cbn. split; [lia|reflexivity]. }
      destruct (IH _ _ G) as [I|(z & Ez & Hz)]; [exact I|]. inversion Ez; subst; lia.
    + assert (G : same size (if -1 =? t then x else if -1 <=? -1 then x else (-1, fixed size [])) None).
      { destruct (-1 =? t); [exact Hb|]. exact Hb. }
      destruct (IH _ _ G) as [I|(z & Ez & Hz)]; [exact I|]. discriminate.
Qed.

Lemma answered_offer hist parts x f :
  (forall t v, snd x = Some t -> In v (node_values parts (fst x) (fst f)) -> explains hist v) ->
  same (snd f) (answered (looks hist) parts x f) (offer hist parts x (fst f)).
Proof.
  destruct x as [n t]. unfold answered, offer, looks. cbn [fst snd]. destruct t as [t|]; intro H.
  - unfold spec_temporal. destruct (temporal_cell hist t (snd f) (node_values parts n (fst f))) with (x := (-1, zeros (snd f))) (b := @None (Z * list N)) as [I|(y & E & _)].
    + apply Forall_forall. intros v Hv. now apply (H t).
    + reflexivity.
    + exact I.
    + discriminate.
  - destruct (node_values parts n (fst f)) as [|v vs]; [reflexivity|]. cbn [fold_left].
    unfold vstep at 2. cbn [already fst plain]. change (0 <=? -1) with false. cbn [snd].
    rewrite plain_fold by (cbn; lia). cbn. split; [lia|reflexivity].
Qed.

Lemma later_rejoin size b x o o' : same size b o -> same size x o' -> same size (later b x) (rejoin o o') .
Proof.
  unfold same, later, rejoin. destruct o as [y|], o' as [z|].
  - intros [H1 ->] [H2 ->]. cbn [fst]. destruct (fst y <=? fst z); auto.
  - intros [H1 ->] H2. cbn [fst]. destruct (Z.leb_spec (fst y) (fst x)); [lia|auto].
  - intros H1 [H2 ->]. cbn [fst]. destruct (Z.leb_spec (fst b) (fst z)); [auto|lia].
  - intros H1 H2. destruct (fst b <=? fst x); assumption.
Qed.

Lemma same_filled f c o : same (snd f) c o -> filled f c = fixed (snd f) (bytes_in o).
Proof.
  unfold same, filled, bytes_in. destruct o as [y|].
  - intros [H ->]. cbn [fst snd]. destruct (Z.leb_spec 0 (fst y)); [reflexivity|lia].
  - intro H. rewrite H. cbn. symmetry. apply fixed_nil.
Qed.

(** ** The local answer in the same terms *)
Lemma newest_join l : forall b, newest_from b l = join b (newest_from None l).
Proof.
  induction l as [|x l IH]; intro b; [destruct b; reflexivity|]. cbn [newest_from]. rewrite (IH (Some x)), (IH (match b with Some b0 => if fst b0 <? fst x then Some x else b | None => Some x end)).
  destruct (newest_from None l) as [y|]; destruct b as [b|]; cbn [join]; try reflexivity.
  - destruct (Z.ltb_spec (fst b) (fst x)), (Z.ltb_spec (fst x) (fst y)); cbn [join];
      repeat match goal with |- context [?a <? ?b] => destruct (Z.ltb_spec a b) end; try reflexivity; lia.
  - destruct (fst b <? fst x); reflexivity.
Qed.

Lemma newest_app l l' : newest_from None (l ++ l') = join (newest_from None l) (newest_from None l').
Proof.
  rewrite <- newest_join. generalize (@None (Z * list N)). induction l as [|x l IH]; intro b; [reflexivity|]. cbn. apply IH.
Qed.

Lemma join_fold l : forall o, fold_left join l o = join o (fold_left join l None).
Proof.
  induction l as [|a l IH]; intro o; [destruct o; reflexivity|]. cbn [fold_left]. rewrite (IH (join o a)), (IH (join None a)).
  assert (J : forall a b c, join (join a b) c = join a (join b c)).
  { clear. intros [a|] [b|] [c|]; cbn; try reflexivity; repeat (match goal with |- context [?a <? ?b] => destruct (Z.ltb_spec a b) end; cbn); try reflexivity; try lia. }
  rewrite J. reflexivity.
Qed.

Lemma node_values_concat split n f : node_values (concat split) n f = concat (map (fun parts => node_values parts n f) split).
Proof.
  unfold node_values. induction split as [|p split IH]; [reflexivity|]. cbn [concat map].
  rewrite concat_app, concat_app, flat_map_app. now rewrite IH.
Qed.

Lemma offer_concat hist split x f :
  offer hist (concat split) x f = fold_left join (map (fun parts => offer hist parts x f) split) None.
Proof.
  unfold offer. rewrite node_values_concat. destruct x as [n t]. cbn [fst snd]. destruct t as [t|].
  - unfold spec_temporal. induction split as [|p split IH]; [reflexivity|]. cbn [map concat fold_left]. rewrite join_fold.
    rewrite flat_map_app, newest_app, IH. reflexivity.
  - induction split as [|p split IH]; [reflexivity|]. cbn [map concat fold_left]. rewrite join_fold, <- IH.
    destruct (node_values p n f) as [|v vs]; cbn [app join]; [reflexivity|].
    destruct (concat (map (fun parts => node_values parts n f) split)); reflexivity.
Qed.

Section Distributed.
Variables (fadd : N -> N -> N) (wval : N -> Z).
Notation converted := (converted fadd wval).

(** Histories are only needed for queries with timestamps. *)
Definition explained (hist : list N -> list (Z * list N)) (parts : list (list (list record))) (nodes fs : list Z) (ts : option (list Z)) : Prop :=
  ts = None \/ forall n f v, In n nodes -> In f fs -> In v (node_values parts n f) -> explains hist v.

Lemma stamps_in {X} (xs : list X) ts x t : In (x, t) (stamps xs ts) -> In x xs /\ (ts = None <-> t = None).
Proof.
  unfold stamps. destruct ts as [l|]; intro H; apply in_map_iff in H; destruct H as (y & E & H); inversion E; subst.
  - split; [destruct y; eapply in_combine_l; eassumption|]. split; discriminate.
  - split; [assumption|]. split; reflexivity.
Qed.

Lemma explained_at hist parts nodes fs ts n t f v : explained hist parts nodes fs ts -> In (n, t) (stamps nodes ts) -> In f fs ->
  In v (node_values parts n f) -> t <> None -> explains hist v.
Proof.
  intros [E|H] Hin Hf Hv Ht; apply stamps_in in Hin; destruct Hin as [Hn Hi]; [now apply Hi in E|]. eapply H; eassumption.
Qed.

Theorem local_offers wm parts g nodes fs ts hist :
  converted wm parts g -> Forall (fun f => int32 (fst f)) fs -> explained hist parts nodes (map fst fs) ts ->
  node_features g nodes fs ts =
  Ok (map (fun x => concat (map (fun f => fixed (snd f) (bytes_in (offer hist parts x (fst f)))) fs)) (stamps nodes ts)).
Proof.
  intros C Hi He. destruct ts as [l|].
  - destruct He as [He|He]; [discriminate|]. rewrite (converted_node_features_ts fadd wval wm parts g nodes fs l hist C Hi He).
    unfold stamps. rewrite map_map. reflexivity.
  - rewrite (converted_node_features fadd wval wm parts g nodes fs C Hi). unfold stamps. rewrite map_map. f_equal. apply map_ext. intro n.
    f_equal. apply map_ext. intro f. unfold spec_node_feature, offer. cbn [fst snd]. f_equal. destruct (node_values parts n (fst f)); reflexivity.
Qed.

Theorem distributed_offers wm split gs nodes fs ts hist es :
  Forall2 (converted wm) split gs -> Forall (fun f => int32 (fst f)) fs -> explained hist (concat split) nodes (map fst fs) ts ->
  stamped nodes ts -> schedule (length gs) es ->
  d_node_features gs nodes fs ts es =
  Ok (map (fun x => concat (map (fun f =>
        fixed (snd f) (bytes_in (fold_left rejoin (map (fun s => offer hist (nth s split []) x (fst f)) (calls es)) None))) fs)) (stamps nodes ts)).
Proof.
  intros HF Hi He Hst Hes. unfold d_node_features.
  set (xs := stamps nodes ts).
  set (cell := fun s => answered (looks hist) (nth s split [])).
  assert (He' : forall parts n t f v, In parts split -> In (n, t) xs -> In f (map fst fs) -> In v (node_values parts n f) -> t <> None -> explains hist v).
  { intros parts n t f v Hp Hin Hf Hv Ht. apply (explained_at hist (concat split) nodes (map fst fs) ts n t f); try assumption.
    rewrite node_values_concat. apply in_concat. exists (node_values parts n f). split; [|assumption]. apply in_map_iff. eauto. }
  assert (ES : mapM (fun g => serve_node_features g fs nodes ts) gs = Ok (cell_replies fs xs cell (length gs))).
  { unfold cell_replies, cell_rows.
    assert (E1 : mapM (fun g => serve_node_features g fs nodes ts) gs = Ok (map (fun parts => mk_reply 0 (map (fun x => map (answered (looks hist) parts x) fs) xs)) split)).
    { clear Hes cell. revert He'. induction HF as [|parts g split' gs' H HF IH]; intro He'; [reflexivity|]. cbn [mapM map].
      rewrite (serve_spec fadd wval wm parts g fs nodes ts (looks hist) H Hi).
      - rewrite IH; [reflexivity| |].
        + destruct He as [He|He]; [now left|right]. intros n f v Hn Hf Hv. apply (He n f v Hn Hf).
          rewrite node_values_concat in *. cbn [map concat]. apply in_or_app. now right.
        + intros parts' n t f v Hp. apply He'. now right.
      - intros n t f v data Hin Hf Hv. unfold looks. destruct t as [t|]; [|apply plain_resolves].
        apply tlook_resolves. apply (He' parts n (Some t) (fst f) v); auto; [now left|now apply in_map|discriminate]. }
    rewrite E1. f_equal. rewrite <- (Forall2_len0 _ _ _ HF). subst cell. cbn beta.
    apply (nth_ext _ _ (mk_reply 0 []) (mk_reply 0 [])); [rewrite !map_length, seq_length; reflexivity|].
    intros k Hk. rewrite map_length in Hk.
    rewrite (nth_indep _ _ (mk_reply 0 (map (fun x => map (answered (looks hist) [] x) fs) xs))) by (rewrite map_length; lia).
    rewrite (map_nth (fun parts => mk_reply 0 (map (fun x => map (answered (looks hist) parts x) fs) xs)) split [] k).
    rewrite (nth_indep (map _ (seq 0 (length split))) _ (mk_reply 0 (map (fun x => map (answered (looks hist) (nth 0 split []) x) fs) xs))) by (rewrite map_length, seq_length; lia).
    rewrite (map_nth (fun s => mk_reply 0 (map (fun x => map (answered (looks hist) (nth s split []) x) fs) xs)) (seq 0 (length split)) 0%nat k).
    rewrite seq_nth by lia. reflexivity. }
  rewrite ES. cbn [bind]. rewrite <- (stamps_length nodes ts Hst). fold xs.
  rewrite (client_table fs xs cell (length gs)); [|intros; apply answered_size|assumption].
  f_equal. apply map_ext_in. intros [n t] Hin. f_equal. apply map_ext_in. intros f Hf.
  apply same_filled. unfold best.
  assert (G : forall order o b, (forall s, In s order -> (s < length split)%nat) -> same (snd f) b o ->
     same (snd f) (fold_left (fun b s => later b (cell s (n, t) f)) order b)
       (fold_left rejoin (map (fun s => offer hist (nth s split []) (n, t) (fst f)) order) o)).
  { induction order as [|s order IH]; intros o b Ho Hb; [exact Hb|]. cbn [fold_left map]. apply IH; [intros; apply Ho; now right|].
    apply later_rejoin; [assumption|]. subst cell. apply answered_offer. cbn [fst snd]. intros t' v Et Hv.
    apply (He' (nth s split []) n t (fst f) v); auto; [|now apply in_map|congruence]. apply nth_In. apply Ho. now left. }
  apply G; [|reflexivity].
  intros s Hs. pose proof (calls_schedule _ _ Hes) as HP. eapply Permutation_in in Hs; [|exact HP]. apply in_seq in Hs.
  rewrite (Forall2_len0 _ _ _ HF). lia.
Qed.

(** The answer is made of newest offers, whatever the schedule. *)
Theorem d_features_newest wm split gs nodes fs ts hist es :
  Forall2 (converted wm) split gs -> Forall (fun f => int32 (fst f)) fs -> explained hist (concat split) nodes (map fst fs) ts ->
  stamped nodes ts -> schedule (length gs) es ->
  exists val, d_node_features gs nodes fs ts es = Ok (map (fun x => concat (map (fun f => fixed (snd f) (val x f)) fs)) (stamps nodes ts)) /\
    forall x f, let offers := map (fun parts => offer hist parts x (fst f)) split in
      (exists y, newest_offer offers y /\ val x f = snd y) \/ ((forall y, ~ In (Some y) offers) /\ val x f = []).
Proof.
  intros HF Hi He Hst Hes.
  exists (fun x f => bytes_in (fold_left rejoin (map (fun s => offer hist (nth s split []) x (fst f)) (calls es)) None)).
  split; [exact (distributed_offers wm split gs nodes fs ts hist es HF Hi He Hst Hes)|].
  intros x f offers. pose proof (rejoin_newest (map (fun s => offer hist (nth s split []) x (fst f)) (calls es))) as R.
  assert (P : Permutation (map (fun s => offer hist (nth s split []) x (fst f)) (calls es)) offers).
  { rewrite (calls_schedule _ _ Hes), <- (Forall2_len0 _ _ _ HF). subst offers.
    assert (E : split = map (fun s => nth s split []) (seq 0 (length split))).
    { clear. apply (nth_ext _ _ [] []); [now rewrite map_length, seq_length|]. intros k Hk.
      rewrite (nth_indep _ [] (nth 0 split [])) at 1 by assumption.
      rewrite (nth_indep (map _ _) [] (nth 0 split [])) by (rewrite map_length, seq_length; assumption).
      rewrite (map_nth (fun s => nth s split []) (seq 0 (length split)) 0%nat k), seq_nth by assumption. cbn [Nat.add].
      apply nth_indep. assumption. }
    rewrite E at 2. rewrite map_map. reflexivity. }
  destruct (fold_left rejoin _ None) as [y|]; cbn [bytes_in].
  - left. exists y. destruct R as [R1 R2]. split; [|reflexivity]. split; [eapply Permutation_in; eassumption|].
    intros z Hz. apply R2. eapply Permutation_in; [symmetry; exact P|assumption].
  - right. split; [|reflexivity]. intros y Hy. apply (R y). eapply Permutation_in; [symmetry; exact P|assumption].
Qed.

(** Offers of the same age agree: the answer is the local one, whatever the schedule. *)
Theorem d_features_local wm split gs all g nodes fs ts hist es :
  Forall2 (converted wm) split gs -> converted wm all g -> Permutation (concat split) all ->
  Forall (fun f => int32 (fst f)) fs -> explained hist all nodes (map fst fs) ts ->
  stamped nodes ts -> schedule (length gs) es ->
  (forall x f a b, In x (stamps nodes ts) -> In f fs ->
     let offers := map (fun p => offer hist [p] x (fst f)) all in
     In (Some a) offers -> In (Some b) offers -> fst a = fst b -> snd a = snd b) ->
  d_node_features gs nodes fs ts es = node_features g nodes fs ts.
Proof.
  intros HF C HP Hi He Hst Hes HA.
  assert (He' : explained hist (concat split) nodes (map fst fs) ts).
  { destruct He as [He|He]; [now left|right]. intros n f v Hn Hf Hv. apply (He n f v Hn Hf). revert Hv. unfold node_values.
    intro Hv. apply in_flat_map in Hv. destruct Hv as (r & Hr & Hv). apply in_flat_map. exists r. split; [|assumption].
    apply in_concat in Hr. destruct Hr as (b & Hb & Hr). apply in_concat in Hb. destruct Hb as (p & Hp & Hb).
    apply in_concat. exists b. split; [|assumption]. apply in_concat. exists p. split; [|assumption]. eapply Permutation_in; eassumption. }
  rewrite (distributed_offers wm split gs nodes fs ts hist es HF Hi He' Hst Hes).
  rewrite (local_offers wm all g nodes fs ts hist C Hi He).
  f_equal. apply map_ext_in. intros x Hx. f_equal. apply map_ext_in. intros f Hf. f_equal.
  assert (S1 : forall parts, offer hist parts x (fst f) = fold_left join (map (fun p => offer hist [p] x (fst f)) parts) None).
  { intro parts. assert (E : parts = concat (map (fun p => [p]) parts)) by (clear; induction parts; cbn; congruence).
    rewrite E at 1. rewrite offer_concat, map_map. reflexivity. }
  rewrite (S1 all). symmetry.
  (* both are newest among the offers of the partitions *)
  specialize (HA x f). cbn zeta in HA. set (single := fun p => offer hist [p] x (fst f)) in *.
  pose proof (join_newest (map single all)) as J.
  pose proof (rejoin_newest (map (fun s => offer hist (nth s split []) x (fst f)) (calls es))) as R.
  assert (From : forall s y, In s (calls es) -> offer hist (nth s split []) x (fst f) = Some y ->
     newest_offer (map single (nth s split [])) y /\ (forall o, In o (map single (nth s split [])) -> In o (map single all))).
  { intros s y Hs E. rewrite S1 in E. pose proof (join_newest (map single (nth s split []))) as J'. fold single in E. rewrite E in J'.
    split; [assumption|]. intros o Ho. apply in_map_iff in Ho. destruct Ho as (p & <- & Hp). apply in_map.
    eapply Permutation_in; [exact HP|]. apply in_concat. exists (nth s split []). split; [|assumption]. apply nth_In.
    pose proof (calls_schedule _ _ Hes) as HPc. eapply Permutation_in in Hs; [|exact HPc]. apply in_seq in Hs.
    rewrite (Forall2_len0 _ _ _ HF). lia. }
  assert (To : forall z, In (Some z) (map single all) -> exists y, In (Some y) (map (fun s => offer hist (nth s split []) x (fst f)) (calls es)) /\ fst z <= fst y).
  { intros z Hz. apply in_map_iff in Hz. destruct Hz as (p & Ep & Hp). eapply Permutation_in in Hp; [|symmetry; exact HP].
    apply in_concat in Hp. destruct Hp as (parts & Hparts & Hp). apply (In_nth _ _ []) in Hparts. destruct Hparts as (s & Hs & Es).
    pose proof (join_newest (map single parts)) as J'. rewrite <- (S1 parts) in J'.
    assert (Hz : In (Some z) (map single parts)) by (apply in_map_iff; eauto).
    destruct (offer hist parts x (fst f)) as [y|] eqn:Ey; [|now elim (J' z)].
    exists y. split; [|apply J'; assumption]. apply in_map_iff. exists s. rewrite Es. split; [assumption|].
    eapply Permutation_in; [symmetry; apply (calls_schedule _ _ Hes)|]. apply in_seq. rewrite <- (Forall2_len0 _ _ _ HF). lia. }
  destruct (fold_left join (map single all) None) as [z|], (fold_left rejoin _ None) as [y|]; cbn [bytes_in].
  - destruct J as [J1 J2], R as [R1 R2].
    pose proof R1 as R1'. apply in_map_iff in R1'. destruct R1' as (s & Es & Hs). destruct (From s y Hs Es) as [[F1 _] F2].
    symmetry. apply (HA y z Hx Hf); auto.
    pose proof (J2 y (F2 _ F1)). destruct (To z J1) as (y' & Hy' & Hle). pose proof (R2 y' Hy'). lia.
  - destruct J as [J1 _]. destruct (To z J1) as (y & Hy & _). now elim (R y).
  - destruct R as [R1 _]. apply in_map_iff in R1. destruct R1 as (s & Es & Hs). destruct (From s y Hs Es) as [[F1 _] F2]. now elim (J y (F2 _ F1)).
  - reflexivity.
Qed.
End Distributed.
