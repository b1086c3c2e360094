(** Weighted neighbor sampling: every outcome, and the distribution for exact arithmetic. *)
From Verif Require Import Base Dist WriterModel LoaderModel GraphModel GraphSpec WriterProofs LoaderProofs QueryProofs GraphProofs ConvertProofs AnswerProofs SearchProofs CountProofs AliasModel ReservoirModel SamplerModel MultinomialProofs NeighborModel NeighborProofs UniformProofs.
From Coq Require Import Lqa Sorting.Sorted ZifyBool ZifyNat ZifyN.
Local Open Scope nat_scope.

(** ** Outcomes of random programs *)
Definition rall {A} (P : A -> Prop) (m : rprog A) : Prop := forall r, routcome m r -> exists a, r = Ok a /\ P a.

Lemma routcome_bind {A B} (m : rprog A) (f : A -> rprog B) r : routcome (rbind m f) r ->
  (exists a, routcome m (Ok a) /\ routcome (f a) r) \/ (exists e, routcome m (Fail e) /\ r = Fail e).
Proof.
  induction m as [a|e|n p k IH|p k IH|b w l k IH]; cbn [rbind routcome].
  - intros H. left. exists a. auto.
  - intros ->. right. exists e. auto.
  - intros (c & Hc & H). apply IH in H as [(a & H1 & H2)|(e & H1 & H2)]; [left; exists a|right; exists e]; split; auto; exists c; auto.
  - intros (c & Hc & H). apply IH in H as [(a & H1 & H2)|(e & H1 & H2)]; [left; exists a|right; exists e]; split; auto; exists c; auto.
  - intros (c & Hc & H). apply IH in H as [(a & H1 & H2)|(e & H1 & H2)]; [left; exists a|right; exists e]; split; auto; exists c; auto.
Qed.
Lemma rall_ret {A} (P : A -> Prop) a : P a -> rall P (RRet a).
Proof. intros H r ->. exists a. auto. Qed.
Lemma rall_bind {A B} (P : A -> Prop) (Q : B -> Prop) m f : rall P m -> (forall a, P a -> rall Q (f a)) -> rall Q (rbind m f).
Proof.
  intros H1 H2 r H. apply routcome_bind in H as [(a & Ha & Hr)|(e & He & ->)].
  - destruct (H1 _ Ha) as (a' & E & Pa). injection E as <-. exact (H2 a Pa r Hr).
  - destruct (H1 _ He) as (a' & E & _). discriminate.
Qed.
Lemma rall_lift {A B} (Q : B -> Prop) (m : res A) a f : m = Ok a -> rall Q (f a) -> rall Q (rbind (rlift m) f).
Proof. intros -> H. exact H. Qed.
Lemma rall_imp {A} (P Q : A -> Prop) m : (forall a, P a -> Q a) -> rall P m -> rall Q m.
Proof. intros H H1 r Hr. destruct (H1 r Hr) as (a & E & Pa). exists a. auto. Qed.

Lemma rbind_ret_l {A B} (a : A) (f : A -> rprog B) : rbind (RRet a) f = f a. Proof. reflexivity. Qed.

Lemma nth_error_skipn' {A} (l : list A) : forall k j, nth_error (skipn k l) j = nth_error l (k + j).
Proof. induction l as [|a l IH]; intros [|k] j; try reflexivity; [destruct j; reflexivity|]. change (skipn (S k) (a :: l)) with (skipn k l). apply IH. Qed.

(** ** The picked index *)
Lemma picked_lt b w l u c : nth_error l (length l - 1) = Some c -> (b + w * u <= c)%Q -> picked b w l u < length l.
Proof.
  intros Hc H. unfold picked. set (go := fun x => negb (Qle_bool (b + w * u) x)).
  destruct (bound_edges go l) as (Hk & Hr & Hl). destruct (Nat.eq_dec (bound go l) (length l)) as [E|]; [|lia].
  destruct (length l) as [|k] eqn:En; [destruct l; discriminate|]. cbn in Hc. rewrite Nat.sub_0_r in Hc.
  specialize (Hl k c E Hc). unfold go in Hl. apply Qle_bool_iff in H. rewrite H in Hl. discriminate.
Qed.
(** The numbers for which an index is picked: an interval between neighboring sums. *)
Lemma picked_interval b w l u i : StronglySorted Qle l ->
  picked b w l u = i <-> (i <= length l /\ (forall c, nth_error l i = Some c -> (b + w * u <= c)%Q) /\
                          (forall j c, i = S j -> nth_error l j = Some c -> (c < b + w * u)%Q)).
Proof.
  intros Hs. unfold picked. set (go := fun x => negb (Qle_bool (b + w * u) x)).
  assert (G : forall c, go c = false <-> (b + w * u <= c)%Q).
  { intros c. unfold go. rewrite <- Qle_bool_iff. destruct (Qle_bool _ _); cbn; split; congruence. }
  assert (G' : forall c, go c = true <-> (c < b + w * u)%Q).
  { intros c. destruct (go c) eqn:E.
    - split; auto. intros _. apply Qnot_le_lt. rewrite <- G. congruence.
    - apply G in E. split; [discriminate|]. intros H. apply Qle_not_lt in E. contradiction. }
  destruct (bound_edges go l) as (Hk & Hr & Hl). split.
  - intros <-. split; [exact Hk|]. split; [intros c Hc; apply G; now apply Hr|]. intros j c E Hj. apply G'. now apply (Hl j).
  - intros (Hi & H1 & H2). destruct (Nat.lt_trichotomy (bound go l) i) as [Hlt|[Heq|Hgt]]; [|exact Heq|].
    + exfalso. destruct i as [|j]; [lia|]. destruct (nth_error l j) as [c|] eqn:Ec; [|apply nth_error_None in Ec; lia].
      pose proof (H2 j c eq_refl Ec) as Hc. destruct (nth_error l (bound go l)) as [d|] eqn:Ed; [|apply nth_error_None in Ed; lia].
      pose proof (proj1 (G d) (Hr d eq_refl)) as Hd.
      pose proof (sorted_from Qle l (bound go l) d Qle_refl Hs Ed) as F. rewrite Forall_forall in F.
      assert (In c (skipn (bound go l) l)).
      { assert (Hn : nth_error (skipn (bound go l) l) (j - bound go l) = Some c).
        { rewrite nth_error_skipn'. replace (bound go l + (j - bound go l)) with j by lia. exact Ec. }
        eapply nth_error_In; eassumption. }
      specialize (F c H). lra.
    + exfalso. destruct (bound go l) as [|k] eqn:Ek; [lia|].
      destruct (nth_error l k) as [d|] eqn:Ed; [|apply nth_error_None in Ed; lia].
      pose proof (proj1 (G' d) (Hl k d eq_refl Ed)) as Hd.
      destruct (nth_error l i) as [c|] eqn:Ec; [|apply nth_error_None in Ec; lia].
      pose proof (H1 c eq_refl) as Hc. pose proof (sorted_from Qle l i c Qle_refl Hs Ec) as F. rewrite Forall_forall in F.
      assert (In d (skipn i l)).
      { assert (Hn : nth_error (skipn i l) (k - i) = Some d).
        { rewrite nth_error_skipn'. replace (i + (k - i)) with k by lia. exact Ed. }
        eapply nth_error_In; eassumption. }
      specialize (F d H). lra.
Qed.

Section Weighted.
Variables fadd fsub : N -> N -> N.
Variable qval : N -> Q.
Notation part_of := (part_of fadd).
Notation gedges := (gedges fadd fsub).

(** ** Ranges *)
(** What a range offers: the answers for its edges. *)
Record range_ok (p : partition) (ts : option Z) (first i : nat) (r : nat * nat) (tw : N) (nbs : list nbr) : Prop := RO {
  ro_len : snd r = length nbs;
  ro_weight : range_weight fsub p first r = Ok tw;
  ro_base : exists base cums, range_base qval p first (fst r) = Ok base /\ mapM (get (p_wts p)) (seq (fst r) (snd r)) = Ok cums /\
      forall u, nbs <> [] -> (0 <= u /\ u < 1)%Q -> picked base (qval tw) (map qval cums) u < length nbs;
  ro_edge : forall j nb, nth_error nbs j = Some nb -> edge_at fsub p ts first i (fst r + j) = Ok nb;
  ro_empty : nbs = [] -> (qval tw == 0)%Q
}.

Lemma draw_all p ts rate first i lo len base w cums (nbs : list nbr) n :
  (n = 0 \/ forall u, (0 <= u /\ u < 1)%Q -> picked base w cums u < length nbs) ->
  (forall j nb, nth_error nbs j = Some nb -> edge_at fsub p ts first i (lo + j) = Ok nb) ->
  rall (fun es => length es <= n /\ incl es nbs) (draw_edges fsub p ts rate first i lo len base w cums n).
Proof.
  intros Hu He. induction n as [|n IH]; cbn [draw_edges].
  - apply rall_ret. split; [cbn; lia|]. apply incl_nil_l.
  - destruct Hu as [|Hu]; [discriminate|].
    intros r (b & _ & H). destruct b.
    + destruct H as (u & Hin & H). pose proof (Hu u Hin) as Hk. set (k := picked base w cums u) in *. clearbody k.
      destruct (nth_error nbs k) as [nb|] eqn:En; [|apply nth_error_None in En; lia].
      rewrite (He k nb En) in H. cbn [rlift rbind] in H. revert r H.
      apply (rall_bind _ _ _ _ (IH (or_intror Hu))). intros es [H1 H2]. apply rall_ret. split; [cbn; lia|].
      intros x [<-|Hx]; [eapply nth_error_In; eassumption|now apply H2].
    + destruct (IH (or_intror Hu) r H) as (es & -> & H1 & H2). exists es. split; [reflexivity|]. split; [lia|exact H2].
Qed.

(** An invariant that keeps empty ranges from being drawn from. *)
Section Inv.
Variable Inv : list (N * list nbr) -> N -> nat -> Prop.
Hypothesis inv_empty : forall tw rest total left, Inv ((tw, []) :: rest) total left -> (qval total == 0)%Q -> left = 0.
Hypothesis inv_step : forall tw nbs rest total left c, Inv ((tw, nbs) :: rest) total left -> c <= left ->
  (feq qval tw total = true -> c = left) -> Inv rest (fsub total tw) (left - c).

Lemma range_all p ts rate first i rs : forall data rest total left,
  Forall2 (fun r d => range_ok p ts first i r (fst d) (snd d)) rs data -> Inv (data ++ rest) total left ->
  rall (fun x => let '(es, total', left') := x in length es + left' <= left /\ incl es (flat_map snd data) /\ Inv rest total' left')
       (range_loop fsub qval p ts rate first i rs total left).
Proof.
  induction rs as [|[lo len] rs IH]; intros data rest total left F I; inversion F as [|? [tw nbs] ? data' R F']; subst; cbn [range_loop].
  - apply rall_ret. split; [cbn; lia|]. split; [apply incl_nil_l|exact I].
  - cbn [fst snd] in R. destruct R as [Rl Rw (base & cums & Rb & Rc & Rp) Re Rz]. cbn [fst snd] in *.
    apply (rall_lift _ _ tw _ Rw). apply (rall_lift _ _ base _ Rb). apply (rall_lift _ _ cums _ Rc).
    cbn [app] in I.
    apply (rall_bind (fun c => c <= left /\ (feq qval tw total = true -> c = left) /\ (nbs = [] -> c = 0))).
    { destruct (feq qval tw total) eqn:Ef.
      - apply rall_ret. split; [lia|]. split; [auto|]. intros ->. apply (inv_empty tw (data' ++ rest) total left I).
        unfold feq in Ef. apply Qeq_bool_iff in Ef. rewrite <- Ef. now apply Rz.
      - intros r (c & (Hc & Hz & _) & H). cbn [routcome] in H. exists c. split; [exact H|]. split; [exact Hc|]. split; [discriminate|].
        intros ->. apply Hz. rewrite (Rz eq_refl). unfold Qdiv. rewrite Qmult_0_l. apply Qle_refl. }
    intros c (Hc & Hf & Hz).
    apply (rall_bind (fun es => length es <= c /\ incl es nbs)).
    { apply draw_all; [|exact Re]. destruct nbs as [|nb nbs]; [left; now apply Hz|right]. intros u Hu. apply Rp; [discriminate|exact Hu]. }
    intros es [E1 E2].
    eapply rall_bind; [apply (IH data' rest _ _ F' (inv_step _ _ _ _ _ _ I Hc Hf))|].
    intros [[es' total'] left'] (H1 & H2 & H3). apply rall_ret. split; [rewrite app_length; lia|]. split; [|exact H3].
    cbn [flat_map snd]. now apply incl_app; [apply incl_appl|apply incl_appr].
Qed.

Definition group_data (p : partition) (ts : option Z) (g : wgroup) (data : list (N * list nbr)) : Prop :=
  Forall2 (fun r d => range_ok p ts (wg_first g) (wg_index g) r (fst d) (snd d)) (wg_ranges g) data.

Lemma group_all p ts rate gs : forall datas total left,
  Forall2 (group_data p ts) gs datas -> Inv (concat datas) total left ->
  rall (fun es => length es <= left /\ incl es (flat_map snd (concat datas))) (group_loop fsub qval p ts rate gs total left).
Proof.
  induction gs as [|g gs IH]; intros datas total left F I; inversion F as [|? data ? datas' Hd F']; subst; cbn [group_loop].
  - apply rall_ret. split; [cbn; lia|]. apply incl_nil_l.
  - destruct (_ || _); [apply rall_ret; split; [cbn; lia|]; apply incl_nil_l|]. cbn [concat] in I |- *.
    eapply rall_bind; [apply (range_all p ts rate _ _ _ data (concat datas') total left Hd I)|].
    intros [[es total'] left'] (H1 & H2 & H3). eapply rall_bind; [apply (IH datas' total' left' F' H3)|].
    intros es' [H4 H5]. apply rall_ret. rewrite flat_map_app'. split; [rewrite app_length; lia|].
    apply incl_app; [now apply incl_appl|now apply incl_appr].
Qed.
End Inv.

(** ** Groups without times *)
Lemma gedges_nth (v : Z * list edge) j e w : nth_error (gedges v) j = Some (e, w) -> nth_error (snd v) j = Some e /\ nth_error (recover fadd fsub (map e_w (snd v))) j = Some w.
Proof.
  unfold QueryProofs.gedges. generalize (recover fadd fsub (map e_w (snd v))). revert j. induction (snd v) as [|x l IH]; intros [|j] [|y ws] H; cbn in *; try discriminate.
  - injection H as <- <-. auto.
  - now apply IH.
Qed.
Lemma gedges_len (v : Z * list edge) : length (gedges v) = length (snd v).
Proof. unfold QueryProofs.gedges. rewrite combine_length, recover_length, map_length. lia. Qed.

Definition nbr_at (ts : option Z) : edge * N -> nbr := match ts with None => nbr_of | Some _ => nbr_ts_of end.

Lemma edge_at_group tmp p ts s l i v j x : group_ok fadd tmp p (s, l, i) v -> (ts <> None -> tmp = true) ->
  nth_error (gedges v) j = Some x -> edge_at fsub p ts s i (s + j) = Ok (nbr_at ts x).
Proof.
  intros [L Ne D W Ty Tys Ts] Ht Hj. destruct x as [e w]. apply gedges_nth in Hj as [He Hw]. cbn [fst snd] in *.
  unfold edge_at. rewrite (D j e He). cbn [bind]. rewrite Ty. cbn [bind].
  assert (Ew : (if s + j =? s then get (p_wts p) (s + j) else do a <- get (p_wts p) (s + j) ;; do b <- get (p_wts p) (s + j - 1) ;; Ok (fsub a b)) = Ok w).
  { unfold recover in Hw. destruct j as [|j].
    - replace (s + 0 =? s) with true by (symmetry; apply Nat.eqb_eq; lia). apply W.
      destruct (cum fadd 0%N (map e_w (snd v))) as [|c t]; [discriminate|]. cbn in *. congruence.
    - replace (s + S j =? s) with false by (symmetry; apply Nat.eqb_neq; lia).
      destruct (cum fadd 0%N (map e_w (snd v))) as [|c t]; [discriminate|]. cbn [nth_error] in Hw. rewrite diffs_nth in Hw.
      destruct (nth_error t j) as [a|] eqn:Ea; [|discriminate]. destruct (nth_error (c :: t) j) as [b|] eqn:Eb; [|discriminate].
      rewrite (W (S j) a) by exact Ea. cbn [bind]. replace (s + S j - 1) with (s + j) by lia. rewrite (W j b Eb). cbn [bind]. congruence. }
  rewrite Ew. cbn [bind]. rewrite Forall_forall in Tys. rewrite <- (Tys e) by (eapply nth_error_In; eassumption).
  destruct ts as [t|]; [|reflexivity]. rewrite (Ht ltac:(discriminate)) in Ts. destruct Ts as [_ Ts].
  assert (Tj : nth_error (p_ts p) (s + j) = Some (life e)).
  { apply (nth_slice _ s (length (snd v))). rewrite Ts, nth_error_map, He. reflexivity. }
  unfold get. rewrite Tj. reflexivity.
Qed.

Lemma cum_last (v : Z * list edge) : snd v <> [] -> exists c, nth_error (cum fadd 0%N (map e_w (snd v))) (length (snd v) - 1) = Some c.
Proof.
  intros H. destruct (nth_error (cum fadd 0%N (map e_w (snd v))) (length (snd v) - 1)) as [c|] eqn:E; [now exists c|].
  apply nth_error_None in E. rewrite cum_length, map_length in E. destruct (snd v); [congruence|cbn in E; lia].
Qed.

Lemma static_group tmp p s l i v : group_ok fadd tmp p (s, l, i) v ->
  (forall c, In c (cum fadd 0%N (map e_w (snd v))) -> (0 <= qval c)%Q) ->
  exists g tw, weighted_group p None (s, l, i) = Ok g /\ group_data p None g [(tw, map nbr_of (gedges v))] /\
    forall total, exists total', foldN (add_range fadd fsub p (wg_first g)) (wg_ranges g) total = Ok total'.
Proof.
  intros G Hc. destruct (cum_last v (go_ne _ _ _ _ _ G)) as (c & Ec). pose proof (go_len _ _ _ _ _ G) as L. cbn [fst snd] in L.
  assert (0 < length (snd v)) by (pose proof (go_ne _ _ _ _ _ G); destruct (snd v); [congruence|cbn; lia]).
  assert (El : get (p_wts p) (l - 1) = Ok c).
  { replace (l - 1) with (s + (length (snd v) - 1)) by lia. apply (go_wts _ _ _ _ _ G _ _ Ec). }
  unfold weighted_group. replace (l <=? s) with false by (symmetry; apply Nat.leb_gt; lia).
  exists (WG s i [(s, l - s)]), c. split; [reflexivity|]. split.
  - unfold group_data. cbn [wg_first wg_index wg_ranges]. constructor; [|constructor]. cbn [fst snd]. constructor; cbn [fst snd].
    + rewrite map_length, gedges_len. lia.
    + unfold range_weight. replace (s + (l - s) =? 0) with false by (symmetry; apply Nat.eqb_neq; lia).
      replace (s + (l - s) - 1) with (l - 1) by lia. rewrite El. cbn [bind]. now rewrite Nat.eqb_refl.
    + exists 0%Q, (cum fadd 0%N (map e_w (snd v))). split; [unfold range_base; now rewrite Nat.eqb_refl|]. split.
      * replace (l - s) with (length (cum fadd 0%N (map e_w (snd v)))) by (rewrite cum_length, map_length; lia).
        apply mapM_seq. intros j x Hj. apply (go_wts _ _ _ _ _ G j x Hj).
      * intros u _ Hu. rewrite map_length, gedges_len. replace (length (snd v)) with (length (map qval (cum fadd 0%N (map e_w (snd v))))) by (now rewrite map_length, cum_length, map_length).
        apply (picked_lt _ _ _ _ (qval c)).
        -- rewrite map_length, cum_length, map_length. now apply map_nth_error.
        -- assert (0 <= qval c)%Q by (apply Hc; eapply nth_error_In; eassumption). nra.
    + intros j nb Hj. rewrite nth_error_map in Hj. destruct (nth_error (gedges v) j) as [x|] eqn:Ej; [|discriminate]. cbn in Hj. injection Hj as <-.
      apply (edge_at_group tmp p None s l i v j x G); [congruence|exact Ej].
    + intros E. exfalso. apply (f_equal (@length _)) in E. rewrite map_length, gedges_len in E. cbn in E. lia.
  - intros total. cbn [wg_ranges wg_first foldN]. unfold add_range. replace (s + (l - s) =? 0) with false by (symmetry; apply Nat.eqb_neq; lia).
    replace (s + (l - s) - 1) with (l - 1) by lia. rewrite El. cbn [bind]. rewrite Nat.eqb_refl. cbn [bind]. eexists; reflexivity.
Qed.

(** ** Partitions and nodes *)
Definition fine (count : nat) (default : nbr) (full : list nbr) (st : list nbr * N) : Prop :=
  length (fst st) = count /\ forall x, In x (fst st) -> x = default \/ In x full.

Definition keep_nonempty (data : list (N * list nbr)) (total : N) (left : nat) : Prop := Forall (fun d => snd d <> []) data.

Lemma partition_static tmp p id T vs gs count default full st :
  nii p id T = Ok gs -> Forall2 (group_ok fadd tmp p) gs vs ->
  (forall v c, In v vs -> In c (cum fadd 0%N (map e_w (snd v))) -> (0 <= qval c)%Q) ->
  incl (flat_map (fun v => map nbr_of (gedges v)) vs) full ->
  fine count default full st -> rall (fine count default full) (sample_partition fadd fsub qval p id None T count default st).
Proof.
  intros E F Hc Hin [Hl Hf]. destruct st as [out acc]. cbn [fst] in *. unfold sample_partition.
  apply (rall_lift _ _ gs _ E).
  assert (W : exists wgs datas, mapM (weighted_group p None) gs = Ok wgs /\ Forall2 (group_data p None) wgs datas /\
     flat_map snd (concat datas) = flat_map (fun v => map nbr_of (gedges v)) vs /\ Forall (fun d => snd d <> []) (concat datas) /\
     forall t, exists t', foldN (fun g t => foldN (add_range fadd fsub p (wg_first g)) (wg_ranges g) t) wgs t = Ok t').
  { clear E Hin. induction F as [|[[s l] i] v gs vs G _ IH].
    - exists [], []. repeat split; auto; try constructor. intros t. exists t. reflexivity.
    - destruct (static_group tmp p s l i v G) as (g & tw & E1 & E2 & E3); [intros c Hcc; apply (Hc v c); [now left|exact Hcc]|].
      destruct IH as (wgs & datas & H1 & H2 & H3 & H4 & H5); [intros w c Hw; apply Hc; now right|].
      exists (g :: wgs), ([(tw, map nbr_of (gedges v))] :: datas). cbn [mapM]. rewrite E1. cbn [bind]. rewrite H1. cbn [bind].
      split; [reflexivity|]. split; [now constructor|]. cbn [concat app flat_map snd]. rewrite H3. split; [reflexivity|]. split.
      + constructor; [|exact H4]. cbn [snd]. intros X. apply (f_equal (@length _)) in X. rewrite map_length, gedges_len in X. cbn in X.
        pose proof (go_ne _ _ _ _ _ G). destruct (snd v); [congruence|discriminate].
      + intros t. cbn [foldN]. destruct (E3 t) as (t1 & ->). cbn [bind]. apply H5. }
  destruct W as (wgs & datas & H1 & H2 & H3 & H4 & H5).
  apply (rall_lift _ _ wgs _ H1). destruct (H5 0%N) as (total & Et). apply (rall_lift _ _ total); [exact Et|].
  destruct (feq qval total 0%N).
  - apply rall_ret. destruct (feq qval (fadd acc total) 0%N); cbn [fst]; split; cbn [fst]; auto.
    + apply repeat_length.
    + intros x Hx. left. now apply repeat_spec in Hx.
  - eapply rall_bind; [apply (group_all keep_nonempty)|].
    + intros tw rest tt left I. inversion I as [|? ? X]; subst. now destruct X.
    + intros tw nbs rest tt left c I _ _. inversion I; subst. assumption.
    + exact H2.
    + exact H4.
    + intros es [L I]. apply rall_ret. split; cbn [fst].
      * rewrite app_length, skipn_length. lia.
      * intros x Hx. apply in_app_iff in Hx as [Hx|Hx].
        -- right. apply Hin. rewrite <- H3. now apply I.
        -- apply Hf. rewrite <- (firstn_skipn (length es) out). apply in_or_app. now right.
Qed.

Lemma places_in P n rwss (x : partition * nat) : In x (places P n rwss) ->
  exists rws r1 r r2, In rws rwss /\ rws = r1 ++ r :: r2 /\ row_id r = n /\ x = (P rws, length r1) /\ In r (node_rows n rwss).
Proof.
  unfold places, node_rows. intros H. apply in_flat_map in H as (rws & Hin & H). apply in_map_iff in H as ([i r] & <- & H).
  apply filter_In in H as [H Hn]. cbn [fst snd] in *. apply indexed_split in H as (r1 & r2 & E & ->).
  exists rws, r1, r, r2. split; [exact Hin|]. split; [exact E|]. split; [lia|]. split; [reflexivity|]. apply filter_In. split; [|exact Hn].
  apply in_concat. exists rws. split; [exact Hin|]. rewrite E. apply in_or_app. right. now left.
Qed.

Lemma partitions_all os ts T count default (P : list nbr * N -> Prop) :
  (forall x st, In x os -> P st -> rall P (sample_partition fadd fsub qval (fst x) (snd x) ts T count default st)) ->
  forall st, P st -> rall P (sample_partitions fadd fsub qval os ts T count default st).
Proof.
  induction os as [|[p id] os IH]; intros H st Hst; cbn [sample_partitions]; [now apply rall_ret|].
  eapply rall_bind; [apply (H (p, id) st (or_introl eq_refl) Hst)|]. intros st' Hst'. apply IH; [|exact Hst']. intros; apply H; auto. now right.
Qed.

Variable wval : N -> Z.

(** Sums of weights are not negative. *)
Definition sums_nonneg (parts : list (list (list record))) : Prop :=
  forall r t c, In r (flat_map rows parts) -> In c (cum fadd 0%N (weights_of_type r t)) -> (0 <= qval c)%Q.

Theorem weighted_real wm parts g types n count default :
  converted fadd wval wm parts g -> sums_nonneg parts ->
  exists full, g_full_neighbor fsub g (make_sorted_list types) n None = Ok full /\
    forall r, routcome (g_sample fadd fsub qval g (make_sorted_list types) count default n None) r ->
    exists l, r = Ok l /\ length l = count /\ forall x, In x l -> x = default \/ In x full.
Proof.
  intros C Hs. destruct (converted_rows fadd wval wm parts g C) as (m & Hg & HF & _). set (T := make_sorted_list types).
  exists (flat_map (fun r => flat_map (fun x => map nbr_of (gedges x)) (visited r T)) (node_rows n (map rows parts))). split.
  { apply (g_full_neighbor_lift fadd fsub m (is_temporal wm)); [exact Hg|]. intros rws r1 r r2 _ -> _. apply full_neighbor_visited. }
  set (full := flat_map _ _).
  assert (R : rall (fun l => length l = count /\ forall x, In x l -> x = default \/ In x full) (g_sample fadd fsub qval g T count default n None)).
  { unfold g_sample. eapply rall_lift; [apply Hg|]. unfold lookup, found.
    assert (G : forall os, incl os (places (part_of m (is_temporal wm)) n (map rows parts)) ->
      rall (fun l => length l = count /\ forall x, In x l -> x = default \/ In x full)
        (rbind (sample_partitions fadd fsub qval os None T count default (repeat default count, 0%N)) (fun st => RRet (fst st)))).
    { intros os Ho. eapply rall_bind; [apply (partitions_all os None T count default (fine count default full))|].
      - intros x st Hx Hst. apply Ho in Hx. apply places_in in Hx as (rws & r1 & r & r2 & Hin & Er & Hn & -> & Hrow). cbn [fst snd].
        rewrite Er. destruct (row_groups fadd m (is_temporal wm) r1 r r2 T) as (gs & E & F).
        eapply partition_static; try eassumption.
        + intros v c Hv Hc. destruct (row_in_part _ _ _ _ _ Hin Er HF) as [Hsr _]. apply visited_in in Hv. rewrite (run_edges r v Hsr Hv) in Hc.
          apply (Hs r (fst v)); [|exact Hc]. apply in_map_iff in Hin as (bs & <- & Hb). apply in_flat_map. exists bs. split; [exact Hb|].
          rewrite Er. apply in_or_app. right. now left.
        + intros y Hy. unfold full. apply in_flat_map. exists r. split; [exact Hrow|exact Hy].
      - split; cbn [fst]; [apply repeat_length|]. intros x Hx. left. now apply repeat_spec in Hx.
      - intros st [H1 H2]. apply rall_ret. split; assumption. }
    destruct (places (part_of m (is_temporal wm)) n (map rows parts)) as [|o os].
    - apply rall_ret. split; [apply repeat_length|]. intros x Hx. left. now apply repeat_spec in Hx.
    - apply G. apply incl_refl. }
  intros r Hr. destruct (R r Hr) as (l & -> & H1 & H2). exists l. auto.
Qed.
End Weighted.
