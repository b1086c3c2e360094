(** Neighbor queries on a partition obtained from rows. *)
From Verif Require Import Base WriterModel LoaderModel GraphSpec WriterProofs LoaderProofs.
From Coq Require Import Sorting.Sorted ZifyBool ZifyNat ZifyN.
Local Open Scope Z_scope.

Lemma mem_In t T : mem t T = true <-> In t T.
Proof.
  unfold mem. rewrite existsb_exists. split.
  - intros (x & Hx & E). apply Z.eqb_eq in E. now subst.
  - intro H. exists t. split; [assumption|apply Z.eqb_refl].
Qed.
Lemma mem_false t T : mem t T = false <-> ~ In t T.
Proof. rewrite <- mem_In. destruct (mem t T); split; congruence. Qed.

(** ** The iterator as a pure function over annotated groups *)
Section Visit.
Context {A : Type} (key : A -> Z).

Fixpoint dropw (t : Z) (l : list A) : list A :=
  match l with a :: r => if key a <? t then dropw t r else l | [] => [] end.

Fixpoint visit (fuel : nat) (T : list Z) (l : list A) : list A :=
  match l with
  | [] => []
  | a :: _ =>
      match fuel with
      | O => []
      | S f =>
          match skip_types T (key a) with
          | [] => []
          | t :: T' =>
              match dropw t l with
              | [] => []
              | b :: r => if key b =? t then b :: visit f (t :: T') r else visit f (t :: T') r
              end
          end
      end
  end.

Lemma dropw_split t l : exists d, l = d ++ dropw t l /\ Forall (fun a => key a < t) d.
Proof.
  induction l as [|a l (d & Hd & Hf)]; cbn.
  - exists []. split; [reflexivity|constructor].
  - destruct (Z.ltb_spec (key a) t).
    + exists (a :: d). split; [cbn; now f_equal|]. now constructor.
    + exists []. split; [reflexivity|constructor].
Qed.

Lemma dropw_head t l b r : dropw t l = b :: r -> t <= key b.
Proof.
  induction l as [|a l IH]; cbn; [discriminate|].
  destruct (Z.ltb_spec (key a) t); [exact IH|]. intro E. inversion E; subst. assumption.
Qed.

Lemma dropw_length t l : (length (dropw t l) <= length l)%nat.
Proof. induction l as [|a l IH]; cbn; [lia|]. destruct (key a <? t); cbn; lia. Qed.

Lemma visit_sub fuel : forall T l, incl (visit fuel T l) l.
Proof.
  induction fuel as [|f IH]; intros T l; destruct l as [|a l]; cbn; try apply incl_nil_l.
  destruct (skip_types T (key a)) as [|t T']; [apply incl_nil_l|].
  destruct (dropw_split t (a :: l)) as (d & Hd & _). cbn in Hd.
  set (dl := if key a <? t then dropw t l else a :: l) in *.
  destruct dl as [|b r]; [apply incl_nil_l|].
  rewrite Hd. apply incl_appr.
  destruct (key b =? t).
  - apply incl_cons; [now left|]. apply incl_tl. apply IH.
  - apply incl_tl. apply IH.
Qed.

Lemma skip_types_split T g : exists d, T = d ++ skip_types T g /\ Forall (fun t => t < g) d.
Proof.
  induction T as [|t T (d & Hd & Hf)]; cbn.
  - exists []. split; [reflexivity|constructor].
  - destruct (Z.ltb_spec t g).
    + exists (t :: d). split; [cbn; now f_equal|]. now constructor.
    + exists []. split; [reflexivity|constructor].
Qed.

Lemma skip_types_head T g t T' : skip_types T g = t :: T' -> g <= t.
Proof.
  induction T as [|x T IH]; cbn; [discriminate|].
  destruct (Z.ltb_spec x g); [exact IH|]. intro E. inversion E; subst. assumption.
Qed.

Lemma sorted_app_inv (R : Z -> Z -> Prop) (l1 l2 : list Z) :
  StronglySorted R (l1 ++ l2) -> StronglySorted R l1 /\ StronglySorted R l2 /\
  (forall x y, In x l1 -> In y l2 -> R x y).
Proof.
  induction l1 as [|a l1 IH]; cbn; intro H.
  - split; [constructor|]. split; [assumption|]. intros x y [].
  - inversion H as [|? ? Hs Hf]; subst. destruct (IH Hs) as (H1 & H2 & H3).
    rewrite Forall_app in Hf. destruct Hf as [Hf1 Hf2]. split; [now constructor|]. split; [assumption|].
    intros x y [->|Hx] Hy; [|now apply H3]. rewrite Forall_forall in Hf2. now apply Hf2.
Qed.

Lemma visit_filter fuel : forall T l,
  (length l <= fuel)%nat ->
  StronglySorted Z.lt (map key l) -> StronglySorted Z.lt T -> gap_free T (map key l) ->
  visit fuel T l = filter (fun a => mem (key a) T) l.
Proof.
  induction fuel as [|f IH]; intros T l Hl Hs HT Hg.
  { destruct l; [reflexivity|cbn in Hl; lia]. }
  destruct l as [|a l]; [reflexivity|]. cbn [visit].
  destruct (skip_types_split T (key a)) as (dT & HdT & HfT).
  destruct (skip_types T (key a)) as [|t T'] eqn:Hsk.
  - (* all requested types are below *)
    rewrite app_nil_r in HdT. subst dT. symmetry.
    assert (Hno : forall x, In x (a :: l) -> mem (key x) T = false).
    { intros x Hx. apply mem_false. intro Hin. rewrite Forall_forall in HfT. specialize (HfT _ Hin).
      destruct Hx as [->|Hx]; [lia|]. cbn in Hs. apply StronglySorted_inv in Hs. destruct Hs as [_ Hf].
      rewrite Forall_forall in Hf. specialize (Hf (key x) (in_map key _ _ Hx)). lia. }
    clear - Hno. induction (a :: l) as [|x r IHr]; [reflexivity|]. cbn.
    rewrite (Hno x (or_introl eq_refl)). apply IHr. intros y Hy. apply Hno. now right.
  - assert (Hat : key a <= t) by (eapply skip_types_head; eassumption).
    destruct (dropw_split t (a :: l)) as (d & Hd & Hfd).
    set (L := a :: l) in *.
    (* membership for keys at least t only depends on t :: T' *)
    assert (HTs : StronglySorted Z.lt (t :: T')) by (rewrite HdT in HT; apply sorted_app_inv in HT; tauto).
    assert (Hmem : forall k, t <= k -> mem k T = mem k (t :: T')).
    { intros k Hk. rewrite HdT. unfold mem. rewrite existsb_app.
      assert (He : existsb (Z.eqb k) dT = false).
      { apply not_true_is_false. intro He. apply existsb_exists in He. destruct He as (x & Hx & Ex).
        rewrite Forall_forall in HfT. specialize (HfT _ Hx). lia. }
      now rewrite He. }
    (* dropped groups are not requested *)
    assert (Hdno : forall x, In x d -> ~ In (key x) T).
    { intros x Hx Hin. rewrite HdT in Hin. apply in_app_or in Hin. rewrite Forall_forall in Hfd. specialize (Hfd _ Hx).
      destruct Hin as [Hin|Hin].
      - rewrite Forall_forall in HfT. specialize (HfT _ Hin).
        assert (key a <= key x).
        { assert (HxL : In x L) by (rewrite Hd; apply in_or_app; now left). unfold L in HxL.
          destruct HxL as [->|HxL]; [lia|]. cbn in Hs. apply StronglySorted_inv in Hs. destruct Hs as [_ Hf].
          rewrite Forall_forall in Hf. specialize (Hf (key x) (in_map key _ _ HxL)). lia. }
        lia.
      - apply StronglySorted_inv in HTs. destruct HTs as [_ HfT']. destruct Hin as [Hin|Hin]; [lia|].
        rewrite Forall_forall in HfT'. specialize (HfT' _ Hin). lia. }
    rewrite Hd at 2. rewrite filter_app.
    replace (filter (fun a0 => mem (key a0) T) d) with (@nil A).
    2:{ clear - Hdno. induction d as [|x d IHd]; [reflexivity|]. cbn.
        destruct (mem (key x) T) eqn:E; [exfalso; apply (Hdno x (or_introl eq_refl)); now apply mem_In|].
        apply IHd. intros y Hy. apply Hdno. now right. }
    cbn [app].
    destruct (dropw t L) as [|b r] eqn:Hdr; [reflexivity|].
    assert (Htb : t <= key b) by (eapply dropw_head; eassumption).
    assert (HsL : StronglySorted Z.lt (map key (b :: r)) /\ (forall x y, In x d -> In y (b :: r) -> key x < key y)).
    { rewrite Hd, map_app in Hs. apply sorted_app_inv in Hs. destruct Hs as (_ & H2 & H3). split; [exact H2|].
      intros x y Hx Hy. apply H3; now apply in_map. }
    destruct HsL as [Hs1 Hlt].
    cbn [map] in Hs1. apply StronglySorted_inv in Hs1. destruct Hs1 as [Hsr Hfr].
    assert (Hrgt : forall x, In x r -> key b < key x).
    { intros x Hx. rewrite Forall_forall in Hfr. apply Hfr. now apply in_map. }
    assert (Hlen : (length r <= f)%nat).
    { pose proof (dropw_length t L) as Hdl. rewrite Hdr in Hdl. cbn in Hdl, Hl. unfold L in Hdl. cbn in Hdl. lia. }
    assert (Hgr : gap_free (t :: T') (map key r)).
    { intros g1 t0 g2 Hg1 Hn1 Ht0 Hn0 Hg2 Hi2 Hbet.
      apply in_map_iff in Hg1. destruct Hg1 as (x1 & <- & Hx1).
      apply in_map_iff in Hg2. destruct Hg2 as (x2 & <- & Hx2).
      pose proof (Hrgt _ Hx1) as Hb1. pose proof (Hrgt _ Hx2) as Hb2.
      apply (Hg (key x1) t0 (key x2)); try assumption.
      - rewrite Hd. apply in_map. apply in_or_app. right. now right.
      - rewrite <- mem_false. rewrite Hmem by lia. now rewrite mem_false.
      - rewrite HdT. apply in_or_app. now right.
      - intro Hin. apply in_map_iff in Hin. destruct Hin as (x & Ex & Hx). rewrite Hd in Hx.
        apply in_app_or in Hx. destruct Hx as [Hx|[Hx|Hx]].
        + assert (key x < key b) by (apply Hlt; [assumption|now left]). lia.
        + subst x. lia.
        + apply Hn0. rewrite <- Ex. now apply in_map.
      - rewrite Hd. apply in_map. apply in_or_app. right. now right.
      - rewrite <- mem_In. rewrite Hmem by lia. now rewrite mem_In. }
    assert (Hrest : visit f (t :: T') r = filter (fun a0 => mem (key a0) T) r).
    { rewrite (IH (t :: T') r Hlen Hsr HTs Hgr). apply filter_ext_in. intros x Hx. symmetry. apply Hmem.
      specialize (Hrgt _ Hx). lia. }
    cbn [filter]. destruct (Z.eqb_spec (key b) t) as [Ebt|Ebt].
    + subst t. rewrite (Hmem (key b)) by lia. cbn [mem existsb]. rewrite Z.eqb_refl. cbn [orb]. now rewrite Hrest.
    + (* t is requested but not stored: the skipped group must not be requested *)
      assert (Hnb : mem (key b) T = false).
      { apply mem_false. intro Hin.
        destruct d as [|x d].
        - (* nothing dropped: head of L is b and key a = key b > t >= key a *)
          cbn in Hd. unfold L in Hd. inversion Hd; subst. lia.
        - apply (Hg (key x) t (key b)).
          + rewrite Hd. apply in_map. now left.
          + apply Hdno. now left.
          + rewrite HdT. apply in_or_app. right. now left.
          + intro HinL. apply in_map_iff in HinL. destruct HinL as (y & Ey & Hy). rewrite Hd in Hy.
            apply in_app_or in Hy. destruct Hy as [Hy|[Hy|Hy]].
            * rewrite Forall_forall in Hfd. specialize (Hfd _ Hy). lia.
            * subst y. congruence.
            * specialize (Hrgt _ Hy). lia.
          + rewrite Hd. apply in_map. apply in_or_app. right. now left.
          + assumption.
          + rewrite Forall_forall in Hfd. specialize (Hfd x (or_introl eq_refl)). lia. }
      rewrite Hnb. exact Hrest.
Qed.
End Visit.

(** Groups annotated with their index and first edge position. *)
Fixpoint ann (i s : nat) (gs : list (Z * list edge)) : list (nat * nat * (Z * list edge)) :=
  match gs with
  | [] => []
  | g :: t => (i, s, g) :: ann (S i) (s + glen g) t
  end.
Definition akey (a : nat * nat * (Z * list edge)) : Z := fst (snd a).
Definition apos (a : nat * nat * (Z * list edge)) : nat * nat * nat :=
  let '(i, s, g) := a in (s, s + glen g, i)%nat.

Lemma ann_app i s g1 g2 : ann i s (g1 ++ g2) = ann i s g1 ++ ann (i + length g1) (s + sum (map glen g1)) g2.
Proof.
  revert i s; induction g1 as [|g g1 IH]; intros i s; cbn [app ann length map].
  - change (sum []) with 0%nat. now rewrite !Nat.add_0_r.
  - rewrite IH, sum_cons. cbn [app]. f_equal. f_equal. f_equal; lia.
Qed.

Lemma ann_length i s gs : length (ann i s gs) = length gs.
Proof. revert i s; induction gs as [|g gs IH]; intros; cbn; auto. Qed.

Lemma ann_keys i s gs : map akey (ann i s gs) = map fst gs.
Proof. revert i s; induction gs as [|g gs IH]; intros; cbn; [reflexivity|]. now rewrite IH. Qed.

Lemma ann_groups i s gs : map snd (ann i s gs) = gs.
Proof. revert i s; induction gs as [|g gs IH]; intros; cbn; [reflexivity|]. now rewrite IH. Qed.

Lemma ann_in i s gs j p g :
  In (j, p, g) (ann i s gs) ->
  exists pre post, gs = pre ++ g :: post /\ j = (i + length pre)%nat /\ p = (s + sum (map glen pre))%nat.
Proof.
  revert i s; induction gs as [|x gs IH]; intros i s H; cbn in H; [contradiction|].
  destruct H as [H|H].
  - inversion H; subst. exists [], gs. cbn. change (sum []) with 0%nat. repeat split; lia.
  - destruct (IH _ _ H) as (pre & post & -> & -> & ->). exists (x :: pre), post.
    cbn [map length]. rewrite sum_cons. repeat split; lia.
Qed.

Lemma ann_dropw t i s gs :
  exists d, gs = d ++ skipn (length d) gs /\
    dropw akey t (ann i s gs) = ann (i + length d) (s + sum (map glen d)) (skipn (length d) gs) /\
    Forall (fun g => fst g < t) d /\
    (forall g r, skipn (length d) gs = g :: r -> t <= fst g).
Proof.
  revert i s; induction gs as [|g gs IH]; intros i s.
  - exists []. cbn. repeat split; auto. discriminate.
  - cbn [ann dropw]. unfold akey at 1. cbn [fst snd].
    destruct (Z.ltb_spec (fst g) t) as [L|L].
    + destruct (IH (S i) (s + glen g)%nat) as (d & Hd & Hw & Hf & Hh). exists (g :: d).
      cbn [length skipn map app]. rewrite sum_cons. split; [now f_equal|]. split; [|split].
      * fold (dropw akey t). rewrite Hw. f_equal; lia.
      * now constructor.
      * exact Hh.
    + exists []. cbn [length skipn map app]. change (sum []) with 0%nat. rewrite !Nat.add_0_r.
      split; [reflexivity|]. split; [reflexivity|]. split; [constructor|].
      intros g' r E. inversion E; subst. exact L.
Qed.

Lemma skip_groups_spec d : forall fuel pre rest post t,
  Forall (fun g : Z * list edge => fst g < t) d ->
  (forall g r, rest = g :: r -> t <= fst g) ->
  (length d <= fuel)%nat ->
  skip_groups fuel (pre ++ map fst (d ++ rest) ++ post) (length pre) (length pre + length (d ++ rest)) t =
  Ok (length pre + length d)%nat.
Proof.
  induction d as [|g d IH]; intros fuel pre rest post t Hf Hh Hl.
  - cbn [app length]. rewrite Nat.add_0_r. destruct rest as [|g r].
    + destruct fuel; cbn [length skip_groups]; rewrite Nat.add_0_r, Nat.ltb_irrefl; reflexivity.
    + assert (Hlt : (length pre <? length pre + length (g :: r))%nat = true) by (apply Nat.ltb_lt; cbn; lia).
      specialize (Hh g r eq_refl).
      assert (E : get (pre ++ map fst (g :: r) ++ post) (length pre) = Ok (fst g)).
      { rewrite get_app_r0 by reflexivity. reflexivity. }
      destruct fuel; cbn [skip_groups]; rewrite Hlt, E; cbn [bind];
        (destruct (Z.ltb_spec (fst g) t); [lia|reflexivity]).
  - inversion Hf as [|? ? Hg Hd]; subst. destruct fuel as [|fuel]; [cbn in Hl; lia|].
    cbn [skip_groups].
    assert (Hlt : (length pre <? length pre + length ((g :: d) ++ rest))%nat = true) by (apply Nat.ltb_lt; cbn; lia).
    rewrite Hlt.
    assert (E : get (pre ++ map fst ((g :: d) ++ rest) ++ post) (length pre) = Ok (fst g)).
    { rewrite get_app_r0 by reflexivity. reflexivity. }
    rewrite E. cbn [bind]. destruct (Z.ltb_spec (fst g) t); [|lia].
    specialize (IH fuel (pre ++ [fst g]) rest post t Hd Hh ltac:(cbn in Hl; lia)).
    rewrite app_length in IH. cbn [length] in IH. rewrite <- app_assoc in IH.
    cbn [app map length] in *. rewrite Nat.add_1_r in IH. cbn [Nat.add] in IH. rewrite !Nat.add_succ_r. exact IH.
Qed.

Lemma nii_loop_visit n : forall gs fuel fuel2 pre_t pre_o post_t post_o s T,
  length gs = n -> (n <= fuel)%nat -> (n <= fuel2)%nat -> length pre_t = length pre_o ->
  nii_loop fuel (pre_t ++ map fst gs ++ post_t)
                (pre_o ++ psum s (map glen gs) ++ (s + sum (map glen gs))%nat :: post_o)
                (length pre_t) (length pre_t + length gs) T =
  Ok (map apos (visit akey fuel2 T (ann (length pre_t) s gs))).
Proof.
  induction n as [n IH] using lt_wf_ind. intros gs fuel fuel2 pre_t pre_o post_t post_o s T Hn Hfu Hfu2 Hpre.
  destruct gs as [|g gs].
  { cbn [length] in *. rewrite (Nat.add_0_r (length pre_t)). destruct fuel, fuel2; cbn [nii_loop]; rewrite Nat.ltb_irrefl; reflexivity. }
  destruct fuel as [|fuel]; [cbn in Hn; lia|]. destruct fuel2 as [|fuel2]; [cbn in Hn; lia|].
  cbn [nii_loop].
  assert (Hlt : (length pre_t <? length pre_t + length (g :: gs))%nat = true) by (apply Nat.ltb_lt; cbn; lia).
  rewrite Hlt.
  assert (E : get (pre_t ++ map fst (g :: gs) ++ post_t) (length pre_t) = Ok (fst g)).
  { rewrite get_app_r0 by reflexivity. reflexivity. }
  rewrite E. cbn [bind].
  cbn [visit ann]. unfold akey at 1. cbn [fst snd].
  destruct (skip_types T (fst g)) as [|t T'] eqn:Hsk; [reflexivity|].
  change ((length pre_t, s, g) :: ann (S (length pre_t)) (s + glen g) gs) with (ann (length pre_t) s (g :: gs)).
  destruct (ann_dropw t (length pre_t) s (g :: gs)) as (d & Hd & Hw & Hf & Hh).
  set (rest := skipn (length d) (g :: gs)) in *.
  rewrite Hw. rewrite Hd.
  assert (Hld : (length d + length rest = length (g :: gs))%nat) by (rewrite Hd at 1; now rewrite app_length).
  rewrite skip_groups_spec; [|exact Hf|exact Hh|rewrite app_length; lia].
  cbn [bind].
  destruct rest as [|b r] eqn:Hrest.
  - cbn [ann]. rewrite app_nil_r, Nat.eqb_refl. reflexivity.
  - assert (Hne : (length pre_t + length d =? length pre_t + length (d ++ b :: r))%nat = false).
    { apply Nat.eqb_neq. rewrite app_length. cbn. lia. }
    rewrite Hne.
    assert (Hlr : (length r < n)%nat) by (cbn in *; lia).
    (* restructure the lists around b *)
    assert (Et : pre_t ++ map fst (d ++ b :: r) ++ post_t = (pre_t ++ map fst d ++ [fst b]) ++ map fst r ++ post_t).
    { rewrite map_app. cbn. rewrite <- !app_assoc. reflexivity. }
    assert (Eo : pre_o ++ psum s (map glen (d ++ b :: r)) ++ (s + sum (map glen (d ++ b :: r)))%nat :: post_o =
       (pre_o ++ psum s (map glen d) ++ [(s + sum (map glen d))%nat]) ++
       psum (s + sum (map glen d) + glen b) (map glen r) ++
       (s + sum (map glen d) + glen b + sum (map glen r))%nat :: post_o).
    { rewrite map_app, psum_app, sum_app. cbn [map psum]. rewrite sum_cons. rewrite <- !app_assoc. cbn [app].
      rewrite !Nat.add_assoc. reflexivity. }
    assert (Egb : get (pre_t ++ map fst (d ++ b :: r) ++ post_t) (length pre_t + length d) = Ok (fst b)).
    { rewrite map_app, <- app_assoc. rewrite get_app_r, get_app_r0 by (now rewrite map_length). reflexivity. }
    rewrite Egb. cbn [bind].
    assert (Hi1 : (S (length pre_t + length d) = length (pre_t ++ map fst d ++ [fst b]))%nat).
    { rewrite !app_length, map_length. cbn. lia. }
    assert (Hhi : (length pre_t + length (d ++ b :: r) = length (pre_t ++ map fst d ++ [fst b]) + length r)%nat).
    { rewrite !app_length, map_length. cbn. lia. }
    assert (Hpre' : length (pre_t ++ map fst d ++ [fst b]) = length (pre_o ++ psum s (map glen d) ++ [(s + sum (map glen d))%nat])).
    { rewrite !app_length, psum_length, !map_length. cbn. lia. }
    assert (Hrec : nii_loop fuel (pre_t ++ map fst (d ++ b :: r) ++ post_t)
        (pre_o ++ psum s (map glen (d ++ b :: r)) ++ (s + sum (map glen (d ++ b :: r)))%nat :: post_o)
        (S (length pre_t + length d)) (length pre_t + length (d ++ b :: r)) (t :: T') =
        Ok (map apos (visit akey fuel2 (t :: T')
              (ann (length pre_t + length d + 1) (s + sum (map glen d) + glen b) r)))).
    { rewrite Et, Eo, Hi1, Hhi.
      rewrite (IH (length r) Hlr r fuel fuel2) by (lia || assumption || reflexivity).
      repeat f_equal. lia. }
    cbn [ann]. unfold akey at 1. cbn [fst snd].
    replace (S (length pre_t + length d)) with (length pre_t + length d + 1)%nat in * by lia.
    destruct (Z.eqb_spec (fst b) t) as [Eb|Eb].
    + assert (Es : get (pre_o ++ psum s (map glen (d ++ b :: r)) ++ (s + sum (map glen (d ++ b :: r)))%nat :: post_o)
                     (length pre_t + length d) = Ok (s + sum (map glen d))%nat).
      { rewrite Eo. rewrite get_app_l.
        - rewrite Hpre. rewrite get_app_r. rewrite get_app_r0 by (now rewrite psum_length, map_length). reflexivity.
        - rewrite <- Hpre'. rewrite !app_length, map_length. cbn. lia. }
      assert (El : get (pre_o ++ psum s (map glen (d ++ b :: r)) ++ (s + sum (map glen (d ++ b :: r)))%nat :: post_o)
                     (length pre_t + length d + 1) = Ok (s + sum (map glen d) + glen b)%nat).
      { rewrite Eo. rewrite get_app_r0.
        - destruct r as [|c r]; cbn [map psum app].
          + change (sum []) with 0%nat. rewrite Nat.add_0_r. reflexivity.
          + reflexivity.
        - rewrite <- Hpre'. rewrite !app_length, map_length. cbn. lia. }
      rewrite Es. cbn [bind]. replace (S (length pre_t + length d)) with (length pre_t + length d + 1)%nat by lia.
      rewrite El. cbn [bind]. rewrite Hrec. cbn [bind map apos]. reflexivity.
    + replace (S (length pre_t + length d)) with (length pre_t + length d + 1)%nat by lia. exact Hrec.
Qed.

Section Query.
Variables fadd fsub : N -> N -> N.
Notation cum := (cum fadd).
Notation gcum := (gcum fadd).
Notation part_of := (part_of fadd).

Lemma all_runs_app a b : all_runs (a ++ b) = all_runs a ++ all_runs b.
Proof. apply flat_map_app. Qed.

Lemma all_runs_edges rws : flat_map snd (all_runs rws) = all_edges rws.
Proof.
  induction rws as [|r rws IH]; [reflexivity|].
  cbn [all_runs flat_map all_edges]. fold (all_runs rws) (all_edges rws).
  rewrite flat_map_app', IH. f_equal. apply runs_concat.
Qed.

Lemma sum_glen_edges gs : sum (map glen gs) = length (flat_map snd gs).
Proof. induction gs as [|g gs IH]; cbn; [reflexivity|]. rewrite sum_cons, app_length, IH. reflexivity. Qed.

Lemma sum_runs_length rws : sum (map (fun r => length (row_runs r)) rws) = length (all_runs rws).
Proof. induction rws as [|r rws IH]; cbn; [reflexivity|]. rewrite sum_cons, app_length, IH. reflexivity. Qed.

(** The groups of row [k]. *)
Definition row_ann (r1 : list row) (r : row) :=
  ann (length (all_runs r1)) (length (all_edges r1)) (row_runs r).

Lemma nii_spec m tmp r1 r r2 T :
  nii (part_of m tmp (r1 ++ r :: r2)) (length r1) T =
  Ok (map apos (visit akey (length (row_runs r)) T (row_ann r1 r))).
Proof.
  unfold nii. cbn [p_nbi p_etypes p_toff part_of].
  assert (E1 : get (psum 0 (map (fun r => length (row_runs r)) (r1 ++ r :: r2)) ++ [length (all_runs (r1 ++ r :: r2))])
                 (length r1) = Ok (length (all_runs r1))).
  { rewrite map_app, psum_app, sum_runs_length. cbn [map psum]. rewrite <- app_assoc. rewrite get_app_r0 by (now rewrite psum_length, map_length).
    reflexivity. }
  assert (E2 : get (psum 0 (map (fun r => length (row_runs r)) (r1 ++ r :: r2)) ++ [length (all_runs (r1 ++ r :: r2))])
                 (S (length r1)) = Ok (length (all_runs r1) + length (row_runs r))%nat).
  { rewrite map_app, psum_app, sum_runs_length. cbn [map psum]. rewrite <- app_assoc.
    replace (S (length r1)) with (length (psum 0 (map (fun r => length (row_runs r)) r1)) + 1)%nat
      by (rewrite psum_length, map_length; lia).
    rewrite get_app_r. cbn [app]. destruct r2 as [|r' r2]; cbn [map psum app].
    - cbn. rewrite all_runs_app. cbn. rewrite !app_length. cbn. now rewrite Nat.add_0_r.
    - reflexivity. }
  rewrite E1. cbn [bind]. rewrite E2. cbn [bind].
  assert (Hlt : (length (all_runs r1) + length (row_runs r) <? length (all_runs r1))%nat = false) by (apply Nat.ltb_ge; lia).
  rewrite Hlt.
  replace (length (all_runs r1) + length (row_runs r) - length (all_runs r1))%nat with (length (row_runs r)) by lia.
  assert (Et : map fst (all_runs (r1 ++ r :: r2)) ++ [0] =
               map fst (all_runs r1) ++ map fst (row_runs r) ++ (map fst (all_runs r2) ++ [0])).
  { rewrite all_runs_app. cbn [all_runs flat_map]. fold (all_runs r2). rewrite !map_app, <- !app_assoc. reflexivity. }
  assert (Eo : exists post, psum 0 (map glen (all_runs (r1 ++ r :: r2))) ++ [length (all_edges (r1 ++ r :: r2))] =
       psum 0 (map glen (all_runs r1)) ++
       psum (length (all_edges r1)) (map glen (row_runs r)) ++
       (length (all_edges r1) + sum (map glen (row_runs r)))%nat :: post).
  { rewrite all_runs_app, all_edges_app. cbn [all_runs flat_map all_edges]. fold (all_runs r2) (all_edges r2).
    rewrite !map_app, !psum_app, <- !app_assoc. rewrite (sum_glen_edges (all_runs r1)), all_runs_edges. cbn [Nat.add].
    set (b := (length (all_edges r1) + sum (map glen (row_runs r)))%nat).
    assert (Hh : exists post, psum b (map glen (all_runs r2)) ++ [length (all_edges r1 ++ row_edges r ++ all_edges r2)] = b :: post).
    { destruct (psum_snoc_head b (map glen (all_runs r2))) as (t & Ht). exists t. rewrite <- Ht. f_equal. f_equal.
      unfold b. rewrite row_glens_sum, !app_length. rewrite (sum_glen_edges (all_runs r2)), all_runs_edges. lia. }
    destruct Hh as (post & Hh). exists post. now rewrite Hh. }
  destruct Eo as (post & Eo).
  rewrite Et, Eo.
  pose proof (nii_loop_visit (length (row_runs r)) (row_runs r) (length (row_runs r)) (length (row_runs r))
      (map fst (all_runs r1)) (psum 0 (map glen (all_runs r1))) (map fst (all_runs r2) ++ [0]) post
      (length (all_edges r1)) T eq_refl (le_n _) (le_n _)) as L.
  rewrite psum_length, !map_length in L. specialize (L eq_refl). exact L.
Qed.

(** ** Reading groups *)
Lemma mapM_seq {B} (F : nat -> res B) (l : list B) : forall s,
  (forall j x, nth_error l j = Some x -> F (s + j)%nat = Ok x) ->
  mapM F (seq s (length l)) = Ok l.
Proof.
  induction l as [|x l IH]; intros s H; [reflexivity|]. cbn [length seq mapM].
  pose proof (H 0%nat x eq_refl) as H0. rewrite Nat.add_0_r in H0. rewrite H0. cbn [bind].
  rewrite IH; [reflexivity|]. intros j y Hj. rewrite <- (H (S j) y Hj). f_equal. lia.
Qed.

Fixpoint diffs (prev : N) (l : list N) : list N :=
  match l with [] => [] | c :: t => fsub c prev :: diffs c t end.
(** The weights FullNeighbor returns for a group with stored weights [ws]. *)
Definition recover (ws : list N) : list N :=
  match cum 0%N ws with [] => [] | c :: t => c :: diffs c t end.

Lemma cum_length acc ws : length (cum acc ws) = length ws.
Proof. revert acc; induction ws as [|w ws IH]; intro acc; cbn; auto. Qed.
Lemma diffs_length p l : length (diffs p l) = length l.
Proof. revert p; induction l as [|w ws IH]; intro acc; cbn; auto. Qed.
Lemma recover_length ws : length (recover ws) = length ws.
Proof.
  unfold recover. pose proof (cum_length 0%N ws) as H. destruct (cum 0%N ws) as [|c t]; cbn in *; [exact H|].
  rewrite diffs_length. exact H.
Qed.

Lemma diffs_nth l : forall p j,
  nth_error (diffs p l) j =
  match nth_error l j, nth_error (p :: l) j with Some a, Some b => Some (fsub a b) | _, _ => None end.
Proof.
  induction l as [|c l IH]; intros p j; destruct j as [|j]; cbn; try reflexivity.
  rewrite IH. cbn. reflexivity.
Qed.

Lemma diffs_undo ws : forall acc, undo_ok fadd fsub acc ws -> diffs acc (cum acc ws) = ws.
Proof.
  induction ws as [|w ws IH]; intros acc H; [reflexivity|]. cbn in *. destruct H as [H1 H2].
  now rewrite H1, IH.
Qed.

Lemma recover_exact ws : exact_sums fadd fsub ws -> recover ws = ws.
Proof.
  destruct ws as [|w ws]; [reflexivity|]. cbn. intros [H1 H2]. unfold recover. cbn.
  rewrite H1. now rewrite diffs_undo.
Qed.

Definition nbr_of (x : edge * N) : nbr := (e_dst (fst x), e_typ (fst x), snd x, -1).
Definition nbr_ts_of (x : edge * N) : nbr := (e_dst (fst x), e_typ (fst x), snd x, e_c (fst x)).
Definition gedges (g : Z * list edge) : list (edge * N) := combine (snd g) (recover (map e_w (snd g))).

Lemma gedges_length g : length (gedges g) = glen g.
Proof. unfold gedges. rewrite combine_length, recover_length, map_length. unfold glen. lia. Qed.

Lemma gcum_length g : length (gcum g) = glen g.
Proof. unfold LoaderProofs.gcum. rewrite cum_length, map_length. reflexivity. Qed.

Lemma flat_gcum_length gs : length (flat_map gcum gs) = sum (map glen gs).
Proof. induction gs as [|g gs IH]; cbn; [reflexivity|]. rewrite sum_cons, app_length, gcum_length, IH. reflexivity. Qed.

(** A position inside a group of the partition. *)
Lemma group_reads m tmp rws pre g post j e w :
  all_runs rws = pre ++ g :: post ->
  nth_error (gedges g) j = Some (e, w) ->
  let s := sum (map glen pre) in
  get (p_dst (part_of m tmp rws)) (s + j) = Ok (e_dst e) /\
  edge_weight_at fsub (part_of m tmp rws) s (s + j) = Ok w /\
  ((0 <=? lm_watermark m) && tmp = true -> get (p_ts (part_of m tmp rws)) (s + j) = Ok (e_c e, e_r e)).
Proof.
  intros Hr Hj s.
  assert (He : all_edges rws = flat_map snd pre ++ snd g ++ flat_map snd post).
  { rewrite <- all_runs_edges, Hr, flat_map_app'. reflexivity. }
  assert (Hs : s = length (flat_map snd pre)) by (unfold s; apply sum_glen_edges).
  assert (Hej : nth_error (snd g) j = Some e /\ nth_error (recover (map e_w (snd g))) j = Some w).
  { unfold gedges in Hj. revert Hj. generalize (recover (map e_w (snd g))). intro ws. clear.
    revert j ws; induction (snd g) as [|x l IH]; intros [|j] [|y ws] H; cbn in *; try discriminate.
    - inversion H; subst. split; reflexivity.
    - apply IH. exact H. }
  destruct Hej as [Hej Hwj].
  assert (Hjl : (j < length (snd g))%nat) by (apply nth_error_Some; congruence).
  split; [|split].
  - cbn [p_dst part_of]. rewrite He, !map_app, <- !app_assoc. rewrite Hs, <- (map_length e_dst (flat_map snd pre)).
    rewrite get_app_r. rewrite get_app_l by (now rewrite map_length). rewrite get_map.
    unfold get. rewrite Hej. reflexivity.
  - unfold edge_weight_at. cbn [p_wts part_of].
    assert (Hw : flat_map gcum (all_runs rws) = flat_map gcum pre ++ gcum g ++ flat_map gcum post).
    { rewrite Hr, flat_map_app'. reflexivity. }
    assert (Hsw : s = length (flat_map gcum pre)) by (rewrite flat_gcum_length; reflexivity).
    rewrite Hw.
    assert (Hg : forall k, (k < length (snd g))%nat ->
        get (flat_map gcum pre ++ gcum g ++ flat_map gcum post) (s + k) = get (gcum g) k).
    { intros k Hk. rewrite Hsw, get_app_r. rewrite get_app_l by (rewrite gcum_length; exact Hk). reflexivity. }
    unfold recover in Hwj. unfold LoaderProofs.gcum in *.
    destruct j as [|j].
    + rewrite Nat.add_0_r, Nat.ltb_irrefl. rewrite <- (Nat.add_0_r s). rewrite Hg by lia.
      destruct (cum 0%N (map e_w (snd g))) as [|c t]; [discriminate|]. unfold get. cbn in *. now inversion Hwj.
    + assert (Hlt : (s <? s + S j)%nat = true) by (apply Nat.ltb_lt; lia). rewrite Hlt.
      rewrite Hg by lia. replace (s + S j - 1)%nat with (s + j)%nat by lia. rewrite Hg by lia.
      destruct (cum 0%N (map e_w (snd g))) as [|c t]; [discriminate|]. cbn [nth_error] in Hwj.
      rewrite diffs_nth in Hwj.
      destruct (nth_error t j) as [a|] eqn:Ha; [|discriminate].
      destruct (nth_error (c :: t) j) as [b|] eqn:Hb; [|discriminate].
      rewrite (get_ok (c :: t) (S j) a Ha). cbn [bind]. rewrite (get_ok _ _ _ Hb). cbn [bind]. congruence.
  - intro Ht. cbn [p_ts part_of]. rewrite Ht, He, !map_app. rewrite Hs, <- (map_length (fun e => (e_c e, e_r e)) (flat_map snd pre)).
    rewrite get_app_r. rewrite get_app_l by (now rewrite map_length). rewrite get_map.
    unfold get. rewrite Hej. reflexivity.
Qed.

Lemma group_type m tmp rws pre g post :
  all_runs rws = pre ++ g :: post -> get (p_etypes (part_of m tmp rws)) (length pre) = Ok (fst g).
Proof.
  intro Hr. cbn [p_etypes part_of]. rewrite Hr, map_app, <- app_assoc.
  rewrite get_app_r0 by (now rewrite map_length). reflexivity.
Qed.

Lemma gedges_typ g : Forall (fun e => e_typ e = fst g) (snd g) -> Forall (fun x => e_typ (fst x) = fst g) (gedges g).
Proof.
  intro H. apply Forall_forall. intros [e w] Hin. unfold gedges in Hin. apply in_combine_l in Hin.
  rewrite Forall_forall in H. now apply H.
Qed.

Lemma all_runs_ok rws : Forall (fun g => snd g <> [] /\ Forall (fun e => e_typ e = fst g) (snd g)) (all_runs rws).
Proof.
  apply Forall_forall. intros g Hg. unfold all_runs in Hg. apply in_flat_map in Hg. destruct Hg as (r & _ & Hg).
  pose proof (runs_types (row_edges r)) as H. rewrite Forall_forall in H. now apply H.
Qed.

Lemma full_group_spec m tmp rws pre g post :
  all_runs rws = pre ++ g :: post ->
  full_group fsub (part_of m tmp rws) (sum (map glen pre), (sum (map glen pre) + glen g)%nat, length pre) =
  Ok (map nbr_of (gedges g)).
Proof.
  intro Hr. unfold full_group.
  replace (sum (map glen pre) + glen g - sum (map glen pre))%nat with (length (map nbr_of (gedges g)))
    by (rewrite map_length, gedges_length; lia).
  apply mapM_seq. intros j x Hj. rewrite nth_error_map in Hj.
  destruct (nth_error (gedges g) j) as [[e w]|] eqn:Hej; [|discriminate]. cbn in Hj. inversion Hj; subst x; clear Hj.
  destruct (group_reads m tmp rws pre g post j e w Hr Hej) as (Hd & Hw & _).
  rewrite Hd. cbn [bind]. rewrite (group_type m tmp rws pre g post Hr). cbn [bind]. rewrite Hw. cbn [bind].
  unfold nbr_of. cbn [fst snd].
  assert (Ht : e_typ e = fst g).
  { pose proof (all_runs_ok rws) as Ho. rewrite Hr in Ho. apply Forall_app in Ho. destruct Ho as [_ Ho].
    inversion Ho as [|? ? [_ Hg] _]; subst. apply gedges_typ in Hg. rewrite Forall_forall in Hg.
    apply (Hg (e, w)). eapply nth_error_In; eassumption. }
  now rewrite Ht.
Qed.

Definition alive_pair (t : Z) (x : edge * N) : bool := alive t (fst x).

Lemma alive_cond_alive e t : alive_cond (e_c e, e_r e) t = alive t e.
Proof. unfold alive_cond, alive. cbn. f_equal. apply orb_comm. Qed.

Lemma concat_filter_map {A B} (f : A -> bool) (g : A -> B) l :
  concat (map (fun x => if f x then [g x] else []) l) = map g (filter f l).
Proof. induction l as [|x l IH]; cbn; [reflexivity|]. rewrite IH. destruct (f x); reflexivity. Qed.

Lemma full_group_ts_spec m tmp rws pre g post t :
  (0 <=? lm_watermark m) && tmp = true ->
  all_runs rws = pre ++ g :: post ->
  full_group_ts fsub (part_of m tmp rws) t (sum (map glen pre), (sum (map glen pre) + glen g)%nat, length pre) =
  Ok (map nbr_ts_of (filter (alive_pair t) (gedges g))).
Proof.
  intros Hwm Hr. unfold full_group_ts.
  rewrite <- concat_filter_map.
  set (L := map (fun x => if alive_pair t x then [nbr_ts_of x] else []) (gedges g)).
  replace (sum (map glen pre) + glen g - sum (map glen pre))%nat with (length L)
    by (unfold L; rewrite map_length, gedges_length; lia).
  rewrite (mapM_seq _ L); [reflexivity|].
  intros j x Hj. unfold L in Hj. rewrite nth_error_map in Hj.
  destruct (nth_error (gedges g) j) as [[e w]|] eqn:Hej; [|discriminate]. cbn in Hj. inversion Hj; subst x; clear Hj.
  destruct (group_reads m tmp rws pre g post j e w Hr Hej) as (Hd & Hw & Hts).
  rewrite (Hts Hwm). cbn [bind]. rewrite alive_cond_alive. unfold alive_pair. cbn [fst].
  destruct (alive t e); [|reflexivity].
  rewrite Hd. cbn [bind]. rewrite Hw. cbn [bind]. rewrite (group_type m tmp rws pre g post Hr). cbn [bind].
  unfold nbr_ts_of. cbn [fst snd].
  assert (Ht : e_typ e = fst g).
  { pose proof (all_runs_ok rws) as Ho. rewrite Hr in Ho. apply Forall_app in Ho. destruct Ho as [_ Ho].
    inversion Ho as [|? ? [_ Hg] _]; subst. apply gedges_typ in Hg. rewrite Forall_forall in Hg.
    apply (Hg (e, w)). eapply nth_error_In; eassumption. }
  now rewrite Ht.
Qed.

(** The groups of a row that the iterator visits. *)
Definition visited (r : row) (T : list Z) : list (Z * list edge) :=
  visit fst (length (row_runs r)) T (row_runs r).

Lemma visit_ann fuel : forall T i s gs,
  map snd (visit akey fuel T (ann i s gs)) = visit fst fuel T gs.
Proof.
  induction fuel as [|f IH]; intros T i s gs; destruct gs as [|g gs]; try reflexivity.
  cbn [ann visit]. unfold akey at 1. cbn [fst snd].
  destruct (skip_types T (fst g)) as [|t T']; [reflexivity|].
  change ((i, s, g) :: ann (S i) (s + glen g) gs) with (ann i s (g :: gs)).
  assert (Hd : forall l i s, exists i' s', dropw akey t (ann i s l) = ann i' s' (dropw fst t l)).
  { clear. induction l as [|a l IH]; intros i s; [exists i, s; reflexivity|].
    cbn [ann dropw]. unfold akey at 1. cbn [fst snd]. destruct (fst a <? t).
    - apply IH.
    - exists i, s. reflexivity. }
  destruct (Hd (g :: gs) i s) as (i' & s' & ->).
  destruct (dropw fst t (g :: gs)) as [|b r]; [reflexivity|].
  cbn [ann]. unfold akey at 1. cbn [fst snd]. destruct (fst b =? t); cbn [map snd]; now rewrite IH.
Qed.

Lemma visited_pos r1 r r2 T a :
  In a (visit akey (length (row_runs r)) T (row_ann r1 r)) ->
  exists pre post, all_runs (r1 ++ r :: r2) = pre ++ snd a :: post /\
    apos a = (sum (map glen pre), (sum (map glen pre) + glen (snd a))%nat, length pre).
Proof.
  intro H. apply visit_sub in H. destruct a as [[i s] g]. unfold row_ann in H. apply ann_in in H.
  destruct H as (pre & post & Hr & -> & ->).
  exists (all_runs r1 ++ pre), (post ++ all_runs r2). cbn [snd apos]. split.
  - rewrite all_runs_app. cbn [all_runs flat_map]. fold (all_runs r2). rewrite Hr.
    rewrite <- !app_assoc. cbn. reflexivity.
  - rewrite map_app, sum_app, app_length. rewrite (sum_glen_edges (all_runs r1)), all_runs_edges. reflexivity.
Qed.

Lemma full_neighbor_visited m tmp r1 r r2 T :
  full_neighbor fsub (part_of m tmp (r1 ++ r :: r2)) (length r1) None T =
  Ok (flat_map (fun g => map nbr_of (gedges g)) (visited r T)).
Proof.
  unfold full_neighbor. rewrite nii_spec. cbn [bind].
  set (V := visit akey (length (row_runs r)) T (row_ann r1 r)).
  assert (H : mapM (full_group fsub (part_of m tmp (r1 ++ r :: r2))) (map apos V) =
              Ok (map (fun g => map nbr_of (gedges g)) (map snd V))).
  { assert (HV : forall a, In a V -> In a V) by auto. revert HV. generalize V at 1 3 4. intro W. revert W.
    induction W as [|a W IH]; intro HV; [reflexivity|]. cbn [map mapM].
    destruct (visited_pos r1 r r2 T a (HV a (or_introl eq_refl))) as (pre & post & Hr & ->).
    rewrite (full_group_spec m tmp _ pre (snd a) post Hr). cbn [bind].
    rewrite IH by (intros; apply HV; now right). reflexivity. }
  rewrite H. cbn [bind]. rewrite flat_map_concat_map. unfold visited, V, row_ann. rewrite visit_ann. reflexivity.
Qed.

Lemma full_neighbor_ts_visited m tmp r1 r r2 T t :
  (0 <=? lm_watermark m) && tmp = true ->
  full_neighbor fsub (part_of m tmp (r1 ++ r :: r2)) (length r1) (Some t) T =
  Ok (flat_map (fun g => map nbr_ts_of (filter (alive_pair t) (gedges g))) (visited r T)).
Proof.
  intro Hwm. unfold full_neighbor. rewrite nii_spec. cbn [bind].
  set (V := visit akey (length (row_runs r)) T (row_ann r1 r)).
  assert (H : mapM (full_group_ts fsub (part_of m tmp (r1 ++ r :: r2)) t) (map apos V) =
              Ok (map (fun g => map nbr_ts_of (filter (alive_pair t) (gedges g))) (map snd V))).
  { assert (HV : forall a, In a V -> In a V) by auto. revert HV. generalize V at 1 3 4. intro W. revert W.
    induction W as [|a W IH]; intro HV; [reflexivity|]. cbn [map mapM].
    destruct (visited_pos r1 r r2 T a (HV a (or_introl eq_refl))) as (pre & post & Hr & ->).
    rewrite (full_group_ts_spec m tmp _ pre (snd a) post t Hwm Hr). cbn [bind].
    rewrite IH by (intros; apply HV; now right). reflexivity. }
  rewrite H. cbn [bind]. rewrite flat_map_concat_map. unfold visited, V, row_ann. rewrite visit_ann. reflexivity.
Qed.

Lemma fold_count_sum gs c :
  fold_left (fun c (g : nat * nat * nat) => let '(s, l, _) := g in c + (l - s))%nat gs c =
  (c + sum (map (fun g : nat * nat * nat => let '(s, l, _) := g in l - s) gs))%nat.
Proof.
  revert c; induction gs as [|[[s l] i] gs IH]; intro c; cbn [fold_left map]; [change (sum []) with 0%nat; lia|].
  rewrite IH, sum_cons. lia.
Qed.

Lemma count_visited m tmp r1 r r2 T :
  neighbor_count (part_of m tmp (r1 ++ r :: r2)) (length r1) None T =
    Ok (sum (map glen (visited r T))) /\
  full_neighbor_count fsub (part_of m tmp (r1 ++ r :: r2)) (length r1) None T =
    Ok (sum (map glen (visited r T))).
Proof.
  unfold neighbor_count, full_neighbor_count. rewrite nii_spec. cbn [bind]. rewrite fold_count_sum. cbn [Nat.add].
  rewrite map_map.
  assert (E : map (fun x => let '(s, l, _) := apos x in (l - s)%nat) (visit akey (length (row_runs r)) T (row_ann r1 r)) =
              map glen (visited r T)).
  { unfold visited, row_ann. rewrite <- (visit_ann _ T (length (all_runs r1)) (length (all_edges r1))).
    rewrite map_map. apply map_ext. intros [[i s] g]. cbn. lia. }
  rewrite E. split; reflexivity.
Qed.

Lemma flat_map_nbr_length gs : length (flat_map (fun g => map nbr_of (gedges g)) gs) = sum (map glen gs).
Proof.
  induction gs as [|g gs IH]; cbn [flat_map map]; [reflexivity|].
  rewrite app_length, map_length, gedges_length, sum_cons, IH. reflexivity.
Qed.

(** ** The visited groups under the guard *)

Lemma runs_filter es T :
  flat_map snd (filter (fun g => mem (fst g) T) (runs es)) = filter (fun e => mem (e_typ e) T) es.
Proof.
  rewrite <- (runs_concat es) at 2. pose proof (runs_types es) as H.
  induction H as [|g gs [_ Hg] _ IH]; [reflexivity|]. cbn [filter flat_map].
  rewrite filter_app, <- IH.
  assert (E : filter (fun e => mem (e_typ e) T) (snd g) = if mem (fst g) T then snd g else []).
  { clear - Hg. induction Hg as [|e l He _ IHl]; cbn; [now destruct (mem _ _)|]. rewrite He, IHl.
    destruct (mem (fst g) T); reflexivity. }
  rewrite E. destruct (mem (fst g) T); reflexivity.
Qed.

Lemma run_weights r g :
  StronglySorted Z.le (map e_typ (row_edges r)) -> In g (row_runs r) ->
  map e_w (snd g) = weights_of_type r (fst g).
Proof.
  intros Hs Hg. unfold weights_of_type. f_equal.
  assert (E : filter (fun e => e_typ e =? fst g) (row_edges r) =
              flat_map snd (filter (fun x => mem (fst x) [fst g]) (runs (row_edges r)))).
  { rewrite runs_filter. apply filter_ext. intro e. cbn. now rewrite orb_false_r. }
  rewrite E. apply runs_sorted in Hs. unfold row_runs in Hg.
  apply in_split in Hg. destruct Hg as (l1 & l2 & Hg). rewrite Hg in *.
  rewrite map_app in Hs. apply sorted_app_inv in Hs. destruct Hs as (_ & H2 & H3). cbn [map] in H2.
  inversion H2 as [|? ? _ Hf]; subst.
  rewrite filter_app. cbn [filter mem existsb]. rewrite Z.eqb_refl. cbn [orb].
  assert (N1 : filter (fun x : Z * list edge => (fst x =? fst g) || false) l1 = []).
  { clear - H3. induction l1 as [|x l1 IH]; [reflexivity|]. cbn [filter].
    assert (fst x < fst g) by (apply H3; cbn; now left).
    destruct (Z.eqb_spec (fst x) (fst g)); [lia|]. cbn [orb]. apply IH. intros; apply H3; [cbn; now right|assumption]. }
  assert (N2 : filter (fun x : Z * list edge => (fst x =? fst g) || false) l2 = []).
  { clear - Hf. induction l2 as [|x l2 IH]; [reflexivity|]. cbn [filter]. cbn in Hf. inversion Hf; subst.
    destruct (Z.eqb_spec (fst x) (fst g)); [lia|]. cbn [orb]. now apply IH. }
  unfold mem, existsb. rewrite N1, N2. cbn. now rewrite app_nil_r.
Qed.

Lemma row_types_of r : forall t, In t (map fst (row_runs r)) <-> In t (map e_typ (row_edges r)).
Proof.
  intro t. unfold row_runs. rewrite <- (runs_concat (row_edges r)) at 2.
  pose proof (runs_types (row_edges r)) as H. induction H as [|g gs [Hne Hg] _ IH]; cbn [map flat_map]; [tauto|].
  rewrite map_app, in_app_iff, <- IH. cbn [In]. split; intros [E|E]; auto.
  - left. subst t. destruct (snd g) as [|e l]; [congruence|]. inversion Hg; subst. now left.
  - left. apply in_map_iff in E. destruct E as (e & <- & He). rewrite Forall_forall in Hg. symmetry. now apply Hg.
Qed.

Lemma gap_free_iff T G1 G2 : (forall t, In t G1 <-> In t G2) -> gap_free T G1 -> gap_free T G2.
Proof. intros H Hg g1 t g2. rewrite <- !H. apply Hg. Qed.

Definition row_gap_free (T : list Z) (r : row) : Prop := gap_free T (map e_typ (row_edges r)).
Definition row_exact (r : row) : Prop := forall t, exact_sums fadd fsub (weights_of_type r t).

Lemma visited_filter r T :
  StronglySorted Z.le (map e_typ (row_edges r)) -> StronglySorted Z.lt T -> row_gap_free T r ->
  visited r T = filter (fun g => mem (fst g) T) (row_runs r).
Proof.
  intros Hs HT Hg. unfold visited. apply visit_filter; [lia|now apply runs_sorted|assumption|].
  eapply gap_free_iff; [|exact Hg]. intro t. symmetry. apply row_types_of.
Qed.

Lemma gedges_exact r g :
  StronglySorted Z.le (map e_typ (row_edges r)) -> row_exact r -> In g (row_runs r) ->
  gedges g = map (fun e => (e, e_w e)) (snd g).
Proof.
  intros Hs Hx Hg. unfold gedges. rewrite (run_weights r g Hs Hg), recover_exact by apply Hx.
  rewrite <- (run_weights r g Hs Hg). clear. induction (snd g) as [|e l IH]; cbn; [reflexivity|]. now rewrite IH.
Qed.

Lemma flat_map_map_in {A B C} (f : A -> list B) (h : A -> list C) (k : C -> B) l :
  (forall a, In a l -> f a = map k (h a)) -> flat_map f l = map k (flat_map h l).
Proof.
  induction l as [|a l IH]; intro H; [reflexivity|]. cbn. rewrite map_app, <- IH by (intros; apply H; now right).
  now rewrite (H a (or_introl eq_refl)).
Qed.

Definition edge_nbr (e : edge) : nbr := (e_dst e, e_typ e, e_w e, -1).
Definition edge_nbr_ts (e : edge) : nbr := (e_dst e, e_typ e, e_w e, e_c e).

Lemma row_neighbors m tmp r1 r r2 T :
  StronglySorted Z.le (map e_typ (row_edges r)) -> StronglySorted Z.lt T ->
  row_gap_free T r -> row_exact r ->
  full_neighbor fsub (part_of m tmp (r1 ++ r :: r2)) (length r1) None T =
  Ok (map edge_nbr (filter (fun e => mem (e_typ e) T) (row_edges r))).
Proof.
  intros Hs HT Hg Hx. rewrite full_neighbor_visited, (visited_filter r T Hs HT Hg). f_equal.
  rewrite (flat_map_map_in _ snd edge_nbr); [unfold row_runs; now rewrite runs_filter|].
  intros g Hin. apply filter_In in Hin. destruct Hin as [Hin _].
  rewrite (gedges_exact r g Hs Hx Hin). rewrite map_map. reflexivity.
Qed.

Lemma row_neighbors_ts m tmp r1 r r2 T t :
  (0 <=? lm_watermark m) && tmp = true ->
  StronglySorted Z.le (map e_typ (row_edges r)) -> StronglySorted Z.lt T ->
  row_gap_free T r -> row_exact r ->
  full_neighbor fsub (part_of m tmp (r1 ++ r :: r2)) (length r1) (Some t) T =
  Ok (map edge_nbr_ts (filter (alive t) (filter (fun e => mem (e_typ e) T) (row_edges r)))).
Proof.
  intros Hwm Hs HT Hg Hx. rewrite (full_neighbor_ts_visited m tmp r1 r r2 T t Hwm), (visited_filter r T Hs HT Hg). f_equal.
  rewrite (flat_map_map_in _ (fun g => filter (alive t) (snd g)) edge_nbr_ts).
  - f_equal. rewrite <- runs_filter. unfold row_runs.
    generalize (filter (fun g => mem (fst g) T) (runs (row_edges r))). intro l.
    induction l as [|g l IH]; cbn; [reflexivity|]. now rewrite filter_app, IH.
  - intros g Hin. apply filter_In in Hin. destruct Hin as [Hin _].
    rewrite (gedges_exact r g Hs Hx Hin). clear. induction (snd g) as [|e l IH]; cbn; [reflexivity|].
    unfold alive_pair at 1. cbn [fst]. destruct (alive t e); cbn; now rewrite IH.
Qed.

End Query.
