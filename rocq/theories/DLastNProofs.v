(** The latest edges of the servers' latest edges are the latest edges of all. *)
From Verif Require Import Base WriterModel LoaderModel GraphModel GraphSpec WriterProofs LoaderProofs QueryProofs GraphProofs
  ConvertProofs AnswerProofs LastNModel CountProofs LastNProofs ServerModel ServerProofs DLastNModel.
From Coq Require Import Sorting.Sorted Permutation ZifyBool ZifyNat ZifyN.
Local Open Scope Z_scope.

Definition since (c : Z) (l : list nbr) : nat := length (filter (fun x => c <=? created x) l).

Lemma since_app c l1 l2 : since c (l1 ++ l2) = (since c l1 + since c l2)%nat.
Proof. unfold since. now rewrite filter_app, app_length. Qed.
Lemma since_perm c l1 l2 : Permutation l1 l2 -> since c l1 = since c l2.
Proof. induction 1; unfold since in *; cbn [filter]; repeat (destruct (_ <=? _); cbn [length]); lia. Qed.
Lemma since_le c l : (since c l <= length l)%nat.
Proof. unfold since. induction l as [|a l IH]; cbn; [lia|]. destruct (_ <=? _); cbn; lia. Qed.
Lemma since_all c l : (forall x, In x l -> c <= created x) -> since c l = length l.
Proof.
  unfold since. induction l as [|a l IH]; intro H; [reflexivity|]. cbn [filter]. pose proof (H a (or_introl eq_refl)).
  replace (c <=? created a) with true by lia. cbn [length]. rewrite IH; [reflexivity|]. intros; apply H; now right.
Qed.
Lemma since_none c l : (forall x, In x l -> created x < c) -> since c l = 0%nat.
Proof.
  unfold since. induction l as [|a l IH]; intro H; [reflexivity|]. cbn [filter]. pose proof (H a (or_introl eq_refl)).
  replace (c <=? created a) with false by lia. apply IH. intros; apply H; now right.
Qed.

(** Of the edges created at [c] or later as many are kept as fit. *)
Lemma latest_since count all kept c : latest_of count all kept -> since c kept = Nat.min count (since c all).
Proof.
  intros (Hl & dropped & Hp & Hd). rewrite (since_perm c _ _ Hp), since_app. pose proof (Permutation_length Hp) as HL.
  rewrite app_length in HL. pose proof (since_le c kept) as H1. pose proof (since_le c dropped) as H2.
  destruct (existsb (fun x => created x <? c) kept) eqn:E.
  - apply existsb_exists in E. destruct E as (x & Hx & Hc). rewrite (since_none c dropped); [lia|].
    intros y Hy. specialize (Hd x y Hx Hy). lia.
  - assert (HK : since c kept = length kept).
    { apply since_all. intros x Hx. destruct (Z.leb_spec c (created x)); [assumption|].
      assert (existsb (fun x => created x <? c) kept = true) by (apply existsb_exists; exists x; split; [assumption|lia]). congruence. }
    lia.
Qed.

Lemma since_count c l : count_occ Z.eq_dec (map created l) c = (since c l - since (c + 1) l)%nat.
Proof.
  assert (H : since c l = (since (c + 1) l + count_occ Z.eq_dec (map created l) c)%nat); [|lia].
  unfold since. induction l as [|a l IH]; [reflexivity|]. cbn [filter map count_occ].
  destruct (Z.eq_dec (created a) c) as [E|E].
  - replace (c <=? created a) with true by lia. replace (c + 1 <=? created a) with false by lia. cbn [length]. lia.
  - destruct (Z.leb_spec c (created a)).
    + replace (c + 1 <=? created a) with true by lia. cbn [length]. lia.
    + replace (c + 1 <=? created a) with false by lia. exact IH.
Qed.

(** Two choices of the latest edges have the same times. *)
Lemma latest_times count all all' kept kept' : Permutation all all' -> latest_of count all kept -> latest_of count all' kept' ->
  Permutation (map created kept) (map created kept').
Proof.
  intros HP H H'. apply (Permutation_count_occ Z.eq_dec). intro c. rewrite !since_count.
  rewrite (latest_since _ _ _ c H), (latest_since _ _ _ c H'), (latest_since _ _ _ (c + 1) H), (latest_since _ _ _ (c + 1) H').
  now rewrite !(since_perm _ _ _ HP).
Qed.

Lemma min_sums count (As Ks : list (list nbr)) : Forall2 (fun a k => length k = Nat.min count (length a)) As Ks ->
  Nat.min count (length (concat Ks)) = Nat.min count (length (concat As)).
Proof. induction 1 as [|a k As Ks H _ IH]; [reflexivity|]. cbn [concat]. rewrite !app_length. lia. Qed.

Lemma latest_concat count As Ks kept : Forall2 (latest_of count) As Ks -> latest_of count (concat Ks) kept ->
  latest_of count (concat As) kept.
Proof.
  intros F L. pose proof L as (Hl & D & Hp & Hd). split.
  - rewrite Hl. apply min_sums. clear - F. induction F as [|a k As Ks [H _] _ IH]; constructor; auto.
  - assert (G : exists Ds, Permutation (concat As) (concat Ks ++ Ds) /\
      forall y, In y Ds -> exists k, In k Ks /\ length k = count /\ forall z, In z k -> created y <= created z).
    { clear - F. induction F as [|a k As Ks [Hk (d & Hp & Hd)] _ (Ds & I1 & I2)]; [exists []; split; [reflexivity|intros ? []]|].
      exists (d ++ Ds). split.
      - cbn [concat]. rewrite I1, Hp, <- !app_assoc. apply Permutation_app_head. rewrite !app_assoc. apply Permutation_app_tail.
        apply Permutation_app_comm.
      - intros y Hy. apply in_app_or in Hy. destruct Hy as [Hy|Hy].
        + exists k. split; [now left|]. split; [|intros; now apply Hd].
          apply Permutation_length in Hp. rewrite app_length in Hp. destruct d; [contradiction|]. cbn in Hp. lia.
        + destruct (I2 y Hy) as (k' & ? & ? & ?). exists k'. split; [now right|]. auto. }
    destruct G as (Ds & GP & GD). exists (D ++ Ds). split; [rewrite GP, Hp, <- app_assoc; reflexivity|].
    intros x y Hx Hy. apply in_app_or in Hy. destruct Hy as [Hy|Hy]; [now apply Hd|].
    destruct (GD y Hy) as (k & Hk & Hc & Hz). destruct (Z.le_gt_cases (created y) (created x)) as [H|H]; [assumption|exfalso].
    (* all of [k] is newer than [x], so [x] has no place *)
    pose proof (latest_since count (concat Ks) kept (created y) L) as S1.
    assert (S2 : (count <= since (created y) (concat Ks))%nat).
    { apply in_split in Hk. destruct Hk as (K1 & K2 & ->). rewrite concat_app. cbn [concat]. rewrite !since_app.
      rewrite (since_all (created y) k Hz). lia. }
    apply in_split in Hx. destruct Hx as (k1 & k2 & ->). rewrite since_app in S1. unfold since at 2 in S1. cbn [filter] in S1.
    replace (created y <=? created x) with false in S1 by lia. pose proof (since_le (created y) k1). pose proof (since_le (created y) k2).
    rewrite app_length in Hl. cbn [length] in Hl. unfold since in *. lia.
Qed.

Section Rows.
Variables fadd fsub : N -> N -> N.
Variable wval : N -> Z.

Definition local_of (parts : list (list (list record))) (types : list Z) (x : Z * Z) : list nbr :=
  map answer_ts (filter (still (snd x)) (spec_edges parts types (fst x))).

Lemma local_concat split types x : local_of (concat split) types x = concat (map (fun p => local_of p types x) split).
Proof.
  unfold local_of, spec_edges. induction split as [|p split IH]; [reflexivity|].
  cbn [concat map]. now rewrite flat_map_app', !filter_app, map_app, IH.
Qed.

Definition row_ok (count : nat) (all : list nbr) (r : list nbr * nat) : Prop :=
  length (fst r) = count /\ (snd r <= count)%nat /\ latest_of count all (firstn (snd r) (fst r)).

Lemma serve_node w parts g types count n t :
  0 <= w -> (0 < count)%nat -> converted fadd wval (Some w) parts g -> guarded fadd fsub types parts ->
  exists r, serve_lastn_node fsub g (make_sorted_list types) count n t = Ok r /\ row_ok count (local_of parts types (n, t)) r.
Proof.
  intros Hw Hc C HG. destruct (converted_rows fadd wval _ parts g C) as (m & Hg & HF & Hm).
  set (h := fun r => map edge_nbr_ts (filter (still t) (filter (fun e => mem (e_typ e) types) (row_edges r)))).
  assert (Hall : flat_map h (node_rows n (map rows parts)) = local_of parts types (n, t)).
  { unfold local_of, spec_edges. cbn [fst snd]. rewrite <- (node_rows_edges (fun e => mem (e_typ e) types) parts n HF).
    induction (node_rows n (map rows parts)) as [|r l IH]; [reflexivity|]. cbn [flat_map]. rewrite !filter_app, map_app.
    now rewrite IH. }
  unfold serve_lastn_node. rewrite Hg. cbn [bind]. unfold lookup, found.
  assert (Hf := foldR_places fsub (part_of fadd m true) n (map rows parts) count t (make_sorted_list types) h ([], repeat blank count)).
  pose proof (places_nil (part_of fadd m (is_temporal (Some w))) n (map rows parts)) as Hn. cbn [is_temporal] in *.
  destruct (places (part_of fadd m true) n (map rows parts)) as [|o os].
  - eexists. split; [reflexivity|]. unfold row_ok. cbn [fst snd]. rewrite repeat_length. split; [reflexivity|]. split; [lia|].
    rewrite <- Hall, (proj1 Hn eq_refl). split; [cbn; lia|]. exists []. split; [reflexivity|intros ? ? []].
  - rewrite Hf; clear Hf.
    + destruct (fold_push count (flat_map h (node_rows n (map rows parts))) Hc [] ([], repeat blank count)) as ([q out] & E & HQ).
      { cbn. rewrite repeat_length. split; [reflexivity|]. split; [constructor|]. split; [lia|]. split; [reflexivity|].
        exists []. split; [reflexivity|intros ? ? []]. }
      rewrite E. cbn [bind fst snd]. destruct HQ as (Hlen & _ & Hq & _ & dropped & Hp & Hle). cbn [app] in *.
      eexists. split; [reflexivity|]. unfold row_ok. cbn [fst snd]. split; [assumption|]. split; [lia|].
      rewrite <- Hall. split; [rewrite firstn_len; lia|]. exists dropped. auto.
    + intros rws r1 r r2 Hin Er Hrn st. destruct (row_in_part _ _ _ _ _ Hin Er HF) as [Hs _].
      destruct (guard_row fadd fsub types parts rws r1 r r2 HG Hin Er) as [H1 H2]. rewrite Er.
      rewrite (lastn_partition_spec fadd fsub m true r1 r r2 _ t count st); try assumption.
      * unfold h. f_equal. apply (f_equal (map edge_nbr_ts)). apply (f_equal (filter (still t))). apply filter_ext. intro e. apply mem_sorted.
      * rewrite Hm. cbn. lia.
      * apply make_sorted_sorted.
Qed.

(** A reply: rows as [row_ok] says. *)
Definition reply_ok (count : nat) (alls : list (list nbr)) (r : list nbr * list nat) : Prop :=
  exists rs, r = (concat (map fst rs), map snd rs) /\ Forall2 (row_ok count) alls rs.

Lemma serve_reply w parts g types count nodes ts :
  0 <= w -> (0 < count)%nat -> converted fadd wval (Some w) parts g -> guarded fadd fsub types parts ->
  exists r, serve_lastn fsub g (make_sorted_list types) count nodes ts = Ok r /\
            reply_ok count (map (local_of parts types) (combine nodes ts)) r.
Proof.
  intros Hw Hc C HG. unfold serve_lastn, reply_ok.
  assert (H : exists rs, mapM (fun x => serve_lastn_node fsub g (make_sorted_list types) count (fst x) (snd x)) (combine nodes ts) = Ok rs /\
     Forall2 (row_ok count) (map (local_of parts types) (combine nodes ts)) rs).
  { induction (combine nodes ts) as [|[n t] l (rs & E & F)]; [exists []; split; [reflexivity|constructor]|].
    destruct (serve_node w parts g types count n t Hw Hc C HG) as (r & Er & Hr).
    exists (r :: rs). cbn [mapM fst snd map]. rewrite Er. cbn [bind]. rewrite E. split; [reflexivity|]. constructor; assumption. }
  destruct H as (rs & -> & F). cbn [bind]. eexists. split; [reflexivity|]. exists rs. auto.
Qed.

Lemma rows_at count (rs : list (list nbr * nat)) k r : Forall (fun r => length (fst r) = count) rs -> nth_error rs k = Some r ->
  forall j x, nth_error (fst r) j = Some x -> nth_error (concat (map fst rs)) (k * count + j) = Some x.
Proof.
  revert k. induction rs as [|a rs IH]; intros k F Hk j x Hj; [destruct k; discriminate|]. inversion F; subst; clear F.
  destruct k as [|k]; cbn [map concat].
  - injection Hk as ->. cbn [Nat.mul Nat.add]. rewrite nth_error_app1; [assumption|]. apply nth_error_Some. congruence.
  - cbn [nth_error] in Hk. rewrite nth_error_app2 by (cbn; lia). rewrite <- (IH k H2 Hk j x Hj). f_equal. cbn. lia.
Qed.

Lemma merge_reply count k alls all r : reply_ok count alls r -> nth_error alls k = Some all ->
  exists kept, latest_of count all kept /\ forall st, merge_lastn_reply count k r st = foldR (lastn_push count) kept st.
Proof.
  intros (rs & -> & F) Hk.
  assert (G : exists x, nth_error rs k = Some x /\ row_ok count all x).
  { revert k Hk. induction F as [|a x alls rs H _ IH]; intros [|k] Hk; try discriminate; [|now apply IH].
    injection Hk as ->. exists x. split; [reflexivity|assumption]. }
  destruct G as ([row found] & Hx & Hlen & Hf & HL). cbn [fst snd] in *. exists (firstn found row). split; [assumption|]. intro st.
  unfold merge_lastn_reply. cbn [fst snd]. rewrite get_map. unfold get at 1. rewrite Hx. cbn [bind snd].
  rewrite <- (firstn_len row found) at 1 by lia. apply foldR_seq. intros j x Hj st'.
  assert (Hj' : nth_error row j = Some x).
  { rewrite <- (firstn_skipn found row), nth_error_app1; [assumption|]. apply nth_error_Some. congruence. }
  unfold get. rewrite (rows_at count rs k (row, found)) with (x := x); try assumption; [reflexivity|].
  clear - F. induction F as [|? ? ? ? (H & _) _ IH]; constructor; auto.
Qed.

Lemma merge_node_latest count default replies allss k alls row :
  (0 < count)%nat -> length row = count ->
  Forall2 (fun all r => exists A, reply_ok count A r /\ nth_error A k = Some all) allss replies -> alls = concat allss ->
  exists kept, merge_lastn_node count default replies k row = Ok (kept ++ repeat default (count - length kept)) /\
    latest_of count alls kept.
Proof.
  intros Hc Hrow F ->. unfold merge_lastn_node.
  assert (G : exists Ks, Forall2 (latest_of count) allss Ks /\
    forall st, foldR (merge_lastn_reply count k) replies st = foldR (lastn_push count) (concat Ks) st).
  { clear - F. induction F as [|all r allss replies (A & HA & Hk) _ (Ks & I1 & I2)]; [exists []; split; [constructor|reflexivity]|].
    destruct (merge_reply count k A all r HA Hk) as (kept & HL & HM). exists (kept :: Ks). split; [now constructor|].
    intro st. cbn [foldR concat]. rewrite HM, foldR_app. destruct (foldR (lastn_push count) kept st); cbn [bind]; [apply I2|reflexivity]. }
  destruct G as (Ks & FK & EK). rewrite EK.
  destruct (fold_push count (concat Ks) Hc [] ([], row)) as ([q out] & E & HQ).
  { cbn. split; [assumption|]. split; [constructor|]. split; [lia|]. split; [reflexivity|].
    exists []. split; [reflexivity|intros ? ? []]. }
  rewrite E. cbn [bind fst snd]. destruct HQ as (Hlen & _ & Hq & _ & dropped & Hp & Hle). cbn [app] in *.
  exists (firstn (length q) out). rewrite firstn_len by lia. split; [reflexivity|]. apply (latest_concat count allss Ks); [assumption|].
  split; [rewrite firstn_len; lia|]. exists dropped. auto.
Qed.

Lemma schedule_none es : schedule 0 es -> es = [].
Proof. intros [H _]. cbn in H. now apply Permutation_sym, Permutation_nil in H. Qed.

Theorem d_lastn_latest w split gs types nodes ts count default :
  0 <= w -> (0 < count)%nat -> Forall2 (converted fadd wval (Some w)) split gs -> Forall (guarded fadd fsub types) split ->
  length ts = length nodes ->
  exists outs, (forall es, schedule (length gs) es -> d_lastn fsub gs nodes types ts count default es = Ok outs) /\
    Forall2 (fun x out => exists kept, out = kept ++ repeat default (count - length kept) /\
               latest_of count (map answer_ts (filter (still (snd x)) (spec_edges (concat split) types (fst x)))) kept)
            (combine nodes ts) outs.
Proof.
  intros Hw Hc FC FG HT. unfold d_lastn.
  assert (HS : exists rs, mapM (fun g => serve_lastn fsub g (make_sorted_list types) count nodes ts) gs = Ok rs /\
     Forall2 (fun parts r => reply_ok count (map (local_of parts types) (combine nodes ts)) r) split rs /\ length rs = length gs).
  { clear HT. induction FC as [|parts g split gs C FC IH]; [exists []; repeat split; constructor|].
    inversion FG as [|? ? HG FG']; subst. destruct (IH FG') as (rs & E & F & L).
    destruct (serve_reply w parts g types count nodes ts Hw Hc C HG) as (r & Er & Hr).
    exists (r :: rs). cbn [mapM]. rewrite Er. cbn [bind]. rewrite E. split; [reflexivity|]. split; [now constructor|cbn; lia]. }
  destruct HS as (rs & -> & FR & HL). cbn [bind].
  assert (HM : exists outs, merge_lastn count default rs (Ok (repeat (repeat default count) (length nodes))) = Ok outs /\
    Forall2 (fun x out => exists kept, out = kept ++ repeat default (count - length kept) /\
               latest_of count (local_of (concat split) types x) kept) (combine nodes ts) outs).
  { unfold merge_lastn. cbn [bind].
    assert (HN : length nodes = length (combine nodes ts)) by (rewrite combine_length; lia). rewrite HN.
    assert (G : forall pre xs, combine nodes ts = pre ++ xs ->
      exists outs, mapM (fun x => merge_lastn_node count default rs (fst x) (snd x))
          (indexed_from (length pre) (repeat (repeat default count) (length xs))) = Ok outs /\
        Forall2 (fun x out => exists kept, out = kept ++ repeat default (count - length kept) /\
               latest_of count (local_of (concat split) types x) kept) xs outs).
    { intros pre xs. revert pre. induction xs as [|x xs IH]; intros pre E; [exists []; split; [reflexivity|constructor]|].
      cbn [length repeat indexed_from mapM fst snd].
      destruct (merge_node_latest count default rs (map (fun p => local_of p types x) split) (length pre)
                  (local_of (concat split) types x) (repeat default count) Hc (repeat_length _ _)) as (kept & Ek & Hk).
      - clear - FR E. induction FR as [|p r split rs H _ IHF]; cbn [map]; constructor; [|assumption].
        eexists. split; [exact H|]. rewrite E, map_app, nth_error_app2 by (rewrite map_length; lia).
        rewrite map_length, Nat.sub_diag. reflexivity.
      - apply local_concat.
      - rewrite Ek. cbn [bind]. destruct (IH (pre ++ [x])) as (outs & Eo & Fo); [now rewrite <- app_assoc|].
        rewrite app_length, Nat.add_1_r in Eo. rewrite Eo. cbn [bind]. eexists. split; [reflexivity|]. constructor; [|assumption].
        exists kept. auto. }
    apply (G [] (combine nodes ts) eq_refl). }
  destruct HM as (outs & EM & FM). exists outs. split; [|exact FM].
  intros es Hes. unfold client_lastn. rewrite <- HL in Hes. destruct rs as [|r rs].
  - apply schedule_none in Hes. subst es. cbn [run_call fold_left snd]. unfold run_call. cbn [fold_left snd]. rewrite <- EM.
    assert (split = []) as -> by (now inversion FR).
    unfold merge_lastn. cbn [bind]. symmetry.
    assert (G : forall k n, mapM (fun x => merge_lastn_node count default [] (fst x) (snd x))
       (indexed_from k (repeat (repeat default count) n)) = Ok (repeat (repeat default count) n)).
    { intros k n. revert k. induction n as [|n IH]; intro k; [reflexivity|]. cbn [repeat indexed_from mapM fst snd].
      unfold merge_lastn_node at 1. cbn [foldR bind fst snd length firstn app]. rewrite Nat.sub_0_r. rewrite IH. reflexivity. }
    apply G.
  - rewrite (run_last ([], []) (r :: rs) (merge_lastn count default) es _ Hes) by discriminate. cbn [snd]. exact EM.
Qed.
End Rows.

(** Servers and a local graph with the same partitions: the same times. *)
Definition same_times (a b : list nbr) : Prop := Permutation (map created a) (map created b).

Lemma latest_pad count default all all' kept kept' : Permutation all all' -> latest_of count all kept -> latest_of count all' kept' ->
  same_times (kept ++ repeat default (count - length kept)) (kept' ++ repeat default (count - length kept')).
Proof.
  intros HP H H'. unfold same_times. rewrite !map_app. pose proof (latest_times _ _ _ _ _ HP H H') as HT.
  pose proof (Permutation_length HT) as HL. rewrite !map_length in HL. rewrite HL. now apply Permutation_app_tail.
Qed.

Lemma spec_edges_perm types n p q : Permutation p q -> Permutation (spec_edges p types n) (spec_edges q types n).
Proof.
  intro H. unfold spec_edges. rewrite !flat_map_concat_map.
  assert (G : Permutation (concat (map edges_of p)) (concat (map edges_of q))).
  { induction H as [|x p q H IH|x y l|p q r _ IH1 _ IH2]; cbn [map concat].
    - reflexivity.
    - now apply Permutation_app_head.
    - rewrite !app_assoc. apply Permutation_app_tail, Permutation_app_comm.
    - now rewrite IH1. }
  revert G. generalize (concat (map edges_of p)) (concat (map edges_of q)). intros a b G.
  induction G as [|x a b H0 IH|x y l|a b c _ IH1 _ IH2]; cbn [filter].
  - reflexivity.
  - destruct (_ && _); [now apply perm_skip|assumption].
  - destruct ((e_src x =? n) && _), ((e_src y =? n) && _); try reflexivity. apply perm_swap.
  - now rewrite IH1.
Qed.

Lemma filter_perm {A} (f : A -> bool) a b : Permutation a b -> Permutation (filter f a) (filter f b).
Proof.
  induction 1 as [|x a b H0 IH|x y l|a b c _ IH1 _ IH2]; cbn [filter].
  - reflexivity.
  - destruct (f x); [now apply perm_skip|assumption].
  - destruct (f x), (f y); try reflexivity. apply perm_swap.
  - now rewrite IH1.
Qed.

Theorem d_lastn_times fadd fsub wval w split gs all g types nodes ts count default es outs :
  0 <= w -> (0 < count)%nat -> Forall2 (converted fadd wval (Some w)) split gs -> converted fadd wval (Some w) all g ->
  Permutation (concat split) all -> guarded fadd fsub types all -> Forall (guarded fadd fsub types) split ->
  length ts = length nodes -> schedule (length gs) es ->
  d_lastn fsub gs nodes types ts count default es = Ok outs ->
  exists outs', lastn_neighbors fsub g nodes types ts count default = Ok outs' /\ Forall2 same_times outs outs'.
Proof.
  intros Hw Hc FC C HP HG FG HT Hes E.
  destruct (d_lastn_latest fadd fsub wval w split gs types nodes ts count default Hw Hc FC FG HT) as (o & Ho & F).
  rewrite (Ho es Hes) in E. injection E as ->.
  destruct (converted_lastn fadd fsub wval w all g types nodes ts count default Hw Hc C HG) as (o' & Ho' & F').
  exists o'. split; [assumption|]. clear Ho Ho' Hes. revert o' F'. induction F as [|x out l outs (k & -> & Hk) _ IH]; intros o' F'.
  - inversion F'; subst. constructor.
  - inversion F' as [|? out' ? o2 (k' & -> & Hk') F2]; subst. constructor; [|now apply IH].
    eapply latest_pad; [|exact Hk|exact Hk']. apply Permutation_map, filter_perm, spec_edges_perm, HP.
Qed.
