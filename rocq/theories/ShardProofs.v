(** Merging of shard samples without replacement (WithoutReplacementMerge). *)
From Coq Require Import Lqa Permutation Sorted.
From Verif Require Import Base Dist WriterModel WriterProofs ConvertProofs AliasModel AliasProofs ReservoirModel ReservoirProofs.
Local Open Scope nat_scope.

(** ** Possible outcomes *)
Definition may {A} (d : dist A) (a : A) : Prop := exists p, In (a, p) d /\ ~ (p == 0)%Q.

Lemma may_ret {A} (a b : A) : may (dret a) b -> b = a.
Proof. intros (p & [E|[]] & _). congruence. Qed.
Lemma may_bind {A B} (d : dist A) (k : A -> dist B) b : may (dbind d k) b -> exists a, may d a /\ may (k a) b.
Proof.
  intros (p & H & Hp). unfold dbind in H. apply in_flat_map in H as ([a q] & Ha & H).
  apply in_map_iff in H as ([c w] & E & Hc). cbn [fst snd] in *. injection E as -> <-.
  exists a. split; [exists q|exists w]; (split; [assumption|]); intros C; apply Hp; rewrite C; ring.
Qed.
Lemma may_flip p b : may (dflip p) b -> if b then ~ (p == 0)%Q else ~ (p == 1)%Q.
Proof. intros (q & [E|[E|[]]] & Hq); injection E as <- <-; [exact Hq|]. intros C. apply Hq. rewrite C. ring. Qed.
Lemma may_uniform n i : may (duniform n) i -> i < n.
Proof. intros (p & H & _). apply in_map_iff in H as (j & E & H). apply in_seq in H. injection E as -> _. lia. Qed.

(** ** Counts *)
Lemma mcount_range t : forall l r c, t <= l + r -> may (mcount t l r) c -> c <= l /\ c <= t /\ t - c <= r.
Proof.
  induction t as [|t IH]; intros l r c Ht H; cbn [mcount] in H.
  - apply may_ret in H. lia.
  - apply may_bind in H as (b & Hb & H). apply may_flip in Hb. destruct b.
    + assert (0 < l). { destruct l; [|lia]. exfalso. apply Hb. rewrite qnat_0. unfold Qdiv. ring. }
      apply may_bind in H as (c' & H & Hc). apply may_ret in Hc. subst c. apply IH in H; lia.
    + assert (0 < r). { destruct r; [|lia]. exfalso. apply Hb. rewrite Nat.add_0_r.
        pose proof (qnat_pos l ltac:(lia)). field. lra. }
      apply IH in H; lia.
Qed.

Local Open Scope Q_scope.
(** The left part gets its share on average. *)
Lemma mcount_mean t : forall l r, (t <= l + r)%nat -> (0 < l + r)%nat ->
  ex (mcount t l r) (fun _ => 1) == 1 /\ ex (mcount t l r) qnat == qnat t * qnat l / qnat (l + r).
Proof.
  induction t as [|t IH]; intros l r Ht Hp; cbn [mcount].
  - rewrite !ex_ret. split; [reflexivity|]. rewrite qnat_0. pose proof (qnat_pos _ Hp). field. lra.
  - rewrite !ex_bind, !ex_flip, !ex_bind. pose proof (qnat_pos _ Hp) as P. rewrite qnat_add in *.
    pose proof (qnat_nonneg l). pose proof (qnat_nonneg r).
    rewrite !(ex_ext_all (mcount t (l - 1) r) (fun a => ex (dret (S a)) _) (fun c => _)) by (intros; apply ex_ret).
    rewrite (ex_ext_all (mcount t (l - 1) r) (fun a => qnat (S a)) (fun a => qnat a + 1)) by apply qnat_S.
    rewrite ex_plus.
    destruct (Nat.eq_dec t 0) as [->|Nt].
    { cbn [mcount]. rewrite !ex_ret. rewrite !qnat_S, qnat_0. split; field; lra. }
    destruct (Nat.eq_dec l 0) as [->|Nl].
    { destruct (IH 0%nat (r - 1)%nat ltac:(lia) ltac:(lia)) as [-> ->].
      rewrite qnat_0 in *. split; [field; lra|]. pose proof (qnat_pos (0 + (r - 1)) ltac:(lia)). cbn [Nat.add] in *.
      rewrite qnat_S. field. split; lra. }
    destruct (Nat.eq_dec r 0) as [->|Nr].
    { destruct (IH (l - 1)%nat 0%nat ltac:(lia) ltac:(lia)) as [-> ->].
      rewrite qnat_0 in *. rewrite !Nat.add_0_r. split; [field; lra|].
      pose proof (qnat_pos (l - 1) ltac:(lia)). rewrite qnat_S.
      setoid_replace (1 - qnat l / (qnat l + 0)) with 0 by (field; lra). field. split; lra. }
    destruct (IH (l - 1)%nat r ltac:(lia) ltac:(lia)) as [-> ->].
    destruct (IH l (r - 1)%nat ltac:(lia) ltac:(lia)) as [-> ->].
    split; [field; lra|].
    replace (l + (r - 1))%nat with (l - 1 + r)%nat by lia.
    assert (E1 : qnat (l - 1 + r) == qnat l + qnat r - 1).
    { replace (qnat l + qnat r) with (qnat l + qnat r) by reflexivity. rewrite <- qnat_add. replace (l + r)%nat with (S (l - 1 + r)) by lia. rewrite qnat_S. ring. }
    assert (E2 : qnat (l - 1) == qnat l - 1) by (rewrite qnat_sub by lia; reflexivity).
    pose proof (qnat_pos (l - 1 + r) ltac:(lia)) as P2. rewrite E1 in P2 |- *. rewrite E2, qnat_S. field. split; lra.
Qed.
Local Open Scope nat_scope.

(** ** Shuffling *)
Lemma set_nth_middle {A} (a b : list A) x y : set_nth (a ++ x :: b) (length a) y = a ++ y :: b.
Proof.
  unfold set_nth. f_equal.
  - rewrite firstn_app, firstn_all, Nat.sub_diag. cbn [firstn]. apply app_nil_r.
  - f_equal. rewrite skipn_app, skipn_all2 by lia. replace (S (length a) - length a) with 1 by lia. reflexivity.
Qed.

Lemma swap_perm {A} (l : list A) i j : i < j -> j < length l -> Permutation l (swap l i j).
Proof.
  intros Hij Hj. unfold swap.
  destruct (nth_error l i) as [x|] eqn:Ex; [|reflexivity]. destruct (nth_error l j) as [y|] eqn:Ey; [|reflexivity].
  destruct (nth_error_split l i Ex) as (a & b & -> & <-).
  rewrite nth_error_app2 in Ey by lia. destruct (j - length a) as [|m] eqn:Em; [lia|]. cbn [nth_error] in Ey.
  destruct (nth_error_split b m Ey) as (c & e & -> & <-).
  replace (set_nth (a ++ x :: c ++ y :: e) (length a) y) with (a ++ y :: c ++ y :: e) by (symmetry; apply set_nth_middle).
  replace j with (length (a ++ y :: c)) by (rewrite app_length; cbn [length]; lia).
  change (a ++ y :: c ++ y :: e) with (a ++ (y :: c) ++ y :: e). rewrite app_assoc.
  rewrite set_nth_middle, <- app_assoc. cbn [app]. apply Permutation_app_head.
  transitivity (x :: y :: c ++ e); [constructor; symmetry; apply Permutation_middle|].
  transitivity (y :: x :: c ++ e); [constructor|]. constructor. apply Permutation_middle.
Qed.

Lemma shuffle_perm todo : forall i l l', i + todo < length l -> may (shuffle todo i l) l' -> Permutation l l'.
Proof.
  induction todo as [|t IH]; intros i l l' Hl H; cbn [shuffle] in H.
  - apply may_ret in H. now subst.
  - apply may_bind in H as (d & Hd & H). apply may_uniform in Hd.
    pose proof (swap_perm l i (i + 1 + d) ltac:(lia) ltac:(lia)) as P.
    transitivity (swap l i (i + 1 + d)); [exact P|]. apply (IH (S i)); [|exact H].
    rewrite <- (Permutation_length P). lia.
Qed.
Lemma sample_n_perm l l' : may (sample_n l) l' -> Permutation l l'.
Proof.
  unfold sample_n. destruct l as [|a l]; [cbn [length shuffle]; intros H; apply may_ret in H; now subst|].
  intros H. apply shuffle_perm in H; [exact H|]. cbn [length]. lia.
Qed.

Lemma ins_perm x l : Permutation (x :: l) (ins x l).
Proof. induction l as [|y l IH]; cbn [ins]; [reflexivity|]. destruct (x <=? y); [reflexivity|].
  rewrite perm_swap. constructor. exact IH. Qed.
Lemma sort_nat_perm l : Permutation l (sort_nat l).
Proof. induction l as [|x l IH]; cbn [sort_nat fold_right]; [constructor|]. rewrite <- ins_perm. constructor. exact IH. Qed.
Lemma ins_sorted x l : ~ In x l -> StronglySorted lt l -> StronglySorted lt (ins x l).
Proof.
  induction l as [|y l IH]; intros Nx Hs; cbn [ins]; [repeat constructor|].
  apply StronglySorted_inv in Hs as [Hs Hf]. destruct (Nat.leb_spec x y).
  - assert (x <> y) by (intros ->; apply Nx; now left). constructor; [constructor; assumption|].
    constructor; [lia|]. eapply Forall_impl; [|exact Hf]. intros; lia.
  - constructor; [apply IH; [intros H'; apply Nx; now right|exact Hs]|].
    rewrite Forall_forall in *. intros z Hz. apply (Permutation_in _ (Permutation_sym (ins_perm x l))) in Hz as [<-|Hz]; [lia|auto].
Qed.
Lemma sort_nat_sorted l : NoDup l -> StronglySorted lt (sort_nat l).
Proof. induction 1 as [|x l Hx Hn IH]; cbn [sort_nat fold_right]; [constructor|]. apply ins_sorted; [|exact IH].
  intros C. apply Hx. apply (Permutation_in _ (Permutation_sym (sort_nat_perm l))). exact C. Qed.

(** ** Placement *)
Lemma mplace_spec todo : forall i kept right,
  StronglySorted lt kept -> Forall (fun x => i <= x < i + todo) kept -> todo - length kept <= length right ->
  exists us, mplace todo i kept right = Ok us /\
    map snd us = firstn (todo - length kept) right /\ NoDup (map fst us) /\
    (forall j, In j (map fst us) <-> i <= j < i + todo /\ ~ In j kept).
Proof.
  induction todo as [|t IH]; intros i kept right Hs Hr Hl.
  - exists []. cbn [mplace map]. destruct kept as [|x kept].
    + split; [reflexivity|]. split; [reflexivity|]. split; [constructor|]. intros j. cbn [In]. split; [intros []|lia].
    + exfalso. inversion Hr; subst. lia.
  - assert (Kl : length kept <= S t).
    { assert (G : forall m (l : list nat) j, StronglySorted lt l -> Forall (fun x => j <= x < j + m) l -> length l <= m).
      { clear. induction m as [|m IH]; intros l j S F; destruct l as [|x l]; cbn [length]; try lia.
        - inversion F; subst. lia.
        - apply StronglySorted_inv in S as [S Fx]. inversion F; subst.
          assert (length l <= m); [|lia]. apply (IH l (Datatypes.S j) S). rewrite Forall_forall in *. intros z Hz.
          specialize (Fx z Hz). specialize (H2 z Hz). cbn in *. lia. }
      apply (G (S t) kept i Hs Hr). }
    assert (Take : forall kept', StronglySorted lt kept' -> Forall (fun x => S i <= x < S i + t) kept' ->
       length kept' = length kept -> (forall j, In j kept' <-> In j kept) -> length kept <= t ->
       exists us, (match right with [] => Fail EUB | y :: right' => do us <- mplace t (S i) kept' right' ;; Ok ((i, y) :: us) end) = Ok us /\
         map snd us = firstn (S t - length kept) right /\ NoDup (map fst us) /\
         (forall j, In j (map fst us) <-> i <= j < i + S t /\ ~ In j kept)).
    { intros kept' Hs' Hr' L Hin Kt. destruct right as [|y right]; [cbn [length] in Hl; lia|].
      destruct (IH (S i) kept' right Hs' Hr') as (us & E & H1 & H2 & H3); [cbn [length] in Hl; lia|].
      rewrite E. cbn [bind]. exists ((i, y) :: us). split; [reflexivity|]. cbn [map fst snd].
      replace (S t - length kept) with (S (t - length kept)) by lia. cbn [firstn]. split; [|split].
      - f_equal. rewrite H1. now rewrite L.
      - constructor; [|exact H2]. rewrite H3. lia.
      - intros j. cbn [In]. rewrite H3, Hin. split.
        + intros [<-|[H H']]; [|split; [lia|exact H']]. split; [lia|]. rewrite <- Hin. intros C.
          rewrite Forall_forall in Hr'. specialize (Hr' _ C). cbn in Hr'. lia.
        + intros [H H']. destruct (Nat.eq_dec i j); [now left|right]. split; [lia|exact H']. }
    cbn [mplace]. destruct kept as [|x kept].
    + apply (Take []); try constructor; auto; cbn [length]; lia.
    + apply StronglySorted_inv in Hs as [Hs Hx]. pose proof (Forall_inv Hr) as Hr0. pose proof (Forall_inv_tail Hr) as Hr1.
      destruct (Nat.eqb_spec x i) as [->|Nx].
      * destruct (IH (S i) kept right Hs) as (us & E & H1 & H2 & H3).
        -- rewrite Forall_forall in *. intros z Hz. specialize (Hx z Hz). specialize (Hr1 z Hz). cbn in *. lia.
        -- cbn [length] in Hl. lia.
        -- exists us. split; [exact E|]. cbn [length]. replace (S t - S (length kept)) with (t - length kept) by lia.
           split; [exact H1|]. split; [exact H2|]. intros j. rewrite H3. cbn [In]. split.
           ++ intros [H H']. split; [lia|]. intros [<-|C]; [lia|contradiction].
           ++ intros [H H']. split; [|tauto]. assert (i <> j) by tauto. lia.
      * apply (Take (x :: kept)); auto; try tauto; try (constructor; assumption).
        -- constructor; [cbn in Hr0; lia|]. rewrite Forall_forall in *. intros z Hz. specialize (Hx z Hz). specialize (Hr1 z Hz). cbn in *. lia.
        -- assert (length (x :: kept) <= t); [|assumption].
           assert (G : forall m (l : list nat) j, StronglySorted lt l -> Forall (fun x => j <= x < j + m) l -> length l <= m).
           { clear. induction m as [|m IH]; intros l j S F; destruct l as [|x l]; cbn [length]; try lia.
             - inversion F; subst. lia.
             - apply StronglySorted_inv in S as [S Fx]. inversion F; subst.
               assert (length l <= m); [|lia]. apply (IH l (Datatypes.S j) S). rewrite Forall_forall in *. intros z Hz.
               specialize (Fx z Hz). specialize (H2 z Hz). cbn in *. lia. }
           apply (G t (x :: kept) (S i)); [constructor; assumption|].
           constructor; [cbn in Hr0; lia|]. rewrite Forall_forall in *. intros z Hz. specialize (Hx z Hz). specialize (Hr1 z Hz). cbn in *. lia.
Qed.

(** ** The reservoir *)
Definition somes {A} (r : list (option A)) : list A := flat_map (fun o => match o with Some x => [x] | None => [] end) r.

Lemma somes_set {A} (r : list (option A)) i x : i < length r ->
  exists rest, Permutation (somes (set_nth r i (Some x))) (x :: rest) /\ incl rest (somes r) /\ (NoDup (somes r) -> NoDup rest).
Proof.
  intros H. destruct (nth_error r i) as [o|] eqn:E; [|apply nth_error_None in E; lia].
  destruct (nth_error_split r i E) as (a & b & -> & <-). rewrite set_nth_middle. unfold somes. rewrite !flat_map_app. cbn [flat_map].
  exists (somes a ++ somes b). unfold somes. split; [symmetry; apply Permutation_middle|]. split.
  - intros y Hy. apply in_app_iff in Hy. apply in_app_iff. destruct Hy; [now left|right]. apply in_app_iff; now right.
  - intros N. destruct o; cbn [app] in N; [|exact N]. apply NoDup_remove_1 in N. exact N.
Qed.

(** Distinct slots receive distinct new items. *)
Lemma updates_distinct {A} (batch : list A) us : forall r,
  NoDup batch -> NoDup (somes r) -> NoDup (map snd us) ->
  (forall x, In x (somes r) -> forall u y, In u us -> nth_error batch (snd u) = Some y -> x <> y) ->
  Forall (fun u => fst u < length r /\ snd u < length batch) us ->
  exists r', updates batch us r = Ok r' /\ length r' = length r /\ NoDup (somes r') /\
    incl (somes r') (somes r ++ batch) /\
    (forall i, i < length r -> In i (map fst us) \/ nth_error r i <> Some None -> nth_error r' i <> Some None).
Proof.
  induction us as [|u us IH]; intros r Nb Nr Nu Hd Hf.
  - exists r. cbn [updates]. repeat split; auto; [intros x Hx; apply in_app_iff; now left|]. intros i Hi [[]|H]; exact H.
  - cbn [map] in Nu. apply NoDup_cons_iff in Nu as [Nu0 Nu]. pose proof (Forall_inv Hf) as [Hu1 Hu2]. pose proof (Forall_inv_tail Hf) as Hf'.
    cbn [updates]. unfold update, get. destruct (nth_error batch (snd u)) as [x|] eqn:Ex; [|apply nth_error_None in Ex; lia].
    cbn [bind]. apply Nat.ltb_lt in Hu1 as Hb. rewrite Hb. cbn [bind].
    destruct (somes_set r (fst u) x Hu1) as (rest & P & Hi & Hn).
    destruct (IH (set_nth r (fst u) (Some x))) as (r' & E & L & N & I & K); auto.
    + eapply Permutation_NoDup; [symmetry; exact P|]. constructor; [|auto].
      intros C. apply Hi in C. apply (Hd x C u x); auto. now left.
    + intros y Hy v z Hv Hz Ey. subst z. apply (Permutation_in _ P) in Hy as [<-|Hy].
      * assert (snd u = snd v).
        { apply (proj1 (NoDup_nth_error batch) Nb); [apply nth_error_Some; congruence|congruence]. }
        apply Nu0. rewrite H. now apply in_map.
      * apply (Hd y (Hi y Hy) v y); auto. now right.
    + rewrite set_nth_length by exact Hu1. exact Hf'.
    + rewrite E. rewrite set_nth_length in L, K by exact Hu1. exists r'. split; [reflexivity|]. split; [exact L|]. split; [exact N|]. split.
      * intros y Hy. apply I in Hy. apply in_app_iff in Hy. apply in_app_iff. destruct Hy as [Hy|Hy]; [|now right].
        apply (Permutation_in _ P) in Hy as [<-|Hy]; [right; apply nth_error_In in Ex; exact Ex|left; auto].
      * intros i Hil Hor. apply K; [exact Hil|]. cbn [map In] in Hor.
        assert (Hs : nth_error (set_nth r (fst u) (Some x)) i = if i =? fst u then Some (Some x) else nth_error r i).
        { rewrite (nth_error_nth' _ None) by (rewrite set_nth_length; lia). rewrite set_nth_nth by exact Hu1.
          rewrite (nth_error_nth' r None) by lia. destruct (i =? fst u); reflexivity. }
        rewrite Hs. destruct (Nat.eqb_spec i (fst u)) as [->|Ni]; [right; discriminate|].
        destruct Hor as [[Hc|Hc]|Hc]; [congruence|left; exact Hc|right; exact Hc].
Qed.

Lemma firstn_NoDup {A} n (l : list A) : NoDup l -> NoDup (firstn n l).
Proof. intros H. rewrite <- (firstn_skipn n l) in H. induction (firstn n l) as [|x t IH]; [constructor|].
  cbn [app] in H. apply NoDup_cons_iff in H as [H1 H2]. constructor; [|auto]. intros C; apply H1, in_app_iff; now left. Qed.

Lemma madd_spec k n seen x : seen <= k -> may (madd k n seen) x ->
  exists us, snd x = Ok us /\ seen <= fst x <= k /\ (fst x = Nat.min k (seen + n) \/ (k < seen + n /\ fst x = seen)) /\
    NoDup (map snd us) /\ Forall (fun u => fst u < k /\ snd u < Nat.min n k) us /\
    (seen + n <= k -> us = map (fun i => (seen + i, i)) (seq 0 n)) /\
    (forall i, i < Nat.min k (seen + n) -> In i (map fst us) \/ i < seen).
Proof.
  intros Hs H. unfold madd in H. destruct (Nat.leb_spec (seen + n) k) as [Hle|Hgt].
  - apply may_ret in H. subst x. cbn [fst snd]. exists (map (fun i => (seen + i, i)) (seq 0 n)).
    split; [reflexivity|]. split; [lia|]. split; [left; lia|]. split; [|split; [|split; [reflexivity|]]].
    + rewrite map_map. cbn [snd]. rewrite map_id. apply seq_NoDup.
    + rewrite Forall_forall. intros u Hu. apply in_map_iff in Hu as (i & <- & Hi). apply in_seq in Hi. cbn [fst snd]. lia.
    + intros i Hi. destruct (Nat.ltb_spec i seen); [now right|left]. rewrite map_map. cbn [fst]. apply in_map_iff.
      exists (i - seen). split; [lia|]. apply in_seq. lia.
  - apply may_bind in H as (lc & Hlc & H). apply mcount_range in Hlc as (L1 & L2 & L3); [|lia].
    apply may_bind in H as (left & Hleft & H). apply may_bind in H as (right & Hright & H). apply may_ret in H. subst x. cbn [fst snd].
    assert (PL : Permutation (seq 0 seen) left).
    { destruct (0 <? lc); [now apply sample_n_perm|]. apply may_ret in Hleft. now subst. }
    assert (PR : Permutation (seq 0 (Nat.min n k)) right).
    { destruct (0 <? k - lc); [now apply sample_n_perm|]. apply may_ret in Hright. now subst. }
    assert (NL : NoDup (firstn lc left)) by (apply firstn_NoDup; eapply Permutation_NoDup; [exact PL|apply seq_NoDup]).
    assert (LL : length (sort_nat (firstn lc left)) = lc).
    { rewrite <- (Permutation_length (sort_nat_perm _)), firstn_length, <- (Permutation_length PL), seq_length. lia. }
    destruct (mplace_spec k 0 (sort_nat (firstn lc left)) right) as (us & E & H1 & H2 & H3).
    + now apply sort_nat_sorted.
    + rewrite Forall_forall. intros z Hz. apply (Permutation_in _ (Permutation_sym (sort_nat_perm _))) in Hz.
      assert (In z left) by (rewrite <- (firstn_skipn lc left); apply in_app_iff; now left).
      apply (Permutation_in _ (Permutation_sym PL)) in H. apply in_seq in H. lia.
    + rewrite LL, <- (Permutation_length PR), seq_length. lia.
    + exists us. rewrite E. split; [reflexivity|]. split; [lia|]. split; [right; lia|]. split; [|split; [|split; [intros; lia|]]].
      * rewrite H1. apply firstn_NoDup. eapply Permutation_NoDup; [exact PR|apply seq_NoDup].
      * rewrite Forall_forall. intros u Hu. split.
        -- assert (In (fst u) (map fst us)) by now apply in_map. apply H3 in H. lia.
        -- assert (Hi : In (snd u) (map snd us)) by now apply in_map. rewrite H1 in Hi.
           assert (In (snd u) right) by (rewrite <- (firstn_skipn (k - length (sort_nat (firstn lc left))) right); apply in_app_iff; now left).
           apply (Permutation_in _ (Permutation_sym PR)) in H. apply in_seq in H. lia.
      * intros i Hi. destruct (in_dec Nat.eq_dec i (sort_nat (firstn lc left))) as [Hin|Hn].
        -- right. apply (Permutation_in _ (Permutation_sym (sort_nat_perm _))) in Hin.
           assert (In i left) by (rewrite <- (firstn_skipn lc left); apply in_app_iff; now left).
           apply (Permutation_in _ (Permutation_sym PL)) in H. apply in_seq in H. lia.
        -- left. apply H3. split; [lia|exact Hn].
Qed.

(** Each shard reports the number [n] of candidates and a sample of min(n, k) of them. *)
Definition shard_ok {A} (k : nat) (s : nat * list A) : Prop := length (snd s) = Nat.min (fst s) k.
Definition sizes {A} (shards : list (nat * list A)) : nat := fold_right (fun s n => fst s + n) 0 shards.

Lemma somes_full {A} (r : list (option A)) m : m <= length r ->
  (forall i, i < m -> nth_error r i <> Some None) -> m <= length (somes r).
Proof.
  revert m. induction r as [|o r IH]; intros m Hm H; cbn [length] in Hm; [cbn; lia|].
  destruct m as [|m]; [lia|]. cbn [somes flat_map]. fold (somes r). rewrite app_length.
  assert (m <= length (somes r)) by (apply IH; [lia|]; intros i Hi; apply (H (S i)); lia).
  specialize (H 0 ltac:(lia)). cbn [nth_error] in H. destruct o; [cbn [length]; lia|congruence].
Qed.

Lemma mrun_spec {A} k (shards : list (nat * list A)) : forall seen filled r res,
  seen <= filled -> filled <= k -> length r = k -> NoDup (somes r) -> NoDup (flat_map snd shards) ->
  (forall x, In x (somes r) -> ~ In x (flat_map snd shards)) ->
  (forall i, i < filled -> nth_error r i <> Some None) -> (seen < filled -> filled = k) ->
  Forall (shard_ok k) shards ->
  may (mrun k seen shards r) res ->
  exists r', res = Ok r' /\ length r' = k /\ NoDup (somes r') /\ incl (somes r') (somes r ++ flat_map snd shards) /\
    forall i, i < Nat.min k (filled + sizes shards) -> nth_error r' i <> Some None.
Proof.
  induction shards as [|[n batch] t IH]; intros seen filled r res Hs Hf Hl Nr Nb Hd Hfill Hmerge Ok1 H; cbn [mrun] in H.
  - apply may_ret in H. subst res. exists r. cbn [flat_map sizes fold_right]. rewrite app_nil_r, Nat.add_0_r.
    repeat split; auto; [intros x Hx; exact Hx|]. intros i Hi; apply Hfill; lia.
  - apply may_bind in H as (x & Hx & H). destruct (madd_spec k n seen x ltac:(lia) Hx) as (us & E & R1 & R2 & R3 & R4 & R5 & R6).
    rewrite E in H. cbn [bind] in H. pose proof (Forall_inv Ok1) as Hok. unfold shard_ok in Hok. cbn [fst snd] in Hok.
    cbn [flat_map snd] in Nb, Hd. 
    assert (NB : NoDup batch /\ NoDup (flat_map snd t)).
    { clear - Nb. induction batch as [|b batch IH]; cbn [app] in Nb; [split; [constructor|exact Nb]|].
      apply NoDup_cons_iff in Nb as [Hb Nb]. destruct (IH Nb). split; [constructor; [|assumption]|assumption].
      intros C. apply Hb, in_app_iff. now left. }
    destruct NB as [NB NT].
    destruct (updates_distinct batch us r) as (r1 & U & L1 & N1 & I1 & F1); auto.
    { intros y Hy u z Hu Hz Ey. subst z. apply (Hd y Hy). apply in_app_iff. left. eapply nth_error_In; exact Hz. }
    { rewrite Hok, Hl. exact R4. }
    rewrite U in H.
    assert (Disj : forall y, In y batch -> In y (flat_map snd t) -> False).
    { clear - Nb. intros y H1 H2. induction batch as [|b batch IH]; [destruct H1|]. cbn [app] in Nb.
      apply NoDup_cons_iff in Nb as [Hb Nb]. destruct H1 as [->|H1]; [apply Hb, in_app_iff; now right|auto]. }
    destruct (IH (fst x) (Nat.min k (filled + n)) r1 res) as (r' & E' & L' & N' & I' & F'); auto; try lia.
    + intros y Hy Hy2. apply I1 in Hy. apply in_app_iff in Hy as [Hy|Hy].
      * apply (Hd y Hy). apply in_app_iff; now right.
      * eapply Disj; eauto.
    + intros i Hi. apply F1; [lia|]. destruct (Nat.ltb_spec i filled) as [Hlt|Hge]; [right; apply Hfill; lia|].
      destruct (R6 i) as [Hin|Hc]; [|left; exact Hin|lia].
      destruct (Nat.ltb_spec seen filled) as [Hm|Hm]; [specialize (Hmerge Hm); lia|]. assert (seen = filled) by lia. subst. lia.
    + exact (Forall_inv_tail Ok1).
    + exists r'. split; [exact E'|]. split; [exact L'|]. split; [exact N'|]. cbn [flat_map snd sizes fold_right fst]. split.
      * intros y Hy. apply I' in Hy. apply in_app_iff in Hy. rewrite !in_app_iff. destruct Hy as [Hy|Hy]; [|tauto].
        apply I1 in Hy. apply in_app_iff in Hy. tauto.
      * intros i Hi. apply F'. fold (sizes t) in Hi. lia.
Qed.

Lemma somes_none {A} n : @somes A (repeat None n) = [].
Proof. induction n; cbn [repeat somes flat_map app]; auto. Qed.
Lemma somes_length {A} (r : list (option A)) : length (somes r) <= length r.
Proof. induction r as [|o r IH]; [cbn; lia|]. cbn [somes flat_map length]. fold (somes r). rewrite app_length. destruct o; cbn [length]; lia. Qed.

(** C19, first part: whatever the random numbers, the merged sample consists of distinct items
    of the shards, as many as fit. *)
Theorem merge_distinct {A} k (shards : list (nat * list A)) res :
  Forall (shard_ok k) shards -> NoDup (flat_map snd shards) ->
  may (mrun k 0 shards (repeat None k)) res ->
  exists r, res = Ok r /\ length r = k /\ NoDup (somes r) /\ incl (somes r) (flat_map snd shards) /\
    length (somes r) = Nat.min k (sizes shards).
Proof.
  intros H1 H2 H3. destruct (mrun_spec k shards 0 0 (repeat None k) res) as (r & E & L & N & I & F); auto with arith; try (intros; lia).
  - apply repeat_length.
  - rewrite somes_none. constructor.
  - rewrite somes_none. intros x [].
  - rewrite somes_none in I. cbn [app] in I. exists r. repeat split; auto.
    cbn [Nat.add] in F. pose proof (somes_full r (Nat.min k (sizes shards)) ltac:(lia) F). pose proof (somes_length r).
    pose proof (NoDup_incl_length N I).
    assert (length (flat_map snd shards) <= sizes shards).
    { clear - H1. induction H1 as [|[n b] t Hb _ IH]; cbn [flat_map sizes fold_right length]; [lia|]. rewrite app_length.
      unfold shard_ok in Hb. cbn [fst snd] in *. fold (sizes t). lia. }
    lia.
Qed.

(** C19, second part: when everything fits, everything is kept, in shard order. *)
Lemma mrun_fits {A} k (shards : list (nat * list A)) : forall pre res,
  Forall (shard_ok k) shards -> length pre + sizes shards <= k ->
  may (mrun k (length pre) shards (map Some pre ++ repeat None (k - length pre))) res ->
  res = Ok (map Some (pre ++ flat_map snd shards) ++ repeat None (k - length (pre ++ flat_map snd shards))).
Proof.
  induction shards as [|[n b] t IH]; intros pre res Hok Hk H; cbn [mrun] in H.
  - apply may_ret in H. cbn [flat_map]. now rewrite app_nil_r.
  - cbn [sizes fold_right fst] in Hk. fold (sizes t) in Hk. pose proof (Forall_inv Hok) as Hb. unfold shard_ok in Hb. cbn [fst snd] in Hb.
    apply may_bind in H as (x & Hx & H).
    unfold madd in Hx. replace (length pre + n <=? k) with true in Hx by (symmetry; apply Nat.leb_le; lia).
    apply may_ret in Hx. subst x. cbn [fst snd bind] in H.
    assert (U : updates b (map (fun i => (length pre + i, i)) (seq 0 n)) (map Some pre ++ repeat None (k - length pre))
                = Ok (map Some (pre ++ b) ++ repeat None (k - length (pre ++ b)))).
    { assert (G : forall m j p, j + m = length b -> p = pre ++ firstn j b -> length pre + length b <= k ->
        updates b (map (fun i => (length pre + i, i)) (seq j m)) (map Some p ++ repeat None (k - length p))
        = Ok (map Some (pre ++ b) ++ repeat None (k - length (pre ++ b)))).
      { induction m as [|m IHm]; intros j p Hj Hp Hlen; cbn [seq map updates].
        - assert (p = pre ++ b) as -> by (subst p; rewrite firstn_all2 by lia; reflexivity). reflexivity.
        - assert (Lp : length p = length pre + j) by (subst p; rewrite app_length, firstn_length; lia).
          destruct (nth_error b j) as [y|] eqn:Ey; [|apply nth_error_None in Ey; lia].
          unfold update, get. cbn [fst snd]. rewrite Ey. cbn [bind].
          rewrite app_length, map_length, repeat_length.
          replace (length pre + j <? length p + (k - length p)) with true by (symmetry; apply Nat.ltb_lt; lia). cbn [bind].
          destruct (k - length p) as [|q] eqn:Eq; [lia|]. cbn [repeat].
          replace (length pre + j) with (length (@map A (option A) Some p)) by (rewrite map_length; lia).
          rewrite set_nth_middle.
          specialize (IHm (S j) (p ++ [y])). rewrite (app_length p [y]) in IHm. cbn [length] in IHm.
          replace (map Some p ++ Some y :: repeat None q) with (map Some (p ++ [y]) ++ repeat None (k - (length p + 1)))
            by (rewrite map_app, <- app_assoc; cbn [map app]; do 3 f_equal; lia).
          apply IHm; [lia| |exact Hlen]. subst p. rewrite <- app_assoc. f_equal.
          clear - Ey. revert j Ey. induction b as [|z b IHb]; intros [|j] Ey; cbn [nth_error firstn app] in *; try discriminate.
          + congruence.
          + f_equal. apply IHb. exact Ey. }
      replace n with (length b) by lia. apply (G (length b) 0 pre); [lia| |lia]. cbn [firstn]. now rewrite app_nil_r. }
    rewrite U in H. replace (length pre + n) with (length (pre ++ b)) in H by (rewrite app_length; lia).
    apply IH in H; [|exact (Forall_inv_tail Hok)|rewrite app_length; lia].
    rewrite H. cbn [flat_map snd]. now rewrite <- app_assoc.
Qed.

Theorem merge_all {A} k (shards : list (nat * list A)) res :
  Forall (shard_ok k) shards -> sizes shards <= k -> may (mrun k 0 shards (repeat None k)) res ->
  res = Ok (map Some (flat_map snd shards) ++ repeat None (k - length (flat_map snd shards))).
Proof.
  intros H1 H2 H3. apply (mrun_fits k shards [] res H1 ltac:(cbn [length]; lia)).
  cbn [length map app]. now rewrite Nat.sub_0_r.
Qed.
