(** Uniform neighbor sampling through servers: the rows of a node are found, and what their
    merge draws. *)
From Coq Require Import Lqa Permutation.
From Verif Require Import Base Dist WriterModel LoaderModel GraphModel GraphSpec LoaderProofs GraphProofs ConvertProofs AnswerProofs
  ReservoirModel ReservoirProofs ShardProofs NeighborModel NeighborProofs UniformProofs FeatureModel ServerModel ServerProofs DUniformModel.
From Coq Require Import ZifyBool ZifyNat ZifyN.
Local Open Scope nat_scope.

(** ** Zipping *)
Lemma Forall2_len {A B} (P : A -> B -> Prop) l m : Forall2 P l m -> length l = length m.
Proof. induction 1; cbn; congruence. Qed.

Lemma present_app {A} (a b : list (option A)) : present (a ++ b) = present a ++ present b.
Proof. unfold present. apply flat_map_app. Qed.

Lemma reply_app a b ra rb : length a = length ra ->
  let r := reply_of (a ++ b) (ra ++ rb) in let r1 := reply_of a ra in let r2 := reply_of b rb in
  r = UR (ur_nodes r1 ++ ur_nodes r2) (ur_counts r1 ++ ur_counts r2) (ur_slots r1 ++ ur_slots r2).
Proof.
  revert ra. induction a as [|n a IH]; intros [|o ra] H; try discriminate;
    [cbn zeta; cbn [app]; destruct (reply_of b rb); reflexivity|].
  cbn [length] in H. specialize (IH ra ltac:(lia)). cbn zeta in *. cbn [app reply_of].
  destruct o as [[c row]|]; rewrite IH; [|reflexivity]. cbn [ur_nodes ur_counts ur_slots app]. now rewrite app_assoc.
Qed.

Definition rows_of (count : nat) (rows : list (option (nat * list slot))) : Prop :=
  Forall (fun o => match o with Some e => length (snd e) = count | None => True end) rows.
Definition knows (known : Z -> bool) (nodes : list Z) (rows : list (option (nat * list slot))) : Prop :=
  Forall2 (fun n o => known n = match o with Some _ => true | None => false end) nodes rows.

Lemma reply_lengths count a ra : length a = length ra -> rows_of count ra ->
  length (ur_nodes (reply_of a ra)) = length (present ra) /\ length (ur_counts (reply_of a ra)) = length (present ra) /\
  length (ur_slots (reply_of a ra)) = count * length (present ra).
Proof.
  revert ra. induction a as [|n a IH]; intros [|o ra] H F; try discriminate; [cbn; auto|].
  inversion F as [|? ? F1 F2]; subst. cbn [length] in H. destruct (IH ra ltac:(lia) F2) as (I1 & I2 & I3).
  cbn [reply_of]. destruct o as [[c row]|]; cbn [ur_nodes ur_counts ur_slots length present flat_map app]; fold (present ra).
  - rewrite I1, I2, app_length, I3. cbn [snd] in F1. rewrite F1. repeat split; lia.
  - auto.
Qed.

Lemma reply_nodes_known known b rb m : knows known b rb -> In m (ur_nodes (reply_of b rb)) -> known m = true.
Proof.
  induction 1 as [|n o b rb H _ IH]; [intros []|]. cbn [reply_of]. destruct o as [[c row]|]; [|exact IH].
  cbn [ur_nodes]. intros [<-|Hm]; [exact H|now apply IH].
Qed.

Lemma entry_step known count pre n post rpre o rpost :
  length pre = length rpre -> rows_of count (rpre ++ o :: rpost) -> knows known (n :: post) (o :: rpost) ->
  node_entry count n (reply_of (pre ++ n :: post) (rpre ++ o :: rpost)) (length (present rpre)) =
  Ok (o, length (present (rpre ++ [o]))).
Proof.
  intros HL HR HK. apply Forall_app in HR. destruct HR as [R1 R2]. inversion R2 as [|? ? Ro R3]; subst.
  destruct (reply_lengths count pre rpre HL R1) as (L1 & L2 & L3).
  pose proof (reply_app pre (n :: post) rpre (o :: rpost) HL) as E. cbn zeta in E. rewrite E; clear E.
  unfold node_entry. cbn [ur_nodes ur_counts ur_slots]. rewrite nth_error_app2 by lia. rewrite L1, Nat.sub_diag.
  inversion HK as [|? ? ? ? Hn HK']; subst. rewrite present_app. cbn [reply_of].
  destruct o as [[c row]|]; cbn [present flat_map app length].
  - cbn [ur_nodes nth_error ur_counts ur_slots]. rewrite Z.eqb_refl. unfold get. rewrite nth_error_app2 by lia. rewrite L2, Nat.sub_diag.
    cbn [nth_error bind]. cbn [snd] in Ro. rewrite !app_length, L3, Ro. replace (_ <=? _) with true by lia.
    unfold slice. rewrite skipn_app, skipn_all2 by lia. rewrite L3, Nat.sub_diag. cbn [skipn app].
    rewrite firstn_app, <- Ro, firstn_all, Nat.sub_diag. cbn [firstn]. rewrite app_nil_r, Nat.add_1_r. reflexivity.
  - rewrite app_nil_r. destruct (nth_error (ur_nodes (reply_of post rpost)) 0) as [m|] eqn:E; [|reflexivity].
    apply nth_error_In in E. apply (reply_nodes_known known) in E; [|assumption].
    destruct (Z.eqb_spec m n) as [->|]; [congruence|reflexivity].
Qed.

(** Per position the rows of the servers that know the node. *)
Fixpoint columns {A} (n : nat) (rowss : list (list (option A))) : list (list A) :=
  match n with O => [] | S m => present (map (hd None) rowss) :: columns m (map (@tl _) rowss) end.

Definition aligned (count : nat) (nodes : list Z) (rows : list (option (nat * list slot))) : Prop :=
  rows_of count rows /\ exists known, knows known nodes rows.

Lemma entries_columns count nodes rowss : Forall (aligned count nodes) rowss ->
  client_entries count nodes (map (reply_of nodes) rowss) (map (fun _ => 0) (map (reply_of nodes) rowss)) =
  Ok (columns (length nodes) rowss).
Proof.
  intro F.
  assert (G : forall post pre (rs : list (list (option (nat * list slot)) * list (option (nat * list slot)))),
    nodes = pre ++ post ->
    Forall (fun p => length (fst p) = length pre /\ aligned count nodes (fst p ++ snd p)) rs ->
    client_entries count post (map (fun p => reply_of nodes (fst p ++ snd p)) rs) (map (fun p => length (present (fst p))) rs) =
    Ok (columns (length post) (map snd rs))).
  { induction post as [|n post IH]; intros pre rs En Fr; [reflexivity|]. cbn [client_entries length columns].
    assert (Hne : Forall (fun p => exists o t, snd p = o :: t) rs).
    { eapply Forall_impl; [|exact Fr]. intros [rp rq] (H1 & _ & known & H2). cbn [fst snd] in *.
      apply Forall2_len in H2.
      subst nodes. rewrite !app_length in *. cbn [length] in *. destruct rq; [cbn in *; lia|eauto]. }
    assert (E : mapM (fun p => node_entry count n (fst p) (snd p))
        (combine (map (fun p => reply_of nodes (fst p ++ snd p)) rs) (map (fun p => length (present (fst p))) rs)) =
      Ok (map (fun p => (hd None (snd p), length (present (fst p ++ [hd None (snd p)])))) rs)).
    { clear IH. induction rs as [|[rp rq] rs IHr]; [reflexivity|]. inversion Fr as [|? ? F1 F2]; inversion Hne as [|? ? N1 N2]; subst.
      cbn [map combine mapM fst snd]. destruct N1 as (o & t & N1). cbn [snd] in N1. subst rq. cbn [fst snd hd] in *.
      destruct F1 as (L & R & known & K).
      assert (K' : knows known (n :: post) (o :: t)).
      { clear - K L. revert rp L K. induction pre as [|a pre IHp]; intros [|b rp] L K; try discriminate; [exact K|].
        cbn [app] in K. inversion K; subst. apply (IHp rp); [cbn in L; lia|assumption]. }
      rewrite (entry_step known count pre n post rp o t (eq_sym L) R K'). cbn [bind]. rewrite IHr by assumption. reflexivity. }
    rewrite E. cbn [bind]. rewrite !map_map. cbn [fst snd].
    specialize (IH (pre ++ [n]) (map (fun p => (fst p ++ [hd None (snd p)], tl (snd p))) rs)). rewrite !map_map in IH. cbn [fst snd] in IH.
    assert (E1 : map (fun p => reply_of nodes ((fst p ++ [hd None (snd p)]) ++ tl (snd p))) rs = map (fun p => reply_of nodes (fst p ++ snd p)) rs).
    { apply map_ext_in. intros p Hp. rewrite Forall_forall in Hne. destruct (Hne p Hp) as (o & t & ->). cbn [hd tl]. now rewrite <- app_assoc. }
    rewrite E1 in IH. rewrite IH; clear IH.
    - cbn [bind]. reflexivity.
    - subst nodes. now rewrite <- app_assoc.
    - apply Forall_map, Forall_forall. intros p Hp. cbn [fst snd]. rewrite Forall_forall in Fr, Hne.
      destruct (Hne p Hp) as (o & t & Eo). destruct (Fr p Hp) as [H1 H2]. rewrite Eo in *. cbn [hd tl].
      rewrite <- app_assoc. cbn [app]. rewrite !app_length. cbn. split; [lia|exact H2]. }
  specialize (G nodes [] (map (fun r => ([], r)) rowss) eq_refl). rewrite !map_map in *. cbn [fst snd app present flat_map length] in G.
  rewrite map_id in G. apply G. apply Forall_map. eapply Forall_impl; [|exact F]. intros r H. cbn [fst snd]. split; [reflexivity|exact H].
Qed.

(** ** Without replacement *)
Lemma updates_pad {A B} (f : A -> B) (b : list A) pad us : forall r,
  Forall (fun u => snd u < length b) us ->
  updates (map f b ++ pad) us (map (option_map f) r) = rmap (map (option_map f)) (updates b us r).
Proof.
  induction us as [|u us IH]; intros r H; cbn [updates]; [reflexivity|]. inversion H; subst.
  unfold update, get. rewrite nth_error_app1 by (rewrite map_length; assumption). rewrite nth_error_map, map_length.
  destruct (nth_error b (snd u)); [|reflexivity].
  cbn [option_map bind]. destruct (fst u <? length r); [|reflexivity]. cbn [bind].
  change (Some (f a)) with (option_map f (Some a)). rewrite set_nth_map. now apply IH.
Qed.

Lemma umod_small k m us : Forall (fun u : nat * nat => fst u < k /\ snd u < Nat.min m k) us ->
  map (fun u => (fst u, snd u mod k)) us = us.
Proof.
  induction 1 as [|[a b] us H _ IH]; [reflexivity|]. cbn [map fst snd] in *. rewrite IH, Nat.mod_small by lia. reflexivity.
Qed.

(** The row of a server: its samples, filled up. *)
Definition row_for {A} (k : nat) (f : A -> slot) (e : nat * list slot) (s : nat * list A) : Prop :=
  fst e = fst s /\ shard_ok k s /\ exists pad, snd e = map f (snd s) ++ pad.

Lemma merge_without_mrun {A} k (f : A -> slot) es ss : Forall2 (row_for k f) es ss -> forall seen r out, seen <= k ->
  may (merge_without k seen es (map (option_map f) r)) out ->
  exists out', may (mrun k seen ss r) out' /\ out = rmap (map (option_map f)) out'.
Proof.
  induction 1 as [|e s es ss (E1 & E2 & pad & E3) _ IH]; intros seen r out Hs H; cbn [merge_without mrun] in *.
  - apply may_ret in H. subst. exists (Ok r). split; [exists 1%Q; split; [now left|discriminate]|reflexivity].
  - destruct e as [w row], s as [n batch]. cbn [fst snd] in *. subst w row.
    apply may_bind in H as (x & Hx & H).
    destruct (madd_spec k n seen x Hs Hx) as (us & Eu & Hf & _ & _ & Hu & _).
    assert (Hfs : fst x <= k) by lia.
    rewrite Eu in *. cbn [bind] in *. rewrite (umod_small k n us Hu) in H.
    rewrite updates_pad in H.
    2:{ unfold shard_ok in E2. cbn [fst snd] in E2. rewrite E2. eapply Forall_impl; [|exact Hu]. cbn beta. intros u Hu'. lia. }
    destruct (updates batch us r) as [r'|e] eqn:Er; cbn [rmap] in H.
    + destruct (IH (fst x) r' out Hfs H) as (out' & Ho & Eo). exists out'. split; [|exact Eo].
      destruct Ho as (q & Hq & Nq), Hx as (p & Hp & Np). exists (p * q)%Q. split; [|intro C; apply Qmult_integral in C as [C|C]; auto].
      unfold dbind. apply in_flat_map. exists (x, p). split; [exact Hp|]. apply in_map_iff. exists (out', q). cbn [fst snd]. split; [reflexivity|].
      rewrite Eu. cbn [bind]. rewrite Er. exact Hq.
    + apply may_ret in H. subst out. exists (Fail e). split; [|reflexivity].
      destruct Hx as (p & Hp & Np). exists (p * 1)%Q. split; [|rewrite Qmult_1_r; exact Np].
      unfold dbind. apply in_flat_map. exists (x, p). split; [exact Hp|]. apply in_map_iff. exists (Fail e, 1%Q). cbn [fst snd]. split; [reflexivity|].
      rewrite Eu. cbn [bind]. rewrite Er. now left.
Qed.

Lemma may_dlist {A} (ds : list (dist A)) l : may (dlist ds) l -> Forall2 may ds l.
Proof.
  revert l. induction ds as [|d ds IH]; intros l H; cbn [dlist] in H; [apply may_ret in H; subst; constructor|].
  apply may_bind in H as (a & Ha & (p & H & Np)). unfold dmap in H. apply in_map_iff in H as ([t q] & E & H). cbn [fst snd] in E.
  injection E as <- <-. constructor; [exact Ha|]. apply IH. exists q. auto.
Qed.

(** Labelled samples: server and position. *)
Definition label_row (s : nat) (ps : list nat) : list (nat * nat) := map (fun p => (s, p)) ps.

Definition sample_of (ls : list (list slot)) (default : slot) (x : nat * nat) : slot :=
  match nth_error (nth (fst x) ls []) (snd x) with Some v => v | None => default end.

(** What a server's entry holds for a list [l] to choose from. *)
Definition chosen (k : nat) (default : slot) (l : list slot) (e : nat * list slot) : Prop :=
  fst e = length l /\ exists ps, NoDup ps /\ Forall (fun p => p < length l) ps /\ length ps = Nat.min k (length l) /\
    snd e = map (fun p => match nth_error l p with Some v => v | None => default end) ps ++ repeat default (k - length ps).

Lemma row_without_chosen skip pick k default bs : (forall c, 1 <= skip c) -> (forall c, pick c < k) ->
  exists e, row_without skip pick k default (Some bs) = Ok (Some e) /\ chosen k default (concat bs) e /\ length (snd e) = k.
Proof.
  intros Hs Hp. destruct (algorithm_l skip pick k bs Hs Hp) as (s & ps & El & Ln & Nd & Fa).
  unfold row_without. rewrite El. cbn [bind snd]. eexists. split; [reflexivity|]. split.
  - split; [reflexivity|]. exists ps. split; [exact Nd|]. split; [exact Fa|]. split; [exact Ln|]. cbn [snd].
    unfold or_default. rewrite map_app, map_map. f_equal. generalize (k - length ps). clear. intro n. induction n; cbn; congruence.
  - cbn [snd]. unfold or_default. rewrite map_length, app_length, map_length, repeat_length, Ln. lia.
Qed.

(** [r]: which element of which list fills a slot. *)
Definition distinct_picks (k : nat) (ls : list (list slot)) (r : list (option (nat * nat))) : Prop :=
  length r = k /\ NoDup (somes r) /\ Forall (fun x => exists l, nth_error ls (fst x) = Some l /\ snd x < length l) (somes r) /\
  length (somes r) = Nat.min k (length (concat ls)).
Definition filled (ls : list (list slot)) (default : slot) (r : list (option (nat * nat))) : list slot :=
  map (fun o => match o with Some x => sample_of ls default x | None => default end) r.

(** A server that does not know the node has nothing to choose from. *)
Definition chosen_or (k : nat) (default : slot) (l : list slot) (o : option (nat * list slot)) : Prop :=
  match o with Some e => chosen k default l e | None => l = [] end.

Lemma merge_without_distinct k default ls os out : Forall2 (chosen_or k default) ls os ->
  may (merge_without k 0 (present os) (repeat None k)) out ->
  exists r, (exists o, out = Ok o /\ or_default default o = filled ls default r) /\ distinct_picks k ls r.
Proof.
  intros F H.
  assert (G : forall pre ls' os', Forall2 (chosen_or k default) ls' os' -> ls = pre ++ ls' ->
    exists ss : list (nat * list (nat * nat)), Forall2 (row_for k (sample_of ls default)) (present os') ss /\ Forall (shard_ok k) ss /\
      NoDup (flat_map snd ss) /\ sizes ss = length (concat ls') /\
      Forall (fun x => length pre <= fst x /\ exists l, nth_error ls (fst x) = Some l /\ snd x < length l) (flat_map snd ss)).
  { intros pre ls' os' F'. revert pre. induction F' as [|l [e|] ls' os' Ho _ IH]; intros pre E.
    - exists []. repeat split; constructor.
    - destruct Ho as (H1 & ps & N & B & L & H2).
      destruct (IH (pre ++ [l])) as (ss & I1 & I2 & I3 & I4 & I5); [now rewrite <- app_assoc|].
      exists ((length l, label_row (length pre) ps) :: ss).
      assert (En : nth_error ls (length pre) = Some l) by (rewrite E, nth_error_app2, Nat.sub_diag by lia; reflexivity).
      assert (Ok1 : shard_ok k (length l, label_row (length pre) ps)).
      { unfold shard_ok, label_row. cbn [fst snd]. rewrite map_length, L. lia. }
      split; [|split; [|split; [|split]]].
      + constructor; [|exact I1]. split; [exact H1|]. split; [exact Ok1|]. exists (repeat default (k - length ps)). rewrite H2. f_equal.
        unfold label_row. cbn [snd]. rewrite map_map. apply map_ext. intro p. unfold sample_of. cbn [fst snd].
        now rewrite (nth_error_nth _ _ [] En).
      + constructor; assumption.
      + cbn [flat_map snd]. apply NoDup_app_intro; [|exact I3|].
        * unfold label_row. clear - N. induction N as [|p ps Hp _ IHp]; cbn [map]; constructor; [|exact IHp].
          intro C. apply in_map_iff in C as (q & Eq & Hq). congruence.
        * intros x Hx Hy. unfold label_row in Hx. apply in_map_iff in Hx as (p & <- & _). rewrite Forall_forall in I5.
          destruct (I5 _ Hy) as [Hlt _]. rewrite app_length in Hlt. cbn in Hlt. lia.
      + cbn [sizes fold_right fst concat]. fold (sizes ss). rewrite I4, app_length. reflexivity.
      + cbn [flat_map snd]. apply Forall_app. split.
        * apply Forall_forall. intros x Hx. unfold label_row in Hx. apply in_map_iff in Hx as (p & <- & Hp). cbn [fst snd]. split; [lia|].
          exists l. rewrite Forall_forall in B. auto.
        * eapply Forall_impl; [|exact I5]. cbn beta. intros x (Hx & Hx'). rewrite app_length in Hx. cbn in Hx. split; [lia|exact Hx'].
    - cbn [chosen_or] in Ho. subst l.
      destruct (IH (pre ++ [[]])) as (ss & I1 & I2 & I3 & I4 & I5); [now rewrite <- app_assoc|]. exists ss.
      split; [exact I1|]. split; [exact I2|]. split; [exact I3|]. split; [exact I4|].
      eapply Forall_impl; [|exact I5]. cbn beta. intros x (Hx & Hx'). rewrite app_length in Hx. cbn in Hx. split; [lia|exact Hx']. }
  destruct (G [] ls os F eq_refl) as (ss & R & SOK & ND & SZ & IN). clear G.
  replace (repeat (@None slot) k) with (map (option_map (sample_of ls default)) (repeat None k)) in H
    by (clear; induction k; cbn; congruence).
  destruct (merge_without_mrun k _ (present os) ss R 0 (repeat None k) out ltac:(lia) H) as (out' & Hm & ->).
  destruct (merge_distinct k ss out' SOK ND Hm) as (r & -> & Lr & Nr & Ir & Sr). exists r. split.
  - eexists. split; [reflexivity|]. unfold or_default, filled. rewrite map_map. apply map_ext. intros [x|]; reflexivity.
  - split; [exact Lr|]. split; [exact Nr|]. split; [|now rewrite <- SZ].
    apply Forall_forall. intros x Hx. rewrite Forall_forall in IN. destruct (IN x (Ir x Hx)) as [_ Hl]. exact Hl.
Qed.

(** ** The servers' rows *)
Section Servers.
Variable fadd : N -> N -> N.
Variable wval : N -> Z.

(** What a server chooses from. *)
Definition offered (wm : option Z) (types : list Z) (x : Z * option Z) (parts : list (list (list record))) (l : list slot) : Prop :=
  exists es, l = map (slot_for wm (snd x)) es /\ incl es (matching wm parts types (fst x) (snd x)) /\
            (gaps_ok types parts -> es = matching wm parts types (fst x) (snd x)).

Lemma server_batches_spec wor wm parts g types nodes ts :
  converted fadd wval wm parts g -> Forall (fun x => times_ok wor wm parts (snd x)) (stamps nodes ts) -> stamped nodes ts ->
  exists os known, server_batches wor g (make_sorted_list types) nodes ts = Ok os /\
   Forall2 (fun x o => offered wm types x parts (concat (batches_of o))) (stamps nodes ts) os /\
   Forall2 (fun n o => known n = match o with Some _ => true | None => false end) nodes os.
Proof.
  intros C HT Hst. unfold server_batches.
  set (known := fun n => match occurrences g n with Ok (Some _) => true | _ => false end).
  assert (H : exists os, mapM (fun x => node_batches wor g (make_sorted_list types) (fst x) (snd x)) (stamps nodes ts) = Ok os /\
   Forall2 (fun x o => offered wm types x parts (concat (batches_of o))) (stamps nodes ts) os /\
   Forall2 (fun n o => known n = match o with Some _ => true | None => false end) (map fst (stamps nodes ts)) os).
  { induction HT as [|[n t] xs H _ (os & I1 & I2 & I3)]; [exists []; repeat split; constructor|]. cbn [fst snd] in H.
    destruct (batches_matching fadd wval wor wm parts g types n t C H) as (o & l & E & Eo & Hi & Hl).
    exists (o :: os). cbn [mapM fst snd map]. rewrite E. cbn [bind]. rewrite I1. split; [reflexivity|]. split.
    - constructor; [|exact I2]. exists l. auto.
    - constructor; [|exact I3]. unfold known. unfold node_batches in E. destruct (occurrences g n) as [[q|]|]; cbn [bind] in E; [|now injection E as <-|discriminate].
      destruct (mapM _ q); [|discriminate]. now injection E as <-. }
  destruct H as (os & H1 & H2 & H3). exists os, known. split; [exact H1|]. split; [exact H2|].
  replace (map fst (stamps nodes ts)) with nodes in H3; [exact H3|].
  clear - Hst. unfold stamps, stamped in *. destruct ts as [l|].
  - rewrite map_map. cbn [fst]. revert l Hst. induction nodes as [|n nodes IH]; intros [|t l] H; try discriminate; [reflexivity|].
    cbn [combine map fst]. rewrite <- IH; [reflexivity|cbn in H; lia].
  - rewrite map_map. cbn [fst]. symmetry. apply map_id.
Qed.

Lemma serve_without_spec skip pick wm parts g types nodes ts count default :
  converted fadd wval wm parts g -> Forall (fun x => times_ok true wm parts (snd x)) (stamps nodes ts) -> stamped nodes ts ->
  (forall i c, 1 <= skip i c) -> (forall i c, pick i c < count) ->
  exists rows, serve_without skip pick g (make_sorted_list types) nodes ts count default = Ok (reply_of nodes rows) /\
   aligned count nodes rows /\
   Forall2 (fun x o => exists l, offered wm types x parts l /\ chosen_or count default l o) (stamps nodes ts) rows.
Proof.
  intros C HT Hst Hs Hp. destruct (server_batches_spec true wm parts g types nodes ts C HT Hst) as (os & known & E & Fo & Fk).
  unfold serve_without. rewrite E. cbn [bind].
  assert (H : forall k, exists rows, mapM (fun x => row_without (skip (fst x)) (pick (fst x)) count default (snd x)) (indexed_from k os) = Ok rows /\
    rows_of count rows /\
    Forall2 (fun o row => (match o with None => row = None | Some bs => exists e, row = Some e /\ chosen count default (concat bs) e end)) os rows).
  { clear - Hs Hp. induction os as [|o os IH]; intro k; [exists []; repeat split; constructor|]. destruct (IH (S k)) as (rows & I1 & I2 & I3).
    cbn [indexed_from mapM fst snd]. destruct o as [bs|].
    - destruct (row_without_chosen (skip k) (pick k) count default bs (Hs k) (Hp k)) as (e & Ee & He & Le). rewrite Ee. cbn [bind]. rewrite I1.
      exists (Some e :: rows). split; [reflexivity|]. split; [constructor; assumption|]. constructor; [|exact I3]. exists e. auto.
    - cbn [row_without bind]. rewrite I1. exists (None :: rows). split; [reflexivity|]. split; [now constructor|]. constructor; [reflexivity|exact I3]. }
  destruct (H 0) as (rows & -> & Hr & Fr). cbn [bind]. exists rows. split; [reflexivity|]. split.
  - split; [exact Hr|]. exists known. clear - Fk Fr. revert rows Fr. induction Fk as [|n o nodes os H _ IH]; intros rows Fr; inversion Fr; subst; constructor.
    + rewrite H. destruct o; [destruct H2 as (e & -> & _); reflexivity|subst; reflexivity].
    + now apply IH.
  - clear - Fo Fr. revert rows Fr. induction Fo as [|x o xs os H _ IH]; intros rows Fr; inversion Fr; subst; constructor; [|now apply IH].
    exists (concat (batches_of o)). split; [exact H|]. destruct o as [bs|]; cbn [batches_of].
    + destruct H2 as (e & -> & He). exact He.
    + now subst.
Qed.

Lemma columns_spec {X A S} (P : X -> S -> option A -> Prop) (xs : list X) (ss : list S) rowss :
  Forall2 (fun s rows => Forall2 (fun x o => P x s o) xs rows) ss rowss ->
  Forall2 (fun x es => exists os, es = present os /\ Forall2 (P x) ss os) xs (columns (length xs) rowss).
Proof.
  revert rowss. induction xs as [|x xs IH]; intros rowss F; [constructor|]. cbn [length columns]. constructor.
  - exists (map (hd None) rowss). split; [reflexivity|]. clear IH. induction F as [|s rows ss rowss H _ IHF]; cbn [map]; constructor; [|exact IHF].
    inversion H; subst. assumption.
  - apply IH. clear IH. induction F as [|s rows ss rowss H _ IHF]; cbn [map]; constructor; [|exact IHF]. inversion H; subst. assumption.
Qed.

Lemma no_null ret nodes ts count : (ret = true -> ts <> None) -> fills_null ret nodes ts count = false.
Proof. unfold fills_null. destruct ret; [|reflexivity]. destruct ts; [now rewrite andb_false_r|]. intro H. now destruct (H eq_refl). Qed.

Theorem d_without_distinct wm split gs nodes types ts count default skip pick ret out :
  Forall2 (converted fadd wval wm) split gs -> stamped nodes ts -> (ret = true -> ts <> None) ->
  Forall (fun parts => Forall (fun x => times_ok true wm parts (snd x)) (stamps nodes ts)) split ->
  (forall s i c, 1 <= skip s i c) -> (forall s i c, pick s i c < count) ->
  may (d_uniform_without skip pick ret gs nodes types ts count default) out ->
  exists rows, out = Ok rows /\
   Forall2 (fun x row => exists ls r, row = filled ls default r /\ distinct_picks count ls r /\ Forall2 (offered wm types x) split ls)
            (stamps nodes ts) rows.
Proof.
  intros FC Hst Hret HT Hs Hp H. unfold d_uniform_without in H.
  assert (HS : forall k, exists rowss, mapM (fun x => serve_without (skip (fst x)) (pick (fst x)) (snd x) (make_sorted_list types) nodes ts count default)
      (indexed_from k gs) = Ok (map (reply_of nodes) rowss) /\ Forall (aligned count nodes) rowss /\
     Forall2 (fun parts rows => Forall2 (fun x o => exists l, offered wm types x parts l /\ chosen_or count default l o) (stamps nodes ts) rows) split rowss).
  { clear - FC HT Hst Hs Hp. induction FC as [|parts g split gs C _ IH]; intro k; [exists []; repeat split; constructor|].
    inversion HT as [|? ? T1 T2]; subst. destruct (IH T2 (S k)) as (rowss & I1 & I2 & I3).
    destruct (serve_without_spec (skip k) (pick k) wm parts g types nodes ts count default C T1 Hst (Hs k) (Hp k)) as (rows & E & A & F).
    exists (rows :: rowss). cbn [indexed_from mapM fst snd map]. rewrite E. cbn [bind]. rewrite I1.
    split; [reflexivity|]. split; constructor; assumption. }
  destruct (HS 0) as (rowss & E & FA & FR). rewrite E in H. cbn [bind] in H. unfold d_entries in H. rewrite no_null in H by assumption.
  rewrite (entries_columns count nodes rowss FA) in H.
  destruct H as (p & H & Np). unfold dmap in H. apply in_map_iff in H as ([l q] & El & H). cbn [fst snd] in El. injection El as <- <-.
  assert (M : may (dlist (map (fun es => merge_without count 0 es (repeat None count)) (columns (length nodes) rowss))) l) by (exists q; auto).
  apply may_dlist in M. rewrite <- (stamps_length nodes ts Hst) in M.
  pose proof (columns_spec _ _ _ _ FR) as FC'. clear FR H Np E HS HT. revert l M.
  induction FC' as [|x es xs ess (os & -> & Fo) _ IH]; intros l M; cbn [map] in M; inversion M as [|? o ? l' Mo Ml]; subst.
  - exists []. split; [reflexivity|constructor].
  - assert (HL : exists ls, Forall2 (offered wm types x) split ls /\ Forall2 (chosen_or count default) ls os).
    { clear - Fo. induction Fo as [|parts o split os (l & H1 & H2) _ (ls & I1 & I2)]; [exists []; split; constructor|].
      exists (l :: ls). split; constructor; assumption. }
    destruct HL as (ls & L1 & L2). destruct (merge_without_distinct count default ls os o L2 Mo) as (r & (o' & -> & Eo) & D).
    destruct (IH l' Ml) as (rows & Er & Fr). cbn [sequence bind]. destruct (sequence l') as [ll|e]; [|discriminate]. cbn [bind] in *.
    injection Er as Er. exists (or_default default o' :: rows). split; [cbn [map]; now rewrite Er|]. constructor; [|exact Fr].
    exists ls, r. auto.
Qed.
End Servers.
