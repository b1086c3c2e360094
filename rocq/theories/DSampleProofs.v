(** Sampling nodes and edges through servers. *)
From Verif Require Import Base Dist SamplerModel SamplerProofs MultinomialProofs DMergeModel.
From Coq Require Import Lqa ZifyBool ZifyNat ZifyN.
Local Open Scope nat_scope.

(** ** Specification *)
(** The total a list of requests asks for. *)
Definition count_of (r : option nat) : nat := match r with Some c => c | None => 0 end.
Definition asked (reqs : list (option nat)) : nat := fold_right (fun r n => count_of r + n) 0 reqs.
(** Only servers with a sampler are asked, and those without an element of the types for nothing. *)
Definition fair (s : shard) (r : option nat) : Prop := count_of r <> 0 -> exists w, s = HasSampler w /\ (0 < w)%Q.
(** One draw of a server: its share of the weight. *)
Definition pick_shard (ws : list Q) : dist nat := map (fun x => (fst x, snd x / total ws)%Q) (combine (seq 0 (length ws)) ws).
(** The last server with a sampler has an element. *)
Definition ends_well (ss : list shard) : Prop := exists l w, ss = l ++ HasSampler w :: repeat NoSampler (length ss - length l - 1) /\ (0 < w)%Q.
Local Open Scope Q_scope.
Definition nonneg (ss : list shard) : Prop := Forall (fun s => 0 <= shard_weight s) ss.

Lemma weights_nonneg ss : nonneg ss -> 0 <= qsum shard_weight ss.
Proof. intros H. apply qsum_nonneg. unfold nonneg in H. rewrite Forall_forall in H. exact H. Qed.
Lemma ends_tail s ss : ends_well (s :: ss) -> (exists w, s = HasSampler w /\ 0 < w /\ ss = repeat NoSampler (length ss)) \/ ends_well ss.
Proof.
  intros ([|s' l] & w & E & P); cbn [app length] in E; injection E as -> E.
  - left. exists w. split; [reflexivity|]. split; [exact P|]. rewrite E at 1. f_equal. lia.
  - right. exists l, w. split; [|exact P]. rewrite E at 1. do 3 f_equal; lia.
Qed.
Lemma ends_pos ss : nonneg ss -> ends_well ss -> 0 < qsum shard_weight ss.
Proof.
  intros N (l & w & E & P). rewrite E in *. rewrite qsum_app. cbn [qsum shard_weight]. apply Forall_app in N as [N1 N2]. apply weights_nonneg in N1.
  apply Forall_inv_tail, weights_nonneg in N2. lra.
Qed.
Lemma none_weight k : qsum shard_weight (repeat NoSampler k) == 0.
Proof. induction k as [|k IH]; cbn [repeat qsum shard_weight]; [reflexivity|]. rewrite IH. reflexivity. Qed.

Lemma outcome_bind {A B} (m : prog A) (k : A -> prog B) r : outcome (pbind m k) r ->
  (exists a, outcome m (Ok a) /\ outcome (k a) r) \/ (exists e, outcome m (Fail e) /\ r = Fail e).
Proof.
  induction m as [a|e|n p h IH]; cbn [pbind outcome].
  - left. exists a. auto.
  - right. exists e. auto.
  - intros (c & P & H). destruct (IH c H) as [(a & H1 & H2)|(e & H1 & H2)]; [left; exists a|right; exists e]; split; auto; exists c; auto.
Qed.

Lemma nodes_none k left r : outcome (node_requests (shares (repeat NoSampler k)) left) r -> r = Ok (repeat None k).
Proof.
  revert r. induction k as [|k IH]; intros r; cbn [repeat shares node_requests]; [cbn [outcome]; auto|].
  intros H. apply outcome_bind in H as [(a & H1 & H2)|(e & H1 & ->)].
  - cbn [outcome] in H2. subst r. apply IH in H1. injection H1 as ->. reflexivity.
  - apply IH in H1. discriminate.
Qed.
Lemma asked_none k : asked (repeat None k) = 0%nat.
Proof. induction k as [|k IH]; cbn [repeat asked fold_right count_of]; [reflexivity|exact IH]. Qed.
Lemma fair_none k : Forall2 fair (repeat NoSampler k) (repeat None k).
Proof. induction k; cbn [repeat]; constructor; auto. intros H. now destruct H. Qed.

Lemma node_requests_all ss : nonneg ss -> ends_well ss -> forall left r, outcome (node_requests (shares ss) left) r ->
  exists reqs, r = Ok reqs /\ Forall2 fair ss reqs /\ asked reqs = left /\
    Forall2 (fun s q => s = NoSampler <-> q = None) ss reqs.
Proof.
  induction ss as [|s ss IH]; intros N E left r H.
  - destruct E as (l & w & E & _). destruct l; discriminate.
  - pose proof (ends_pos _ N E) as Pos. cbn [qsum] in Pos. cbn [shares node_requests qsum] in H.
    destruct s as [|w].
    + apply ends_tail in E as [(w & E & _)|E]; [discriminate|]. apply Forall_inv_tail in N. cbn [node_requests] in H.
      apply outcome_bind in H as [(a & H1 & H2)|(e & H1 & ->)]; destruct (IH N E _ _ H1) as (reqs & Er & F & A & NS); [|discriminate].
      injection Er as ->. cbn [outcome] in H2. exists (None :: reqs). split; [exact H2|]. split; [|split; [exact A|]].
      * constructor; [|exact F]. intros K. now destruct K.
      * constructor; [|exact NS]. tauto.
    + cbn [shard_weight] in H, Pos. destruct (Qeq_bool _ 0) eqn:Z; [apply Qeq_bool_iff in Z; lra|]. cbn [node_requests outcome] in H.
      destruct H as (c & (C1 & C2 & C3) & H).
      assert (Hw : 0 <= w) by exact (Forall_inv N). apply Forall_inv_tail in N as N'. pose proof (weights_nonneg _ N') as Nt.
      assert (Fc : fair (HasSampler w) (Some c)).
      { intros K. cbn [count_of] in K. exists w. split; [reflexivity|]. apply Qnot_le_lt. intros Le. apply K, C2.
        assert (W0 : w == 0) by lra. rewrite W0. unfold Qdiv. rewrite Qmult_0_l. apply Qle_refl. }
      destruct (ends_tail _ _ E) as [(w' & Ew & Pw & Et)|E'].
      * injection Ew as <-. assert (Hc : c = left).
        { apply C3. assert (S0 : qsum shard_weight ss == 0) by (rewrite Et; apply none_weight). rewrite S0. 
          assert (R : w / (w + 0) == 1) by (field; lra). rewrite R. apply Qle_refl. }
        apply outcome_bind in H as [(a & H1 & H2)|(e & H1 & ->)]; rewrite Et in H1; apply nodes_none in H1; [|discriminate].
        injection H1 as ->. cbn [outcome] in H2. exists (Some c :: repeat None (length ss)). split; [exact H2|]. split; [|split].
        -- constructor; [exact Fc|]. rewrite Et at 1. apply fair_none.
        -- cbn [asked fold_right count_of]. fold (asked (repeat None (length ss))). rewrite asked_none. lia.
        -- constructor; [split; discriminate|]. rewrite Et at 1. clear. induction ss; cbn [length repeat]; constructor; tauto.
      * apply outcome_bind in H as [(a & H1 & H2)|(e & H1 & ->)]; destruct (IH N' E' _ _ H1) as (reqs & Er & F & A & NS); [|discriminate].
        injection Er as ->. cbn [outcome] in H2. exists (Some c :: reqs). split; [exact H2|]. split; [|split].
        -- constructor; auto.
        -- cbn [asked fold_right count_of]. fold (asked reqs). lia.
        -- constructor; [split; discriminate|exact NS].
Qed.

Lemma edges_zero ss : forall r, outcome (edge_requests (shares ss) 0) r -> r = Ok (repeat None (length ss)).
Proof.
  induction ss as [|s ss IH]; intros r; cbn [shares edge_requests]; [cbn [outcome]; auto|]. cbn [Nat.eqb]. intros H.
  apply outcome_bind in H as [(a & H1 & H2)|(e & H1 & ->)]; apply IH in H1; [|discriminate].
  injection H1 as ->. exact H2.
Qed.
Lemma fair_nothing ss : Forall2 fair ss (repeat None (length ss)).
Proof. induction ss; cbn [length repeat]; constructor; auto. intros H. now destruct H. Qed.

Lemma weight_split s ss : nonneg (s :: ss) -> 0 < qsum shard_weight (s :: ss) ->
  (qsum shard_weight ss == 0 /\ exists w, s = HasSampler w /\ 0 < w) \/ 0 < qsum shard_weight ss.
Proof.
  intros N P. cbn [qsum] in P. pose proof (weights_nonneg _ (Forall_inv_tail N)) as Nt. pose proof (Forall_inv N) as Ns.
  destruct (Qlt_le_dec 0 (qsum shard_weight ss)) as [L|L]; [now right|]. left. split; [lra|]. destruct s as [|w]; cbn [shard_weight] in *; [lra|]. exists w. split; [reflexivity|lra].
Qed.
Lemma edge_requests_all ss : nonneg ss -> forall left r, left = 0%nat \/ 0 < qsum shard_weight ss -> outcome (edge_requests (shares ss) left) r ->
  exists reqs, r = Ok reqs /\ Forall2 fair ss reqs /\ asked reqs = left.
Proof.
  induction ss as [|s ss IH]; intros N left r P H; (destruct left as [|left]; [apply edges_zero in H; eexists; split; [exact H|]; split; [apply fair_nothing|apply asked_none]|]);
    (destruct P as [P|P]; [discriminate|]); [cbn [qsum] in P; lra|].
  cbn [shares edge_requests Nat.eqb] in H. destruct (Qeq_bool _ 0) eqn:Z; [apply Qeq_bool_iff in Z; lra|]. cbn [outcome] in H. destruct H as (c & (C1 & C2 & C3) & H).
  apply Forall_inv_tail in N as N'. assert (Hs : 0 <= shard_weight s) by exact (Forall_inv N).
  destruct (weight_split _ _ N P) as [(T0 & w & -> & Pw)|Pt].
  - assert (c = S left).
    { apply C3. cbn [qsum shard_weight]. rewrite T0. assert (R : w / (w + 0) == 1) by (field; lra). rewrite R. apply Qle_refl. }
    subst c. rewrite Nat.sub_diag in H. apply outcome_bind in H as [(a & H1 & H2)|(e & H1 & ->)]; apply edges_zero in H1; [|discriminate].
    injection H1 as ->. exists (Some (S left) :: repeat None (length ss)). split; [exact H2|]. split.
    + constructor; [intros _; eauto|apply fair_nothing].
    + cbn [asked fold_right count_of]. fold (asked (repeat None (length ss))). rewrite asked_none. lia.
  - assert (Fc : fair s (Some c)).
    { intros K. cbn [count_of] in K. assert (Pw : 0 < shard_weight s).
      { apply Qnot_le_lt. intros Le. apply K, C2. assert (V0 : shard_weight s == 0) by lra. rewrite V0. unfold Qdiv. rewrite Qmult_0_l. apply Qle_refl. }
      destruct s as [|w]; cbn [shard_weight] in Pw; [lra|]. eauto. }
    assert (H' : outcome (pbind (edge_requests (shares ss) (S left - c)) (fun l => Ret (Some c :: l))) r).
    { destruct s as [|w]; [|exact H]. destruct c as [|c]; [exact H|]. destruct Fc as (w & E & _); [discriminate|discriminate E]. }
    apply outcome_bind in H' as [(a & H1 & H2)|(e & H1 & ->)]; destruct (IH N' _ _ (or_intror Pt) H1) as (reqs & Er & F & A); [|discriminate].
    injection Er as ->. exists (Some c :: reqs). split; [exact H2|]. split; [constructor; auto|].
    cbn [asked fold_right count_of]. fold (asked reqs). lia.
Qed.
(** Without any element there is nothing to divide by. *)
Lemma edges_nothing s ss left r : qsum shard_weight (s :: ss) == 0 -> outcome (edge_requests (shares (s :: ss)) (S left)) r -> r = Fail EUB.
Proof. intros H. cbn [shares edge_requests Nat.eqb]. apply Qeq_bool_iff in H. rewrite H. auto. Qed.

(** ** The law *)
Lemma ex_pick_shard ws g : ex (pick_shard ws) g == wsum ws g / total ws.
Proof.
  unfold ex, pick_shard. rewrite qsum_map. cbn [fst snd].
  rewrite (qsum_ext _ (fun a => snd a * g (fst a) * / total ws)) by (intros; unfold Qdiv; ring). rewrite qsum_scale_r, wsum_list. reflexivity.
Qed.
Lemma parts_draws ws n f : Forall (fun w => 0 <= w) ws -> 0 < total ws ->
  ex (dparts ws n) f == ex (draws n (pick_shard ws)) (fun ds => f (map (count_occ Nat.eq_dec ds) (seq 0 (length ws)))).
Proof.
  intros H T. revert f. induction n as [|n IH]; intros f.
  - cbn [draws]. rewrite ex_ret, parts_zero.
    assert (E : forall m a, repeat 0%nat m = map (count_occ Nat.eq_dec []) (seq a m)) by (induction m as [|m IHm]; intros a; cbn [repeat seq map count_occ]; [reflexivity|now rewrite <- IHm]).
    rewrite (E (length ws) 0%nat). reflexivity.
  - rewrite (parts_more ws H T), ex_draws, ex_pick_shard. apply Qmult_comp; [|reflexivity]. apply wsum_ext. intros i.
    rewrite (IH (fun l => f (bump i l))). apply ex_ext_all. intros ds. rewrite bump_seq.
    assert (E : map (fun j => if (0 + i =? j)%nat then S (count_occ Nat.eq_dec ds j) else count_occ Nat.eq_dec ds j) (seq 0 (length ws)) =
      map (count_occ Nat.eq_dec (i :: ds)) (seq 0 (length ws))); [|now rewrite E].
    apply map_ext. intros j. cbn [count_occ Nat.add]. destruct (Nat.eq_dec i j) as [->|Ne]; [now rewrite Nat.eqb_refl|].
    replace (i =? j)%nat with false by (symmetry; now apply Nat.eqb_neq). reflexivity.
Qed.

Definition on_counts (f : list nat -> Q) (r : res (list (option nat))) : Q := match r with Ok l => f (map count_of l) | Fail _ => 0 end.
Lemma ex_binom_zero n p f : p == 0 -> ex (dbinom n p) f == f 0%nat.
Proof. intros P. revert f. induction n as [|n IH]; intros f; [cbn [dbinom]; apply ex_ret|]. rewrite ex_binom_S, !IH, P. ring. Qed.
Lemma ex_binom_one n p f : p == 1 -> ex (dbinom n p) f == f n.
Proof. intros P. revert f. induction n as [|n IH]; intros f; [cbn [dbinom]; apply ex_ret|]. rewrite ex_binom_S, !IH, P. ring. Qed.
Lemma total_weights ss : total (map shard_weight ss) == qsum shard_weight ss.
Proof. unfold total. now rewrite qsum_map. Qed.

(** Nothing is left for the servers after the last one with an element. *)
Lemma law_none k (f : res (list (option nat)) -> Q) : forall left, ex (law (node_requests (shares (repeat NoSampler k)) left)) f == f (Ok (repeat None k)).
Proof.
  revert f. induction k as [|k IH]; intros f left; cbn [repeat shares node_requests]; [cbn [law]; apply ex_ret|].
  rewrite ex_law_bind, IH. cbn [law]. apply ex_ret.
Qed.
Lemma parts_none k f : forall left, ex (dparts (map shard_weight (repeat NoSampler k)) left) f == f (repeat 0%nat k).
Proof.
  revert f. induction k as [|k IH]; intros f left; cbn [repeat map]; [cbn [dparts]; apply ex_ret|].
  rewrite ex_parts, ex_binom_zero by (cbn [shard_weight]; unfold Qdiv; ring). apply (IH (fun l => f (0%nat :: l))).
Qed.
Lemma count_none k : map count_of (repeat None k) = repeat 0%nat k.
Proof. induction k as [|k IH]; cbn [repeat map count_of]; [reflexivity|now rewrite IH]. Qed.
Lemma node_law ss : nonneg ss -> ends_well ss -> forall left f,
  ex (law (node_requests (shares ss) left)) (on_counts f) == ex (dparts (map shard_weight ss) left) f.
Proof.
  induction ss as [|s ss IH]; intros N E left f.
  - destruct E as (l & w & E & _). destruct l; discriminate.
  - pose proof (ends_pos _ N E) as Pos. apply Forall_inv_tail in N as N'. pose proof (weights_nonneg _ N') as Nt. cbn [map]. rewrite ex_parts.
    assert (TW : total (shard_weight s :: map shard_weight ss) == qsum shard_weight (s :: ss)) by apply (total_weights (s :: ss)).
    destruct s as [|w].
    + apply ends_tail in E as [(w & E & _)|E]; [discriminate|]. rewrite ex_binom_zero by (cbn [shard_weight]; unfold Qdiv; ring). rewrite Nat.sub_0_r.
      rewrite <- (IH N' E left (fun l => f (0%nat :: l))). cbn [shares node_requests]. rewrite ex_law_bind.
      apply ex_ext_all. intros [l|e]; cbn [law on_counts]; [now rewrite ex_ret|reflexivity].
    + cbn [shares node_requests]. destruct (Qeq_bool _ 0) eqn:Z; [apply Qeq_bool_iff in Z; lra|]. cbn [node_requests law shard_weight]. rewrite ex_bind.
      rewrite (ex_binom_eq _ (w / total _) (w / qsum shard_weight (HasSampler w :: ss))) by (cbn [shard_weight] in TW; rewrite TW; reflexivity).
      destruct (ends_tail _ _ E) as [(w' & Ew & Pw & Et)|E'].
      * injection Ew as <-. assert (R : w / qsum shard_weight (HasSampler w :: ss) == 1).
        { cbn [qsum shard_weight]. rewrite Et, none_weight. field. lra. }
        rewrite !(ex_binom_one _ _ _ R). rewrite ex_law_bind, Et, law_none. cbn [law]. rewrite ex_ret. cbn [on_counts map count_of].
        rewrite (parts_none _ (fun l => f (left :: l))), count_none. reflexivity.
      * apply ex_ext_all. intros c. rewrite <- (IH N' E' (left - c)%nat (fun l => f (c :: l))). rewrite ex_law_bind.
        apply ex_ext_all. intros [l|e]; cbn [law on_counts]; [now rewrite ex_ret|reflexivity].
Qed.
Lemma law_zero ss : forall f, ex (law (edge_requests (shares ss) 0)) f == f (Ok (repeat None (length ss))).
Proof.
  induction ss as [|s ss IH]; intros f; cbn [shares edge_requests Nat.eqb length repeat]; [cbn [law]; apply ex_ret|].
  rewrite ex_law_bind, IH. cbn [law]. apply ex_ret.
Qed.
Lemma edge_law ss : nonneg ss -> forall left f, left = 0%nat \/ 0 < qsum shard_weight ss ->
  ex (law (edge_requests (shares ss) left)) (on_counts f) == ex (dparts (map shard_weight ss) left) f.
Proof.
  assert (Zero : forall ss f, ex (law (edge_requests (shares ss) 0)) (on_counts f) == ex (dparts (map shard_weight ss) 0) f).
  { intros ss' f. rewrite law_zero, parts_zero, map_length. cbn [on_counts]. now rewrite count_none. }
  induction ss as [|s ss IH]; intros N left f P; (destruct left as [|left]; [apply Zero|]); (destruct P as [P|P]; [discriminate|]); [cbn [qsum] in P; lra|].
  apply Forall_inv_tail in N as N'.
  cbn [map]. rewrite ex_parts. rewrite (ex_binom_eq _ (shard_weight s / total _) (shard_weight s / qsum shard_weight (s :: ss))).
  2:{ unfold total. cbn [qsum]. fold (total (map shard_weight ss)). rewrite total_weights. reflexivity. }
  cbn [shares edge_requests Nat.eqb]. destruct (Qeq_bool _ 0) eqn:Z; [apply Qeq_bool_iff in Z; lra|]. cbn [law]. rewrite ex_bind.
  destruct (weight_split _ _ N P) as [(T0 & w & -> & Pw)|Pt].
  - assert (R : shard_weight (HasSampler w) / qsum shard_weight (HasSampler w :: ss) == 1) by (cbn [qsum shard_weight]; rewrite T0; field; lra).
    rewrite !(ex_binom_one _ _ _ R), ex_law_bind, Nat.sub_diag, law_zero, parts_zero, map_length. cbn [law]. rewrite ex_ret. cbn [on_counts map count_of]. now rewrite count_none.
  - assert (Step : forall c, ex (law (pbind (edge_requests (shares ss) (S left - c)) (fun l => Ret (Some c :: l)))) (on_counts f) ==
      ex (dparts (map shard_weight ss) (S left - c)) (fun l => f (c :: l))).
    { intros c. rewrite <- (IH N' (S left - c)%nat (fun l => f (c :: l)) (or_intror Pt)). rewrite ex_law_bind.
      apply ex_ext_all. intros [r|e]; cbn [law on_counts]; [now rewrite ex_ret|reflexivity]. }
    destruct s as [|v].
    + assert (R : shard_weight NoSampler / qsum shard_weight (NoSampler :: ss) == 0) by (cbn [shard_weight]; unfold Qdiv; ring).
      rewrite !(ex_binom_zero _ _ _ R). apply Step.
    + apply ex_ext_all. intros c. apply Step.
Qed.

(** ** The answer *)
Local Open Scope nat_scope.
(** The draws in the order of the servers. *)
Fixpoint replies {A} (draw : nat -> nat -> list A) (i : nat) (reqs : list (option nat)) : list A :=
  match reqs with [] => [] | None :: t => replies draw (S i) t | Some c :: t => draw i c ++ replies draw (S i) t end.

Lemma write_next {A} (a b : list A) (m : nat) : length b <= m ->
  write_at (length a) b (map Some a ++ repeat None m) = map Some (a ++ b) ++ repeat None (m - length b).
Proof.
  intros H. unfold write_at. rewrite firstn_app, map_length, Nat.sub_diag. cbn [firstn]. rewrite app_nil_r.
  rewrite firstn_all2 by (now rewrite map_length). rewrite skipn_app, skipn_all2 by (rewrite map_length; lia). cbn [app].
  rewrite map_length, map_app, <- app_assoc. do 2 f_equal. replace (length a + length b - length a) with (length b) by lia.
  clear a. revert b H. induction m as [|m IH]; intros [|x b] H; cbn [length repeat skipn Nat.sub] in *; try reflexivity. apply IH. lia.
Qed.
Lemma fill_nodes_all {A} (draw : nat -> nat -> list A) reqs : (forall i c, length (draw i c) = c) -> forall i done m, asked reqs <= m ->
  fill_nodes draw i (length done) reqs (map Some done ++ repeat None m) = map Some (done ++ replies draw i reqs) ++ repeat None (m - asked reqs).
Proof.
  intros HL. induction reqs as [|[c|] reqs IH]; intros i dn m H; cbn [fill_nodes replies asked fold_right count_of] in *.
  - now rewrite app_nil_r, Nat.sub_0_r.
  - fold (asked reqs) in *. rewrite write_next by (rewrite HL; lia). rewrite HL.
    replace (length dn + c) with (length (dn ++ draw i c)) by (rewrite app_length, HL; reflexivity).
    rewrite IH by lia. rewrite <- app_assoc. do 2 f_equal. lia.
  - apply IH. exact H.
Qed.
Lemma replies_map {A B} (h : A -> B) draw reqs : forall i, map h (replies draw i reqs) = replies (fun i c => map h (draw i c)) i reqs.
Proof. induction reqs as [|[c|] reqs IH]; intros i; cbn [replies]; [reflexivity| |apply IH]. now rewrite map_app, IH. Qed.
Lemma fill_edges_all draw reqs : (forall i c, length (draw i c) = c) -> forall i pos a b,
  fill_edges draw i pos reqs (a, b) = (fill_nodes (fun i c => map fst (draw i c)) i pos reqs a, fill_nodes (fun i c => map snd (draw i c)) i pos reqs b).
Proof.
  intros HL. induction reqs as [|[c|] reqs IH]; intros i pos a b; cbn [fill_edges fill_nodes]; [reflexivity| |apply IH].
  cbn [fst snd]. rewrite IH. unfold edge_reply.
  assert (E1 : firstn c (map fst (draw i c) ++ map snd (draw i c)) = map fst (draw i c)).
  { rewrite firstn_app, map_length, HL, Nat.sub_diag. cbn [firstn]. rewrite app_nil_r. apply firstn_all2. now rewrite map_length, HL. }
  assert (E2 : firstn c (skipn c (map fst (draw i c) ++ map snd (draw i c))) = map snd (draw i c)).
  { rewrite skipn_app, map_length, HL, Nat.sub_diag. cbn [skipn]. rewrite skipn_all2 by (now rewrite map_length, HL). cbn [app]. apply firstn_all2. now rewrite map_length, HL. }
  now rewrite E1, E2.
Qed.
Lemma replies_length {A} (draw : nat -> nat -> list A) reqs : (forall i c, length (draw i c) = c) -> forall i, length (replies draw i reqs) = asked reqs.
Proof.
  intros HL. induction reqs as [|[c|] reqs IH]; intros i; cbn [replies asked fold_right count_of]; [reflexivity| |apply IH].
  fold (asked reqs). now rewrite app_length, HL, IH.
Qed.
Lemma replies_from {A} (draw : nat -> nat -> list A) ss reqs : (forall i c, length (draw i c) = c) -> Forall2 fair ss reqs -> forall i x, In x (replies draw i reqs) ->
  exists k w c, nth_error ss k = Some (HasSampler w) /\ (0 < w)%Q /\ In x (draw (i + k) c).
Proof.
  intros HL F. induction F as [|s r ss reqs Hf _ IH]; intros i x H; cbn [replies] in H; [destruct H|].
  assert (Next : In x (replies draw (S i) reqs) -> exists k w c, nth_error (s :: ss) k = Some (HasSampler w) /\ (0 < w)%Q /\ In x (draw (i + k) c)).
  { intros K. destruct (IH _ _ K) as (k & w & c & H1 & H2 & H3). exists (S k), w, c. split; [exact H1|]. split; [exact H2|]. now rewrite Nat.add_succ_r. }
  destruct r as [c|]; [|auto]. apply in_app_or in H as [H|H]; [|auto].
  destruct Hf as (w & -> & Pw). { cbn [count_of]. intros ->. pose proof (HL i 0) as L0. destruct (draw i 0); [destruct H|discriminate]. }
  exists 0, w, c. split; [reflexivity|]. split; [exact Pw|]. now rewrite Nat.add_0_r.
Qed.

Lemma nodes_filled {A} ss size (draw : nat -> nat -> list A) r : nonneg ss -> ends_well ss -> (forall i c, length (draw i c) = c) ->
  outcome (node_requests (shares ss) size) r -> exists reqs ids, r = Ok reqs /\ fill_nodes draw 0 0 reqs (repeat None size) = map Some ids /\ length ids = size /\
    forall x, In x ids -> exists k w c, nth_error ss k = Some (HasSampler w) /\ (0 < w)%Q /\ In x (draw k c).
Proof.
  intros N E HL H. destruct (node_requests_all ss N E _ _ H) as (reqs & -> & F & Ha & _). exists reqs, (replies draw 0 reqs). split; [reflexivity|]. split; [|split].
  - pose proof (fill_nodes_all draw reqs HL 0 [] size ltac:(lia)) as K. cbn [map app length] in K. rewrite K, Ha, Nat.sub_diag. cbn [repeat]. now rewrite app_nil_r.
  - now rewrite replies_length.
  - intros x Hx. exact (replies_from draw ss reqs HL F 0 x Hx).
Qed.
Lemma edges_filled ss size (draw : nat -> nat -> list (Z * Z)) r : nonneg ss -> size = 0 \/ (0 < qsum shard_weight ss)%Q -> (forall i c, length (draw i c) = c) ->
  outcome (edge_requests (shares ss) size) r -> exists reqs es, r = Ok reqs /\
    fill_edges draw 0 0 reqs (repeat None size, repeat None size) = (map Some (map fst es), map Some (map snd es)) /\ length es = size /\
    forall x, In x es -> exists k w c, nth_error ss k = Some (HasSampler w) /\ (0 < w)%Q /\ In x (draw k c).
Proof.
  intros N E HL H. destruct (edge_requests_all ss N _ _ E H) as (reqs & -> & F & Ha). exists reqs, (replies draw 0 reqs). split; [reflexivity|]. split; [|split].
  - rewrite (fill_edges_all draw reqs HL).
    assert (H1 : forall i c, length (map fst (draw i c)) = c) by (intros; now rewrite map_length).
    assert (H2 : forall i c, length (map snd (draw i c)) = c) by (intros; now rewrite map_length).
    pose proof (fill_nodes_all _ reqs H1 0 [] size ltac:(lia)) as K1. pose proof (fill_nodes_all _ reqs H2 0 [] size ltac:(lia)) as K2. cbn [map app length] in K1, K2.
    rewrite K1, K2, Ha, Nat.sub_diag. cbn [repeat]. rewrite !app_nil_r, !replies_map. reflexivity.
  - now rewrite replies_length.
  - intros x Hx. exact (replies_from draw ss reqs HL F 0 x Hx).
Qed.

(** The servers are asked like independent draws of servers by weight. *)
Lemma nodes_multinomial ss size f : nonneg ss -> ends_well ss ->
  (ex (law (node_requests (shares ss) size)) (on_counts f) ==
   ex (draws size (pick_shard (map shard_weight ss))) (fun ds => f (map (count_occ Nat.eq_dec ds) (seq 0 (length ss)))))%Q.
Proof.
  intros N E. rewrite (node_law ss N E), parts_draws, map_length; [reflexivity| |].
  - unfold nonneg in N. now rewrite Forall_map.
  - rewrite total_weights. now apply ends_pos.
Qed.
Lemma edges_multinomial ss size f : nonneg ss -> (0 < qsum shard_weight ss)%Q ->
  (ex (law (edge_requests (shares ss) size)) (on_counts f) ==
   ex (draws size (pick_shard (map shard_weight ss))) (fun ds => f (map (count_occ Nat.eq_dec ds) (seq 0 (length ss)))))%Q.
Proof.
  intros N E. rewrite (edge_law ss N _ _ (or_intror E)), parts_draws, map_length; [reflexivity| |].
  - unfold nonneg in N. now rewrite Forall_map.
  - now rewrite total_weights.
Qed.
