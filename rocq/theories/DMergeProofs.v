(** Sampling neighbors through servers. *)
From Verif Require Import Base Dist WriterModel LoaderModel GraphModel GraphSpec FeatureModel WriterProofs LoaderProofs QueryProofs GraphProofs ConvertProofs AnswerProofs SearchProofs CountProofs AliasModel ReservoirModel SamplerModel MultinomialProofs NeighborModel NeighborProofs UniformProofs WeightedProofs WeightedLaw WeightedGraph DMergeModel.
From Coq Require Import Lqa Permutation Sorting.Sorted ZifyBool ZifyNat ZifyN.
Local Open Scope nat_scope.

(** ** Programs *)
Lemma routcome_ok {A B} (m : rprog A) (f : A -> rprog B) a r : routcome m (Ok a) -> routcome (f a) r -> routcome (rbind m f) r.
Proof.
  induction m as [x|e|n p k IH|p k IH|b w l k IH]; cbn [routcome rbind]; intros H1 H2.
  - injection H1 as ->. exact H2.
  - discriminate.
  - destruct H1 as (c & P & H). exists c. split; auto.
  - destruct H1 as (c & P & H). exists c. split; auto.
  - destruct H1 as (c & P & H). exists c. split; auto.
Qed.
Lemma routcome_fail {A B} (m : rprog A) (f : A -> rprog B) e : routcome m (Fail e) -> routcome (rbind m f) (Fail e).
Proof.
  induction m as [x|e'|n p k IH|p k IH|b w l k IH]; cbn [routcome rbind]; intros H1.
  - discriminate.
  - injection H1 as ->. reflexivity.
  - destruct H1 as (c & P & H). exists c. split; auto.
  - destruct H1 as (c & P & H). exists c. split; auto.
  - destruct H1 as (c & P & H). exists c. split; auto.
Qed.

Lemma Permutation_filter' {A} (f : A -> bool) l l' : Permutation l l' -> Permutation (filter f l) (filter f l').
Proof.
  induction 1 as [|x l l' _ IH|x y l|l l' l'' _ IH1 _ IH2]; cbn [filter]; [constructor| | |now transitivity (filter f l')].
  - destruct (f x); [now constructor|exact IH].
  - destruct (f x), (f y); try reflexivity. apply perm_swap.
Qed.
Lemma concat_perm' {A} (l l' : list (list A)) : Permutation l l' -> Permutation (concat l) (concat l').
Proof.
  induction 1 as [|x l l' _ IH|x y l|l l' l'' _ IH1 _ IH2]; cbn [concat]; [constructor| | |now transitivity (concat l')].
  - now apply Permutation_app_head.
  - rewrite !app_assoc. apply Permutation_app_tail, Permutation_app_comm.
Qed.
Section Merge.
Variables fadd fsub : N -> N -> N.
Variable qval : N -> Q.
Notation serve_one := (serve_one fadd fsub qval).
Notation serve_weighted := (serve_weighted fadd fsub qval).
Notation merge_cell := (merge_cell fadd qval).
Notation merge_reply := (merge_reply fadd qval).
Notation merge_servers := (merge_servers fadd fsub qval).

(** ** The replies and the requested nodes *)
Fixpoint flat (xs : list (Z * option Z)) (os : list (option (N * list nbr))) : wreply :=
  match xs, os with
  | x :: xs', Some c :: os' => (fst x, c) :: flat xs' os'
  | _ :: xs', None :: os' => flat xs' os'
  | _, _ => []
  end.
Fixpoint merge_each (count : nat) (default : nbr) (cells : list (N * list nbr)) (os : list (option (N * list nbr))) : rprog (list (N * list nbr)) :=
  match cells, os with
  | c :: cells', None :: os' => rbind (merge_each count default cells' os') (fun l => RRet (c :: l))
  | c :: cells', Some r :: os' => rbind (merge_cell count default c r) (fun c' => rbind (merge_each count default cells' os') (fun l => RRet (c' :: l)))
  | _, _ => RRet cells
  end.
Lemma merge_each_none count default os : forall cells, (forall o, In o os -> o = None) -> merge_each count default cells os = RRet cells.
Proof.
  induction os as [|o os IH]; intros [|c cells] H; cbn [merge_each]; try reflexivity.
  rewrite (H o (or_introl eq_refl)). rewrite IH by (intros; apply H; now right). reflexivity.
Qed.
Lemma flat_nil xs : forall os, length xs = length os -> flat xs os = [] -> forall o, In o os -> o = None.
Proof. induction xs as [|x xs IH]; intros [|[c|] os] L E o Ho; cbn in *; try discriminate; try tauto. destruct Ho as [<-|Ho]; [reflexivity|]. apply (IH os); auto. Qed.
Lemma flat_head xs : forall os id r rest, flat xs os = (id, r) :: rest -> In id (map fst xs).
Proof. induction xs as [|x xs IH]; intros [|[c|] os] id r rest E; cbn in *; try discriminate; [injection E as -> _ _; now left|right; eauto]. Qed.

(** Whether a server knows a node depends on the node only. *)
Definition known_by (kn : Z -> bool) (x : Z * option Z) (o : option (N * list nbr)) : Prop := match o with None => kn (fst x) = false | Some _ => kn (fst x) = true end.
Lemma flat_known kn xs : forall os id r rest, Forall2 (known_by kn) xs os -> flat xs os = (id, r) :: rest -> kn id = true.
Proof.
  intros os id r rest F. revert rest. induction F as [|x o xs os H F IH]; intros rest E; [discriminate|]. destruct o as [c|]; cbn in *; [|eauto].
  injection E as <- _ _. exact H.
Qed.
Lemma merge_reply_each kn count default xs : forall os cells, Forall2 (known_by kn) xs os -> length cells = length xs ->
  merge_reply count default (map fst xs) cells (flat xs os) = merge_each count default cells os.
Proof.
  induction xs as [|x xs IH]; intros os cells F L; inversion F as [|? o ? os' H F']; subst; destruct cells as [|c cells]; try discriminate L; [reflexivity|].
  cbn [length] in L. injection L as L. destruct o as [r|]; cbn [flat map].
  - cbn [DMergeModel.merge_reply merge_each]. rewrite Z.eqb_refl. rewrite IH by assumption. reflexivity.
  - cbn [merge_each]. rewrite <- (IH os' cells F' L). destruct (flat xs os') as [|[id r] rest] eqn:E.
    + cbn [DMergeModel.merge_reply]. reflexivity.
    + assert (Hn : (fst x =? id)%Z = false).
      { apply Z.eqb_neq. intros E'. apply (flat_known kn) in E; [|exact F']. cbn in H. congruence. }
      cbn [DMergeModel.merge_reply]. rewrite Hn. reflexivity.
Qed.

Definition knows (g : graph) (n : Z) : bool := match occurrences g n with Ok None => false | _ => true end.
Lemma serve_one_known g T count default n t : forall o, routcome (serve_one g T count default n t) (Ok o) -> known_by (knows g) (n, t) o.
Proof.
  intros o. unfold serve_one, DMergeModel.serve_one, known_by, knows. cbn [fst]. destruct (occurrences g n) as [[os|]|e]; cbn [rlift rbind routcome].
  - intros H. apply routcome_bind in H. destruct H as [(st & H1 & H2)|(e & H1 & H2)]; [|discriminate]. cbn in H2. injection H2 as ->. reflexivity.
  - intros E. injection E as ->. reflexivity.
  - discriminate.
Qed.

(** ** Every slot holds a neighbor *)
Section Real.
Variables (count : nat) (default : nbr).
Variable real : Z * option Z -> nbr -> Prop.
Definition slots_ok (x : Z * option Z) (l : list nbr) : Prop := length l = count /\ forall y, In y l -> y = default \/ real x y.

Lemma mix_all rate old : forall new, length old = length new ->
  rall (fun l => length l = length old /\ forall y, In y l -> In y old \/ In y new) (mix rate old new).
Proof.
  induction old as [|x old IH]; intros [|y new] L; try discriminate L; cbn [mix].
  - apply rall_ret. split; [reflexivity|]. intros z [].
  - intros r (b & _ & H). revert r H.
    apply (rall_bind (fun l => length l = length old /\ forall y, In y l -> In y old \/ In y new)); [apply IH; now injection L|].
    intros l [L1 L2]. apply rall_ret. split; [cbn; now rewrite L1|]. intros z [<-|Hz]; [destruct b; [right|left]; now left|]. destruct (L2 z Hz); [left|right]; now right.
Qed.
Lemma merge_cell_all x c r : slots_ok x (snd c) -> slots_ok x (snd r) -> rall (fun c' => slots_ok x (snd c')) (merge_cell count default c r).
Proof.
  intros [H1 H2] [H3 H4]. unfold merge_cell, DMergeModel.merge_cell. destruct (feq qval (fadd (fst c) (fst r)) 0%N).
  - apply rall_ret. split; cbn [snd]; [apply repeat_length|]. intros y Hy. left. now apply repeat_spec in Hy.
  - eapply rall_bind; [apply mix_all; congruence|]. intros l [L1 L2]. apply rall_ret. cbn [snd]. split; [congruence|]. intros y Hy. destruct (L2 y Hy); auto.
Qed.
Lemma merge_each_all xs : forall cells os, Forall2 (fun x c => slots_ok x (snd c)) xs cells ->
  Forall2 (fun x o => match o with None => True | Some r => slots_ok x (snd r) end) xs os ->
  rall (fun cells' => Forall2 (fun x c => slots_ok x (snd c)) xs cells') (merge_each count default cells os).
Proof.
  induction xs as [|x xs IH]; intros cells os F1 F2; inversion F1 as [|? c ? cells' H1 F1']; subst; inversion F2 as [|? o ? os' H2 F2']; subst; cbn [merge_each].
  - apply rall_ret. constructor.
  - destruct o as [r|].
    + eapply rall_bind; [apply (merge_cell_all x c r H1 H2)|]. intros c' Hc'. eapply rall_bind; [apply (IH cells' os' F1' F2')|].
      intros l Hl. apply rall_ret. constructor; assumption.
    + eapply rall_bind; [apply (IH cells' os' F1' F2')|]. intros l Hl. apply rall_ret. constructor; assumption.
Qed.

Definition serves (g : graph) (T : list Z) (x : Z * option Z) : Prop :=
  rall (fun o => match o with None => True | Some r => slots_ok x (snd r) end) (serve_one g T count default (fst x) (snd x)).
Lemma serve_weighted_all g T xs : (forall x, In x xs -> serves g T x) ->
  rall (fun r => exists os, Forall2 (known_by (knows g)) xs os /\ Forall2 (fun x o => match o with None => True | Some r => slots_ok x (snd r) end) xs os /\ r = flat xs os)
       (serve_weighted g T count default xs).
Proof.
  induction xs as [|[n t] xs IH]; intros H; cbn [DMergeModel.serve_weighted].
  - apply rall_ret. exists []. repeat split; constructor.
  - apply (rall_bind (fun o => known_by (knows g) (n, t) o /\ match o with None => True | Some r => slots_ok (n, t) (snd r) end)).
    + intros r Hr. destruct (H (n, t) (or_introl eq_refl) r Hr) as (o & -> & Ho). exists o. split; [reflexivity|]. split; [|exact Ho]. eapply serve_one_known; exact Hr.
    + intros o [K Ho]. eapply rall_bind; [apply IH; intros; apply H; now right|]. intros r (os & F1 & F2 & ->). apply rall_ret.
      exists (o :: os). split; [now constructor|]. split; [now constructor|]. destruct o; reflexivity.
Qed.
Lemma merge_servers_all gs T xs : (forall g x, In g gs -> In x xs -> serves g T x) -> forall cells,
  Forall2 (fun x c => slots_ok x (snd c)) xs cells ->
  rall (fun cells' => Forall2 (fun x c => slots_ok x (snd c)) xs cells') (merge_servers gs T count default xs cells).
Proof.
  induction gs as [|g gs IH]; intros H cells F; cbn [DMergeModel.merge_servers]; [now apply rall_ret|].
  eapply rall_bind; [apply serve_weighted_all; intros; apply H; [now left|assumption]|]. intros r (os & K & Ho & ->).
  assert (L : length cells = length xs) by (clear - F; induction F; cbn; congruence).
  rewrite (merge_reply_each (knows g) count default xs os cells K L).
  eapply rall_bind; [apply (merge_each_all xs cells os F Ho)|]. intros cells' F'. apply IH; [|exact F']. intros; apply H; [now right|assumption].
Qed.
Lemma d_sample_all gs types nodes ts : (forall g x, In g gs -> In x (stamps nodes ts) -> serves g (make_sorted_list types) x) ->
  rall (fun out => Forall2 slots_ok (stamps nodes ts) out) (d_sample fadd fsub qval gs types count default nodes ts).
Proof.
  intros H. unfold d_sample. set (xs := stamps nodes ts) in *.
  eapply rall_bind; [apply (merge_servers_all gs (make_sorted_list types) xs H (repeat (0%N, repeat default count) (length xs)))|].
  - clear. induction xs as [|x xs IH]; cbn [length repeat]; constructor; [|exact IH]. split; cbn [snd]; [apply repeat_length|]. intros y Hy. left. now apply repeat_spec in Hy.
  - intros cells F. apply rall_ret. clear - F. induction F; cbn; constructor; auto.
Qed.
(** What a server samples, in terms of Graph::SampleNeighbor. *)
Lemma serve_from_sample g T x : 
  (forall r, routcome (g_sample fadd fsub qval g T count default (fst x) (snd x)) r -> exists l, r = Ok l /\ slots_ok x l) -> serves g T x.
Proof.
  intros H r Hr. unfold serve_one, DMergeModel.serve_one in Hr. unfold g_sample in H.
  destruct (occurrences g (fst x)) as [[os|]|e]; cbn [rlift rbind routcome] in *.
  - apply routcome_bind in Hr. destruct Hr as [(st & H1 & H2)|(e & H1 & ->)].
    + cbn in H2. subst r. exists (Some (snd st, fst st)). split; [reflexivity|]. cbn [snd].
      destruct (H (Ok (fst st))) as (l & E & Hl); [eapply routcome_ok; [exact H1|reflexivity]|]. injection E as <-. exact Hl.
    + destruct (H (Fail e)) as (l & E & _); [now apply routcome_fail|]. discriminate.
  - subst r. exists None. auto.
  - destruct (H (Fail e) eq_refl) as (l & E & _). discriminate.
Qed.
End Real.
End Merge.

(** ** Probabilities *)
Local Open Scope Q_scope.
Section Law.
Variables fadd fsub : N -> N -> N.
Variable qval : N -> Q.
Variable rep : N -> Prop.
Variable B : Q.
Hypothesis X : exact_on fadd fsub qval rep B.

Lemma rany_imp {A} (P R : A -> Prop) m : (forall a, P a -> R a) -> rany P m -> rany R m.
Proof. intros H. induction m as [x|e|n p h IH|p h IH|b w l h IH]; cbn [rany]; auto. Qed.
Lemma mix_len rate old : forall new, length old = length new -> rany (fun l => length l = length old) (mix rate old new).
Proof.
  induction old as [|x old IH]; intros [|y new] L; try discriminate L; cbn [mix rany]; [reflexivity|].
  intros b. eapply rany_bind; [apply IH; now injection L|]. intros l Hl. cbn [rany length]. congruence.
Qed.
Lemma mix_law rate f old : forall new, length old = length new ->
  ex (rlaw (mix rate old new)) (on_ok (qsum f)) == rate * qsum f new + (1 - rate) * qsum f old.
Proof.
  assert (M1 : forall old new, length old = length new -> ex (rlaw (mix rate old new)) (on_ok (fun _ => 1)) == 1).
  { clear. induction old as [|x old IH]; intros [|y new] L; try discriminate L; cbn [mix rlaw]; [rewrite ex_ret; reflexivity|].
    rewrite ex_bind, ex_flip. rewrite !ex_rbind. cbn [rlaw].
    rewrite !(ex_ext_all _ (on_ok (fun a : list nbr => ex (dret (Ok (_ :: a))) (on_ok (fun _ => 1)))) (on_ok (fun _ => 1))).
    2, 3: intros [a|e]; cbn [on_ok]; [now rewrite ex_ret|reflexivity].
    rewrite IH by now injection L. ring. }
  induction old as [|x old IH]; intros [|y new] L; try discriminate L; cbn [mix rlaw qsum]; [rewrite ex_ret; cbn; ring|].
  assert (L' : length old = length new) by now injection L.
  rewrite ex_bind, ex_flip. rewrite !ex_rbind. cbn [rlaw].
  assert (G : forall z, ex (rlaw (mix rate old new)) (on_ok (fun a => ex (dret (Ok (z :: a))) (on_ok (qsum f)))) == f z + (rate * qsum f new + (1 - rate) * qsum f old)).
  { intros z. rewrite <- (IH new L').
    transitivity (ex (rlaw (mix rate old new)) (on_ok (fun a => f z * 1 + qsum f a))).
    - apply ex_ext_all. intros [a|e]; cbn [on_ok]; [|reflexivity]. rewrite ex_ret. cbn [on_ok qsum]. ring.
    - rewrite ex_ok_plus. apply Qplus_comp; [|reflexivity].
      transitivity (f z * ex (rlaw (mix rate old new)) (on_ok (fun _ => 1))); [|rewrite M1 by exact L'; ring].
      rewrite <- ex_scale. apply ex_ext_all. intros [a|e]; cbn [on_ok]; ring. }
  rewrite !G. ring.
Qed.

(** What is known of a server for one node: the offered weight [W], and [S], the sum of [f] over
    its edges by weight. *)
Definition server_law (count : nat) (default : nbr) (f : nbr -> Q) (m : rprog (option (N * list nbr))) (W S : Q) : Prop :=
  rany (fun o => match o with
                 | None => W == 0
                 | Some r => rep (fst r) /\ qval (fst r) == W /\ length (snd r) = count /\ (W == 0 -> snd r = repeat default count)
                 end) m /\
  0 <= W /\ (W == 0 -> S == 0) /\
  (0 < W -> ex (rlaw m) (on_ok (fun o => match o with None => 0 | Some r => qsum f (snd r) end)) == qnat count * (S / W)) /\
  ex (rlaw m) (on_ok (fun _ => 1)) == 1.

(** One node: the whole exchange. *)
Fixpoint merge_one (count : nat) (default : nbr) (ms : list (rprog (option (N * list nbr)))) (c : N * list nbr) : rprog (N * list nbr) :=
  match ms with
  | [] => RRet c
  | m :: ms' => rbind m (fun o => rbind (match o with None => RRet c | Some r => merge_cell fadd qval count default c r end) (fun c' => merge_one count default ms' c'))
  end.
Definition after (count : nat) (f : nbr -> Q) (a F W S : Q) : Q := if Qeq_bool (a + W) 0 then F else (a * F + qnat count * S) / (a + W).
Lemma qsum_repeat {A} (f : A -> Q) x n : qsum f (repeat x n) == qnat n * f x.
Proof. induction n as [|n IH]; cbn [repeat qsum]; [rewrite qnat_0; ring|]. rewrite IH, qnat_S. ring. Qed.

Lemma merge_one_law count default f ms : forall (WS : list (Q * Q)), Forall2 (fun m ws => server_law count default f m (fst ws) (snd ws)) ms WS ->
  forall c, rep (fst c) -> length (snd c) = count -> (qval (fst c) == 0 -> snd c = repeat default count) -> qval (fst c) + qsum fst WS <= B ->
  ex (rlaw (merge_one count default ms c)) (on_ok (fun c' => qsum f (snd c'))) ==
  after count f (qval (fst c)) (qsum f (snd c)) (qsum fst WS) (qsum snd WS).
Proof.
  induction 1 as [|m [W S] ms WS (H1 & H2 & H3 & H4 & H5) F IH]; intros c Rc Lc Dc Bc; cbn [merge_one fst snd qsum] in *.
  - cbn [rlaw]. rewrite ex_ret. cbn [on_ok]. unfold after. destruct (Qeq_bool (qval (fst c) + 0) 0) eqn:E; [reflexivity|].
    field. intros Z. apply Qeq_bool_neq in E. apply E. lra.
  - set (Wr := qsum fst WS) in *. set (Sr := qsum snd WS) in *. set (a := qval (fst c)) in *.
    assert (NWr : 0 <= Wr).
    { unfold Wr. apply qsum_nonneg. intros ws Hin. clear - F Hin. induction F as [|m' ws' ms WS (_ & K & _) F IH]; [destruct Hin|]. destruct Hin as [<-|Hin]; auto. }
    assert (SWr : Wr == 0 -> Sr == 0).
    { unfold Wr, Sr. clear - F. induction F as [|m' ws' ms WS (_ & K1 & K2 & _) F IH]; cbn [qsum]; [reflexivity|]. intros Z.
      assert (N2 : 0 <= qsum fst WS) by (apply qsum_nonneg; intros ws Hin; clear - F Hin; induction F as [|m2 ws2 ms WS (_ & K & _) F IH]; [destruct Hin|]; destruct Hin as [<-|Hin]; auto).
      rewrite K2, IH by lra. ring. }
    pose proof (xo_nonneg _ _ _ _ _ X (fst c) Rc) as Na. fold a in Na.
    rewrite ex_rbind.
    (* the continuation after one server *)
    set (K := fun o => ex (rlaw (rbind (match o with None => RRet c | Some r => merge_cell fadd qval count default c r end) (fun c' => merge_one count default ms c'))) (on_ok (fun c' => qsum f (snd c')))).
    destruct (Qeq_bool W 0) eqn:EW.
    + apply Qeq_bool_iff in EW. pose proof (H3 EW) as ES.
      transitivity (ex (rlaw m) (on_ok (fun _ => after count f a (qsum f (snd c)) (W + Wr) (S + Sr) * 1))).
      * apply (ex_law_ext _ _ _ _ H1). intros o Ho. unfold K.
        assert (EF : after count f a (qsum f (snd c)) (W + Wr) (S + Sr) * 1 == after count f a (qsum f (snd c)) Wr Sr).
        { unfold after. assert (Eb : Qeq_bool (a + (W + Wr)) 0 = Qeq_bool (a + Wr) 0) by (apply eq_true_iff_eq; rewrite !Qeq_bool_iff, EW; split; intros; lra).
          rewrite Eb. destruct (Qeq_bool (a + Wr) 0) eqn:E2; [ring|]. rewrite EW, ES. field. intros Z. apply Qeq_bool_neq in E2. apply E2. lra. }
        rewrite EF. destruct o as [r|].
        -- destruct Ho as (R1 & R2 & R3 & R4). specialize (R4 EW). unfold DMergeModel.merge_cell.
           destruct (xo_add _ _ _ _ _ X (fst c) (fst r) Rc R1) as [A1 A2]; [rewrite R2; fold a; lra|].
           assert (Ea : qval (fadd (fst c) (fst r)) == a) by (rewrite A2, R2; fold a; lra).
           destruct (feq qval (fadd (fst c) (fst r)) 0%N) eqn:Ez.
           ++ unfold feq in Ez. apply Qeq_bool_iff in Ez. destruct (xo_zero _ _ _ _ _ X) as [_ Z2]. rewrite Z2, Ea in Ez.
              cbn [rbind]. rewrite (IH (fadd (fst c) (fst r), repeat default count)); cbn [fst snd]; [|exact A1|apply repeat_length|auto|rewrite Ea; lra].
              rewrite (Dc Ez). unfold after. assert (Eb : Qeq_bool (qval (fadd (fst c) (fst r)) + Wr) 0 = Qeq_bool (a + Wr) 0) by (apply eq_true_iff_eq; rewrite !Qeq_bool_iff, Ea; reflexivity).
              rewrite Eb. destruct (Qeq_bool (a + Wr) 0); [reflexivity|]. now rewrite Ea.
           ++ assert (Za : ~ a == 0).
              { intros Z. unfold feq in Ez. apply Qeq_bool_neq in Ez. apply Ez. destruct (xo_zero _ _ _ _ _ X) as [_ Z2]. rewrite Z2, Ea. exact Z. }
              rewrite ex_rbind, ex_rbind.
              transitivity (ex (rlaw (mix (qval (fst r) / qval (fadd (fst c) (fst r))) (snd c) (snd r)))
                (on_ok (fun l => qsum (fun y => (a * f y + Sr) / (a + Wr)) l))).
              ** apply (ex_law_ext _ (fun l => length l = length (snd c))); [apply mix_len; congruence|]. intros l Ll. cbn [rlaw]. rewrite ex_ret. cbn [on_ok].
                 rewrite (IH (fadd (fst c) (fst r), l)); cbn [fst snd]; [|exact A1|congruence|rewrite Ea; intros Z; contradiction|rewrite Ea; lra].
                 unfold after. destruct (Qeq_bool (qval (fadd (fst c) (fst r)) + Wr) 0) eqn:E3; [apply Qeq_bool_iff in E3; rewrite Ea in E3; lra|].
                 rewrite Ea. rewrite <- Lc, <- Ll. clear - Na NWr Za. assert (P : ~ a + Wr == 0) by lra.
                 induction l as [|y l IHl]; cbn [qsum length]; [rewrite qnat_0; field; exact P|]. rewrite <- IHl, qnat_S. field. exact P.
              ** rewrite mix_law by congruence. rewrite R2, EW.
                 unfold after. destruct (Qeq_bool (a + Wr) 0) eqn:E3; [apply Qeq_bool_iff in E3; lra|]. rewrite Ea.
                 assert (P : ~ a + Wr == 0) by lra.
                 transitivity (qsum (fun y => (a * f y + Sr) / (a + Wr)) (snd c)); [field; exact Za|].
                 rewrite <- Lc. clear - P. induction (snd c) as [|y l IHl]; cbn [qsum length]; [rewrite qnat_0; field; exact P|]. rewrite IHl, qnat_S. field. exact P.
        -- cbn [rbind]. apply (IH c Rc Lc Dc). fold a. lra.
      * transitivity (after count f a (qsum f (snd c)) (W + Wr) (S + Sr) * ex (rlaw m) (on_ok (fun _ => 1))); [|rewrite H5; ring].
        rewrite <- ex_scale. apply ex_ext_all. intros [o|e]; cbn [on_ok]; ring.
    + apply Qeq_bool_neq in EW. assert (PW : 0 < W) by lra.
      set (A := a + W). assert (PA : 0 < A) by (unfold A; lra).
      set (D := A + Wr). assert (PD : 0 < D) by (unfold D; lra).
      transitivity (ex (rlaw m) (on_ok (fun o => (W / D) * (match o with None => 0 | Some r => qsum f (snd r) end) + ((a / D) * qsum f (snd c) + qnat count * Sr / D) * 1))).
      * apply (ex_law_ext _ _ _ _ H1). intros o Ho. unfold K. destruct o as [r|]; [|lra].
        destruct Ho as (R1 & R2 & R3 & R4). unfold DMergeModel.merge_cell.
        destruct (xo_add _ _ _ _ _ X (fst c) (fst r) Rc R1) as [A1 A2]; [rewrite R2; fold a; lra|].
        assert (Ea : qval (fadd (fst c) (fst r)) == A) by (rewrite A2, R2; fold a; unfold A; lra).
        destruct (feq qval (fadd (fst c) (fst r)) 0%N) eqn:Ez.
        { unfold feq in Ez. apply Qeq_bool_iff in Ez. destruct (xo_zero _ _ _ _ _ X) as [_ Z2]. rewrite Z2, Ea in Ez. lra. }
        rewrite ex_rbind, ex_rbind.
        transitivity (ex (rlaw (mix (qval (fst r) / qval (fadd (fst c) (fst r))) (snd c) (snd r))) (on_ok (fun l => qsum (fun y => (A * f y + Sr) / D) l))).
        -- apply (ex_law_ext _ (fun l => length l = length (snd c))); [apply mix_len; congruence|]. intros l Ll. cbn [rlaw]. rewrite ex_ret. cbn [on_ok].
           rewrite (IH (fadd (fst c) (fst r), l)); cbn [fst snd]; [|exact A1|congruence|rewrite Ea; intros Z; lra|rewrite Ea; unfold A; lra].
           unfold after. destruct (Qeq_bool (qval (fadd (fst c) (fst r)) + Wr) 0) eqn:E3; [apply Qeq_bool_iff in E3; rewrite Ea in E3; lra|].
           rewrite Ea. fold D. rewrite <- Lc, <- Ll. clear - PD. assert (P : ~ D == 0) by lra.
           induction l as [|y l IHl]; cbn [qsum length]; [rewrite qnat_0; field; exact P|]. rewrite <- IHl, qnat_S. field. exact P.
        -- rewrite mix_law by congruence. rewrite R2, Ea.
           assert (G : forall l, length l = count -> qsum (fun y => (A * f y + Sr) / D) l == (A * qsum f l + qnat count * Sr) / D).
           { clear - PD. intros l <-. induction l as [|y l IHl]; cbn [qsum length]; [rewrite qnat_0; field; lra|]. rewrite IHl, qnat_S. field. lra. }
           rewrite (G _ R3), (G _ Lc). unfold A. field. split; [lra|unfold A in *; lra].
      * rewrite ex_ok_plus.
        transitivity ((W / D) * ex (rlaw m) (on_ok (fun o => match o with None => 0 | Some r => qsum f (snd r) end)) + ((a / D) * qsum f (snd c) + qnat count * Sr / D) * ex (rlaw m) (on_ok (fun _ => 1))).
        { apply Qplus_comp; rewrite <- ex_scale; apply ex_ext_all; intros [o|e]; cbn [on_ok]; ring. }
        rewrite (H4 PW), H5. unfold after. fold A in D.
        assert (ED : a + (W + Wr) == D) by (unfold D, A; ring).
        destruct (Qeq_bool (a + (W + Wr)) 0) eqn:E3; [apply Qeq_bool_iff in E3; lra|]. rewrite ED. field. lra.
Qed.

(** ** Servers with converted graphs *)
Section Row.
Variables (tmp : bool) (p : partition) (id : nat) (ts : option Z) (T : list Z) (gs : list (nat * nat * nat)) (vs : list (Z * list edge)).
Hypothesis Hg : nii p id T = Ok gs.
Hypothesis HF : Forall2 (group_ok fadd tmp p) gs vs.
Hypothesis Htmp : ts <> None -> tmp = true.
Hypothesis Hv : Forall (fun v => Forall rep (map e_w (snd v)) /\ group_times ts v) vs.
Lemma partition_any count default out acc : rep acc -> qval acc + 2 * wmass qval vs <= B -> length out = count -> (qval acc == 0 -> out = repeat default count) ->
  rany (fun st => rep (snd st) /\ qval (snd st) == qval acc + cmass (offers fadd fsub qval ts vs) /\ length (fst st) = count /\ (qval (snd st) == 0 -> fst st = repeat default count))
    (sample_partition fadd fsub qval p id ts T count default (out, acc)).
Proof.
  intros Ra Ba Lo Do.
  destruct (partition_run fadd fsub qval rep B X tmp p id ts T gs vs Hg HF Htmp Hv count default out acc Ra Ba) as (wgs & datas & total & acc' & H1 & H2 & H3 & H4 & H5 & H6 & ->).
  pose proof (xo_nonneg _ _ _ _ _ X acc Ra) as Na. pose proof (wmass_offers fadd fsub qval rep B X ts vs Hv) as Wo. destruct (xo_zero _ _ _ _ _ X) as [Z1 Z2].
  destruct (feq qval total 0%N) eqn:Et.
  - cbn [rany fst snd]. split; [exact H5|]. split; [exact H6|]. destruct (feq qval acc' 0%N) eqn:Ea.
    + split; [apply repeat_length|]. auto.
    + split; [exact Lo|]. intros Z. unfold feq in Ea. apply Qeq_bool_neq in Ea. exfalso. apply Ea. now rewrite Z2.
  - eapply rany_bind; [apply group_len|]. intros es Le. cbn [rany fst snd]. split; [exact H5|]. split; [exact H6|]. split.
    + cbv beta in Le. rewrite app_length, skipn_length. lia.
    + intros Z. exfalso. unfold feq in Et. apply Qeq_bool_neq in Et. apply Et. rewrite Z2. lra.
Qed.
End Row.
Lemma partitions_any ts T count default os : forall vss out acc, Forall2 (ready fadd rep ts T) os vss -> rep acc ->
  qval acc + 2 * qsum (wmass qval) vss <= B -> length out = count -> (qval acc == 0 -> out = repeat default count) ->
  rany (fun st => rep (snd st) /\ qval (snd st) == qval acc + cmass (flat_map (offers fadd fsub qval ts) vss) /\ length (fst st) = count /\ (qval (snd st) == 0 -> fst st = repeat default count))
    (sample_partitions fadd fsub qval os ts T count default (out, acc)).
Proof.
  induction os as [|[p id] os IH]; intros vss out acc F Ra Ba Lo Do; inversion F as [|? vs ? vss' (tmp & gs & R1 & R2 & R3 & R4) F']; subst; cbn [sample_partitions fst snd flat_map] in *.
  - cbn [rany fst snd]. split; [exact Ra|]. split; [unfold cmass; cbn [qsum]; lra|]. split; [reflexivity|exact Do].
  - cbn [qsum] in Ba. pose proof (wmass_offers fadd fsub qval rep B X ts vs R4) as Wo.
    assert (Nw : 0 <= qsum (wmass qval) vss').
    { clear - F' X. induction F' as [|o vs os vss (tmp & gs & _ & _ & _ & R4) _ IH]; cbn [qsum]; [lra|]. pose proof (wmass_offers fadd fsub qval rep B X ts vs R4). lra. }
    eapply rany_bind; [apply (partition_any tmp p id ts T gs vs R1 R2 R3 R4 (length out) default out acc Ra ltac:(lra) eq_refl Do)|].
    intros [out' acc'] (G1 & G2 & G3 & G4). cbn [fst snd] in *.
    eapply rany_imp; [|apply (IH vss' out' acc' F' G1); [rewrite G2; lra|exact G3|exact G4]].
    intros st (K1 & K2 & K3 & K4). split; [exact K1|]. split; [rewrite K2, G2, cmass_app; ring|]. auto.
Qed.

Section Graph.
Variable wval : N -> Z.
Variables (wm : option Z) (parts : list (list (list record))) (g : graph) (types : list Z) (n : Z) (ts : option Z).
Hypothesis C : converted fadd wval wm parts g.
Hypothesis HG : guarded fadd fsub types parts.
Hypothesis Ht : sample_times wm parts ts.
Hypothesis Hrep : forall e, In e (flat_map edges_of parts) -> rep (e_w e).
Hypothesis Hb : 2 * mass qval (spec_edges parts types n) <= B.
Notation T := (make_sorted_list types).
Notation M := (matching wm parts types n ts).

Lemma server_one count default f : (0 < count)%nat -> (count = 1%nat \/ (length (node_rows n (map rows parts)) <= 1)%nat) ->
  server_law count default f (serve_one fadd fsub qval g T count default n ts) (mass qval M) (wshare qval wm parts types n ts f).
Proof.
  intros Pc Hc. destruct (weighted_setup fadd fsub qval wval rep wm parts g types n ts C HG Ht Hrep) as (m & Hgr & HR & HO & HM).
  destruct (xo_zero _ _ _ _ _ X) as [Z1 Z2].
  pose proof (cmass_M qval wm parts types n ts) as CM. pose proof (share_M qval wm parts types n ts) as SM.
  set (vss := map (fun r => visited r T) (node_rows n (map rows parts))) in *.
  set (os := places (part_of fadd m (is_temporal wm)) n (map rows parts)) in *.
  assert (Ba : qval 0%N + 2 * qsum (wmass qval) vss <= B) by (rewrite Z2, HM; lra).
  pose proof (partitions_any ts T count default os vss (repeat default count) 0%N HR Z1 Ba (repeat_length _ _) (fun _ => eq_refl)) as PA.
  rewrite HO in PA.
  assert (NM : 0 <= mass qval M).
  { rewrite <- CM, <- HO. clear - HR X. induction HR as [|o vs os vss (tmp & gs & _ & _ & _ & R4) _ IH]; cbn [flat_map]; [unfold cmass; cbn; lra|].
    rewrite cmass_app. pose proof (wmass_offers fadd fsub qval rep B X ts vs R4). lra. }
  assert (Nn : Forall (fun x => 0 <= snd x) (map (fun e => (ans ts e, wq qval e)) M)).
  { rewrite <- HO. clear - HR X. induction HR as [|o vs os vss (tmp & gs & _ & _ & _ & R4) _ IH]; cbn [flat_map]; [constructor|]. apply Forall_app. split; [|exact IH].
    clear - R4 X. unfold offers. induction R4 as [|v l [Hr _] _ IH]; [constructor|]. cbn [flat_map]. apply Forall_app. split; [now apply (offer_nonneg fadd fsub qval rep B X)|exact IH]. }
  (* the law of the partitions *)
  assert (PL : forall h, ex (rlaw (sample_partitions fadd fsub qval os ts T count default (repeat default count, 0%N))) (on_ok (fun st => qsum h (fst st))) ==
     qnat count * (if Qeq_bool (mass qval M) 0 then h default else wshare qval wm parts types n ts h / mass qval M)).
  { intros h. destruct Hc as [->|Hc].
    - cbn [repeat]. rewrite (partitions_one fadd fsub qval rep B X ts T default h os vss default 0%N HR Z1 Ba (fun _ => eq_refl)).
      rewrite HO. unfold blend. change (qnat 1) with 1.
      assert (Eb : Qeq_bool (qval 0%N + cmass (map (fun e => (ans ts e, wq qval e)) M)) 0 = Qeq_bool (mass qval M) 0) by (apply eq_true_iff_eq; rewrite !Qeq_bool_iff, Z2, CM; split; intros; lra).
      rewrite Eb. destruct (Qeq_bool (mass qval M) 0) eqn:E0; [ring|]. apply Qeq_bool_neq in E0. rewrite Z2, CM, SM. field. intros Z. apply E0. lra.
    - assert (Lv : (length vss <= 1)%nat) by (unfold vss; rewrite map_length; exact Hc).
      destruct vss as [|vs [|? ?]]; [| |cbn in Lv; lia].
      + inversion HR; subst. cbn [sample_partitions rlaw flat_map] in *. rewrite ex_ret. cbn [on_ok fst]. rewrite qsum_repeat.
        assert (E0 : mass qval M == 0) by (rewrite <- CM, <- HO; reflexivity).
        destruct (Qeq_bool (mass qval M) 0) eqn:Eb; [reflexivity|]. apply Qeq_bool_neq in Eb. contradiction.
      + inversion HR as [|o ? os' ? (tmp & gs & R1 & R2 & R3 & R4) HR' E1 E2]. inversion HR'; subst. destruct o as [p id]. cbn [fst snd] in *.
        cbn [sample_partitions flat_map qsum] in *. rewrite app_nil_r in HO. rewrite ex_rbind.
        transitivity (ex (rlaw (sample_partition fadd fsub qval p id ts T count default (repeat default count, 0%N))) (on_ok (fun st => qsum h (fst st)))).
        { apply ex_ext_all. intros [st|e]; cbn [on_ok rlaw]; [|reflexivity]. now rewrite ex_ret. }
        rewrite (partition_law fadd fsub qval rep B X tmp p id ts T gs _ R1 R2 R3 R4 count default default 0%N h); [|exact Z1|rewrite Z2 in *; lra|reflexivity|reflexivity].
        rewrite HO.
        assert (Eb : Qeq_bool (qval 0%N + cmass (map (fun e => (ans ts e, wq qval e)) M)) 0 = Qeq_bool (mass qval M) 0) by (apply eq_true_iff_eq; rewrite !Qeq_bool_iff, Z2, CM; split; intros; lra).
        rewrite Eb. destruct (Qeq_bool (mass qval M) 0) eqn:E0; [ring|]. apply Qeq_bool_neq in E0. rewrite Z2, CM, SM. field. intros Z. apply E0. lra. }
  assert (PM : ex (rlaw (sample_partitions fadd fsub qval os ts T count default (repeat default count, 0%N))) (on_ok (fun _ => 1)) == 1).
  { pose proof (qnat_pos count Pc) as Pq.
    transitivity (ex (rlaw (sample_partitions fadd fsub qval os ts T count default (repeat default count, 0%N))) (on_ok (fun st => qsum (fun _ => 1 / qnat count) (fst st)))).
    - apply (ex_law_ext _ _ _ _ PA). intros st (_ & _ & L & _). rewrite qsum_const, L. field. lra.
    - rewrite PL. destruct (Qeq_bool (mass qval M) 0) eqn:E0; [field; lra|]. apply Qeq_bool_neq in E0.
      assert (Sw : wshare qval wm parts types n ts (fun _ => 1 / qnat count) == mass qval M * (1 / qnat count)).
      { unfold wshare, mass. rewrite qsum_scale_r. reflexivity. }
      rewrite Sw. field. split; [lra|]. exact E0. }
  unfold server_law, serve_one, DMergeModel.serve_one.
  pose proof (Hgr n) as Ho. unfold lookup, found in Ho. fold os in Ho. rewrite Ho. cbn [rlift rbind].
  split; [|split; [exact NM|split; [|]]].
  - destruct os as [|o os'] eqn:Eo.
    + cbn [rany]. rewrite <- CM, <- HO. inversion HR. reflexivity.
    + eapply rany_bind; [exact PA|]. intros st (G1 & G2 & G3 & G4). cbn [rany fst snd]. split; [exact G1|].
      assert (Eq : qval (snd st) == mass qval M) by (rewrite G2, Z2, CM; ring). split; [exact Eq|]. split; [exact G3|]. intros Z. apply G4. lra.
  - intros Z. rewrite <- SM. apply (share_zero f); [exact Nn|]. now rewrite CM.
  - destruct os as [|o os'] eqn:Eo.
    + assert (E0 : mass qval M == 0) by (rewrite <- CM, <- HO; inversion HR; reflexivity).
      split; [lra|]. cbn [rlaw]. now rewrite ex_ret.
    + split.
      * intros Pm. rewrite ex_rbind.
        transitivity (ex (rlaw (sample_partitions fadd fsub qval (o :: os') ts T count default (repeat default count, 0%N))) (on_ok (fun st => qsum f (fst st)))).
        { apply ex_ext_all. intros [st|e]; cbn [on_ok rlaw]; [|reflexivity]. now rewrite ex_ret. }
        rewrite PL. destruct (Qeq_bool (mass qval M) 0) eqn:E0; [apply Qeq_bool_iff in E0; lra|reflexivity].
      * rewrite ex_rbind. rewrite <- PM. apply ex_ext_all. intros [st|e]; cbn [on_ok rlaw]; [|reflexivity]. now rewrite ex_ret.
Qed.
End Graph.

(** One requested node. *)
Lemma merge_servers_one gs T count default n t (K : list (N * list nbr) -> Q) : forall c,
  ex (rlaw (merge_servers fadd fsub qval gs T count default [(n, t)] [c])) (on_ok K) ==
  ex (rlaw (merge_one count default (map (fun g => serve_one fadd fsub qval g T count default n t) gs) c)) (on_ok (fun c' => K [c'])).
Proof.
  induction gs as [|g gs IH]; intros c; cbn [DMergeModel.merge_servers map merge_one]; [cbn [rlaw]; now rewrite !ex_ret|].
  rewrite ex_rbind. cbn [DMergeModel.serve_weighted]. rewrite !ex_rbind. apply ex_ext_all. intros [o|e]; cbn [on_ok]; [|reflexivity].
  cbn [rbind rlaw]. rewrite ex_ret. cbn [on_ok]. destruct o as [r|].
  - cbn [map fst DMergeModel.merge_reply]. rewrite Z.eqb_refl. rewrite !ex_rbind. apply ex_ext_all. intros [c'|e]; cbn [on_ok]; [|reflexivity].
    cbn [rbind rlaw]. rewrite ex_ret. cbn [on_ok]. apply IH.
  - cbn [map fst DMergeModel.merge_reply rbind]. apply IH.
Qed.


(** Several requested nodes: the others do not matter. *)
Fixpoint serve_list (g : graph) (T : list Z) (count : nat) (default : nbr) (xs : list (Z * option Z)) : rprog (list (option (N * list nbr))) :=
  match xs with
  | [] => RRet []
  | x :: xs' => rbind (serve_one fadd fsub qval g T count default (fst x) (snd x)) (fun o => rbind (serve_list g T count default xs') (fun os => RRet (o :: os)))
  end.
Definition merge_opt (count : nat) (default : nbr) (c : N * list nbr) (o : option (N * list nbr)) : rprog (N * list nbr) :=
  match o with None => RRet c | Some r => merge_cell fadd qval count default c r end.
Definition sure {A} (m : rprog A) : Prop := ex (rlaw m) (on_ok (fun _ => 1)) == 1.

Lemma ex_serve_list g T count default xs (K : wreply -> Q) :
  ex (rlaw (serve_weighted fadd fsub qval g T count default xs)) (on_ok K) == ex (rlaw (serve_list g T count default xs)) (on_ok (fun os => K (flat xs os))).
Proof.
  revert K. induction xs as [|[n t] xs IH]; intros K; cbn [DMergeModel.serve_weighted serve_list fst snd]; [cbn [rlaw]; now rewrite !ex_ret|].
  rewrite !ex_rbind. apply ex_ext_all. intros [o|e]; cbn [on_ok]; [|reflexivity]. rewrite !ex_rbind.
  transitivity (ex (rlaw (serve_weighted fadd fsub qval g T count default xs)) (on_ok (fun r => K match o with None => r | Some c => (n, c) :: r end))).
  - apply ex_ext_all. intros [r|e]; cbn [on_ok rlaw]; [now rewrite ex_ret|reflexivity].
  - rewrite IH. apply ex_ext_all. intros [r|e]; cbn [on_ok rlaw]; [|reflexivity]. rewrite ex_ret. cbn [on_ok flat]. destruct o; reflexivity.
Qed.
Lemma sure_bind {A C} (m : rprog A) (k : A -> rprog C) (P : A -> Prop) : rany P m -> sure m -> (forall a, P a -> sure (k a)) -> sure (rbind m k).
Proof.
  intros R M H. unfold sure. rewrite ex_rbind. transitivity (ex (rlaw m) (on_ok (fun _ => 1))); [|exact M]. apply (ex_law_ext _ _ _ _ R). intros a Ha. now apply H.
Qed.
Lemma sure_ret {A} (a : A) : sure (RRet a).
Proof. unfold sure. cbn [rlaw]. now rewrite ex_ret. Qed.
Lemma rany_true {A} (m : rprog A) : rany (fun _ => True) m.
Proof. induction m; cbn [rany]; auto. Qed.
Lemma sure_const {A} (m : rprog A) c : sure m -> ex (rlaw m) (on_ok (fun _ => c)) == c.
Proof.
  intros M. transitivity (c * ex (rlaw m) (on_ok (fun _ => 1))); [|unfold sure in M; rewrite M; ring]. rewrite <- ex_scale. apply ex_ext_all. intros [a|e]; cbn [on_ok]; ring.
Qed.
Lemma sure_serve_list g T count default xs : Forall (fun x => sure (serve_one fadd fsub qval g T count default (fst x) (snd x))) xs -> sure (serve_list g T count default xs).
Proof.
  induction 1 as [|x xs H _ IH]; cbn [serve_list]; [apply sure_ret|]. apply (sure_bind _ _ (fun _ => True)); [apply rany_true|exact H|]. intros o _.
  apply (sure_bind _ _ (fun _ => True)); [apply rany_true|exact IH|]. intros; apply sure_ret.
Qed.
Lemma ex_serve_nth g T count default xs : Forall (fun x => sure (serve_one fadd fsub qval g T count default (fst x) (snd x))) xs -> forall i x F, nth_error xs i = Some x ->
  ex (rlaw (serve_list g T count default xs)) (on_ok (fun os => F (nth i os None))) == ex (rlaw (serve_one fadd fsub qval g T count default (fst x) (snd x))) (on_ok F).
Proof.
  induction 1 as [|y xs H HF IH]; intros i x F E; [destruct i; discriminate|]. cbn [serve_list]. rewrite ex_rbind. destruct i as [|i]; cbn [nth_error] in E.
  - injection E as ->. apply ex_ext_all. intros [o|e]; cbn [on_ok]; [|reflexivity]. rewrite ex_rbind.
    transitivity (ex (rlaw (serve_list g T count default xs)) (on_ok (fun _ => F o))); [|apply sure_const; now apply sure_serve_list].
    apply ex_ext_all. intros [os|e]; cbn [on_ok rlaw]; [now rewrite ex_ret|reflexivity].
  - rewrite <- (IH i x F E). rewrite <- (sure_const _ (ex (rlaw (serve_list g T count default xs)) (on_ok (fun os => F (nth i os None)))) H).
    apply ex_ext_all. intros [o|e]; cbn [on_ok]; [|reflexivity]. rewrite ex_rbind. apply ex_ext_all. intros [os|e]; cbn [on_ok rlaw]; [now rewrite ex_ret|reflexivity].
Qed.
Lemma merge_each_cons count default c cells o os : merge_each fadd qval count default (c :: cells) (o :: os) =
  rbind (merge_opt count default c o) (fun c' => rbind (merge_each fadd qval count default cells os) (fun l => RRet (c' :: l))).
Proof. destruct o; reflexivity. Qed.
Lemma sure_merge_each count default cells os : Forall2 (fun c o => sure (merge_opt count default c o)) cells os -> sure (merge_each fadd qval count default cells os).
Proof.
  induction 1 as [|c o cells os H _ IH]; [apply sure_ret|]. rewrite merge_each_cons. apply (sure_bind _ _ (fun _ => True)); [apply rany_true|exact H|]. intros c' _.
  apply (sure_bind _ _ (fun _ => True)); [apply rany_true|exact IH|]. intros; apply sure_ret.
Qed.
Lemma ex_merge_nth count default cells os d : Forall2 (fun c o => sure (merge_opt count default c o)) cells os -> forall i F, (i < length cells)%nat ->
  ex (rlaw (merge_each fadd qval count default cells os)) (on_ok (fun cs => F (nth i cs d))) == ex (rlaw (merge_opt count default (nth i cells d) (nth i os None))) (on_ok F).
Proof.
  induction 1 as [|c o cells os H HF IH]; intros i F Hi; [cbn in Hi; lia|]. rewrite merge_each_cons, ex_rbind. destruct i as [|i]; cbn [nth].
  - apply ex_ext_all. intros [c'|e]; cbn [on_ok]; [|reflexivity]. rewrite ex_rbind.
    transitivity (ex (rlaw (merge_each fadd qval count default cells os)) (on_ok (fun _ => F c'))); [|apply sure_const; now apply sure_merge_each].
    apply ex_ext_all. intros [l|e]; cbn [on_ok rlaw]; [now rewrite ex_ret|reflexivity].
  - cbn [length] in Hi. rewrite <- (IH i F) by lia. rewrite <- (sure_const _ (ex (rlaw (merge_each fadd qval count default cells os)) (on_ok (fun cs => F (nth i cs d)))) H).
    apply ex_ext_all. intros [c'|e]; cbn [on_ok]; [|reflexivity]. rewrite ex_rbind. apply ex_ext_all. intros [l|e]; cbn [on_ok rlaw]; [now rewrite ex_ret|reflexivity].
Qed.
Lemma mix_sure rate old : forall new, length old = length new -> sure (mix rate old new).
Proof.
  induction old as [|x old IH]; intros [|y new] L; try discriminate L; cbn [mix]; [apply sure_ret|]. unfold sure. cbn [rlaw]. rewrite ex_bind, ex_flip.
  assert (S1 : forall z, sure (rbind (mix rate old new) (fun l => RRet (z :: l)))).
  { intros z. apply (sure_bind _ _ (fun _ => True)); [apply rany_true|apply IH; now injection L|]. intros; apply sure_ret. }
  unfold sure in S1. rewrite !S1. ring.
Qed.
Lemma merge_opt_sure count default c o : length (snd c) = count -> (forall r, o = Some r -> length (snd r) = count) ->
  sure (merge_opt count default c o) /\ rany (fun c' => length (snd c') = count) (merge_opt count default c o).
Proof.
  intros Lc Lo. destruct o as [r|]; cbn [merge_opt]; [|split; [apply sure_ret|exact Lc]]. specialize (Lo r eq_refl). unfold merge_cell.
  destruct (feq qval (fadd (fst c) (fst r)) 0%N); [split; [apply sure_ret|cbn [rany snd]; apply repeat_length]|]. split.
  - apply (sure_bind _ _ (fun _ => True)); [apply rany_true|apply mix_sure; congruence|]. intros; apply sure_ret.
  - eapply rany_bind; [apply mix_len; congruence|]. intros l Hl. cbn [rany snd]. congruence.
Qed.
Lemma serve_one_any g T count default n t : rany (known_by (knows g) (n, t)) (serve_one fadd fsub qval g T count default n t).
Proof.
  unfold serve_one, DMergeModel.serve_one, known_by, knows. cbn [fst]. destruct (occurrences g n) as [[os|]|e]; cbn [rlift rbind rany]; auto.
  apply (rany_bind (fun _ => True)); [apply rany_true|]. intros st _. cbn [rany]. reflexivity.
Qed.
Lemma rany_and {A} (P R : A -> Prop) m : rany P m -> rany R m -> rany (fun a => P a /\ R a) m.
Proof. induction m as [x|e|n p h IH|p h IH|b w l h IH]; cbn [rany]; intros H1 H2; auto. Qed.

(** A server that answers every node of the request with enough slots. *)
Definition steady (count : nat) (default : nbr) (T : list Z) (xs : list (Z * option Z)) (g : graph) : Prop :=
  Forall (fun x => sure (serve_one fadd fsub qval g T count default (fst x) (snd x)) /\
                   rany (fun o => forall r, o = Some r -> length (snd r) = count) (serve_one fadd fsub qval g T count default (fst x) (snd x))) xs.
Lemma serve_list_any g T count default xs : steady count default T xs g ->
  rany (fun os => Forall2 (known_by (knows g)) xs os /\ Forall (fun o => forall r, o = Some r -> length (snd r) = count) os) (serve_list g T count default xs).
Proof.
  induction 1 as [|[n t] xs [_ H] _ IH]; cbn [serve_list fst snd]; [cbn [rany]; split; constructor|].
  eapply rany_bind; [apply (rany_and _ _ _ (serve_one_any g T count default n t) H)|]. intros o [H1 H2]. eapply rany_bind; [exact IH|]. intros os [H3 H4].
  cbn [rany]. split; constructor; assumption.
Qed.
Lemma merge_each_any count default cells os : Forall (fun c => length (snd c) = count) cells -> Forall (fun o => forall r, o = Some r -> length (snd r) = count) os -> length cells = length os ->
  rany (fun cs => length cs = length cells /\ Forall (fun c => length (snd c) = count) cs) (merge_each fadd qval count default cells os).
Proof.
  intros H. revert os. induction H as [|c cells Hc HF IH]; intros os Ho L; destruct os as [|o os]; try discriminate L; [cbn [merge_each rany]; split; [reflexivity|constructor]|].
  rewrite merge_each_cons. destruct (merge_opt_sure count default c o Hc (Forall_inv Ho)) as [_ R]. eapply rany_bind; [exact R|]. intros c' Hc'.
  eapply rany_bind; [apply (IH os (Forall_inv_tail Ho)); now injection L|]. intros l [L1 L2]. cbn [rany]. split; [cbn [length]; congruence|now constructor].
Qed.
Lemma merge_servers_nth gs T count default xs i x F : nth_error xs i = Some x -> Forall (steady count default T xs) gs ->
  forall cells, length cells = length xs -> Forall (fun c => length (snd c) = count) cells ->
  ex (rlaw (merge_servers fadd fsub qval gs T count default xs cells)) (on_ok (fun cs => F (nth i cs (0%N, [])))) ==
  ex (rlaw (merge_one count default (map (fun g => serve_one fadd fsub qval g T count default (fst x) (snd x)) gs) (nth i cells (0%N, [])))) (on_ok F).
Proof.
  intros E HS. induction HS as [|g gs Hg _ IH]; intros cells Lc Hc; cbn [DMergeModel.merge_servers map merge_one]; [cbn [rlaw]; now rewrite !ex_ret|].
  rewrite ex_rbind, ex_serve_list.
  set (G := fun c' => ex (rlaw (merge_one count default (map (fun g => serve_one fadd fsub qval g T count default (fst x) (snd x)) gs) c')) (on_ok F)).
  transitivity (ex (rlaw (serve_list g T count default xs)) (on_ok (fun os => ex (rlaw (merge_opt count default (nth i cells (0%N, [])) (nth i os None))) (on_ok G)))).
  - apply (ex_law_ext _ _ _ _ (serve_list_any g T count default xs Hg)). intros os [K1 K2].
    assert (Lo : length xs = length os) by (clear - K1; induction K1; cbn; congruence).
    rewrite (merge_reply_each fadd qval (knows g) count default xs os cells K1 Lc), ex_rbind.
    assert (S2 : Forall2 (fun c o => sure (merge_opt count default c o)) cells os).
    { assert (L2 : length cells = length os) by congruence. clear - Hc K2 L2. revert os K2 L2. induction Hc as [|c cells H _ IH]; intros [|o os] K2 L2; try discriminate L2; constructor.
      - apply merge_opt_sure; [exact H|exact (Forall_inv K2)].
      - apply IH; [exact (Forall_inv_tail K2)|now injection L2]. }
    rewrite <- (ex_merge_nth count default cells os (0%N, []) S2 i G).
    2:{ rewrite Lc. apply nth_error_Some. congruence. }
    apply (ex_law_ext _ _ _ _ (merge_each_any count default cells os Hc K2 ltac:(congruence))). intros cs [L1 L2]. apply IH; [congruence|exact L2].
  - rewrite (ex_serve_nth g T count default xs) with (i := i) (x := x) (F := fun o => ex (rlaw (merge_opt count default (nth i cells (0%N, [])) o)) (on_ok G)); [|eapply Forall_impl; [|exact Hg]; cbn; tauto|exact E].
    rewrite ex_rbind. apply ex_ext_all. intros [o|e]; cbn [on_ok]; [|reflexivity]. rewrite ex_rbind. reflexivity.
Qed.
Lemma law_steady count default f T xs g (W S : Z * option Z -> Q) :
  Forall (fun x => server_law count default f (serve_one fadd fsub qval g T count default (fst x) (snd x)) (W x) (S x)) xs -> steady count default T xs g.
Proof.
  intros H. eapply Forall_impl; [|exact H]. intros x (H1 & _ & _ & _ & H5). split; [exact H5|]. eapply rany_imp; [|exact H1]. intros [r|] Ho r' E; [|discriminate]. injection E as <-. tauto.
Qed.

Lemma mass_perm a b : Permutation a b -> mass qval a == mass qval b.
Proof. apply qsum_perm. Qed.
Lemma matching_all wm split all types n ts : Permutation (concat split) all ->
  Permutation (concat (map (fun parts => matching wm parts types n ts) split)) (matching wm all types n ts) /\
  Permutation (concat (map (fun parts => spec_edges parts types n) split)) (spec_edges all types n).
Proof.
  intros HP.
  assert (E2 : concat (map (fun parts => spec_edges parts types n) split) = spec_edges (concat split) types n).
  { unfold spec_edges. clear. induction split as [|p l IH]; [reflexivity|]. cbn [map concat]. now rewrite IH, flat_map_app, filter_app. }
  assert (P2 : Permutation (spec_edges (concat split) types n) (spec_edges all types n)).
  { unfold spec_edges. apply Permutation_filter'. rewrite !flat_map_concat_map. apply concat_perm'. now apply Permutation_map. }
  assert (E1 : concat (map (fun parts => matching wm parts types n ts) split) = matching wm (concat split) types n ts).
  { unfold matching. destruct wm, ts; rewrite <- E2; try reflexivity. clear. induction split as [|p l IH]; [reflexivity|]. cbn [map concat]. now rewrite IH, filter_app. }
  split; [rewrite E1|now rewrite E2]. unfold matching. destruct wm, ts; auto. now apply Permutation_filter'.
Qed.

Lemma d_sample_law (wval : N -> Z) wm split gs all types nodes ts count default f :
  Forall2 (converted fadd wval wm) split gs -> Permutation (concat split) all ->
  Forall (guarded fadd fsub types) split ->
  (forall e, In e (flat_map edges_of all) -> rep (e_w e)) -> (0 < count)%nat ->
  Forall (fun x => Forall (fun parts => sample_times wm parts (snd x) /\ (count = 1%nat \/ (length (node_rows (fst x) (map rows parts)) <= 1)%nat)) split /\
                   2 * mass qval (spec_edges all types (fst x)) <= B) (stamps nodes ts) ->
  forall i n t, nth_error (stamps nodes ts) i = Some (n, t) -> 0 < mass qval (matching wm all types n t) ->
  ex (rlaw (d_sample fadd fsub qval gs types count default nodes ts)) (on_ok (fun out => qsum f (nth i out []))) ==
  qnat count * (wshare qval wm all types n t f / mass qval (matching wm all types n t)).
Proof.
  intros HC HP HG HR Pc HX i n t Ei Pm.
  destruct (xo_zero _ _ _ _ _ X) as [Z1 Z2].
  set (xs := stamps nodes ts) in *. set (T := make_sorted_list types).
  assert (Rs : forall e, In e (flat_map edges_of (concat split)) -> rep (e_w e)).
  { intros e He. apply HR. apply in_flat_map in He as (p & Hp & He). apply in_flat_map. exists p. split; [|exact He]. now apply (Permutation_in _ HP). }
  assert (NN : forall n parts, (forall e, In e (flat_map edges_of parts) -> rep (e_w e)) -> 0 <= mass qval (spec_edges parts types n)).
  { intros n0 parts H. apply (mass_nonneg fadd fsub qval rep B X). apply Forall_forall. intros w Hw. apply in_map_iff in Hw as (e & <- & He). apply H.
    unfold spec_edges in He. now apply filter_In in He. }
  assert (Bs : forall x parts, In x xs -> In parts split -> 2 * mass qval (spec_edges parts types (fst x)) <= B).
  { intros x parts Hx Hin. rewrite Forall_forall in HX. destruct (HX x Hx) as [_ HB]. destruct (matching_all wm split all types (fst x) (snd x) HP) as [_ P2].
    pose proof (mass_perm _ _ P2) as MS. clear - X MS HB Hin Rs NN.
    apply in_split in Hin as (l1 & l2 & E). rewrite E in MS. rewrite map_app in MS. cbn [map] in MS. rewrite concat_app in MS. cbn [concat] in MS. rewrite !mass_app in MS.
    assert (NA : forall l, incl l split -> 0 <= mass qval (concat (map (fun parts => spec_edges parts types (fst x)) l))).
    { induction l as [|p l IH]; intros Hi; [cbn; lra|]. cbn [map concat]. rewrite mass_app.
      assert (0 <= mass qval (spec_edges p types (fst x))).
      { apply NN. intros e He. apply Rs. apply in_flat_map in He as (q & Hq & He). apply in_flat_map. exists q. split; [|exact He]. apply in_concat. exists p. split; [|exact Hq]. apply Hi. now left. }
      specialize (IH ltac:(intros y Hy; apply Hi; now right)). lra. }
    assert (N1 := NA l1 ltac:(rewrite E; now apply incl_appl, incl_refl)).
    assert (N2 := NA l2 ltac:(rewrite E; apply incl_appr, incl_tl, incl_refl)).
    lra. }
  assert (SL : forall x, In x xs -> Forall2 (fun g parts => server_law count default f (serve_one fadd fsub qval g T count default (fst x) (snd x))
      (mass qval (matching wm parts types (fst x) (snd x))) (wshare qval wm parts types (fst x) (snd x) f)) gs split).
  { intros x Hx. specialize (Bs x). rewrite Forall_forall in HX. destruct (HX x Hx) as [HT _]. clear - X HC HG HT Rs Bs Hx Pc.
    induction HC as [|parts g split gs Cg _ IH]; constructor.
    - destruct (Forall_inv HT) as [T1 T2]. apply (server_one wval wm parts g types (fst x) (snd x) Cg (Forall_inv HG) T1); [|apply Bs; [exact Hx|now left]|exact Pc|exact T2].
      intros e He. apply Rs. cbn [concat]. rewrite flat_map_app. apply in_or_app. now left.
    - apply IH; [exact (Forall_inv_tail HG)| |intros p H1 H2; apply Bs; [exact H1|now right]|exact (Forall_inv_tail HT)].
      intros e He. apply Rs. cbn [concat]. rewrite flat_map_app. apply in_or_app. now right. }
  assert (St : Forall (steady count default T xs) gs).
  { apply Forall_forall. intros g Hg. apply Forall_forall. intros x Hx. specialize (SL x Hx). clear - SL Hg.
    induction SL as [|g' parts gs split (H1 & _ & _ & _ & H5) _ IH]; [destruct Hg|]. destruct Hg as [<-|Hg]; [|now apply IH].
    split; [exact H5|]. eapply rany_imp; [|exact H1]. intros [r|] Ho r' E; [|discriminate]. injection E as <-. tauto. }
  unfold d_sample. fold xs T. rewrite ex_rbind.
  assert (Hi : (i < length xs)%nat) by (apply nth_error_Some; congruence).
  transitivity (ex (rlaw (merge_servers fadd fsub qval gs T count default xs (repeat (0%N, repeat default count) (length xs)))) (on_ok (fun cs => qsum f (snd (nth i cs (0%N, [])))))).
  { apply ex_ext_all. intros [cs|e]; cbn [on_ok rlaw]; [|reflexivity]. rewrite ex_ret. cbn [on_ok]. change [] with (snd (0%N, @nil nbr)) at 1. now rewrite map_nth. }
  rewrite (merge_servers_nth gs T count default xs i (n, t) (fun c => qsum f (snd c)) Ei St).
  2:{ apply repeat_length. }
  2:{ apply Forall_forall. intros c Hc. apply repeat_spec in Hc. subst c. cbn [snd]. apply repeat_length. }
  replace (nth i (repeat (0%N, repeat default count) (length xs)) (0%N, [])) with (0%N, repeat default count).
  2:{ symmetry. apply (repeat_spec (length xs) (0%N, repeat default count)). apply nth_In. now rewrite repeat_length. }
  destruct (matching_all wm split all types n t HP) as [P1 P2].
  set (WS := map (fun parts => (mass qval (matching wm parts types n t), wshare qval wm parts types n t f)) split).
  assert (F : Forall2 (fun m ws => server_law count default f m (fst ws) (snd ws)) (map (fun g => serve_one fadd fsub qval g T count default n t) gs) WS).
  { specialize (SL (n, t) (nth_error_In _ _ Ei)). cbn [fst snd] in SL. unfold WS. clear - SL. induction SL; cbn [map]; constructor; assumption. }
  assert (SW : qsum fst WS == mass qval (matching wm all types n t)).
  { rewrite <- (mass_perm _ _ P1). unfold WS. rewrite qsum_map. cbn [fst]. clear. induction split as [|p l IH]; cbn [qsum map concat]; [reflexivity|]. rewrite mass_app, IH. reflexivity. }
  assert (SS : qsum snd WS == wshare qval wm all types n t f).
  { unfold wshare at 1. rewrite <- (qsum_perm _ _ _ P1). unfold WS. rewrite qsum_map. cbn [snd]. clear. induction split as [|p l IH]; cbn [qsum map concat]; [reflexivity|]. rewrite qsum_app, IH. reflexivity. }
  assert (MM : mass qval (matching wm all types n t) <= mass qval (spec_edges all types n)).
  { unfold matching. destruct wm as [w|], t as [t|]; try (apply Qle_refl).
    assert (Hn : forall l, (forall e, In e l -> rep (e_w e)) -> mass qval (filter (alive t) l) <= mass qval l).
    { clear - X. induction l as [|e l IH]; intros H; [apply Qle_refl|]. specialize (IH ltac:(intros; apply H; now right)).
      pose proof (xo_nonneg _ _ _ _ _ X (e_w e) (H e (or_introl eq_refl))) as N0. cbn [filter]. unfold mass in *. destruct (alive t e); cbn [qsum]; unfold wq in *; lra. }
    apply Hn. intros e He. apply HR. unfold spec_edges in He. now apply filter_In in He. }
  assert (HBn : 2 * mass qval (spec_edges all types n) <= B) by (rewrite Forall_forall in HX; exact (proj2 (HX (n, t) (nth_error_In _ _ Ei)))).
  cbn [fst snd]. rewrite (merge_one_law count default f _ _ F (0%N, repeat default count)); cbn [fst snd]; [|exact Z1|apply repeat_length|reflexivity|].
  - unfold after. destruct (Qeq_bool _ 0) eqn:E0; [apply Qeq_bool_iff in E0; rewrite Z2, SW in E0; lra|].
    rewrite SW, SS, Z2. field. lra.
  - rewrite Z2, SW. pose proof (NN n all HR). lra.
Qed.
End Law.

(** ** Real slots of converted servers *)
Local Open Scope nat_scope.
Lemma d_sample_real fadd fsub qval wval wm split gs types nodes count default :
  Forall2 (converted fadd wval wm) split gs -> Forall (sums_nonneg fadd qval) split ->
  forall r, routcome (d_sample fadd fsub qval gs types count default nodes None) r ->
  exists out, r = Ok out /\ Forall2 (fun n l => length l = count /\ forall y, In y l -> y = default \/
    exists g full, In g gs /\ g_full_neighbor fsub g (make_sorted_list types) n None = Ok full /\ In y full) nodes out.
Proof.
  intros HC HS r Hr.
  set (real := fun (x : Z * option Z) (y : nbr) => exists g full, In g gs /\ g_full_neighbor fsub g (make_sorted_list types) (fst x) None = Ok full /\ In y full).
  assert (Hall : forall g x, In g gs -> In x (stamps nodes None) -> serves fadd fsub qval count default real g (make_sorted_list types) x).
  { intros g x Hg Hx. apply serve_from_sample. unfold stamps in Hx. apply in_map_iff in Hx as (n & <- & _). cbn [fst snd].
    assert (HH : exists parts, converted fadd wval wm parts g /\ sums_nonneg fadd qval parts).
    { clear - HC HS Hg. induction HC as [|p g' split gs C _ IH]; [destruct Hg|]. destruct Hg as [<-|Hg]; [exists p; split; [exact C|exact (Forall_inv HS)]|]. apply IH; [exact (Forall_inv_tail HS)|exact Hg]. }
    destruct HH as (parts & C & S0). destruct (weighted_real fadd fsub qval wval wm parts g types n count default C S0) as (full & F & H).
    intros r' H'. destruct (H r' H') as (l & -> & L & K). exists l. split; [reflexivity|]. split; [exact L|]. intros y Hy. destruct (K y Hy) as [->|K']; [now left|]. right. exists g, full. auto. }
  destruct (d_sample_all fadd fsub qval count default real gs types nodes None Hall r Hr) as (out & -> & F). exists out. split; [reflexivity|].
  unfold stamps in F. clear - F. revert out F. induction nodes as [|n nodes IH]; intros out F; cbn [map] in F; inversion F as [|? l ? out' [H1 H2] F']; subst; constructor; auto.
Qed.
Lemma d_sample_real_times fadd fsub qval wval rep B wm split gs all types nodes ts count default : exact_on fadd fsub qval rep B ->
  Forall2 (converted fadd wval wm) split gs -> Permutation (concat split) all ->
  Forall (guarded fadd fsub types) split ->
  (forall e, In e (flat_map edges_of all) -> rep (e_w e)) ->
  Forall (fun x => Forall (fun parts => sample_times wm parts (snd x) /\ (2 * mass qval (spec_edges parts types (fst x)) <= B)%Q) split) (stamps nodes ts) ->
  forall r, routcome (d_sample fadd fsub qval gs types count default nodes ts) r ->
  exists out, r = Ok out /\ Forall2 (fun x l => length l = count /\ forall y, In y l -> y = default \/
    In y (map (ans (snd x)) (matching wm all types (fst x) (snd x)))) (stamps nodes ts) out.
Proof.
  intros X HC HP HG HR HT r Hr.
  set (real := fun (x : Z * option Z) (y : nbr) => In y (map (ans (snd x)) (matching wm all types (fst x) (snd x)))).
  assert (Hall : forall g x, In g gs -> In x (stamps nodes ts) -> serves fadd fsub qval count default real g (make_sorted_list types) x).
  { intros g x Hg Hx. apply serve_from_sample. rewrite Forall_forall in HT. specialize (HT x Hx).
    assert (HH : exists parts, In parts split /\ converted fadd wval wm parts g).
    { clear - HC Hg. induction HC as [|p g' split gs C _ IH]; [destruct Hg|]. destruct Hg as [<-|Hg]; [exists p; split; [now left|exact C]|]. destruct (IH Hg) as (q & H1 & H2). exists q. split; [now right|exact H2]. }
    destruct HH as (parts & Hin & C). rewrite Forall_forall in HT. destruct (HT parts Hin) as [T1 T2]. rewrite Forall_forall in HG.
    intros r' H'. destruct (weighted_real_exact fadd fsub qval wval rep B X wm parts g types (fst x) (snd x) C (HG parts Hin) T1) with (count := count) (default := default) (r := r') as (l & -> & L & K); auto.
    { intros e He. apply HR. apply in_flat_map in He as (p & Hp & He). apply in_flat_map. exists p. split; [|exact He]. apply (Permutation_in _ HP). apply in_concat. exists parts. auto. }
    exists l. split; [reflexivity|]. split; [exact L|]. intros y Hy. destruct (K y Hy) as [->|K']; [now left|]. right. unfold real.
    apply in_map_iff in K' as (e & <- & He). apply in_map. destruct (matching_all wm split all types (fst x) (snd x) HP) as [P1 _].
    apply (Permutation_in _ P1). apply in_concat. exists (matching wm parts types (fst x) (snd x)). split; [|exact He]. apply in_map_iff. exists parts. auto. }
  destruct (d_sample_all fadd fsub qval count default real gs types nodes ts Hall r Hr) as (out & -> & F). exists out. split; [reflexivity|exact F].
Qed.
