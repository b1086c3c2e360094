(** Proofs about forest fire sampling. *)
From Verif Require Import Base ForestModel ForestSpec.
From Coq Require Import ZifyBool ZifyNat.

Lemma memn_in x l : memn x l = true <-> In x l.
Proof.
  unfold memn. rewrite existsb_exists. split.
  - intros (y & H & E). apply Nat.eqb_eq in E. now subst.
  - intro H. exists x. split; [exact H|apply Nat.eqb_refl].
Qed.
Lemma memn_not x l : memn x l = false <-> ~ In x l.
Proof. rewrite <- memn_in. destruct (memn x l); split; congruence. Qed.
Lemma edge_eqb_eq a b : edge_eqb a b = true <-> a = b.
Proof.
  destruct a as [a1 a2], b as [b1 b2]. unfold edge_eqb. cbn. rewrite andb_true_iff, !Nat.eqb_eq. split; [intros [-> ->]; auto|].
  intro H. injection H. auto.
Qed.
Lemma edge_mem e l : existsb (edge_eqb e) l = true <-> In e l.
Proof.
  rewrite existsb_exists. split.
  - intros (y & H & E). apply edge_eqb_eq in E. now subst.
  - intro H. exists e. split; [exact H|now apply edge_eqb_eq].
Qed.
Lemma in_successors g v x : In x (successors g v) <-> In (v, x) (g_edges g).
Proof.
  unfold successors. rewrite in_map_iff. split.
  - intros ((a, b) & <- & H). apply filter_In in H. cbn in *. destruct H as [H E]. apply Nat.eqb_eq in E. now subst.
  - intro H. exists (v, x). split; [reflexivity|]. apply filter_In. split; [exact H|apply Nat.eqb_refl].
Qed.
Lemma in_predecessors g v x : In x (predecessors g v) <-> In (x, v) (g_edges g).
Proof.
  unfold predecessors. rewrite in_map_iff. split.
  - intros ((a, b) & <- & H). apply filter_In in H. cbn in *. destruct H as [H E]. apply Nat.eqb_eq in E. now subst.
  - intro H. exists (x, v). split; [reflexivity|]. apply filter_In. split; [exact H|apply Nat.eqb_refl].
Qed.
Lemma filter_len {A} (f : A -> bool) l : length (filter f l) <= length l.
Proof. induction l as [|a l IH]; cbn; [lia|]. destruct (f a); cbn; lia. Qed.
Lemma successors_len g v : length (successors g v) <= length (g_edges g).
Proof. unfold successors. rewrite map_length. apply filter_len. Qed.
Lemma predecessors_len g v : length (predecessors g v) <= length (g_edges g).
Proof. unfold predecessors. rewrite map_length. apply filter_len. Qed.

(** ** add_edge *)
Lemma add_node_in v l x : In x (add_node v l) <-> In x l \/ x = v.
Proof.
  unfold add_node. destruct (memn v l) eqn:E.
  - apply memn_in in E. split; [tauto|]. intros [H| ->]; assumption.
  - rewrite in_app_iff. cbn. split; [intros [H|[->|[]]]|intros [H| ->]]; tauto.
Qed.
Lemma nodup_snoc {A} (l : list A) v : NoDup l -> ~ In v l -> NoDup (l ++ [v]).
Proof.
  intros H N. induction H as [|a l Ha H IH]; cbn; [constructor; [intros []|constructor]|].
  constructor.
  - rewrite in_app_iff. cbn. intros [X|[X|[]]]; [contradiction|]. subst. apply N. now left.
  - apply IH. intro X. apply N. now right.
Qed.
Lemma add_node_nodup v l : NoDup l -> NoDup (add_node v l).
Proof.
  intro H. unfold add_node. destruct (memn v l) eqn:E; [exact H|]. apply memn_not in E. now apply nodup_snoc.
Qed.
Lemma add_node_len v l : length l <= length (add_node v l) <= S (length l).
Proof. unfold add_node. destruct (memn v l); rewrite ?app_length; cbn; lia. Qed.
Lemma add_edge_nodes s u v x : In x (g_nodes (add_edge s u v)) <-> In x (g_nodes s) \/ x = u \/ x = v.
Proof. cbn. rewrite !add_node_in. tauto. Qed.
Lemma add_edge_edges s u v e : In e (g_edges (add_edge s u v)) <-> In e (g_edges s) \/ e = (u, v).
Proof.
  cbn. destruct (existsb (edge_eqb (u, v)) (g_edges s)) eqn:E.
  - apply edge_mem in E. split; [tauto|]. intros [H| ->]; assumption.
  - rewrite in_app_iff. cbn. split; [intros [H|[->|[]]]|intros [H| ->]]; tauto.
Qed.
Lemma add_edge_len s u v : length (g_nodes s) <= length (g_nodes (add_edge s u v)) <= S (S (length (g_nodes s))).
Proof. cbn. pose proof (add_node_len u (g_nodes s)). pose proof (add_node_len v (add_node u (g_nodes s))). lia. Qed.
Lemma add_edge_ok s u v : graph_ok s -> graph_ok (add_edge s u v).
Proof.
  intros (H1 & H2 & H3). unfold graph_ok. refine (conj _ (conj _ _)).
  - cbn. now apply add_node_nodup, add_node_nodup.
  - cbn. destruct (existsb (edge_eqb (u, v)) (g_edges s)) eqn:E; [exact H2|]. apply nodup_snoc; [exact H2|].
    rewrite <- edge_mem. congruence.
  - intros a b. rewrite add_edge_edges, !add_edge_nodes. intros [H|H].
    + apply H3 in H. tauto.
    + injection H as -> ->. tauto.
Qed.
Lemma add_edge_touched s u v : (forall x, In x (g_nodes s) -> touched s x) ->
  forall x, In x (g_nodes (add_edge s u v)) -> touched (add_edge s u v) x.
Proof.
  intros H x. rewrite add_edge_nodes. unfold touched. intros [Hx|[->| ->]].
  - destruct (H x Hx) as (y & [Hy|Hy]); exists y; rewrite !add_edge_edges; tauto.
  - exists v. rewrite !add_edge_edges. tauto.
  - exists u. rewrite !add_edge_edges. tauto.
Qed.

(** ** burn *)
Section Burn.
Variables (size : nat) (mk : digraph -> nat -> digraph).
Lemma burn_inv (P : digraph -> Prop) chosen s q :
  (forall s v, In v chosen -> length (g_nodes s) < size -> P s -> P (mk s v)) -> P s -> P (fst (burn size mk chosen s q)).
Proof.
  revert s q. induction chosen as [|v rest IH]; intros s q0 H Hs; [exact Hs|]. cbn [burn].
  destruct (length (g_nodes s) <? size) eqn:E; [|exact Hs]. apply IH.
  - intros s0 w Hw. apply H. now right.
  - apply H; [now left|lia|exact Hs].
Qed.
Lemma burn_q chosen s q : forall x, In x (snd (burn size mk chosen s q)) -> In x chosen \/ In x q.
Proof.
  revert s q. induction chosen as [|v rest IH]; intros s q0 x H; [now right|]. cbn [burn] in H.
  destruct (length (g_nodes s) <? size); [|now right]. apply IH in H. cbn in *. tauto.
Qed.
Lemma burn_q_len chosen s q : length (snd (burn size mk chosen s q)) <= length chosen + length q.
Proof.
  revert s q. induction chosen as [|v rest IH]; intros s q0; [cbn; lia|]. cbn [burn].
  destruct (length (g_nodes s) <? size); [|cbn; lia]. specialize (IH (mk s v) (v :: q0)). cbn [length] in *. lia.
Qed.
End Burn.

Lemma distinct_nodup l : distinctb l = true -> NoDup l.
Proof.
  induction l as [|x l IH]; [constructor|]. cbn. intro H. apply andb_prop in H. destruct H as [H1 H2].
  apply negb_true_iff, memn_not in H1. constructor; auto.
Qed.
Lemma random_sample_in l n idx c : random_sample l n idx = Some c -> length c = n /\ forall x, In x c -> In x l.
Proof.
  unfold random_sample. destruct ((length idx =? n) && distinctb idx && forallb (fun i => i <? length l) idx) eqn:E; [|discriminate].
  intro H. injection H as <-. apply andb_prop in E. destruct E as [E1 E2]. apply andb_prop in E1. destruct E1 as [E0 E1].
  split; [rewrite map_length; lia|]. intros x Hx. apply in_map_iff in Hx. destruct Hx as (i & <- & Hi).
  apply nth_In. rewrite forallb_forall in E2. specialize (E2 i Hi). now apply Nat.ltb_lt in E2.
Qed.

(** ** The loop *)
Section Fire.
Variables (g : digraph) (size : nat).
Hypothesis G : graph_ok g.

Definition inv_sample (s : digraph) : Prop :=
  graph_ok s /\ incl (g_edges s) (g_edges g) /\ (forall v, In v (g_nodes s) -> touched s v) /\ length (g_nodes s) <= S size.
Definition inv (st : state) : Prop :=
  inv_sample (sample st) /\ incl (q st) (g_nodes g) /\ incl (visited st) (g_nodes g) /\ NoDup (visited st) /\
  (size = 0 -> g_nodes (sample st) = []).

Lemma inv_add s u v : In (u, v) (g_edges g) -> length (g_nodes s) < size -> inv_sample s -> inv_sample (add_edge s u v).
Proof.
  intros E L (H1 & H2 & H3 & H4). unfold inv_sample. refine (conj _ (conj _ (conj _ _))).
  - now apply add_edge_ok.
  - intros e He. apply add_edge_edges in He. destruct He as [He| ->]; auto.
  - now apply add_edge_touched.
  - pose proof (add_edge_len s u v). lia.
Qed.

Lemma inv_step st d st' : inv st -> step g size st d = Some st' -> inv st'.
Proof.
  intros (I1 & I2 & I3 & I4 & I5) H. unfold step in H. destruct (finished size st) eqn:Fin; [discriminate|].
  assert (P0 : 0 < size) by (unfold finished in Fin; lia).
  destruct (q st) as [|v rest] eqn:Q; destruct d as [i| |ns np si pi]; try discriminate.
  - destruct (nth_error (g_nodes g) i) as [v|] eqn:Ev; [|discriminate]. injection H as <-. unfold inv. cbn.
    refine (conj I1 (conj _ (conj _ (conj _ I5)))).
    + intros x [<-|[]]. now apply nth_error_In in Ev.
    + intros x [].
    + constructor.
  - destruct (memn v (visited st)); [|discriminate]. injection H as <-. unfold inv. cbn.
    refine (conj I1 (conj _ (conj I3 (conj I4 I5)))). intros x Hx. apply I2. now right.
  - destruct (memn v (visited st)) eqn:Vi; [discriminate|]. apply memn_not in Vi.
    destruct ((ns =? 0) || (np =? 0)); [discriminate|].
    destruct (random_sample (successors g v) _ si) as [cs|] eqn:Es; [|discriminate].
    destruct (random_sample (predecessors g v) _ pi) as [cp|] eqn:Ep; [|discriminate].
    apply random_sample_in in Es. apply random_sample_in in Ep. destruct Es as [_ Es]. destruct Ep as [_ Ep].
    destruct (burn size _ cs (sample st) rest) as [s1 q1] eqn:B1.
    destruct (burn size _ cp s1 q1) as [s2 q2] eqn:B2. injection H as <-. unfold inv. cbn.
    assert (H1 : inv_sample s1).
    { change s1 with (fst (s1, q1)). rewrite <- B1. apply burn_inv; [|exact I1]. intros s x Hx L Hs.
      apply inv_add; auto. now apply in_successors, Es. }
    assert (H2 : inv_sample s2).
    { change s2 with (fst (s2, q2)). rewrite <- B2. apply burn_inv; [|exact H1]. intros s x Hx L Hs.
      apply inv_add; auto. now apply in_predecessors, Ep. }
    refine (conj H2 (conj _ (conj _ (conj _ _)))).
    + intros x Hx. change q2 with (snd (s2, q2)) in Hx. rewrite <- B2 in Hx. apply burn_q in Hx.
      destruct Hx as [Hx|Hx].
      * apply Ep, in_predecessors in Hx. now apply G in Hx.
      * change q1 with (snd (s1, q1)) in Hx. rewrite <- B1 in Hx. apply burn_q in Hx. destruct Hx as [Hx|Hx].
        -- apply Es, in_successors in Hx. now apply G in Hx.
        -- apply I2. now right.
    + intros x [<-|Hx]; [apply I2; now left|now apply I3].
    + now constructor.
    + lia.
Qed.

Lemma inv_init i st : init g i = Some st -> inv st.
Proof.
  unfold init. destruct (nth_error (g_nodes g) i) as [v|] eqn:Ev; [|discriminate]. intro H. injection H as <-.
  unfold inv, inv_sample, graph_ok. cbn. refine (conj _ (conj _ (conj _ (conj _ _)))).
  - refine (conj _ (conj _ (conj _ _))); [refine (conj _ (conj _ _))| | |].
    + constructor.
    + constructor.
    + intros u w [].
    + intros x [].
    + intros x [].
    + lia.
  - intros x [<-|[]]. now apply nth_error_In in Ev.
  - intros x [].
  - constructor.
  - auto.
Qed.
Lemma inv_reached st : reached g size st -> inv st.
Proof. induction 1 as [i st H|st d st' _ IH H]; [now apply inv_init in H|now apply inv_step in H]. Qed.

Lemma part_inv s : inv_sample s -> part_of s g.
Proof.
  intros (H1 & H2 & H3 & _). unfold part_of. refine (conj H1 (conj _ (conj H2 H3))).
  intros v Hv. destruct (H3 v Hv) as (u & [E|E]); apply H2, G in E; tauto.
Qed.
Lemma touching_in v : In v (touching g) <-> In v (g_nodes g) /\ touched g v.
Proof.
  unfold touching, touched. rewrite filter_In, existsb_exists. split; intros [H K]; split; try exact H.
  - destruct K as ((a, b) & E & X). cbn in X. apply orb_prop in X. destruct X as [X|X]; apply Nat.eqb_eq in X; subst; eauto.
  - destruct K as (u & [E|E]); [exists (u, v)|exists (v, u)]; (split; [exact E|]); cbn; rewrite Nat.eqb_refl, ?orb_true_r; reflexivity.
Qed.
Lemma sample_touching s : inv_sample s -> incl (g_nodes s) (touching g).
Proof.
  intros I v Hv. apply touching_in. pose proof (part_inv s I) as (_ & H & K & T). split; [now apply H|].
  destruct (T v Hv) as (u & [E|E]); exists u; [left|right]; now apply K.
Qed.
Lemma sample_bound st : reached g size st -> length (g_nodes (sample st)) <= length (touching g).
Proof.
  intro R. destruct (inv_reached st R) as (I & _). apply NoDup_incl_length; [apply I|now apply sample_touching].
Qed.
Theorem never st : length (touching g) < size -> reached g size st -> finished size st = false.
Proof. intros L R. pose proof (sample_bound st R). unfold finished. lia. Qed.

Theorem result i ds s : forest_fire g size i ds = Some s ->
  part_of s g /\ size <= length (g_nodes s) <= S size /\ (size = 0 -> g_nodes s = []).
Proof.
  unfold forest_fire. destruct (init g i) as [st|] eqn:E; [|discriminate].
  destruct (steps g size st ds) as [st'|] eqn:S'; [|discriminate].
  destruct (finished size st') eqn:F; [|discriminate]. intro H. injection H as <-.
  assert (I : inv st').
  { apply inv_init in E. revert st E S'. induction ds as [|d ds IH]; intros st E S'; cbn in S'; [now injection S' as <-|].
    destruct (step g size st d) as [st1|] eqn:Es; [|discriminate]. apply (IH st1); [now apply inv_step in Es|exact S']. }
  destruct I as (I & _ & _ & _ & I0). refine (conj (part_inv _ I) (conj _ I0)).
  destruct I as (_ & _ & _ & L). unfold finished in F. lia.
Qed.

(** ** A fire burns out *)
Definition unvisited (st : state) : nat := length (filter (fun v => negb (memn v (visited st))) (g_nodes g)).
Definition potential (st : state) : nat := unvisited st * (2 * length (g_edges g) + 1) + length (q st).
Definition is_start (d : draw) : bool := match d with Start _ => true | _ => false end.

Lemma unvisited_cons (l : list nat) v vs : NoDup l -> In v l -> ~ In v vs ->
  length (filter (fun x => negb (memn x vs)) l) = S (length (filter (fun x => negb (memn x (v :: vs))) l)).
Proof.
  intros ND Hv Nv. induction ND as [|a l Ha ND IH]; [destruct Hv|]. cbn [filter memn existsb].
  destruct Hv as [->|Hv].
  - rewrite (proj2 (memn_not v vs) Nv). cbn [negb length]. rewrite Nat.eqb_refl. cbn [orb negb]. f_equal.
    f_equal. apply filter_ext_in. intros x Hx. f_equal. cbn [memn existsb].
    destruct (Nat.eqb_spec x v) as [->|E]; [contradiction|reflexivity].
  - specialize (IH Hv). destruct (Nat.eqb_spec a v) as [->|E]; [contradiction|]. cbn [orb].
    fold (memn a vs). destruct (memn a vs); cbn [negb length]; [exact IH|]. now f_equal.
Qed.
Lemma potential_step st d st' : inv st -> is_start d = false -> step g size st d = Some st' -> potential st' < potential st.
Proof.
  intros (I1 & I2 & I3 & I4 & _) D H. unfold step in H. destruct (finished size st) eqn:Fin; [discriminate|].
  destruct (q st) as [|v rest] eqn:Q; destruct d as [i| |ns np si pi]; try discriminate.
  - destruct (memn v (visited st)); [|discriminate]. injection H as <-. unfold potential, unvisited. cbn [visited q]. rewrite Q. cbn [length]. lia.
  - destruct (memn v (visited st)) eqn:Vi; [discriminate|]. apply memn_not in Vi.
    destruct ((ns =? 0) || (np =? 0)); [discriminate|].
    destruct (random_sample (successors g v) _ si) as [cs|] eqn:Es; [|discriminate].
    destruct (random_sample (predecessors g v) _ pi) as [cp|] eqn:Ep; [|discriminate].
    apply random_sample_in in Es. apply random_sample_in in Ep. destruct Es as [Es _]. destruct Ep as [Ep _].
    destruct (burn size _ cs (sample st) rest) as [s1 q1] eqn:B1.
    destruct (burn size _ cp s1 q1) as [s2 q2] eqn:B2. injection H as <-.
    unfold potential, unvisited. cbn [visited q]. rewrite Q.
    rewrite (unvisited_cons (g_nodes g) v (visited st)) by (try apply G; auto; apply I2; now left).
    assert (L1 : length q1 <= length cs + length rest).
    { change q1 with (snd (s1, q1)). rewrite <- B1. apply burn_q_len. }
    assert (L2 : length q2 <= length cp + length q1).
    { change q2 with (snd (s2, q2)). rewrite <- B2. apply burn_q_len. }
    pose proof (successors_len g v). pose proof (predecessors_len g v). cbn [length].
    set (U := length (filter _ _)). lia.
Qed.
Lemma fire_bound ds : forall st st', inv st -> forallb (fun d => negb (is_start d)) ds = true -> steps g size st ds = Some st' ->
  length ds + potential st' <= potential st.
Proof.
  induction ds as [|d ds IH]; intros st st' I F H; cbn in H; [injection H as <-; cbn; lia|].
  destruct (step g size st d) as [st1|] eqn:E; [|discriminate]. cbn in F. apply andb_prop in F. destruct F as [F1 F2].
  pose proof (potential_step st d st1 I (proj1 (negb_true_iff _) F1) E). apply inv_step in E; [|exact I].
  specialize (IH st1 st' E F2 H). cbn [length]. lia.
Qed.
Theorem burns_out st ds st' : reached g size st -> forallb (fun d => negb (is_start d)) ds = true ->
  steps g size st ds = Some st' -> length ds <= length (q st) + length (g_nodes g) * (2 * length (g_edges g) + 1).
Proof.
  intros R F H. pose proof (fire_bound ds st st' (inv_reached st R) F H) as B. unfold potential at 2, unvisited in B.
  pose proof (filter_len (fun v => negb (memn v (visited st))) (g_nodes g)). nia.
Qed.

(** ** It can always go on until the sample is large enough *)
Definition first (l : list nat) : list nat := match l with [] => [] | _ => [0] end.
Lemma random_first l : exists c, random_sample l (Nat.min 1 (length l)) (first l) = Some c /\ (l <> [] -> exists x, c = [x] /\ In x l).
Proof.
  destruct l as [|x l]; [exists []; split; [reflexivity|contradiction]|].
  exists [x]. split; [reflexivity|]. intros _. exists x. split; [reflexivity|now left].
Qed.
Lemma steps_app ds1 ds2 st st1 : steps g size st ds1 = Some st1 -> steps g size st (ds1 ++ ds2) = steps g size st1 ds2.
Proof.
  revert st. induction ds1 as [|d ds1 IH]; intros st H; cbn in *; [injection H as ->; reflexivity|].
  destruct (step g size st d); [|discriminate]. now apply IH.
Qed.
Lemma burn_mono mk chosen s q0 : (forall s v, incl (g_nodes s) (g_nodes (mk s v))) -> incl (g_nodes s) (g_nodes (fst (burn size mk chosen s q0))).
Proof.
  intro M. revert s q0. induction chosen as [|v rest IH]; intros s q0; [apply incl_refl|]. cbn [burn].
  destruct (length (g_nodes s) <? size); [|apply incl_refl]. eapply incl_tran; [apply M|apply IH].
Qed.
Lemma mono1 v : forall s x, incl (g_nodes s) (g_nodes (add_edge s v x)).
Proof. intros s x y Hy. apply add_edge_nodes. tauto. Qed.
Lemma mono2 v : forall s x, incl (g_nodes s) (g_nodes (add_edge s x v)).
Proof. intros s x y Hy. apply add_edge_nodes. tauto. Qed.

(** A turn is possible; if the node of the queue is new and has an edge it enters the sample. *)
Lemma turn st v rest : inv st -> finished size st = false -> q st = v :: rest ->
  exists d st', is_start d = false /\ step g size st d = Some st' /\ incl (g_nodes (sample st)) (g_nodes (sample st')) /\
    (memn v (visited st) = false -> touched g v -> In v (g_nodes (sample st'))).
Proof.
  intros I F Q. destruct (memn v (visited st)) eqn:V.
  - exists Pop, (State (sample st) rest (visited st)). refine (conj eq_refl (conj _ (conj (incl_refl _) _))).
    + unfold step. now rewrite F, Q, V.
    + discriminate.
  - destruct (random_first (successors g v)) as (cs & Es & Fs). destruct (random_first (predecessors g v)) as (cp & Ep & Fp).
    exists (Burn 1 1 (first (successors g v)) (first (predecessors g v))).
    unfold step. rewrite F, Q, V. cbn [Nat.eqb orb]. rewrite Es, Ep.
    destruct (burn size (fun s x => add_edge s v x) cs (sample st) rest) as [s1 q1] eqn:B1.
    destruct (burn size (fun s x => add_edge s x v) cp s1 q1) as [s2 q2] eqn:B2.
    eexists. refine (conj eq_refl (conj eq_refl _)). cbn [sample].
    assert (M1 : incl (g_nodes (sample st)) (g_nodes s1)).
    { change s1 with (fst (s1, q1)). rewrite <- B1. apply burn_mono, mono1. }
    assert (M2 : incl (g_nodes s1) (g_nodes s2)).
    { change s2 with (fst (s2, q2)). rewrite <- B2. apply burn_mono, mono2. }
    split; [eapply incl_tran; eassumption|]. intros _ (u & [E|E]).
    + apply in_predecessors in E. assert (NE : predecessors g v <> []) by (intro X; rewrite X in E; destruct E).
      destruct (successors g v) as [|w ws] eqn:SV.
      * cbn in Es. injection Es as <-. cbn [burn] in B1. injection B1 as <- <-.
        destruct (Fp NE) as (x & -> & _). cbn [burn] in B2. unfold finished in F.
        destruct (length (g_nodes (sample st)) <? size) eqn:L; [|discriminate]. injection B2 as <- _.
        apply add_edge_nodes. tauto.
      * destruct Fs as (x & -> & _); [discriminate|]. apply M2. cbn [burn] in B1. unfold finished in F.
        destruct (length (g_nodes (sample st)) <? size) eqn:L; [|discriminate]. injection B1 as <- _.
        apply add_edge_nodes. tauto.
    + apply in_successors in E. assert (NE : successors g v <> []) by (intro X; rewrite X in E; destruct E).
      destruct (Fs NE) as (x & -> & _). apply M2. cbn [burn] in B1. unfold finished in F.
      destruct (length (g_nodes (sample st)) <? size) eqn:L; [|discriminate]. injection B1 as <- _.
      apply add_edge_nodes. tauto.
Qed.

Lemma drain n : forall st, inv st -> potential st <= n ->
  exists ds st', steps g size st ds = Some st' /\ inv st' /\ (finished size st' = true \/ q st' = []) /\
    incl (g_nodes (sample st)) (g_nodes (sample st')).
Proof.
  induction n as [|n IH]; intros st I P.
  - exists [], st. refine (conj eq_refl (conj I (conj _ (incl_refl _)))). right. unfold potential in P. destruct (q st); [reflexivity|cbn in P; lia].
  - destruct (finished size st) eqn:F; [exists [], st; refine (conj eq_refl (conj I (conj (or_introl F) (incl_refl _))))|].
    destruct (q st) as [|v rest] eqn:Q; [exists [], st; refine (conj eq_refl (conj I (conj (or_intror Q) (incl_refl _))))|].
    destruct (turn st v rest I F Q) as (d & st1 & D & E & M & _).
    pose proof (potential_step st d st1 I D E). pose proof (inv_step st d st1 I E) as I1.
    destruct (IH st1 I1) as (ds & st2 & H1 & H2 & H3 & H4); [lia|].
    exists (d :: ds), st2. refine (conj _ (conj H2 (conj H3 _))).
    + cbn. now rewrite E.
    + eapply incl_tran; eassumption.
Qed.

Lemma grow st : inv st -> finished size st = false -> q st = [] -> size <= length (touching g) ->
  exists ds st', steps g size st ds = Some st' /\ inv st' /\ length (g_nodes (sample st)) < length (g_nodes (sample st')).
Proof.
  intros I F Q L.
  assert (X : exists u, In u (touching g) /\ ~ In u (g_nodes (sample st))).
  { destruct (existsb (fun u => negb (memn u (g_nodes (sample st)))) (touching g)) eqn:E.
    - apply existsb_exists in E. destruct E as (u & H1 & H2). exists u. split; [exact H1|].
      now apply negb_true_iff, memn_not in H2.
    - exfalso. assert (N : incl (touching g) (g_nodes (sample st))).
      { intros u Hu. destruct (memn u (g_nodes (sample st))) eqn:M; [now apply memn_in in M|].
        assert (existsb (fun u => negb (memn u (g_nodes (sample st)))) (touching g) = true); [|congruence].
        apply existsb_exists. exists u. split; [exact Hu|]. now rewrite M. }
      apply NoDup_incl_length in N; [|apply NoDup_filter, G]. unfold finished in F. lia. }
  destruct X as (u & Hu & Nu). apply touching_in in Hu. destruct Hu as [Hu Tu].
  destruct (In_nth_error _ _ Hu) as (i & Hi).
  set (st1 := State (sample st) [u] []).
  assert (E1 : step g size st (Start i) = Some st1) by (unfold step; rewrite F, Q, Hi; reflexivity).
  pose proof (inv_step _ _ _ I E1) as I1.
  destruct (turn st1 u []) as (d & st2 & D & E2 & M & A); [exact I1|exact F|reflexivity|].
  pose proof (inv_step _ _ _ I1 E2) as I2.
  exists [Start i; d], st2. refine (conj _ (conj I2 _)).
  - cbn [steps]. now rewrite E1, E2.
  - specialize (A eq_refl Tu). cbn [sample st1] in M.
    assert (NoDup (u :: g_nodes (sample st))) by (constructor; [exact Nu|apply I]).
    apply (NoDup_incl_length (l := u :: g_nodes (sample st))); [assumption|]. intros x [<-|Hx]; [exact A|now apply M].
Qed.

Lemma reach_end n : forall st, inv st -> size <= length (touching g) -> size - length (g_nodes (sample st)) <= n ->
  exists ds st', steps g size st ds = Some st' /\ finished size st' = true.
Proof.
  induction n as [|n IH]; intros st I L N.
  - exists [], st. split; [reflexivity|]. unfold finished. lia.
  - destruct (drain (potential st) st I (le_n _)) as (ds & st1 & H1 & I1 & H2 & M).
    destruct (finished size st1) eqn:F; [eauto|]. destruct H2 as [H2|H2]; [discriminate|].
    destruct (grow st1 I1 F H2 L) as (ds2 & st2 & H3 & I2 & Gr).
    apply NoDup_incl_length in M; [|apply I]. destruct (IH st2 I2 L) as (ds3 & st3 & H4 & H5); [lia|].
    exists (ds ++ ds2 ++ ds3), st3. split; [|exact H5]. rewrite (steps_app ds _ st st1 H1). now rewrite (steps_app ds2 _ st1 st2 H3).
Qed.
Theorem can_finish st : reached g size st -> size <= length (touching g) ->
  exists ds st', steps g size st ds = Some st' /\ finished size st' = true.
Proof. intros R L. exact (reach_end _ st (inv_reached st R) L (le_n _)). Qed.
End Fire.

Theorem clustering_fails g picks : exists e, average_clustering g picks = Fail e.
Proof.
  unfold average_clustering. destruct picks as [|i rest]; [cbn; eauto|].
  cbn [trials]. unfold node_view. destruct (memn i (g_nodes g)); cbn; eauto.
Qed.
