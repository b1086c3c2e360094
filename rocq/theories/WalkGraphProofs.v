(** Random walks on converted graphs, local and through servers. *)
From Verif Require Import Base Dist WriterModel LoaderModel GraphModel GraphSpec FeatureModel ServerModel LoaderProofs GraphProofs AnswerProofs ServerProofs
  NeighborModel NeighborProofs MultinomialProofs UniformProofs WeightedProofs WeightedLaw WalkModel WalkProofs.
From Coq Require Import Lqa Permutation ZifyBool ZifyNat ZifyN.
Local Open Scope Z_scope.

(** The edges of requested types of the node in row [i]; with timestamps those alive then. *)
Definition out_edges (parts : list (list (list record))) (types : list Z) (ts : option (list Z)) (i : nat) (v : Z) : list edge :=
  match ts with
  | None => spec_edges parts types v
  | Some l => match nth_error l i with Some t => filter (alive t) (spec_edges parts types v) | None => [] end
  end.
Definition out_nodes parts types ts i v : list Z := map e_dst (out_edges parts types ts i v).
Definition out_pairs parts types ts i v : list (Z * N) := map (fun e => (e_dst e, e_w e)) (out_edges parts types ts i v).
(** The default names no node of the graph. *)
Definition foreign (parts : list (list (list record))) (d : Z) : Prop := Forall (fun e => e_src e <> d /\ e_dst e <> d) (flat_map edges_of parts).
Definition nonneg_weights (qval : N -> Q) (parts : list (list (list record))) : Prop := Forall (fun e => 0 <= qval (e_w e))%Q (flat_map edges_of parts).

Lemma out_edges_in parts types ts i v e : In e (out_edges parts types ts i v) -> In e (flat_map edges_of parts) /\ e_src e = v.
Proof.
  assert (G : In e (spec_edges parts types v) -> In e (flat_map edges_of parts) /\ e_src e = v).
  { unfold spec_edges. intros H. apply filter_In in H as [H1 H2]. apply andb_true_iff in H2 as [H2 _]. split; [exact H1|lia]. }
  unfold out_edges. destruct ts as [l|]; [|exact G]. destruct (nth_error l i); [|intros []]. intros H. apply filter_In in H as [H _]. auto.
Qed.
Lemma out_pairs_fst parts types ts i v : map fst (out_pairs parts types ts i v) = out_nodes parts types ts i v.
Proof. unfold out_pairs, out_nodes. now rewrite map_map. Qed.
Lemma out_pairs_nonneg qval parts types ts i v : nonneg_weights qval parts -> Forall (fun x => 0 <= qval (snd x))%Q (out_pairs parts types ts i v).
Proof.
  intros H. unfold nonneg_weights in H. rewrite Forall_forall in H. apply Forall_forall. intros x Hx. apply in_map_iff in Hx as (e & <- & He). cbn [snd]. apply H. eapply out_edges_in; exact He.
Qed.
Lemma out_default parts types ts i d : foreign parts d -> out_pairs parts types ts i d = [].
Proof.
  intros H. unfold foreign in H. rewrite Forall_forall in H. unfold out_pairs. destruct (out_edges parts types ts i d) as [|e l] eqn:E; [reflexivity|].
  destruct (out_edges_in parts types ts i d e) as [H1 H2]; [rewrite E; now left|]. apply H in H1 as [H1 _]. contradiction.
Qed.
Lemma out_not_default parts types ts i d v : foreign parts d -> ~ In d (map fst (out_pairs parts types ts i v)).
Proof.
  intros H Hin. unfold foreign in H. rewrite Forall_forall in H. rewrite out_pairs_fst in Hin. apply in_map_iff in Hin as (e & E & He).
  apply out_edges_in in He as [He _]. apply H in He as [_ He]. contradiction.
Qed.

Lemma map_combine_seq {A B} (f : nat -> A -> B) (g : A -> B) (l : list A) : (forall i x, f i x = g x) -> forall s,
  map (fun x => f (fst x) (snd x)) (combine (seq s (length l)) l) = map g l.
Proof. intros E. induction l as [|x l IH]; intros s; cbn [length seq combine map fst snd]; [reflexivity|]. now rewrite IH, E. Qed.
Lemma map_combine_nth {A T B} (f : A -> T -> B) (h : nat -> A -> B) (l : list A) : forall (ts : list T) s,
  length ts = length l -> (forall j x t, nth_error ts j = Some t -> h (s + j)%nat x = f x t) ->
  map (fun x => h (fst x) (snd x)) (combine (seq s (length l)) l) = map (fun x => f (fst x) (snd x)) (combine l ts).
Proof.
  induction l as [|x l IH]; intros [|t ts] s L H; cbn [length] in L; try discriminate; [reflexivity|].
  cbn [length seq combine map fst snd]. f_equal; [rewrite <- (H 0%nat x t eq_refl); now rewrite Nat.add_0_r|]. apply IH; [lia|].
  intros j y u E. rewrite <- (H (S j) y u E). f_equal. lia.
Qed.
Lemma neighbors_answers fadd fsub wval wm parts g types ts ns :
  converted fadd wval wm parts g -> guarded fadd fsub types parts -> (ts = None \/ exists w, wm = Some w /\ 0 <= w) -> stamped ns ts ->
  exists l cs, neighbors fsub g ns types ts = Ok (l, cs) /\
    split_counts cs (map nbr_node l) = Ok (map (fun x => out_pairs parts types ts (fst x) (snd x)) (combine (seq 0 (length ns)) ns)).
Proof.
  intros C G T St. destruct ts as [l|].
  - destruct T as [T|(w & -> & Hw)]; [discriminate|]. cbn [stamped] in St. eexists _, _. split; [eapply converted_neighbors_ts; eassumption|].
    set (F := fun n t => map (fun e => (e_dst e, e_w e)) (filter (alive t) (spec_edges parts types n))).
    rewrite (map_combine_nth F (out_pairs parts types (Some l)) ns l 0 St) by (intros j x t E; unfold out_pairs, out_edges; cbn [Nat.add]; now rewrite E).
    rewrite <- split_counts_concat, map_map. f_equal.
    + apply map_ext. intros x. unfold F. now rewrite map_length.
    + rewrite flat_map_concat_map, concat_map, map_map. f_equal. apply map_ext. intros x. rewrite map_map. reflexivity.
  - eexists _, _. split; [eapply converted_neighbors; eassumption|].
    set (F := fun n => map (fun e => (e_dst e, e_w e)) (spec_edges parts types n)).
    rewrite (map_combine_seq (out_pairs parts types None) F) by reflexivity.
    rewrite <- split_counts_concat, map_map. f_equal.
    + apply map_ext. intros x. unfold F. now rewrite map_length.
    + rewrite flat_map_concat_map, concat_map, map_map. f_equal. apply map_ext. intros x. rewrite map_map. reflexivity.
Qed.

(** What is said about a walk of [len] steps from [n] in row [i]. *)
Definition walk_row_ok parts types ts default len i n (row : list Z) : Prop :=
  length row = S len /\ hd_error row = Some n /\
  forall l v v' l', row = l ++ v :: v' :: l' -> step_ok (out_nodes parts types ts i) default l v v'.
Definition full_row_ok parts types ts default len i n (row : list Z) : Prop :=
  length row = S len /\ hd_error row = Some n /\
  forall l v v' l', row = l ++ v :: v' :: l' ->
    In v' (out_nodes parts types ts i v) \/ (v' = default /\ out_nodes parts types ts i v = []).
Definition every_row (P : nat -> Z -> list Z -> Prop) (nodes : list Z) (out : list (list Z)) : Prop :=
  length out = length nodes /\ forall i n, nth_error nodes i = Some n -> exists row, nth_error out i = Some row /\ P i n row.

(** All edges run in both directions with the same weight, no loops, no parallel edges. *)
Record simple_graph (qval : N -> Q) parts types ts : Prop := {
  sg_pos : forall i v e, In e (out_edges parts types ts i v) -> (0 < qval (e_w e))%Q;
  sg_nodup : forall i v, NoDup (out_nodes parts types ts i v);
  sg_both : forall i v e, In e (out_edges parts types ts i v) -> exists e', In e' (out_edges parts types ts i (e_dst e)) /\ e_dst e' = v /\ e_w e' = e_w e;
  sg_loop : forall i v, ~ In v (out_nodes parts types ts i v) }.

Section Walks.
Variables fadd fsub : N -> N -> N.
Variable wval : N -> Z.
Variable qval : N -> Q.
Variables (wm : option Z) (parts : list (list (list record))) (types : list Z) (ts : option (list Z)) (nodes : list Z) (default : Z).
Variables p q : Q.
Variables (distributed : bool) (query : nat -> list Z -> res (list nbr * list nat)).
Hypothesis Hp : (0 < p)%Q.
Hypothesis Hq : (0 < q)%Q.
Hypothesis Hd : foreign parts default.
Hypothesis Hw : nonneg_weights qval parts.
Hypothesis answers : forall k ns, length ns = length nodes -> exists l cs, query k ns = Ok (l, cs) /\
  split_counts cs (map nbr_node l) = Ok (map (fun x => out_pairs parts types ts (fst x) (snd x)) (combine (seq 0 (length nodes)) ns)).
Lemma walk_ok_ext adj adj' d row : (forall v, adj v = adj' v) -> walk_ok adj d row -> walk_ok adj' d row.
Proof.
  intros E H l v v' l' R. specialize (H l v v' l' R). unfold step_ok, blocked in *. rewrite <- !E.
  destruct H as [H|[(t & l0 & A & B & C)|(A & [B|[(B & C)|(t & l0 & B & C & D)]])]].
  - now left.
  - right. left. exists t, l0. rewrite <- E. auto.
  - right. right. auto.
  - right. right. split; [exact A|]. right. left. auto.
  - right. right. split; [exact A|]. right. right. exists t, l0. rewrite <- E. auto.
Qed.
Lemma graph_walk_ok len : rall (every_row (walk_row_ok parts types ts default len) nodes) (random_walk qval p q default distributed query nodes len).
Proof.
  eapply rall_imp; [|apply (random_walk_ok qval p q Hp Hq default distributed (out_pairs parts types ts) query (length nodes) answers
     (fun i v => out_pairs_nonneg qval parts types ts i v Hw) (fun i => out_default parts types ts i default Hd) (fun i v => out_not_default parts types ts i default v Hd) nodes len eq_refl)].
  intros out [L H]. split; [exact L|]. intros i n Hi. destruct (H i n Hi) as (row & E & R1 & (l & R2) & R3). exists row. split; [exact E|]. split; [exact R1|].
  split; [rewrite R2; reflexivity|]. apply (walk_ok_ext (fun v => map fst (out_pairs parts types ts i v))); [intros v; apply out_pairs_fst|exact R3].
Qed.
Hypothesis Hsym : forall i u v, In v (out_nodes parts types ts i u) -> In u (out_nodes parts types ts i v).
Hypothesis Hloop : forall i v, ~ In v (out_nodes parts types ts i v).
Lemma graph_walk_full len : rall (every_row (full_row_ok parts types ts default len) nodes) (random_walk qval p q default distributed query nodes len).
Proof.
  eapply rall_imp; [|apply graph_walk_ok]. intros out [L H]. split; [exact L|]. intros i n Hi. destruct (H i n Hi) as (row & E & R1 & R2 & R3). exists row. split; [exact E|]. split; [exact R1|].
  split; [exact R2|]. intros l v v' l' Er.
  assert (D : out_nodes parts types ts i default = []) by (rewrite <- out_pairs_fst; now rewrite out_default).
  destruct (symmetric_steps (out_nodes parts types ts i) default row (Hsym i) D R3 l v v' l' Er) as [K|[-> K]]; [now left|]. right. split; [reflexivity|].
  destruct (out_nodes parts types ts i v) as [|x xs] eqn:Ex; [reflexivity|]. exfalso. apply (Hloop i v). rewrite Ex. left. apply K. now left.
Qed.
End Walks.

Lemma simple_pairs qval parts types ts default i : foreign parts default -> simple_graph qval parts types ts -> simple qval default (out_pairs parts types ts i).
Proof.
  intros Hd Hs. constructor.
  - intros v x w H. apply in_map_iff in H as (e & E & H). injection E as <- <-. eapply (sg_pos _ _ _ _ Hs); exact H.
  - intros v. rewrite out_pairs_fst. apply (sg_nodup _ _ _ _ Hs).
  - intros v x w H. apply in_map_iff in H as (e & E & H). injection E as <- <-. destruct (sg_both _ _ _ _ Hs i v e H) as (e' & H1 & H2 & H3).
    apply in_map_iff. exists e'. split; [now rewrite H2, H3|exact H1].
  - intros v. rewrite out_pairs_fst. apply (sg_loop _ _ _ _ Hs).
  - now apply out_default.
Qed.

(** Servers answer like the graph that loads their partitions in order (C22). *)
Lemma servers_answers fadd fsub wval wm parts m fss gs g types ts (es : nat -> list event) k ns :
  Forall2 (fun fs g' => load_files fadd m fs = Ok g') fss gs -> load_files fadd m (concat fss) = Ok g -> gs <> [] -> schedule (length gs) (es k) ->
  converted fadd wval wm parts g -> guarded fadd fsub types parts -> (ts = None \/ exists w, wm = Some w /\ 0 <= w) -> stamped ns ts ->
  exists l cs, d_neighbors fsub gs ns types ts (es k) = Ok (l, cs) /\
    split_counts cs (map nbr_node l) = Ok (map (fun x => out_pairs parts types ts (fst x) (snd x)) (combine (seq 0 (length ns)) ns)).
Proof.
  intros HF HL Hg Hs C G T St. destruct (neighbors_answers fadd fsub wval wm parts g types ts ns C G T St) as (l & cs & E & S0). exists l, cs. split; [|exact S0].
  apply (neighbors_split fsub gs g ns types ts (es k) (l, cs)); try assumption. eapply load_split; eassumption.
Qed.

(** ** Local graphs and servers *)
Section Statements.
Variables fadd fsub : N -> N -> N.
Variable wval : N -> Z.
Variable qval : N -> Q.
Lemma stamped_len {A B} (a : list A) (b : list B) ts : length a = length b -> stamped a ts -> stamped b ts.
Proof. unfold stamped. destruct ts; auto. congruence. Qed.
Theorem local_walk wm parts g types ts nodes len default p q :
  converted fadd wval wm parts g -> guarded fadd fsub types parts -> (ts = None \/ exists w, wm = Some w /\ 0 <= w) -> stamped nodes ts ->
  (0 < p)%Q -> (0 < q)%Q -> nonneg_weights qval parts -> foreign parts default ->
  rall (every_row (walk_row_ok parts types ts default len) nodes)
    (random_walk qval p q default false (fun _ ns => neighbors fsub g ns types ts) nodes len).
Proof.
  intros C G T St Hp Hq Hw Hd. apply graph_walk_ok; try assumption. intros _ ns L. rewrite <- L.
  eapply neighbors_answers; try eassumption. eapply stamped_len; [symmetry; exact L|exact St].
Qed.
Theorem servers_walk wm parts m fss gs g types ts es nodes len default p q :
  Forall2 (fun fs g' => load_files fadd m fs = Ok g') fss gs -> load_files fadd m (concat fss) = Ok g -> gs <> [] -> (forall k, schedule (length gs) (es k)) ->
  converted fadd wval wm parts g -> guarded fadd fsub types parts -> (ts = None \/ exists w, wm = Some w /\ 0 <= w) -> stamped nodes ts ->
  (0 < p)%Q -> (0 < q)%Q -> nonneg_weights qval parts -> foreign parts default ->
  rall (every_row (walk_row_ok parts types ts default len) nodes)
    (random_walk qval p q default true (fun k ns => d_neighbors fsub gs ns types ts (es k)) nodes len).
Proof.
  intros HF HL Hg He C G T St Hp Hq Hw Hd. apply graph_walk_ok; try assumption. intros k ns L. rewrite <- L.
  eapply servers_answers; try eassumption; [apply He|]. eapply stamped_len; [symmetry; exact L|exact St].
Qed.
Theorem local_walk_full wm parts g types ts nodes len default p q :
  converted fadd wval wm parts g -> guarded fadd fsub types parts -> (ts = None \/ exists w, wm = Some w /\ 0 <= w) -> stamped nodes ts ->
  (0 < p)%Q -> (0 < q)%Q -> nonneg_weights qval parts -> foreign parts default ->
  (forall i u v, In v (out_nodes parts types ts i u) -> In u (out_nodes parts types ts i v)) -> (forall i v, ~ In v (out_nodes parts types ts i v)) ->
  rall (every_row (full_row_ok parts types ts default len) nodes)
    (random_walk qval p q default false (fun _ ns => neighbors fsub g ns types ts) nodes len).
Proof.
  intros C G T St Hp Hq Hw Hd S1 S2. apply graph_walk_full; try assumption. intros _ ns L. rewrite <- L.
  eapply neighbors_answers; try eassumption. eapply stamped_len; [symmetry; exact L|exact St].
Qed.
Theorem local_walk_law wm parts g types ts nodes len default p q F :
  converted fadd wval wm parts g -> guarded fadd fsub types parts -> (ts = None \/ exists w, wm = Some w /\ 0 <= w) -> stamped nodes ts ->
  (0 < p)%Q -> (0 < q)%Q -> foreign parts default -> simple_graph qval parts types ts ->
  (ex (rlaw (random_walk qval p q default false (fun _ ns => neighbors fsub g ns types ts) nodes len)) (on_ok F) ==
   ex (walks qval p q default (out_pairs parts types ts) nodes len) F)%Q.
Proof.
  intros C G T St Hp Hq Hd Hs. apply (random_walk_law qval p q Hp Hq default false (out_pairs parts types ts) _ (length nodes)); [|intros i; now apply simple_pairs|reflexivity].
  intros _ ns L. rewrite <- L. eapply neighbors_answers; try eassumption. eapply stamped_len; [symmetry; exact L|exact St].
Qed.
Theorem servers_walk_law wm parts m fss gs g types ts es nodes len default p q F :
  Forall2 (fun fs g' => load_files fadd m fs = Ok g') fss gs -> load_files fadd m (concat fss) = Ok g -> gs <> [] -> (forall k, schedule (length gs) (es k)) ->
  converted fadd wval wm parts g -> guarded fadd fsub types parts -> (ts = None \/ exists w, wm = Some w /\ 0 <= w) -> stamped nodes ts ->
  (0 < p)%Q -> (0 < q)%Q -> foreign parts default -> simple_graph qval parts types ts ->
  (ex (rlaw (random_walk qval p q default true (fun k ns => d_neighbors fsub gs ns types ts (es k)) nodes len)) (on_ok F) ==
   ex (walks qval p q default (out_pairs parts types ts) nodes len) F)%Q.
Proof.
  intros HF HL Hg He C G T St Hp Hq Hd Hs. apply (random_walk_law qval p q Hp Hq default true (out_pairs parts types ts) _ (length nodes)); [|intros i; now apply simple_pairs|reflexivity].
  intros k ns L. rewrite <- L. eapply servers_answers; try eassumption; [apply He|]. eapply stamped_len; [symmetry; exact L|exact St].
Qed.
End Statements.
