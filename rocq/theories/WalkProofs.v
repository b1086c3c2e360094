(** Random walks. *)
From Verif Require Import Base Dist LoaderModel GraphModel NeighborModel NeighborProofs MultinomialProofs UniformProofs WeightedProofs WeightedLaw WalkModel.
From Coq Require Import Lqa Permutation ZifyBool ZifyNat ZifyN.
Local Open Scope Z_scope.

(** ** Specification *)
(** [adj v]: the nodes at the other end of the edges of [v].  A step from [v] to [v'] after the
    nodes [l]: over an edge; or back to the previous node from which an edge leads to [v]; or to
    the default, when neither is possible. *)
Definition blocked (adj : Z -> list Z) (l : list Z) (v : Z) : Prop :=
  (l = [] /\ forall x, In x (adj v) -> x = v) \/
  (exists t l0, l = l0 ++ [t] /\ ~ In v (adj t) /\ forall x, In x (adj v) -> x = t).
Definition step_ok (adj : Z -> list Z) (default : Z) (l : list Z) (v v' : Z) : Prop :=
  In v' (adj v) \/
  (exists t l0, l = l0 ++ [t] /\ v' = t /\ In v (adj t)) \/
  (v' = default /\ (v = default \/ blocked adj l v)).
Definition walk_ok (adj : Z -> list Z) (default : Z) (row : list Z) : Prop :=
  forall l v v' l', row = l ++ v :: v' :: l' -> step_ok adj default l v v'.

Lemma walk_ok_nil adj default v : walk_ok adj default [v].
Proof. intros l a b l' E. destruct l as [|x [|y l]]; discriminate. Qed.
Lemma walk_ok_snoc adj default row v' : walk_ok adj default row -> (forall l v, row = l ++ [v] -> step_ok adj default l v v') -> walk_ok adj default (row ++ [v']).
Proof.
  intros H1 H2 l a b l' E. destruct l' as [|x l'] using rev_ind.
  - assert (E' : row ++ [v'] = (l ++ [a]) ++ [b]) by (rewrite E, <- app_assoc; reflexivity). apply app_inj_tail in E' as [E1 <-]. now apply H2.
  - assert (E' : row ++ [v'] = (l ++ a :: b :: l') ++ [x]) by (rewrite E, <- app_assoc; reflexivity). apply app_inj_tail in E' as [E1 _]. now apply (H1 l a b l').
Qed.

(** Symmetric graphs. *)
Lemma symmetric_steps adj default row : (forall u v, In v (adj u) -> In u (adj v)) -> adj default = [] -> walk_ok adj default row ->
  forall l v v' l', row = l ++ v :: v' :: l' -> In v' (adj v) \/ (v' = default /\ forall x, In x (adj v) -> x = v).
Proof.
  intros Sy Hd H l v v' l' E. destruct (H l v v' l' E) as [K|[(t & l0 & -> & -> & K)|(-> & [->|K])]].
  - now left.
  - left. now apply Sy.
  - right. split; [reflexivity|]. rewrite Hd. intros x [].
  - destruct K as [(-> & K)|(t & l0 & -> & N & K)]; [now right|].
    rewrite <- app_assoc in E. cbn [app] in E. destruct (H l0 t v (default :: l') E) as [J|[(t' & l1 & -> & -> & J)|(-> & J)]].
    + contradiction.
    + exfalso. apply N. now apply Sy.
    + right. split; [reflexivity|]. rewrite Hd. intros x [].
Qed.

Lemma split_counts_concat {A} (ls : list (list A)) : split_counts (map (@length A) ls) (concat ls) = Ok ls.
Proof.
  induction ls as [|l ls IH]; cbn [map concat split_counts]; [reflexivity|].
  replace (length (l ++ concat ls) <? length l)%nat with false by (symmetry; apply Nat.ltb_ge; rewrite app_length; lia).
  rewrite skipn_app, skipn_all, Nat.sub_diag. cbn [skipn app]. rewrite IH. cbn [bind]. f_equal. f_equal.
  rewrite firstn_app, firstn_all, Nat.sub_diag. cbn [firstn]. apply app_nil_r.
Qed.

Lemma find_nbr_in n t w : find_nbr n t = Some w -> In (n, w) t.
Proof. induction t as [|[m x] t IH]; cbn [find_nbr]; [discriminate|]. destruct (Z.eqb_spec m n) as [->|]; intros E; [injection E as ->; now left|right; auto]. Qed.
Lemma find_nbr_none n t : find_nbr n t = None <-> ~ In n (map fst t).
Proof.
  induction t as [|[m x] t IH]; cbn [find_nbr map fst]; [split; auto|]. destruct (Z.eqb_spec m n) as [->|Ne]; [split; [discriminate|intros H; exfalso; apply H; now left]|].
  rewrite IH. split; intros H; [intros [->|K]; [congruence|auto]|intros K; apply H; now right].
Qed.

Section Walk.
Variable qval : N -> Q.
Variables p q : Q.
Hypothesis Hp : (0 < p)%Q.
Hypothesis Hq : (0 < q)%Q.
Variable default : Z.
Variable distributed : bool.
Notation candidates := (candidates qval p q).
Notation walk_row := (walk_row qval p q default distributed).
Notation walk_rows := (walk_rows qval p q default distributed).

Lemma insert_pair_perm x l : Permutation (insert_pair x l) (x :: l).
Proof. induction l as [|y l IH]; cbn [insert_pair]; [reflexivity|]. destruct (pair_ltb x y); [reflexivity|]. rewrite IH. apply perm_swap. Qed.
Lemma sort_pairs_perm l : Permutation (sort_pairs l) l.
Proof. induction l as [|x l IH]; cbn [sort_pairs fold_right]; [reflexivity|]. fold (sort_pairs l). rewrite insert_pair_perm, IH. reflexivity. Qed.
Lemma arranged_perm l : Permutation (arranged distributed l) l.
Proof. unfold arranged. destruct distributed; [apply sort_pairs_perm|reflexivity]. Qed.

Lemma candidates_in past curr t nbs x : In x (map fst (candidates past curr t nbs)) <->
  (x = past /\ In curr (map fst t)) \/ (x <> past /\ In x (map fst nbs)).
Proof.
  unfold WalkModel.candidates. rewrite map_app, in_app_iff. 
  assert (A : In x (map fst match find_nbr curr t with Some w => [(past, (qval w / p)%Q)] | None => [] end) <-> x = past /\ In curr (map fst t)).
  { destruct (find_nbr curr t) as [w|] eqn:E; cbn [map fst In].
    - apply find_nbr_in in E. apply (in_map fst) in E. cbn [fst] in E. split; [intros [<-|[]]; auto|intros [-> _]; now left].
    - apply find_nbr_none in E. split; [intros []|intros [_ H]; contradiction]. }
  assert (B : In x (map fst (flat_map (fun x => if fst x =? past then [] else match find_nbr (fst x) t with Some _ => [(fst x, qval (snd x))] | None => [(fst x, (qval (snd x) / q)%Q)] end) nbs))
     <-> x <> past /\ In x (map fst nbs)).
  { induction nbs as [|[m w] nbs IH]; cbn [flat_map map fst In]; [split; [intros []|intros [_ []]]|]. rewrite map_app, in_app_iff, IH. cbn [fst snd].
    destruct (Z.eqb_spec m past) as [->|Ne]; cbn [map In].
    - split; [intros [[]|[H1 H2]]; auto|intros [H1 [E|H2]]; [congruence|auto]].
    - split.
      + intros [H|[H1 H2]]; [|auto]. destruct (find_nbr m t); destruct H as [<-|[]]; cbn [fst]; auto.
      + intros [H1 [<-|H2]]; [|auto]. left. destruct (find_nbr m t); now left. }
  rewrite A, B. reflexivity.
Qed.
Lemma candidates_nonneg past curr t nbs : Forall (fun x => 0 <= qval (snd x))%Q t -> Forall (fun x => 0 <= qval (snd x))%Q nbs ->
  Forall (fun x => 0 <= snd x)%Q (candidates past curr t nbs).
Proof.
  intros Ht Hn. unfold WalkModel.candidates. apply Forall_app. split.
  - destruct (find_nbr curr t) as [w|] eqn:E; constructor; [|constructor]. apply find_nbr_in in E. rewrite Forall_forall in Ht. apply Ht in E. cbn [snd] in *.
    apply Qle_shift_div_l; [exact Hp|]. lra.
  - apply Forall_forall. intros x Hx. apply in_flat_map in Hx as (y & Hy & Hx). rewrite Forall_forall in Hn. specialize (Hn y Hy).
    destruct (fst y =? past); [destruct Hx|]. destruct (find_nbr (fst y) t); destruct Hx as [<-|[]]; cbn [snd]; [exact Hn|]. apply Qle_shift_div_l; [exact Hq|]. lra.
Qed.

Lemma partial_sums_length l : forall a, length (partial_sums a l) = length l.
Proof. induction l as [|x l IH]; intros a; cbn [partial_sums length]; auto. Qed.
Lemma partial_sums_last l : forall a, l <> [] -> exists c, nth_error (partial_sums a l) (length l - 1) = Some c /\ (c == a + qsum snd l)%Q.
Proof.
  induction l as [|x l IH]; intros a H; [congruence|]. destruct l as [|y l].
  - exists (a + snd x)%Q. split; [reflexivity|]. cbn [qsum]. ring.
  - destruct (IH (a + snd x)%Q) as (c & E & V); [congruence|]. exists c. split; [cbn [length Nat.sub] in *; rewrite Nat.sub_0_r in E; exact E|]. rewrite V. cbn [qsum]. ring.
Qed.
Lemma pick_next_all l : l <> [] -> Forall (fun x => 0 <= snd x)%Q l -> rall (fun n => In n (map fst l)) (pick_next l).
Proof.
  intros Hl Hn r (u & [U0 U1] & H). destruct (partial_sums_last l 0%Q Hl) as (c & E & V).
  assert (T : (0 <= qsum snd l)%Q) by (apply qsum_nonneg; now rewrite Forall_forall in Hn).
  assert (L : (picked 0 (qsum snd l) (partial_sums 0 l) u < length l)%nat).
  { rewrite <- (partial_sums_length l 0%Q). apply (picked_lt _ _ _ _ c); [now rewrite partial_sums_length|]. rewrite V. nra. }
  destruct (nth_error l (picked 0 (qsum snd l) (partial_sums 0 l) u)) as [x|] eqn:Ex; [|apply nth_error_None in Ex; lia].
  unfold get in H. rewrite Ex in H. cbn in H. exists (fst x). split; [exact H|]. apply in_map. eapply nth_error_In; exact Ex.
Qed.

(** ** One row *)
Section Row.
Variable adj : Z -> list (Z * N).
Hypothesis Hw : forall v, Forall (fun x => 0 <= qval (snd x))%Q (adj v).
Hypothesis Hd1 : adj default = [].
Hypothesis Hd2 : forall v, ~ In default (map fst (adj v)).
Notation nodes := (fun v => map fst (adj v)).

Definition good (n : Z) (r : wrow) : Prop :=
  (exists l, rev (w_hist r) = n :: l) /\ hd_error (w_hist r) = Some (w_curr r) /\ walk_ok nodes default (rev (w_hist r)) /\
  Forall (fun x => 0 <= qval (snd x))%Q (w_t r) /\ ~ In default (map fst (w_t r)) /\
  (w_curr r = default \/
   (w_hist r = [w_curr r] /\ w_past r = w_curr r /\ w_t r = []) \/
   (exists rest, w_hist r = w_curr r :: w_past r :: rest /\ w_t r = adj (w_past r) /\ w_past r <> default)).
Lemma good_start n : good n (start_row n).
Proof.
  unfold good, start_row. cbn [w_hist w_curr w_past w_t]. split; [exists []; reflexivity|]. split; [reflexivity|]. split; [apply walk_ok_nil|].
  split; [constructor|]. split; [intros []|]. right. left. auto.
Qed.
Lemma good_step n r : good n r -> rall (fun r' => good n r' /\ length (w_hist r') = S (length (w_hist r))) (walk_row r (adj (w_curr r))).
Proof.
  intros (Hn & Hh & Hok & Ht & Hdt & Hm). destruct (w_hist r) as [|c h] eqn:Eh; [discriminate|]. cbn [hd_error] in Hh. injection Hh as ->.
  assert (Snoc : forall v', step_ok nodes default (rev h) (w_curr r) v' -> walk_ok nodes default (rev (v' :: w_curr r :: h))).
  { intros v' S0. cbn [rev]. cbn [rev] in Hok. apply walk_ok_snoc; [exact Hok|]. intros l v E. apply app_inj_tail in E as [<- <-]. exact S0. }
  assert (Start : forall v', exists l, rev (v' :: w_curr r :: h) = n :: l).
  { intros v'. destruct Hn as (l & E). exists (l ++ [v']). cbn [rev] in *. rewrite E. reflexivity. }
  unfold WalkModel.walk_row. destruct (candidates (w_past r) (w_curr r) (w_t r) (adj (w_curr r))) as [|x cs] eqn:Ec.
  - (* stuck *)
    assert (None' : forall y, ~ In y (map fst (candidates (w_past r) (w_curr r) (w_t r) (adj (w_curr r))))) by (rewrite Ec; intros y []).
    apply rall_ret. rewrite Eh. cbn [w_hist]. split; [|reflexivity].
    split; [apply Start|]. split; [reflexivity|]. split; [|split; [exact Ht|split; [exact Hdt|now left]]].
    apply Snoc. right. right. split; [reflexivity|]. destruct (Z.eq_dec (w_curr r) default) as [Hc|Hc]; [now left|]. right.
    destruct Hm as [Hm|[(E1 & E2 & E3)|(rest & E1 & E2 & E3)]]; [contradiction| |].
    + injection E1 as ->. left. split; [reflexivity|]. intros y Hy. destruct (Z.eq_dec y (w_curr r)) as [|Ne]; [assumption|].
      exfalso. apply (None' y). apply candidates_in. right. rewrite E2. auto.
    + injection E1 as ->. right. exists (w_past r), (rev rest). split; [reflexivity|]. split.
      * intros Hin. apply (None' (w_past r)). apply candidates_in. left. rewrite E2. auto.
      * intros y Hy. destruct (Z.eq_dec y (w_past r)) as [|Ne]; [assumption|]. exfalso. apply (None' y). apply candidates_in. auto.
  - assert (Hcurr : w_curr r <> default).
    { intros E. assert (Hin : In (fst x) (map fst (candidates (w_past r) (w_curr r) (w_t r) (adj (w_curr r))))) by (rewrite Ec; now left).
      apply candidates_in in Hin. rewrite E, Hd1 in Hin. destruct Hin as [[_ Hin]|[_ []]]. contradiction. }
    rewrite <- Ec in *. assert (Hne : candidates (w_past r) (w_curr r) (w_t r) (adj (w_curr r)) <> []) by (rewrite Ec; discriminate). clear x cs Ec.
    eapply rall_bind.
    + apply pick_next_all.
      * intros E. pose proof (arranged_perm (candidates (w_past r) (w_curr r) (w_t r) (adj (w_curr r)))) as P. rewrite E in P. apply Permutation_nil in P. contradiction.
      * eapply Permutation_Forall; [symmetry; apply arranged_perm|]. now apply candidates_nonneg.
    + intros v' Hv'. apply (Permutation_in _ (Permutation_map fst (arranged_perm _))) in Hv'. apply candidates_in in Hv'.
      apply rall_ret. rewrite Eh. cbn [w_hist]. split; [|reflexivity].
      split; [apply Start|]. split; [reflexivity|]. split; [|split; [apply Hw|split; [apply Hd2|right; right; exists h; auto]]].
      apply Snoc. destruct Hv' as [[-> Hin]|[_ Hin]]; [|now left]. 
      destruct Hm as [Hm|[(E1 & E2 & E3)|(rest & E1 & E2 & E3)]]; [contradiction|rewrite E3 in Hin; destruct Hin|].
      right. left. injection E1 as ->. exists (w_past r), (rev rest). rewrite <- E2. auto.
Qed.
End Row.

(** ** All rows *)
Section Rows.
Variable adj : nat -> Z -> list (Z * N).
Variable query : nat -> list Z -> res (list nbr * list nat).
Variable rows : nat.
Hypothesis answers : forall k ns, length ns = rows -> exists l cs, query k ns = Ok (l, cs) /\
  split_counts cs (map nbr_node l) = Ok (map (fun x => adj (fst x) (snd x)) (combine (seq 0 rows) ns)).
Hypothesis Hw : forall i v, Forall (fun x => 0 <= qval (snd x))%Q (adj i v).
Hypothesis Hd1 : forall i, adj i default = [].
Hypothesis Hd2 : forall i v, ~ In default (map fst (adj i v)).
Notation walk_step := (walk_step qval p q default distributed query).
Notation walk_steps := (walk_steps qval p q default distributed query).

Inductive rows_ok (m : nat) : nat -> list Z -> list wrow -> Prop :=
| ro_nil i : rows_ok m i [] []
| ro_cons i n ns r rs : good (adj i) n r -> length (w_hist r) = m -> rows_ok m (S i) ns rs -> rows_ok m i (n :: ns) (r :: rs).
Lemma rows_ok_length m i ns rs : rows_ok m i ns rs -> length rs = length ns.
Proof. induction 1; cbn [length]; auto. Qed.
Lemma walk_rows_ok m i ns rs : rows_ok m i ns rs ->
  rall (rows_ok (S m) i ns) (walk_rows rs (map (fun x => adj (fst x) (snd x)) (combine (seq i (length rs)) (map w_curr rs)))).
Proof.
  induction 1 as [i|i n ns r rs Hg Hl H IH]; cbn [length seq map combine WalkModel.walk_rows fst snd]; [apply rall_ret; constructor|].
  eapply rall_bind; [apply good_step; eauto|]. intros r' [G L]. eapply rall_bind; [exact IH|]. intros rs' R. apply rall_ret. constructor; auto. rewrite L, Hl. reflexivity.
Qed.
Lemma walk_steps_ok ns len : length ns = rows -> forall k m rs, rows_ok m 0 ns rs -> rall (rows_ok (len + m) 0 ns) (walk_steps k len rs).
Proof.
  intros Hr. induction len as [|len IH]; intros k m rs H; cbn [WalkModel.walk_steps]; [now apply rall_ret|].
  pose proof (rows_ok_length _ _ _ _ H) as L. apply (rall_bind (rows_ok (S m) 0 ns)).
  - unfold WalkModel.walk_step. destruct (answers k (map w_curr rs)) as (l & cs & Eq & Es); [rewrite map_length; congruence|].
    eapply rall_lift; [rewrite Eq; cbn [bind fst snd]; exact Es|]. rewrite <- Hr, <- L. now apply walk_rows_ok.
  - intros rs' H'. replace (S len + m)%nat with (len + S m)%nat by lia. now apply IH.
Qed.
Lemma rows_start ns : forall i, rows_ok 1 i ns (map start_row ns).
Proof. induction ns as [|n ns IH]; intros i; cbn [map]; constructor; auto. apply good_start. Qed.
Definition row_spec (len : nat) (i : nat) (n : Z) (row : list Z) : Prop :=
  length row = S len /\ (exists l, row = n :: l) /\ walk_ok (fun v => map fst (adj i v)) default row.
Lemma rows_done m ns rs i : rows_ok (S m) i ns rs -> forall j n, nth_error ns j = Some n ->
  exists row, nth_error (map (fun r => rev (w_hist r)) rs) j = Some row /\ row_spec m (i + j) n row.
Proof.
  induction 1 as [i|i n ns r rs (Hs & _ & Hok & _) Hl H IH]; intros j x Hx; [destruct j; discriminate|].
  destruct j as [|j]; cbn [map nth_error] in *.
  - injection Hx as <-. eexists. split; [reflexivity|]. rewrite Nat.add_0_r. split; [now rewrite rev_length|]. split; assumption.
  - apply IH in Hx as (row & E & R). exists row. split; [exact E|]. replace (i + S j)%nat with (S i + j)%nat by lia. exact R.
Qed.
Lemma random_walk_ok ns len : length ns = rows ->
  rall (fun out => length out = length ns /\ forall i n, nth_error ns i = Some n -> exists row, nth_error out i = Some row /\ row_spec len i n row)
    (random_walk qval p q default distributed query ns len).
Proof.
  intros Hr. eapply rall_bind; [apply (walk_steps_ok ns len Hr 0 1); apply rows_start|]. intros rs H. apply rall_ret.
  replace (len + 1)%nat with (S len) in H by lia. split; [rewrite map_length; eapply rows_ok_length; exact H|].
  intros i n Hi. exact (rows_done _ _ _ 0 H i n Hi).
Qed.
End Rows.

(** ** The law of a walk *)
Lemma gaps_partial l : forall a b, (a == b)%Q -> Forall2 Qeq (gaps b (partial_sums a l)) (map snd l).
Proof.
  induction l as [|x l IH]; intros a b E; cbn [partial_sums gaps map]; constructor; [rewrite E; ring|]. apply IH. reflexivity.
Qed.
Lemma qsum_indexed {A} (h : A -> Q) (g : nat -> Q) (l : list A) : forall s (f : A -> Q), (forall i x, nth_error l i = Some x -> (g (s + i)%nat == f x)%Q) ->
  (qsum (fun x => fst x * g (snd x)) (combine (map h l) (seq s (length l))) == qsum (fun x => h x * f x) l)%Q.
Proof.
  induction l as [|x l IH]; intros s f H; cbn [map length seq combine qsum fst snd]; [reflexivity|].
  rewrite (IH (S s) f); [|intros i y E; rewrite <- (H (S i) y E); now rewrite Nat.add_succ_r]. rewrite <- (H 0%nat x eq_refl). rewrite Nat.add_0_r. reflexivity.
Qed.
Lemma pick_law l f : (ex (rlaw (pick_next l)) (on_ok f) == qsum (fun x => snd x * f (fst x)) l / qsum snd l)%Q.
Proof.
  unfold pick_next. cbn [rlaw]. rewrite ex_bind, (ex_pick _ _ _ (map snd l)) by (apply gaps_partial; reflexivity). rewrite map_length.
  set (g := fun i => ex (rlaw (rlift (do x <- get l i;; Ok (fst x)))) (on_ok f)).
  transitivity (qsum (fun x => (fst x * g (snd x)) * / qsum snd l)%Q (combine (map snd l) (seq 0 (length l)))).
  { apply qsum_ext. intros x _. unfold g, Qdiv. ring. }
  rewrite qsum_scale_r. unfold Qdiv. apply Qmult_comp; [|reflexivity]. apply (qsum_indexed snd g l 0 (fun x => f (fst x))).
  intros i x E. unfold g, get. cbn [Nat.add]. rewrite E. cbn [bind rlift rlaw]. rewrite ex_ret. reflexivity.
Qed.
Lemma pick_any l : rany (fun n => In n (map fst l)) (pick_next l).
Proof.
  unfold pick_next. cbn [rany]. intros i. unfold get. destruct (nth_error l i) as [x|] eqn:E; cbn; [|exact I]. apply in_map. eapply nth_error_In; exact E.
Qed.

(** The node2vec bias (Grover and Leskovec, 2016) of a step from a node reached from [prev]. *)
Section Bias.
Variable a : Z -> list (Z * N).
Definition bias (prev : option Z) (x : Z) : Q :=
  match prev with
  | None => 1
  | Some t => if x =? t then 1 / p else if existsb (fun y => fst y =? x) (a t) then 1 else 1 / q
  end.
Definition kernel (prev : option Z) (v : Z) : dist Z :=
  match a v with
  | [] => dret default
  | l => map (fun x => (fst x, bias prev (fst x) * qval (snd x) / qsum (fun x => bias prev (fst x) * qval (snd x)) l)%Q) l
  end.
Fixpoint spec_walk (prev : option Z) (v : Z) (len : nat) : dist (list Z) :=
  match len with
  | O => dret []
  | S m => dbind (kernel prev v) (fun x => dbind (spec_walk (Some v) x m) (fun l => dret (x :: l)))
  end.

Record simple : Prop := {
  si_weights : forall v x w, In (x, w) (a v) -> (0 < qval w)%Q;
  si_nodup : forall v, NoDup (map fst (a v));
  si_symmetric : forall v x w, In (x, w) (a v) -> In (v, w) (a x);
  si_loop_free : forall v, ~ In v (map fst (a v));
  si_default : a default = [] }.
Hypothesis Hs : simple.

Lemma default_not_in v : ~ In default (map fst (a v)).
Proof. intros H. apply in_map_iff in H as ([x w] & E & H). cbn [fst] in E. subst x. apply (si_symmetric Hs) in H. rewrite (si_default Hs) in H. destruct H. Qed.

Definition prev_of (r : wrow) : option Z := match w_hist r with _ :: x :: _ => Some x | _ => None end.
Definition fits (r : wrow) : Prop :=
  (w_curr r = default /\ hd_error (w_hist r) = Some default /\ ~ In default (map fst (w_t r))) \/
  (w_hist r = [w_curr r] /\ w_past r = w_curr r /\ w_t r = []) \/
  (exists rest, w_hist r = w_curr r :: w_past r :: rest /\ w_t r = a (w_past r) /\ In (w_curr r) (map fst (a (w_past r)))).
Definition next (r : wrow) (x : Z) : wrow :=
  WR (w_curr r) x (match a (w_curr r) with [] => w_t r | l => l end) (x :: w_hist r).

Lemma existsb_find x t : existsb (fun y => fst y =? x) t = match find_nbr x t with Some _ => true | None => false end.
Proof. induction t as [|[m w] t IH]; cbn [existsb find_nbr fst]; [reflexivity|]. destruct (m =? x); [reflexivity|exact IH]. Qed.
Lemma nodup_fun (t : list (Z * N)) x w w' : NoDup (map fst t) -> In (x, w) t -> In (x, w') t -> w = w' :> N.
Proof.
  induction t as [|[m z] t IH]; cbn [map fst]; intros H H1 H2; [destruct H1|]. inversion H as [|? ? N1 N2]; subst.
  destruct H1 as [E1|H1], H2 as [E2|H2]; [congruence| | |auto].
  - injection E1 as -> ->. exfalso. apply N1. apply (in_map fst) in H2. exact H2.
  - injection E2 as -> ->. exfalso. apply N1. apply (in_map fst) in H1. exact H1.
Qed.
Lemma qsum_split_one {A} (key : A -> Z) (t : Z) (f : A -> Q) l x0 : NoDup (map key l) -> In x0 l -> key x0 = t ->
  (qsum f l == f x0 + qsum f (filter (fun x => negb (key x =? t)%Z) l))%Q.
Proof.
  induction l as [|y l IH]; cbn [map]; intros H Hin E; [destruct Hin|]. inversion H as [|? ? N1 N2]; subst.
  cbn [qsum filter]. destruct Hin as [->|Hin].
  - rewrite Z.eqb_refl. cbn [negb]. assert (F : filter (fun x => negb (key x =? key x0)%Z) l = l).
    { clear - N1. induction l as [|z l IH]; cbn [filter map] in *; [reflexivity|]. destruct (Z.eqb_spec (key z) (key x0)) as [E|]; [exfalso; apply N1; left; exact E|]. cbn [negb]. rewrite IH; [reflexivity|]. intros K. apply N1. now right. }
    rewrite F. reflexivity.
  - destruct (Z.eqb_spec (key y) (key x0)) as [E|Ne]; [exfalso; apply N1; rewrite E; now apply in_map|]. cbn [negb qsum]. rewrite (IH N2 Hin eq_refl). ring.
Qed.
Lemma qsum_flat_skip (t : Z) (h : Z * N -> Z * Q) (f : Z * Q -> Q) l :
  (qsum f (flat_map (fun x => if fst x =? t then [] else [h x]) l) == qsum (fun x => f (h x)) (filter (fun x => negb (fst x =? t)%Z) l))%Q.
Proof.
  induction l as [|x l IH]; cbn [flat_map filter qsum]; [reflexivity|]. rewrite qsum_app, IH. destruct (fst x =? t); cbn [negb qsum]; ring.
Qed.
Definition alpha (t : list (Z * N)) (x : Z) : Q := match find_nbr x t with Some _ => 1 | None => 1 / q end.
Lemma candidates_sum past curr t nbs (f : Z -> Q) :
  (qsum (fun x => snd x * f (fst x)) (candidates past curr t nbs) ==
   match find_nbr curr t with Some w => 1 / p * qval w * f past | None => 0 end +
   qsum (fun x => alpha t (fst x) * qval (snd x) * f (fst x)) (filter (fun x => negb (fst x =? past)%Z) nbs))%Q.
Proof.
  unfold WalkModel.candidates. rewrite qsum_app. apply Qplus_comp.
  - destruct (find_nbr curr t); cbn [qsum fst snd]; [field; intros E; rewrite E in Hp; now apply Qlt_irrefl in Hp|reflexivity].
  - transitivity (qsum (fun x => snd x * f (fst x))%Q (flat_map (fun x => if fst x =? past then [] else [(fst x, match find_nbr (fst x) t with Some _ => qval (snd x) | None => (qval (snd x) / q)%Q end)]) nbs)).
    { rewrite !qsum_flat_map. apply qsum_ext. intros x _. destruct (fst x =? past); [reflexivity|]. destruct (find_nbr (fst x) t); reflexivity. }
    rewrite (qsum_flat_skip past). apply qsum_ext. intros x _. cbn [fst snd]. unfold alpha. destruct (find_nbr (fst x) t); [ring|]. field. intros E. rewrite E in Hq. now apply Qlt_irrefl in Hq.
Qed.
(** In each state the weights of the candidates are those of the definition, up to one factor. *)
Lemma candidates_bias r : fits r -> w_curr r <> default -> exists c, (0 < c)%Q /\
  forall f, (qsum (fun x => snd x * f (fst x)) (candidates (w_past r) (w_curr r) (w_t r) (a (w_curr r))) ==
   c * qsum (fun x => bias (prev_of r) (fst x) * qval (snd x) * f (fst x)) (a (w_curr r)))%Q.
Proof.
  intros [[H _]|[(E1 & E2 & E3)|(rest & E1 & E2 & E3)]] Hd; [contradiction| |].
  - exists (1 / q)%Q. split; [apply Qlt_shift_div_l; [exact Hq|reflexivity]|]. intros f. rewrite candidates_sum. rewrite E2, E3. unfold prev_of. rewrite E1. cbn [find_nbr bias].
    rewrite Qplus_0_l, <- qsum_scale.
    assert (F : filter (fun x => negb (fst x =? w_curr r)) (a (w_curr r)) = a (w_curr r)).
    { pose proof (si_loop_free Hs (w_curr r)) as L. induction (a (w_curr r)) as [|y l IH]; cbn [filter map] in *; [reflexivity|].
      destruct (Z.eqb_spec (fst y) (w_curr r)) as [E|]; [exfalso; apply L; left; exact E|]. cbn [negb]. rewrite IH; [reflexivity|]. intros K. apply L. now right. }
    rewrite F. apply qsum_ext. intros x _. unfold alpha. cbn [find_nbr]. ring.
  - exists 1%Q. split; [reflexivity|]. intros f. rewrite candidates_sum, E2. unfold prev_of. rewrite E1.
    apply in_map_iff in E3 as ([x w] & E & Hin). cbn [fst] in E. subst x.
    destruct (find_nbr (w_curr r) (a (w_past r))) as [w'|] eqn:Ef.
    2:{ apply find_nbr_none in Ef. exfalso. apply Ef. apply (in_map fst) in Hin. exact Hin. }
    apply find_nbr_in in Ef. assert (w' = w) as -> by (eapply nodup_fun; [apply (si_nodup Hs)|exact Ef|exact Hin]).
    pose proof (si_symmetric Hs _ _ _ Hin) as Hback.
    rewrite (qsum_split_one fst (w_past r) _ (a (w_curr r)) (w_past r, w) (si_nodup Hs _) Hback eq_refl). cbn [fst snd bias]. rewrite Z.eqb_refl.
    rewrite Qmult_1_l. apply Qplus_comp; [reflexivity|]. apply qsum_ext. intros y Hy. apply filter_In in Hy as [_ Hy].
    destruct (fst y =? w_past r); [discriminate|]. rewrite existsb_find. unfold alpha. destruct (find_nbr (fst y) (a (w_past r))); reflexivity.
Qed.
Lemma fits_next r x : fits r -> (In x (map fst (a (w_curr r))) \/ (a (w_curr r) = [] /\ x = default)) -> fits (next r x) /\ prev_of (next r x) = Some (w_curr r).
Proof.
  intros Hf Hx. split.
  - destruct Hx as [Hx|[Ea ->]].
    + right. right. unfold next. cbn [w_hist w_curr w_past w_t]. destruct Hf as [[E _]|[(E & _)|(rest & E & _)]].
      * rewrite E, (si_default Hs) in Hx. destruct Hx.
      * exists []. rewrite E. destruct (a (w_curr r)) eqn:Ea; [destruct Hx|]. auto.
      * eexists. rewrite E. destruct (a (w_curr r)) eqn:Ea; [destruct Hx|]. split; [reflexivity|]. auto.
    + left. unfold next. cbn [w_curr w_t w_hist hd_error]. rewrite Ea. split; [reflexivity|]. split; [reflexivity|].
      destruct Hf as [(_ & _ & H)|[(_ & _ & ->)|(rest & _ & -> & _)]]; [exact H|intros []|apply default_not_in].
  - unfold prev_of, next. cbn [w_hist]. destruct Hf as [(E & H & _)|[(-> & _)|(rest & -> & _)]]; [|reflexivity|reflexivity].
    destruct (w_hist r) as [|y h]; [discriminate|]. cbn [hd_error] in H. congruence.
Qed.
Lemma kernel_support prev v x : In x (map fst (kernel prev v)) -> In x (map fst (a v)) \/ (a v = [] /\ x = default).
Proof.
  unfold kernel. destruct (a v) as [|y l] eqn:E; [intros [<-|[]]; auto|]. rewrite <- E. rewrite map_map. cbn [fst]. auto.
Qed.
Lemma bias_pos prev x : (0 < bias prev x)%Q.
Proof.
  unfold bias. destruct prev as [t|]; [|reflexivity]. destruct (x =? t); [apply Qlt_shift_div_l; [exact Hp|reflexivity]|].
  destruct (existsb _ _); [reflexivity|apply Qlt_shift_div_l; [exact Hq|reflexivity]].
Qed.
Lemma total_pos prev v : a v <> [] -> (0 < qsum (fun x => bias prev (fst x) * qval (snd x)) (a v))%Q.
Proof.
  intros H. assert (K : Forall (fun x => 0 < bias prev (fst x) * qval (snd x))%Q (a v)).
  { apply Forall_forall. intros [x w] Hx. cbn [fst snd]. apply Qmult_lt_0_compat; [apply bias_pos|]. eapply (si_weights Hs); exact Hx. }
  destruct (a v) as [|y l]; [congruence|]. inversion K as [|? ? K1 K2]; subst. cbn [qsum].
  assert (0 <= qsum (fun x => bias prev (fst x) * qval (snd x)) l)%Q; [|lra]. apply qsum_nonneg. rewrite Forall_forall in K2. intros z Hz. apply K2 in Hz. lra.
Qed.
Lemma row_law r (F : wrow -> Q) : fits r ->
  (ex (rlaw (walk_row r (a (w_curr r)))) (on_ok F) == ex (kernel (prev_of r) (w_curr r)) (fun x => F (next r x)))%Q.
Proof.
  intros Hf. unfold kernel, next. destruct (a (w_curr r)) as [|y l] eqn:Ea.
  - rewrite ex_ret. unfold WalkModel.walk_row.
    assert (E : candidates (w_past r) (w_curr r) (w_t r) [] = []).
    { unfold WalkModel.candidates. cbn [flat_map]. rewrite app_nil_r. destruct (find_nbr (w_curr r) (w_t r)) as [w|] eqn:E; [|reflexivity]. apply find_nbr_in in E. exfalso.
      destruct Hf as [(E1 & _ & H)|[(_ & _ & E1)|(rest & _ & E1 & _)]].
      - apply H. rewrite <- E1. apply (in_map fst) in E. exact E.
      - rewrite E1 in E. destruct E.
      - rewrite E1 in E. apply (si_symmetric Hs) in E. rewrite Ea in E. destruct E. }
    rewrite E. cbn [rlaw]. rewrite ex_ret. reflexivity.
  - rewrite <- Ea. assert (Hc : w_curr r <> default) by (intros E; rewrite E, (si_default Hs) in Ea; discriminate).
    assert (Hne : a (w_curr r) <> []) by (rewrite Ea; discriminate).
    destruct (candidates_bias r Hf Hc) as (c & Hc0 & B).
    assert (T : (qsum snd (candidates (w_past r) (w_curr r) (w_t r) (a (w_curr r))) == c * qsum (fun x => bias (prev_of r) (fst x) * qval (snd x)) (a (w_curr r)))%Q).
    { transitivity (qsum (fun x => snd x * 1)%Q (candidates (w_past r) (w_curr r) (w_t r) (a (w_curr r)))); [apply qsum_ext; intros; ring|].
      rewrite (B (fun _ => 1%Q)). apply Qmult_comp; [reflexivity|]. apply qsum_ext. intros. ring. }
    pose proof (total_pos (prev_of r) (w_curr r) Hne) as Tp.
    unfold WalkModel.walk_row. destruct (candidates (w_past r) (w_curr r) (w_t r) (a (w_curr r))) as [|z cs] eqn:Ec.
    + exfalso. cbn [qsum] in T. nra.
    + rewrite <- Ec in *. clear z cs Ec. rewrite ex_rbind. cbn [rlaw].
      transitivity (ex (rlaw (pick_next (arranged distributed (candidates (w_past r) (w_curr r) (w_t r) (a (w_curr r)))))) (on_ok (fun n => F (WR (w_curr r) n (a (w_curr r)) (n :: w_hist r))))).
      { apply ex_ext_all. intros [n|e]; cbn [on_ok]; [rewrite ex_ret; reflexivity|reflexivity]. }
      set (G := fun n => F (WR (w_curr r) n (a (w_curr r)) (n :: w_hist r))). rewrite pick_law.
      rewrite (qsum_perm _ _ _ (arranged_perm (candidates (w_past r) (w_curr r) (w_t r) (a (w_curr r))))).
      rewrite (qsum_perm snd _ _ (arranged_perm (candidates (w_past r) (w_curr r) (w_t r) (a (w_curr r))))).
      rewrite T.
      rewrite (B G). unfold ex. rewrite qsum_map. cbn [fst snd].
      rewrite (qsum_ext (fun x => _ / _ * _)%Q (fun x => (bias (prev_of r) (fst x) * qval (snd x) * G (fst x)) * / qsum (fun x => bias (prev_of r) (fst x) * qval (snd x)) (a (w_curr r)))%Q)
        by (intros; unfold Qdiv, G; ring).
      rewrite qsum_scale_r. field. split; lra.
Qed.
Lemma row_any r : fits r -> rany fits (walk_row r (a (w_curr r))).
Proof.
  intros Hf. unfold WalkModel.walk_row. destruct (candidates (w_past r) (w_curr r) (w_t r) (a (w_curr r))) as [|y l] eqn:Ec.
  - cbn [rany]. destruct (a (w_curr r)) as [|z l] eqn:Ea.
    + destruct (fits_next r default Hf) as [K _]; [auto|]. unfold next in K. now rewrite Ea in K.
    + exfalso. assert (Hc : w_curr r <> default) by (intros E; rewrite E, (si_default Hs) in Ea; discriminate).
      assert (Hin : In (fst z) (map fst (a (w_curr r)))) by (rewrite Ea; now left).
      destruct Hf as [(E & _)|[(E1 & E2 & E3)|(rest & E1 & E2 & E3)]]; [contradiction| |].
      * assert (K : In (fst z) (map fst (candidates (w_past r) (w_curr r) (w_t r) (z :: l)))).
        { apply candidates_in. right. split; [|now left]. rewrite E2. intros E. apply (si_loop_free Hs (w_curr r)). now rewrite <- E at 1. }
        rewrite Ec in K. destruct K.
      * assert (K : In (w_past r) (map fst (candidates (w_past r) (w_curr r) (w_t r) (z :: l)))) by (apply candidates_in; left; rewrite E2; auto).
        rewrite Ec in K. destruct K.
  - rewrite <- Ec. eapply rany_bind; [apply pick_any|]. intros x Hx. cbn [rany]. cbv beta in Hx.
    apply (Permutation_in _ (Permutation_map fst (arranged_perm _))) in Hx. apply candidates_in in Hx.
    assert (Hx' : In x (map fst (a (w_curr r)))).
    { destruct Hx as [[-> H]|[_ H]]; [|exact H]. destruct Hf as [(E & _ & E1)|[(E1 & E2 & E3)|(rest & E1 & E2 & E3)]]; [rewrite E in H; contradiction|rewrite E3 in H; destruct H|].
      apply in_map_iff in E3 as ([v w] & E & Hin). cbn [fst] in E. subst v. apply (si_symmetric Hs) in Hin. apply (in_map fst) in Hin. exact Hin. }
    destruct (fits_next r x Hf) as [K _]; [auto|]. unfold next in K. destruct (a (w_curr r)); [destruct Hx'|exact K].
Qed.
End Bias.

(** Independent rows. *)
Fixpoint dseq {A} (ds : list (dist A)) : dist (list A) :=
  match ds with [] => dret [] | d :: r => dbind d (fun x => dbind (dseq r) (fun l => dret (x :: l))) end.
Lemma ex_dseq {A} (d : dist A) r f : (ex (dseq (d :: r)) f == ex d (fun x => ex (dseq r) (fun l => f (x :: l))))%Q.
Proof. cbn [dseq]. rewrite ex_bind. apply ex_ext_all. intros x. rewrite ex_bind. apply ex_ext_all. intros l. apply ex_ret. Qed.
Lemma ex_ok_swap {A B} (d : dist (res A)) (e : dist B) (f : A -> B -> Q) :
  (ex d (on_ok (fun x => ex e (f x))) == ex e (fun y => ex d (on_ok (fun x => f x y))))%Q.
Proof.
  transitivity (ex d (fun r => ex e (fun y => on_ok (fun x => f x y) r))).
  - apply ex_ext_all. intros [x|k]; cbn [on_ok]; [reflexivity|]. unfold ex. symmetry. apply qsum_zero. intros. ring.
  - rewrite ex_swap. reflexivity.
Qed.
Section Law.
Variable adj : nat -> Z -> list (Z * N).
Variable query : nat -> list Z -> res (list nbr * list nat).
Variable rows : nat.
Hypothesis answers : forall k ns, length ns = rows -> exists l cs, query k ns = Ok (l, cs) /\
  split_counts cs (map nbr_node l) = Ok (map (fun x => adj (fst x) (snd x)) (combine (seq 0 rows) ns)).
Hypothesis Hs : forall i, simple (adj i).
Definition row_walk (len i : nat) (r : wrow) : dist (list Z) :=
  dmap (fun l => rev (w_hist r) ++ l) (spec_walk (adj i) (prev_of r) (w_curr r) len).
Fixpoint laws (len i : nat) (rs : list wrow) : list (dist (list Z)) :=
  match rs with [] => [] | r :: t => row_walk len i r :: laws len (S i) t end.
Inductive fit : nat -> list wrow -> Prop :=
| fit_nil i : fit i []
| fit_cons i r rs : fits (adj i) r -> fit (S i) rs -> fit i (r :: rs).
Lemma row_walk_S len i r F : fits (adj i) r ->
  (ex (row_walk (S len) i r) F == ex (kernel (adj i) (prev_of r) (w_curr r)) (fun x => ex (row_walk len i (next (adj i) r x)) F))%Q.
Proof.
  intros Hf. unfold row_walk. rewrite ex_map. cbn [spec_walk]. rewrite ex_bind. apply ex_ext. intros x Hx. apply kernel_support in Hx.
  destruct (fits_next (adj i) (Hs i) r x Hf Hx) as [_ E]. rewrite ex_bind, ex_map, E. cbn [next w_curr w_hist]. apply ex_ext_all. intros l. rewrite ex_ret.
  cbn [rev]. rewrite <- app_assoc. reflexivity.
Qed.
Lemma walk_rows_any i rs : fit i rs -> rany (fun rs' => fit i rs' /\ length rs' = length rs)
  (walk_rows rs (map (fun x => adj (fst x) (snd x)) (combine (seq i (length rs)) (map w_curr rs)))).
Proof.
  induction 1 as [i|i r rs Hf H IH]; cbn [length seq map combine WalkModel.walk_rows fst snd]; [split; [constructor|reflexivity]|].
  eapply rany_bind; [apply (row_any (adj i) (Hs i)); exact Hf|]. intros r' R. eapply rany_bind; [exact IH|]. intros rs' [R1 R2]. split; [constructor; assumption|]. cbn [length]. now rewrite R2.
Qed.
Lemma walk_rows_law len i rs : fit i rs -> forall F : list (list Z) -> Q,
  (ex (rlaw (walk_rows rs (map (fun x => adj (fst x) (snd x)) (combine (seq i (length rs)) (map w_curr rs))))) (on_ok (fun rs' => ex (dseq (laws len i rs')) F))
   == ex (dseq (laws (S len) i rs)) F)%Q.
Proof.
  induction 1 as [i|i r rs Hf H IH]; intros F; cbn [length seq map combine WalkModel.walk_rows fst snd]; [cbn [rlaw laws dseq]; rewrite ex_ret; reflexivity|].
  rewrite ex_rbind. cbn [laws]. rewrite ex_dseq.
  transitivity (ex (rlaw (walk_row r (adj i (w_curr r)))) (on_ok (fun r' => ex (row_walk len i r') (fun x => ex (dseq (laws (S len) (S i) rs)) (fun l => F (x :: l)))))).
  - apply ex_ext_all. intros [r'|e]; cbn [on_ok]; [|reflexivity]. rewrite ex_rbind.
    transitivity (ex (rlaw (walk_rows rs (map (fun x => adj (fst x) (snd x)) (combine (seq (S i) (length rs)) (map w_curr rs)))))
      (on_ok (fun l => ex (row_walk len i r') (fun x => ex (dseq (laws len (S i) l)) (fun y => F (x :: y)))))).
    + apply ex_ext_all. intros [l|e]; cbn [on_ok]; [|reflexivity]. cbn [rlaw]. rewrite ex_ret. cbn [on_ok laws]. apply ex_dseq.
    + rewrite ex_ok_swap. apply ex_ext_all. intros x. apply (IH (fun l => F (x :: l))).
  - rewrite (row_law (adj i) (Hs i) r _ Hf). symmetry. now apply row_walk_S.
Qed.
Lemma laws_0 rs : forall i F, (ex (dseq (laws 0 i rs)) F == F (map (fun r => rev (w_hist r)) rs))%Q.
Proof.
  induction rs as [|r rs IH]; intros i F; [apply ex_ret|]. cbn [laws map]. rewrite ex_dseq. unfold row_walk. rewrite ex_map. cbn [spec_walk]. rewrite ex_ret, app_nil_r. apply (IH (S i)).
Qed.
Lemma walk_steps_law len : forall k rs F, length rs = rows -> fit 0 rs ->
  (ex (rlaw (walk_steps qval p q default distributed query k len rs)) (on_ok (fun rs' => F (map (fun r => rev (w_hist r)) rs'))) == ex (dseq (laws len 0 rs)) F)%Q.
Proof.
  induction len as [|len IH]; intros k rs F L H; cbn [WalkModel.walk_steps].
  - cbn [rlaw]. rewrite ex_ret. cbn [on_ok]. symmetry. apply laws_0.
  - rewrite ex_rbind. unfold WalkModel.walk_step. destruct (answers k (map w_curr rs)) as (l & cs & Eq & Es); [now rewrite map_length|].
    rewrite (ex_lift _ (map (fun x => adj (fst x) (snd x)) (combine (seq 0 rows) (map w_curr rs)))) by (rewrite Eq; exact Es).
    rewrite <- L, <- walk_rows_law by exact H. apply (ex_law_ext _ _ _ _ (walk_rows_any 0 rs H)). intros rs' [H1 H2]. apply IH; [congruence|exact H1].
Qed.
Definition walks (ns : list Z) (len : nat) : dist (list (list Z)) :=
  dseq (map (fun x => dmap (cons (snd x)) (spec_walk (adj (fst x)) None (snd x) len)) (combine (seq 0 (length ns)) ns)).
Lemma laws_start len ns : forall i, laws len i (map start_row ns) = map (fun x => dmap (cons (snd x)) (spec_walk (adj (fst x)) None (snd x) len)) (combine (seq i (length ns)) ns).
Proof. induction ns as [|n ns IH]; intros i; cbn [map laws length seq combine]; [reflexivity|]. rewrite IH. reflexivity. Qed.
Lemma fit_start ns : forall i, fit i (map start_row ns).
Proof. induction ns as [|n ns IH]; intros i; cbn [map]; constructor; auto. right. left. auto. Qed.
Lemma random_walk_law ns len F : length ns = rows ->
  (ex (rlaw (random_walk qval p q default distributed query ns len)) (on_ok F) == ex (walks ns len) F)%Q.
Proof.
  intros L. unfold random_walk. rewrite ex_rbind. unfold walks. rewrite <- laws_start, <- (walk_steps_law len 0) by (rewrite ?map_length; auto using fit_start).
  apply ex_ext_all. intros [rs|e]; cbn [on_ok]; [|reflexivity]. cbn [rlaw]. now rewrite ex_ret.
Qed.
End Law.
End Walk.
