(** Personalised PageRank. *)
From Verif Require Import Base Dist LoaderModel GraphModel NeighborModel WalkModel WalkProofs PprModel.
From Coq Require Import Lqa Permutation Sorting.Sorted Qround ZifyBool ZifyNat ZifyN.
Local Open Scope Z_scope.

Lemma iter_succ_r {A} (f : A -> A) n x : Nat.iter (S n) f x = Nat.iter n f (f x).
Proof. induction n as [|n IH]; [reflexivity|]. change (f (Nat.iter (S n) f x) = f (Nat.iter n f (f x))). now rewrite IH. Qed.
(** ** Maps *)
Definition wsum (h : Z -> Q) (m : qmap) : Q := qsum (fun x => snd x * h (fst x))%Q m.
Lemma wsum_put h m n x : (wsum h (qput m n x) == wsum h m + (x - qget m n) * h n)%Q.
Proof.
  unfold wsum. induction m as [|[k y] m IH]; cbn [qput qget qsum fst snd]; [ring|].
  destruct (Z.eqb_spec k n) as [->|Ne]; cbn [qsum fst snd]; [ring|]. rewrite IH. ring.
Qed.
Lemma qget_put m n x v : qget (qput m n x) v = if n =? v then x else qget m v.
Proof.
  induction m as [|[k y] m IH]; cbn [qput qget]; [reflexivity|].
  destruct (Z.eqb_spec k n) as [->|Ne]; cbn [qget]; [destruct (n =? v); reflexivity|]. rewrite IH. destruct (Z.eqb_spec k v) as [->|]; [|reflexivity].
  destruct (Z.eqb_spec n v) as [->|]; [congruence|reflexivity].
Qed.
Lemma qput_keys m n x : NoDup (map fst m) -> NoDup (map fst (qput m n x)) /\ forall k, In k (map fst (qput m n x)) -> k = n \/ In k (map fst m).
Proof.
  induction m as [|[k y] m IH]; cbn [qput map fst]; intros H; [split; [repeat constructor; intros []|intros k [<-|[]]; auto]|].
  destruct (Z.eqb_spec k n) as [->|Ne]; cbn [map fst]; [split; [exact H|intros k [<-|K]; auto; right; now right]|].
  inversion H as [|? ? N1 N2]; subst. destruct (IH N2) as [H1 H2]. split; [constructor; [|exact H1]|].
  - intros K. apply H2 in K as [->|K]; [congruence|contradiction].
  - intros j [<-|K]; [right; now left|]. apply H2 in K as [->|K]; [now left|right; now right].
Qed.
Definition nonneg (m : qmap) : Prop := Forall (fun x => 0 <= snd x)%Q m.
Lemma nonneg_get m n : nonneg m -> (0 <= qget m n)%Q.
Proof. induction 1 as [|[k y] m H H' IH]; cbn [qget]; [apply Qle_refl|]. destruct (k =? n); [exact H|exact IH]. Qed.
Lemma nonneg_put m n x : nonneg m -> (0 <= x)%Q -> nonneg (qput m n x).
Proof. unfold nonneg. intros H Hx. induction H as [|[k y] m H H' IH]; cbn [qput]; [repeat constructor; exact Hx|]. destruct (k =? n); constructor; auto. Qed.
Lemma nonneg_wsum h m : nonneg m -> (forall v, 0 <= h v)%Q -> (0 <= wsum h m)%Q.
Proof. intros H Hh. apply qsum_nonneg. intros x Hx. unfold nonneg in H. rewrite Forall_forall in H. apply Qmult_le_0_compat; [now apply H|apply Hh]. Qed.
Lemma get_le_sum m n : nonneg m -> (qget m n <= wsum (fun _ => 1) m)%Q.
Proof.
  unfold wsum. induction 1 as [|[k y] m H H' IH]; cbn [qget qsum fst snd]; [apply Qle_refl|]. cbn [snd] in H.
  assert (0 <= qsum (fun x => snd x * 1)%Q m)%Q by (apply (nonneg_wsum (fun _ => 1%Q)); [exact H'|intros; lra]).
  destruct (k =? n); lra.
Qed.

(** ** One push *)
Section Push.
Variables alpha eps : Q.
Variable adj : Z -> list Z.
Notation deg := (fun v => length (adj v)).
Hypothesis Ha0 : (0 < alpha)%Q.
Hypothesis Ha1 : (alpha <= 1)%Q.
Hypothesis He : (0 < eps)%Q.
Notation ae := (alpha * eps)%Q.

Lemma push_all_sum h val nbs : forall r q, (wsum h (fst (push_all ae val deg nbs r q)) == wsum h r + val * qsum h nbs)%Q.
Proof.
  induction nbs as [|v nbs IH]; intros r q; cbn [push_all fst qsum]; [ring|]. rewrite IH, wsum_put. ring.
Qed.
Lemma push_all_nonneg val nbs : (0 <= val)%Q -> forall r q, nonneg r -> nonneg (fst (push_all ae val deg nbs r q)).
Proof.
  intros Hv. induction nbs as [|v nbs IH]; intros r q H; cbn [push_all fst]; [exact H|]. apply IH. apply nonneg_put; [exact H|].
  pose proof (nonneg_get r v H). lra.
Qed.
Lemma push_all_keys val nbs : forall r q, NoDup (map fst r) -> NoDup (map fst (fst (push_all ae val deg nbs r q))).
Proof. induction nbs as [|v nbs IH]; intros r q H; cbn [push_all fst]; [exact H|]. apply IH. now apply qput_keys. Qed.
(** In the queue, without residual or below the threshold. *)
Definition settled (r : qmap) (q : list Z) (v : Z) : Prop := In v q \/ (qget r v == 0)%Q \/ (qget r v < ae * qnat (deg v))%Q.
(** Nodes of the queue have a large residual. *)
Definition loaded (r : qmap) (v : Z) : Prop := (ae * qnat (deg v) <= qget r v)%Q.
Lemma in_queue_in v q : in_queue v q = true <-> In v q.
Proof. unfold in_queue. rewrite existsb_exists. split; [intros (x & H & E); apply Z.eqb_eq in E; congruence|intros H; exists v; split; [exact H|apply Z.eqb_refl]]. Qed.
Lemma push_all_queue val nbs : (0 <= val)%Q -> forall r q, NoDup q -> Forall (loaded r) q -> (forall v, settled r q v) ->
  let x := push_all ae val deg nbs r q in
  NoDup (snd x) /\ Forall (loaded (fst x)) (snd x) /\ (forall v, settled (fst x) (snd x) v) /\ (length (snd x) <= length q + length nbs)%nat.
Proof.
  intros Hv. induction nbs as [|v nbs IH]; intros r q N L S0; cbn [push_all fst snd length]; [repeat split; auto; lia|].
  set (r' := qput r v (qget r v + val)%Q).
  assert (Up : forall w, (qget r w <= qget r' w)%Q) by (intros w; unfold r'; rewrite qget_put; destruct (Z.eqb_spec v w) as [->|]; [lra|apply Qle_refl]).
  assert (L' : Forall (loaded r') q) by (eapply Forall_impl; [|exact L]; intros w; unfold loaded; specialize (Up w); intros; lra).
  destruct (Qle_bool (ae * qnat (length (adj v))) (qget r' v)) eqn:Eb.
  - apply Qle_bool_iff in Eb. destruct (in_queue v q) eqn:Eq.
    + apply in_queue_in in Eq. destruct (IH r' q N L') as (A & B & C & D).
      { intros w. destruct (S0 w) as [K|K]; [now left|]. unfold settled. unfold r'. rewrite qget_put. destruct (Z.eqb_spec v w) as [<-|]; auto. }
      repeat split; auto. lia.
    + assert (Nv : ~ In v q) by (rewrite <- in_queue_in; congruence). destruct (IH r' (v :: q)) as (A & B & C & D).
      * constructor; assumption.
      * constructor; assumption.
      * intros w. destruct (S0 w) as [K|K]; [left; now right|]. unfold settled. unfold r'. rewrite qget_put. destruct (Z.eqb_spec v w) as [<-|]; [left; now left|auto].
      * cbn [length] in D. repeat split; auto. lia.
  - assert (Lt : (qget r' v < ae * qnat (length (adj v)))%Q) by (apply Qnot_le_lt; intros K; apply Qle_bool_iff in K; congruence).
    destruct (IH r' q N L') as (A & B & C & D).
    { intros w. destruct (Z.eq_dec v w) as [<-|Ne]; [right; right; exact Lt|]. destruct (S0 w) as [K|K]; [now left|]. unfold settled. unfold r'. rewrite qget_put. destruct (Z.eqb_spec v w) as [|]; [contradiction|auto]. }
    repeat split; auto. lia.
Qed.

(** The state of a row.  [first]: the start node is still in the queue for the first time. *)
Record fine (first : bool) (s : prow) : Prop := {
  f_p : nonneg (pr_p s); f_r : nonneg (pr_r s); f_pk : NoDup (map fst (pr_p s)); f_rk : NoDup (map fst (pr_r s));
  f_q : NoDup (pr_q s); f_settled : forall v, settled (pr_r s) (pr_q s) v;
  f_loaded : first = false -> Forall (loaded (pr_r s)) (pr_q s);
  f_mass : (alpha * wsum (fun _ => 1) (pr_p s) + wsum (fun _ => 1) (pr_r s) <= alpha)%Q }.
Definition step := push_row alpha eps adj deg.
Definition start (n : Z) : prow := PR [] [(n, alpha)] [n].
Lemma fine_start n : fine true (start n).
Proof.
  constructor; cbn [start pr_p pr_r pr_q map fst].
  - constructor.
  - constructor; [cbn [snd]; lra|constructor].
  - constructor.
  - constructor; [intros []|constructor].
  - constructor; [intros []|constructor].
  - intros v. unfold settled. cbn [qget In]. destruct (Z.eqb_spec n v) as [->|]; [left; now left|right; left; reflexivity].
  - discriminate.
  - unfold wsum. cbn [qsum fst snd]. lra.
Qed.
Lemma val_nonneg u res : (0 <= res)%Q -> (0 <= (1 - alpha) * res / qnat (length (adj u)))%Q.
Proof.
  intros H. unfold Qdiv. apply Qmult_le_0_compat; [apply Qmult_le_0_compat; lra|]. apply Qinv_le_0_compat. apply qnat_nonneg.
Qed.
(** What leaves [u] arrives at its neighbors. *)
Lemma val_sum u res : adj u <> [] -> ((1 - alpha) * res / qnat (length (adj u)) * qnat (length (adj u)) == (1 - alpha) * res)%Q.
Proof.
  intros H. assert (P : (0 < qnat (length (adj u)))%Q) by (apply qnat_pos; destruct (adj u); [congruence|cbn; lia]). field. lra.
Qed.
Lemma fine_step first s : fine first s -> pr_q s <> [] -> (first = true -> exists n, pr_q s = [n]) -> fine false (step s).
Proof.
  intros F Hne Hfirst. unfold step, push_row. destruct (pr_q s) as [|u q'] eqn:Eq; [congruence|].
  set (res := qget (pr_r s) u). pose proof (nonneg_get _ u (f_r _ _ F)) as Hres. fold res in Hres.
  pose proof (val_nonneg u res Hres) as Hval. set (val := ((1 - alpha) * res / qnat (length (adj u)))%Q) in *.
  set (r0 := qput (pr_r s) u 0%Q). 
  assert (Hr0 : nonneg r0) by (apply nonneg_put; [apply (f_r _ _ F)|apply Qle_refl]).
  pose proof (f_q _ _ F) as Nq. rewrite Eq in Nq. inversion Nq as [|? ? N1 N2]; subst.
  assert (L0 : Forall (loaded r0) q').
  { destruct first. - destruct (Hfirst eq_refl) as (n & E). injection E as _ ->. constructor.
    - pose proof (f_loaded _ _ F eq_refl) as L. rewrite Eq in L. apply Forall_inv_tail in L. rewrite Forall_forall in *. intros w Hw. specialize (L w Hw). unfold loaded in *.
      unfold r0. rewrite qget_put. destruct (Z.eqb_spec u w) as [<-|]; [contradiction|exact L]. }
  assert (S0 : forall v, settled r0 q' v).
  { intros v. pose proof (f_settled _ _ F v) as Sv. unfold settled in *. unfold r0. rewrite qget_put. destruct (Z.eqb_spec u v) as [<-|Ne]; [right; left; reflexivity|].
    rewrite Eq in Sv. destruct Sv as [[E|K]|K]; [contradiction|now left|now right]. }
  destruct (push_all_queue val (adj u) Hval r0 q' N2 L0 S0) as (A & B & C & D).
  pose proof (push_all_sum (fun _ => 1%Q) val (adj u) r0 q') as Hsum. pose proof (push_all_nonneg val (adj u) Hval r0 q' Hr0) as Hn.
  pose proof (push_all_keys val (adj u) r0 q' (proj1 (qput_keys _ u 0%Q (f_rk _ _ F)))) as Hk.
  constructor; cbn [pr_p pr_r pr_q]; auto.
  - apply nonneg_put; [apply (f_p _ _ F)|]. pose proof (nonneg_get _ u (f_p _ _ F)). lra.
  - apply qput_keys, (f_pk _ _ F).
  - rewrite Hsum. unfold r0. rewrite !wsum_put. fold res. pose proof (f_mass _ _ F) as M.
    assert (T : (val * qsum (fun _ => 1) (adj u) <= (1 - alpha) * res)%Q).
    { rewrite qsum_const. assert (Ca : adj u = [] \/ adj u <> []) by (destruct (adj u); [now left|right; discriminate]). destruct Ca as [Ea|Ea].
      - rewrite Ea. cbn [length]. rewrite qnat_0. assert (0 <= (1 - alpha) * res)%Q by (apply Qmult_le_0_compat; lra). lra.
      - pose proof (val_sum u res Ea) as V. fold val in V. lra. }
    lra.
Qed.

(** Conserved sums. *)
Definition harmonic (g h : Z -> Q) : Prop :=
  forall u, (h u == alpha * g u + (1 - alpha) * (qsum h (adj u) / qnat (length (adj u))))%Q.
Lemma step_conserves g h s : harmonic g h ->
  (alpha * wsum g (pr_p (step s)) + wsum h (pr_r (step s)) == alpha * wsum g (pr_p s) + wsum h (pr_r s))%Q.
Proof.
  intros H. unfold step, push_row. destruct (pr_q s) as [|u q']; [reflexivity|]. cbn [pr_p pr_r].
  rewrite push_all_sum, !wsum_put. rewrite (H u). unfold Qdiv. ring.
Qed.

(** ** Termination *)
Definition total (s : prow) : Q := wsum (fun _ => 1%Q) (pr_r s).
(** [m] bounds the number of pushes left. *)
Definition bounded (m : nat) (s : prow) : Prop := (ae * (alpha * qnat (length (pr_q s))) + total s <= ae * (alpha * qnat m))%Q.
Lemma ae_pos : (0 < ae)%Q.
Proof. apply Qmult_lt_0_compat; assumption. Qed.
Lemma step_total s u q' : fine false s -> pr_q s = u :: q' -> (total (step s) <= total s - alpha * qget (pr_r s) u)%Q.
Proof.
  intros F Eq. unfold step, push_row, total. rewrite Eq. cbn [pr_r]. rewrite push_all_sum, wsum_put.
  pose proof (nonneg_get _ u (f_r _ _ F)) as Hres. set (res := qget (pr_r s) u) in *.
  assert (Ca : adj u = [] \/ adj u <> []) by (destruct (adj u); [now left|right; discriminate]). destruct Ca as [Ea|Ea].
  - rewrite Ea. cbn [qsum]. assert (0 <= (1 - alpha) * res)%Q by (apply Qmult_le_0_compat; lra). lra.
  - rewrite qsum_const. pose proof (val_sum u res Ea) as V. lra.
Qed.
Lemma step_queue s u q' : fine false s -> pr_q s = u :: q' -> (length (pr_q (step s)) <= length q' + length (adj u))%nat.
Proof.
  intros F Eq. unfold step, push_row. rewrite Eq. cbn [pr_q].
  generalize (qput (pr_r s) u 0%Q). clear - adj. generalize ((1 - alpha) * qget (pr_r s) u / qnat (length (adj u)))%Q. intros val. generalize (adj u) as nbs. intros nbs. revert q'.
  induction nbs as [|v nbs IH]; intros q' r; cbn [push_all snd length]; [lia|].
  match goal with |- (length (snd (push_all _ _ _ _ ?r' ?q)) <= _)%nat => pose proof (IH q r') as K; assert (length q <= S (length q'))%nat end; [|lia].
  destruct (Qle_bool _ _); [destruct (in_queue v q')|]; cbn [length]; lia.
Qed.
Lemma bounded_step m s : fine false s -> bounded (S m) s -> pr_q s <> [] -> bounded m (step s).
Proof.
  intros F B Hne. destruct (pr_q s) as [|u q'] eqn:Eq; [congruence|]. unfold bounded in *.
  pose proof (step_total s u q' F Eq) as T. pose proof (step_queue s u q' F Eq) as L.
  pose proof (f_loaded _ _ F eq_refl) as Hl. rewrite Eq in Hl. apply Forall_inv in Hl. unfold loaded in Hl.
  apply qnat_le in L. rewrite qnat_add in L. rewrite Eq in B. cbn [length] in B. rewrite !qnat_S in B.
  pose proof ae_pos as P. set (d := qnat (length (adj u))) in *. set (k := qnat (length q')) in *. set (k' := qnat (length (pr_q (step s)))) in *.
  assert (P2 : (0 < ae * alpha)%Q) by (apply Qmult_lt_0_compat; assumption).
  assert (A1 : (ae * alpha * k' <= ae * alpha * (k + d))%Q) by (apply Qmult_le_l; assumption).
  assert (A2 : (alpha * (ae * d) <= alpha * qget (pr_r s) u)%Q) by (apply Qmult_le_l; assumption).
  lra.
Qed.
Lemma bounded_zero s : bounded 0 s -> (0 <= total s)%Q -> pr_q s = [].
Proof.
  unfold bounded. destruct (pr_q s) as [|u q']; [reflexivity|]. cbn [length]. rewrite qnat_S, qnat_0. intros B T.
  assert (P2 : (0 < ae * alpha)%Q) by (apply Qmult_lt_0_compat; [apply ae_pos|assumption]).
  assert (0 <= ae * alpha * qnat (length q'))%Q by (apply Qmult_le_0_compat; [lra|apply qnat_nonneg]). lra.
Qed.
Lemma bounded_exists s : exists m, bounded m s.
Proof.
  assert (P2 : (0 < ae * alpha)%Q) by (apply Qmult_lt_0_compat; [apply ae_pos|assumption]).
  set (x := ((ae * (alpha * qnat (length (pr_q s))) + total s) / (ae * alpha))%Q).
  exists (Z.to_nat (Qceiling x)). unfold bounded. 
  assert (X : (x <= qnat (Z.to_nat (Qceiling x)))%Q).
  { unfold qnat. eapply Qle_trans; [apply Qle_ceiling|]. rewrite <- Zle_Qle. lia. }
  assert (E : (ae * (alpha * qnat (length (pr_q s))) + total s == ae * alpha * x)%Q) by (unfold x; field; split; lra).
  rewrite E. assert (ae * alpha * x <= ae * alpha * qnat (Z.to_nat (Qceiling x)))%Q by (apply Qmult_le_l; assumption). lra.
Qed.
End Push.

(** ** The cache *)
Lemma key_eqb_eq a b : key_eqb a b = true <-> a = b.
Proof. unfold key_eqb. destruct a as [a1 a2], b as [b1 b2]. cbn [fst snd]. rewrite andb_true_iff, !Z.eqb_eq. split; [intros [-> ->]; reflexivity|intros E; injection E as -> ->; auto]. Qed.
Lemma assoc_app {A} k (a b : list (key * A)) : assoc k (a ++ b) = match assoc k a with Some x => Some x | None => assoc k b end.
Proof. induction a as [|[k' x] a IH]; cbn [assoc app]; [reflexivity|]. destruct (key_eqb k k'); [reflexivity|exact IH]. Qed.
Lemma assoc_in {A} k (l : list (key * A)) x : assoc k l = Some x -> In (k, x) l.
Proof. induction l as [|[k' y] l IH]; cbn [assoc]; [discriminate|]. destruct (key_eqb k k') eqn:E; [apply key_eqb_eq in E as ->; intros H; injection H as ->; now left|right; auto]. Qed.
Lemma assoc_some {A} k (l : list (key * A)) : In k (map fst l) -> assoc k l <> None.
Proof. induction l as [|[k' y] l IH]; cbn [map fst assoc]; [intros []|]. intros [->|H]; [rewrite (proj2 (key_eqb_eq k k) eq_refl); discriminate|]. destruct (key_eqb k k'); [discriminate|auto]. Qed.
Lemma has_key_in k l : has_key k l = true <-> In k l.
Proof. unfold has_key. rewrite existsb_exists. split; [intros (x & H & E); apply key_eqb_eq in E; congruence|intros H; exists k; split; [exact H|now apply key_eqb_eq]]. Qed.
Lemma add_keys_in l : forall a k, In k (fold_left add_key l a) <-> In k a \/ In k l.
Proof.
  induction l as [|x l IH]; intros a k; cbn [fold_left]; [split; [auto|intros [H|[]]; exact H]|]. rewrite IH. unfold add_key. destruct (has_key x a) eqn:E.
  - apply has_key_in in E. split; [intros [H|H]; auto; right; now right|intros [H|[<-|H]]; auto].
  - rewrite in_app_iff. split; [intros [[H|[<-|[]]]|H]; auto; [right; now left|right; now right]|intros [H|[<-|H]]; auto; left; right; now left].
Qed.
Lemma combine_map_in {A B} (f : A -> B) l x y : In (x, y) (combine l (map f l)) -> In x l /\ y = f x.
Proof. induction l as [|z l IH]; cbn [map combine]; [intros []|]. intros [E|H]; [injection E as <- <-; split; [now left|reflexivity]|apply IH in H as [H1 H2]; split; [now right|exact H2]]. Qed.
Lemma combine_map_fst {A B} (f : A -> B) l : map fst (combine l (map f l)) = l.
Proof. induction l as [|z l IH]; cbn [map combine fst]; [reflexivity|]. now rewrite IH. Qed.

Section Cache.
Variable query : list Z -> option (list Z) -> res (list nbr * list nat).
Variable qcount : list Z -> option (list Z) -> res (list nat).
Variable ord : list key -> list key.
Variable pord : qmap -> qmap.
Variable adj : Z -> list Z.
Notation deg := (fun v => length (adj v)).
Hypothesis Hq : forall ns, exists l cs, query ns None = Ok (l, cs) /\ split_counts cs (map (fun y => fst (nbr_node y)) l) = Ok (map adj ns).
Hypothesis Hc : forall ns, qcount ns None = Ok (map deg ns).
Hypothesis Hord : forall l, Permutation (ord l) l.

Definition plain (k : key) : Prop := snd k = -1.
Record good_cache (c : cache) : Prop := {
  gc_lists : forall k l, assoc k (c_lists c) = Some l -> l = adj (fst k);
  gc_counts : forall k m, assoc k (c_counts c) = Some m -> m = deg (fst k) }.
Definition counted (c : cache) (v : Z) : Prop := assoc (v, -1) (c_counts c) <> None.
Definition closed (c : cache) : Prop := forall k l v, assoc k (c_lists c) = Some l -> In v l -> counted c v.

Lemma missing_counts_ok counts nbs : forall i (seen : list key) nodes, (forall v, In (v, -1) seen -> In v nodes) ->
  exists nodes', missing_counts counts i nbs None seen nodes = Ok (nodes', None) /\ incl nodes nodes' /\
    forall v, In v nbs -> assoc (v, -1) counts <> None \/ In v nodes'.
Proof.
  induction nbs as [|n nbs IH]; intros i seen nodes Hs; cbn [missing_counts bind]; [exists nodes; split; [reflexivity|split; [apply incl_refl|intros v []]]|].
  destruct (assoc (n, -1) counts) eqn:Ea; [|destruct (has_key (n, -1) seen) eqn:Es].
  - destruct (IH (S i) seen nodes Hs) as (nd & E & I & H). exists nd. split; [exact E|]. split; [exact I|]. intros v [<-|Hv]; [left; congruence|auto].
  - destruct (IH (S i) seen nodes Hs) as (nd & E & I & H). exists nd. split; [exact E|]. split; [exact I|]. intros v [<-|Hv]; [right; apply I, Hs; now apply has_key_in|auto].
  - destruct (IH (S i) ((n, -1) :: seen) (nodes ++ [n])) as (nd & E & I & H).
    { intros v [K|K]; [injection K as <-; apply in_or_app; right; now left|apply in_or_app; left; auto]. }
    exists nd. split; [exact E|]. split; [intros v Hv; apply I, in_or_app; now left|]. intros v [<-|Hv]; [right; apply I, in_or_app; right; now left|auto].
Qed.
Lemma map_const_repeat {A B} (x : B) (l : list A) : repeat x (length l) = map (fun _ => x) l.
Proof. induction l; cbn; congruence. Qed.
Lemma lookup_counts_ok c nbs : good_cache c -> exists c', lookup_counts qcount c nbs None = Ok c' /\ good_cache c' /\ c_lists c' = c_lists c /\
  (forall v, counted c v -> counted c' v) /\ forall v, In v nbs -> counted c' v.
Proof.
  intros G. unfold lookup_counts. destruct (missing_counts_ok (c_counts c) nbs 0 [] []) as (nd & E & _ & H); [intros v []|]. rewrite E. cbn [bind].
  destruct nd as [|n nd'] eqn:En.
  - exists c. repeat split; try apply G; auto. intros v Hv. destruct (H v Hv) as [K|[]]. exact K.
  - rewrite <- En in *. clear n nd' En. rewrite Hc. cbn [bind].
    set (ks := combine nd (repeat (-1) (length nd))). set (new := rev (combine ks (map deg nd))).
    assert (Fk : forall k m, In (k, m) new -> m = deg (fst k) /\ In (fst k) nd).
    { intros k m Hin. unfold new in Hin. apply in_rev in Hin. unfold ks in Hin. rewrite map_const_repeat in Hin. clear - Hin.
      induction nd as [|x nd IH]; cbn [map combine] in Hin; [destruct Hin|]. destruct Hin as [K|Hin]; [injection K as <- <-; cbn [fst]; auto using in_eq|]. apply IH in Hin as [-> Hin]. split; [reflexivity|now right]. }
    assert (Fn : forall v, In v nd -> In (v, -1) (map fst new)).
    { intros v Hv. unfold new. rewrite map_rev. apply -> in_rev. unfold ks. rewrite map_const_repeat. clear - Hv.
      induction nd as [|x nd IH]; [destruct Hv|]. cbn [map combine fst In] in *. destruct Hv as [->|Hv]; auto. }
    exists (Cache (c_lists c) (new ++ c_counts c)). split; [reflexivity|]. split; [split|split; [reflexivity|split]].
    + apply (gc_lists _ G).
    + cbn [c_counts]. intros k m Hk. rewrite assoc_app in Hk. destruct (assoc k new) as [m'|] eqn:Ek; [injection Hk as <-; apply assoc_in in Ek; now apply Fk|now apply (gc_counts _ G)].
    + unfold counted. cbn [c_counts]. intros v Hv. rewrite assoc_app. destruct (assoc (v, -1) new); [discriminate|exact Hv].
    + unfold counted. cbn [c_counts]. intros v Hv. rewrite assoc_app. destruct (assoc (v, -1) new) as [|] eqn:Ek; [discriminate|]. destruct (H v Hv) as [K|K]; [exact K|].
      apply Fn, assoc_some in K. contradiction.
Qed.
Lemma lookup_lists_ok c input : good_cache c -> closed c -> Forall plain input ->
  exists c', lookup_lists query qcount ord false c input = Ok c' /\ good_cache c' /\ closed c' /\ forall k, In k input -> assoc k (c_lists c') <> None.
Proof.
  intros G Cl Hp. unfold lookup_lists.
  set (new := filter (fun k => match assoc k (c_lists c) with None => true | Some _ => false end) (ord input)).
  assert (Hnew : forall k, In k input -> assoc k (c_lists c) <> None \/ In k new).
  { intros k Hk. destruct (assoc k (c_lists c)) eqn:E; [left; discriminate|right]. apply filter_In. rewrite E. split; [|reflexivity]. apply (Permutation_in _ (Permutation_sym (Hord input))). exact Hk. }
  assert (Pnew : Forall plain new).
  { apply Forall_forall. intros k Hk. apply filter_In in Hk as [Hk _]. apply (Permutation_in _ (Hord input)) in Hk. rewrite Forall_forall in Hp. auto. }
  destruct new as [|k0 new'] eqn:En.
  - exists c. cbn [lookup_counts missing_counts bind]. unfold lookup_counts. cbn [missing_counts bind]. split; [reflexivity|]. split; [exact G|]. split; [exact Cl|].
    intros k Hk. destruct (Hnew k Hk) as [K|[]]. exact K.
  - rewrite <- En in *. clear k0 new' En. cbn [map snd]. destruct (Hq (map fst new)) as (l & cs & E1 & E2). rewrite E1. cbn [bind fst snd]. rewrite E2. cbn [bind].
    set (lists := combine new (map adj (map fst new))).
    set (c1 := Cache (rev lists ++ c_lists c) (rev (combine new (map (@length Z) (map adj (map fst new)))) ++ c_counts c)).
    set (nb := fold_left add_key _ []).
    assert (Fl : forall k x, In (k, x) lists -> In k new /\ x = adj (fst k)) by (intros k x Hin; unfold lists in Hin; rewrite map_map in Hin; now apply (combine_map_in (fun k => adj (fst k))) in Hin).
    assert (G1 : good_cache c1).
    { split; cbn [c1 c_lists c_counts].
      - intros k x Hk. rewrite assoc_app in Hk. destruct (assoc k (rev lists)) as [y|] eqn:Ek; [injection Hk as <-; apply assoc_in, in_rev in Ek; now apply Fl|now apply (gc_lists _ G)].
      - intros k m Hk. rewrite assoc_app in Hk. destruct (assoc k (rev (combine new _))) as [y|] eqn:Ek; [injection Hk as <-; apply assoc_in, in_rev in Ek|now apply (gc_counts _ G)].
        rewrite !map_map in Ek. apply (combine_map_in (fun k => length (adj (fst k)))) in Ek as [_ ->]. reflexivity. }
    destruct (lookup_counts_ok c1 (map fst (ord nb)) G1) as (c' & E & G' & L' & M1 & M2). exists c'. split; [exact E|]. split; [exact G'|].
    split.
    + intros k x v Hk Hv. rewrite L' in Hk. cbn [c1 c_lists] in Hk. rewrite assoc_app in Hk. destruct (assoc k (rev lists)) as [y|] eqn:Ek.
      * injection Hk as <-. apply assoc_in, in_rev in Ek. apply M2. apply in_map_iff. exists (v, -1). split; [reflexivity|].
        apply (Permutation_in _ (Permutation_sym (Hord nb))). unfold nb. apply add_keys_in. right. apply in_concat. exists (map (fun n => (n, snd k)) y). split.
        -- apply in_map_iff. exists (k, y). split; [reflexivity|exact Ek].
        -- apply Fl in Ek as [Kn _]. rewrite Forall_forall in Pnew. rewrite (Pnew k Kn). apply in_map_iff. exists v. auto.
      * apply M1. unfold counted. cbn [c1 c_counts]. rewrite assoc_app. destruct (assoc (v, -1) (rev _)); [discriminate|]. now apply (Cl k x).
    + intros k Hk. rewrite L'. cbn [c1 c_lists]. rewrite assoc_app. destruct (assoc k (rev lists)) eqn:Ek; [discriminate|]. destruct (Hnew k Hk) as [K|K]; [exact K|].
      exfalso. revert Ek. apply assoc_some. rewrite map_rev. apply -> in_rev. unfold lists. rewrite map_map. pose proof (combine_map_fst (fun k : key => adj (fst k)) new) as Ef. unfold key in *. rewrite Ef. exact K.
Qed.

(** ** The loop *)
Section Loop.
Variables alpha eps : Q.
Notation stepd := (push_row alpha eps adj deg).
Lemma push_all_ext a v d d' nbs : (forall x, In x nbs -> d x = d' x) -> forall r q, push_all a v d nbs r q = push_all a v d' nbs r q.
Proof. induction nbs as [|x nbs IH]; intros H r q; cbn [push_all]; [reflexivity|]. rewrite (H x) by now left. apply IH. intros y Hy. apply H. now right. Qed.
Lemma push_row_ext a d s : (forall u, In u (pr_q s) -> a u = adj u) -> (forall u v, In u (pr_q s) -> In v (adj u) -> d v = deg v) -> push_row alpha eps a d s = stepd s.
Proof.
  intros H1 H2. unfold push_row. destruct (pr_q s) as [|u q'] eqn:E; [reflexivity|]. rewrite (H1 u) by now left.
  rewrite (push_all_ext _ _ d deg) by (intros v Hv; apply (H2 u v); [now left|exact Hv]). reflexivity.
Qed.
Definition all_done (rows : list prow) : bool := forallb (fun s => match pr_q s with [] => true | _ => false end) rows.
Lemma map_combine_seq' {A B} (f : nat -> A -> B) (g : A -> B) (l : list A) : (forall i x, In x l -> f i x = g x) -> forall s,
  map (fun x => f (fst x) (snd x)) (combine (seq s (length l)) l) = map g l.
Proof.
  induction l as [|x l IH]; intros E s; cbn [length seq combine map fst snd]; [reflexivity|]. rewrite E by now left. f_equal. apply IH. intros i y Hy. apply E. now right.
Qed.
Lemma combine_seq_nth {A} (l : list A) : forall b j x, nth_error l j = Some x -> nth_error (combine (seq b (length l)) l) j = Some ((b + j)%nat, x).
Proof.
  induction l as [|y l IH]; intros b j x H; [destruct j; discriminate|]. destruct j as [|j]; cbn [length seq combine nth_error] in *; [injection H as ->; rewrite Nat.add_0_r; reflexivity|].
  rewrite (IH (S b) j x H). f_equal. f_equal. lia.
Qed.
Fixpoint direct (fuel : nat) (rows : list prow) : res (list prow) :=
  if all_done rows then Ok rows else match fuel with O => Fail EFuel | S m => direct m (map stepd rows) end.
Lemma loop_direct fuel : forall c rows, good_cache c -> closed c -> ppr_loop query qcount ord fuel alpha eps None c rows = direct fuel rows.
Proof.
  induction fuel as [|fuel IH]; intros c rows G Cl; cbn [ppr_loop direct]; fold (all_done rows); [reflexivity|]. destruct (all_done rows); [reflexivity|].
  set (input := fold_left add_key _ []).
  assert (Hin : forall k, In k input <-> plain k /\ exists s, In s rows /\ In (fst k) (pr_q s)).
  { intros k. unfold input. rewrite add_keys_in, in_concat. split.
    - intros [[]|(l & Hl & Hk)]. apply in_map_iff in Hl as ([i s] & <- & Hs). cbn [fst snd stamp] in Hk. apply in_map_iff in Hk as (n & <- & Hn). split; [reflexivity|].
      exists s. split; [now apply in_combine_r in Hs|now apply in_rev].
    - intros [P (s & Hs & Hn)]. right. apply In_nth_error in Hs as (i & Hi).
      assert (K : nth_error (combine (seq 0 (length rows)) rows) i = Some (i, s))
        by (rewrite (combine_seq_nth rows 0 i s Hi); reflexivity).
      apply nth_error_In in K. eexists. split; [apply in_map_iff; exists (i, s); split; [reflexivity|exact K]|]. cbn [fst snd stamp]. apply in_map_iff. exists (fst k). split; [|now apply -> in_rev].
      destruct k as [a b]. unfold plain in P. cbn in *. congruence. }
  destruct (lookup_lists_ok c input G Cl) as (c' & E & G' & Cl' & L'). { apply Forall_forall. intros k Hk. now apply Hin in Hk. }
  rewrite E. cbn [bind]. rewrite (IH c' _ G' Cl'). f_equal. unfold push_rows.
  apply (map_combine_seq' (fun i s => push_row alpha eps (fun n => list_of c' (n, stamp None i)) (fun n => count_in c' (n, stamp None i)) s)).
  intros i s Hs. cbn [stamp].
  assert (A1 : forall u, In u (pr_q s) -> exists l, assoc (u, -1) (c_lists c') = Some l /\ l = adj u).
  { intros u Hu. assert (K : In (u, -1) input) by (apply Hin; split; [reflexivity|exists s; auto]). apply L' in K. destruct (assoc (u, -1) (c_lists c')) as [l|] eqn:El; [|contradiction].
    exists l. split; [reflexivity|]. now apply (gc_lists _ G') in El. }
  apply push_row_ext.
  - intros u Hu. destruct (A1 u Hu) as (l & El & Ev). unfold list_of. now rewrite El.
  - intros u v Hu Hv. destruct (A1 u Hu) as (l & El & Ev). subst l. pose proof (Cl' _ _ v El Hv) as K. unfold counted in K. unfold count_in.
    destruct (assoc (v, -1) (c_counts c')) as [m|] eqn:Em; [|contradiction]. now apply (gc_counts _ G') in Em.
Qed.
Lemma direct_iter fuel : forall rows out, direct fuel rows = Ok out -> exists k, out = map (Nat.iter k stepd) rows /\ Forall (fun s => pr_q s = []) out.
Proof.
  assert (D : forall rows, all_done rows = true -> Forall (fun s => pr_q s = []) rows).
  { intros rows H. unfold all_done in H. rewrite forallb_forall in H. apply Forall_forall. intros s Hs. apply H in Hs. destruct (pr_q s); [reflexivity|discriminate]. }
  induction fuel as [|fuel IH]; intros rows out H; cbn [direct] in H; destruct (all_done rows) eqn:E; try discriminate.
  - injection H as <-. exists 0%nat. split; [symmetry; apply map_id|auto].
  - injection H as <-. exists 0%nat. split; [symmetry; apply map_id|auto].
  - apply IH in H as (k & -> & F). exists (S k). split; [|exact F]. rewrite map_map. apply map_ext. intros s. symmetry. apply iter_succ_r.
Qed.
Lemma direct_done fuel : forall rows, Forall (fun s => pr_q (Nat.iter fuel stepd s) = []) rows -> exists out, direct fuel rows = Ok out.
Proof.
  induction fuel as [|fuel IH]; intros rows H; cbn [direct].
  - replace (all_done rows) with true; [eauto|]. symmetry. unfold all_done. apply forallb_forall. intros s Hs. rewrite Forall_forall in H. specialize (H s Hs). cbn in H. now rewrite H.
  - destruct (all_done rows); [eauto|]. apply IH. apply Forall_forall. intros s Hs. apply in_map_iff in Hs as (s0 & <- & Hs). rewrite Forall_forall in H. specialize (H s0 Hs).
    now rewrite iter_succ_r in H.
Qed.
End Loop.
End Cache.
