(** Proofs about the graph for PyTorch Geometric. *)
From Verif Require Import Base WriterModel LoaderModel GraphModel GraphSpec GraphProofs ConvertProofs AnswerProofs PygModel PygSpec.
From Coq Require Import QArith Lqa ZifyBool ZifyNat.
Local Open Scope Z_scope.

Lemma f32_small x : Z.abs x <= 2 ^ 24 -> f32_of_int x = x.
Proof.
  intros H. unfold f32_of_int. destruct (Z.ltb_spec (Z.abs x) (2 ^ 24)) as [L|L]; [reflexivity|]. assert (E : Z.abs x = 2 ^ 24) by lia. rewrite E.
  change (Z.log2 (2 ^ 24) - 23) with 1. change (2 ^ 24 / 2 ^ 1) with (2 ^ 23). change (2 ^ 24 mod 2 ^ 1) with 0. cbn [Z.mul]. change ((2 ^ 1 <? 0) || (2 ^ 1 =? 0) && Z.odd (2 ^ 23)) with false. cbn [orb andb]. change (2 ^ 23 * 2 ^ 1) with (2 ^ 24).
  destruct (Z.abs_spec x) as [[Hx Hy]|[Hx Hy]]; destruct x; cbn [Z.sgn]; lia.
Qed.
Section Big.
Variable x : Z.
Hypothesis big : 2 ^ 24 <= Z.abs x.
Let m := Z.abs x.
Let u := 2 ^ (Z.log2 m - 23).
Lemma log_big : 24 <= Z.log2 m.
Proof. rewrite <- (Z.log2_pow2 24) by lia. apply Z.log2_le_mono. exact big. Qed.
Lemma u_pos : 2 <= u.
Proof. pose proof log_big. unfold u. change 2 with (2 ^ 1) at 1. apply Z.pow_le_mono_r; lia. Qed.
Lemma u_even : exists h, u = 2 * h.
Proof. pose proof log_big. exists (2 ^ (Z.log2 m - 24)). unfold u. replace (Z.log2 m - 23) with (Z.succ (Z.log2 m - 24)) by lia. now rewrite Z.pow_succ_r by lia. Qed.
Lemma m_u : u * 2 ^ 23 <= m < u * 2 ^ 24.
Proof.
  pose proof log_big. assert (P : 0 < m) by (unfold m; lia). pose proof (Z.log2_spec m P) as [A B]. unfold u. rewrite <- !Z.pow_add_r by lia.
  replace (Z.log2 m - 23 + 23) with (Z.log2 m) by lia. replace (Z.log2 m - 23 + 24) with (Z.succ (Z.log2 m)) by lia. lia.
Qed.
Lemma f32_big : f32_of_int x = Z.sgn x * ((if (u <? 2 * (m mod u)) || ((u =? 2 * (m mod u)) && Z.odd (m / u)) then m / u + 1 else m / u) * u).
Proof. unfold f32_of_int. fold m. replace (m <? 2 ^ 24) with false by (unfold m; lia). reflexivity. Qed.
Lemma f32_error_big : Z.abs (f32_of_int x - x) * 2 ^ 24 <= Z.abs x.
Proof.
  rewrite f32_big. pose proof u_pos as U. pose proof m_u as [A _]. pose proof (Z.div_mod m u ltac:(lia)) as D. pose proof (Z.mod_pos_bound m u ltac:(lia)) as M.
  set (q := m / u) in *. set (r := m mod u) in *. set (b := (u <? 2 * r) || ((u =? 2 * r) && Z.odd q)).
  assert (E : Z.abs (Z.sgn x * ((if b then q + 1 else q) * u) - x) = Z.abs ((if b then q + 1 else q) * u - m)).
  { unfold m. destruct (Z.sgn_spec x) as [[Hx ->]|[[Hx ->]|[Hx ->]]]; [| unfold m in *; lia|]; [f_equal; lia|]. rewrite <- (Z.abs_opp (_ - x)). f_equal. lia. }
  rewrite E. fold m. assert (F : 2 * Z.abs ((if b then q + 1 else q) * u - m) <= u). { unfold b. destruct ((u <? 2 * r) || ((u =? 2 * r) && Z.odd q)) eqn:Eb; nia. }
  change (2 ^ 24) with (2 * 2 ^ 23). nia.
Qed.
Lemma sgn_abs : Z.sgn x * m = x.
Proof. unfold m. destruct x; cbn; lia. Qed.
Lemma f32_fix_big : f32_of_int x = x <-> m mod u = 0.
Proof.
  rewrite f32_big. pose proof u_pos as U. pose proof (Z.div_mod m u ltac:(lia)) as D. pose proof (Z.mod_pos_bound m u ltac:(lia)) as M.
  set (q := m / u) in *. set (r := m mod u) in *. split.
  - intros E. rewrite <- sgn_abs in E at 2. assert (S0 : Z.sgn x = 1 \/ Z.sgn x = -1) by (unfold m in *; destruct x; cbn in *; lia).
    assert (E2 : (if (u <? 2 * r) || ((u =? 2 * r) && Z.odd q) then q + 1 else q) * u = m) by (destruct S0 as [S0|S0]; rewrite S0 in E; lia).
    destruct ((u <? 2 * r) || ((u =? 2 * r) && Z.odd q)) eqn:Eb; nia.
  - intros E. rewrite E in *. replace (u <? 2 * 0) with false by lia. replace (u =? 2 * 0) with false by lia. cbn [orb andb]. rewrite <- sgn_abs at 2. f_equal. lia.
Qed.
End Big.
Lemma f32_error x : Z.abs (f32_of_int x - x) * 2 ^ 24 <= Z.abs x.
Proof.
  destruct (Z.le_gt_cases (2 ^ 24) (Z.abs x)) as [H|H]; [now apply f32_error_big|]. rewrite f32_small by lia. rewrite Z.sub_diag. cbn [Z.abs Z.mul]. lia.
Qed.
Lemma f32_iff x : f32_of_int x = x <-> short x.
Proof.
  destruct (Z.le_gt_cases (2 ^ 24) (Z.abs x)) as [H|H].
  - rewrite f32_fix_big by exact H. pose proof (log_big x H) as LB. pose proof (u_pos x H) as U. pose proof (m_u x H) as [A B]. set (m := Z.abs x) in *. set (u := 2 ^ (Z.log2 m - 23)) in *. split.
    + intros E. exists (Z.sgn x * (m / u)), (Z.log2 m - 23). pose proof (Z.div_mod m u ltac:(lia)) as D. fold u. rewrite E in D. split; [|split; [lia|]].
      * rewrite Z.abs_mul. assert (m / u < 2 ^ 24) by nia. assert (0 <= m / u) by (apply Z.div_pos; unfold m; lia). rewrite (Z.abs_eq (m / u)) by lia. destruct x; cbn [Z.sgn Z.abs]; lia.
      * rewrite <- Z.mul_assoc, (Z.mul_comm (m / u)). replace (u * (m / u)) with m by lia. symmetry. exact (sgn_abs x H).
    + intros (k & e & K & He & E). assert (P : 0 < 2 ^ e) by (apply Z.pow_pos_nonneg; lia). assert (Em : m = Z.abs k * 2 ^ e) by (unfold m; rewrite E, Z.abs_mul; f_equal; lia).
      assert (K0 : 0 < Z.abs k) by (unfold m in Em; nia). assert (LK : Z.log2 m = Z.log2 (Z.abs k) + e) by (rewrite Em, Z.log2_mul_pow2 by assumption; apply Z.add_comm).
      assert (L2 : Z.log2 (Z.abs k) <= 23). { assert (Z.log2 (Z.abs k) < 24) by (apply Z.log2_lt_pow2; lia). lia. }
      assert (D : (u | m)). { rewrite Em. apply Z.divide_mul_r. exists (2 ^ (23 - Z.log2 (Z.abs k))). unfold u. rewrite <- Z.pow_add_r by lia. f_equal. lia. }
      apply Z.mod_divide; [lia|exact D].
  - split; [intros _; exists x, 0; split; [exact H|split; [lia|change (2 ^ 0) with 1; lia]]|]. intros _. apply f32_small. lia.
Qed.

(** ** Edges *)
Lemma sources_map {A} (f : Z -> list A) nodes : sources nodes (map (fun n => length (f n)) nodes) = flat_map (fun n => map (fun _ => n) (f n)) nodes.
Proof.
  unfold sources. induction nodes as [|n l IH]; [reflexivity|]. cbn [map combine flat_map fst snd]. rewrite IH. f_equal. induction (f n); cbn; congruence.
Qed.
Lemma map_id_on (f : Z -> Z) l : Forall (fun x => f x = x) l -> map f l = l.
Proof. induction 1 as [|x l E _ IH]; cbn; congruence. Qed.
Lemma edge_index_right fadd fsub wval wm parts g t nodes :
  converted fadd wval wm parts g -> guarded fadd fsub [t] parts -> Forall short nodes -> Forall (fun p => short (snd p)) (pairs parts t nodes) ->
  edge_index fsub g nodes t = Ok (map fst (pairs parts t nodes), map snd (pairs parts t nodes)).
Proof.
  intros C G Fn Fp. unfold edge_index. rewrite (converted_neighbors fadd fsub wval wm parts g [t] nodes C G). cbn [bind fst snd]. rewrite sources_map.
  assert (E1 : flat_map (fun n => map (fun _ => n) (spec_edges parts [t] n)) nodes = map fst (pairs parts t nodes)).
  { unfold pairs. clear. induction nodes as [|n l IH]; [reflexivity|]. cbn [flat_map]. rewrite map_app, <- IH. f_equal. now rewrite map_map. }
  assert (E2 : map (fun x : Z * Z * N * Z => fst (fst (fst x))) (flat_map (fun n => map answer (spec_edges parts [t] n)) nodes) = map snd (pairs parts t nodes)).
  { unfold pairs. clear. induction nodes as [|n l IH]; [reflexivity|]. cbn [flat_map]. rewrite !map_app, <- IH. f_equal. now rewrite !map_map. }
  rewrite E1. setoid_rewrite E2. f_equal. f_equal; apply map_id_on; apply Forall_forall; intros x Hx; apply f32_iff; apply in_map_iff in Hx as (p & <- & Hp).
  - rewrite Forall_forall in Fn. unfold pairs in Hp. apply in_flat_map in Hp as (n & Hn & Hp). apply in_map_iff in Hp as (e & <- & _). now apply Fn.
  - rewrite Forall_forall in Fp. now apply Fp.
Qed.
Lemma pairs_in parts t nodes a b : In (a, b) (pairs parts t nodes) <-> In a nodes /\ exists e, In e (flat_map edges_of parts) /\ e_src e = a /\ e_dst e = b /\ e_typ e = t.
Proof.
  unfold pairs. rewrite in_flat_map. split.
  - intros (n & Hn & Hp). apply in_map_iff in Hp as (e & E & He). injection E as <- <-. split; [exact Hn|]. apply filter_In in He as [He Hc]. exists e. split; [exact He|]. cbn [mem existsb] in Hc. lia.
  - intros (Hn & e & He & E1 & E2 & E3). exists a. split; [exact Hn|]. apply in_map_iff. exists e. split; [now rewrite E2|]. apply filter_In. split; [exact He|]. cbn [mem existsb]. lia.
Qed.

(** ** Loss *)
Lemma fold_loss (l : list (Q * nat)) a : (fold_left (fun s b => s + fst b * inject_Z (Z.of_nat (snd b))) l a == a + fold_right (fun b s => fst b * inject_Z (Z.of_nat (snd b)) + s) 0 l)%Q.
Proof. revert a. induction l as [|b l IH]; intros a; cbn [fold_left fold_right]; [ring|]. rewrite IH. ring. Qed.
Lemma fold_count (l : list (Q * nat)) a : fold_left (fun n b => (n + snd b)%nat) l a = (a + fold_right plus 0 (map snd l))%nat.
Proof. revert a. induction l as [|b l IH]; intros a; cbn [fold_left fold_right map]; [lia|]. rewrite IH. lia. Qed.
Lemma qsum_app a b : (fold_right Qplus 0 (a ++ b) == fold_right Qplus 0 a + fold_right Qplus 0 b)%Q.
Proof. induction a as [|x a IH]; cbn [app fold_right]; [ring|rewrite IH; ring]. Qed.
Lemma train_right losses : Forall (fun l => l <> []) losses -> (train_loss (map (fun l => (mean l, length l)) losses) == overall losses)%Q.
Proof.
  intros F. unfold train_loss, overall. rewrite fold_loss, fold_count. rewrite map_map. cbn [snd].
  assert (N : fold_right plus 0%nat (map (fun l : list Q => length l) losses) = length (concat losses)).
  { clear. induction losses as [|l ls IH]; [reflexivity|]. cbn [map fold_right concat]. rewrite app_length. lia. }
  rewrite N. cbn [Nat.add]. assert (S0 : (fold_right (fun b s => fst b * inject_Z (Z.of_nat (snd b)) + s) 0 (map (fun l => (mean l, length l)) losses) == fold_right Qplus 0 (concat losses))%Q).
  { clear N. induction F as [|l ls Hl _ IH]; [reflexivity|]. cbn [map fold_right concat fst snd]. rewrite qsum_app, IH. apply Qplus_inj_r. unfold mean. field.
    intros E. unfold Qeq, inject_Z in E. cbn [Qnum Qden] in E. destruct l; [congruence|]. cbn [length] in E. lia. }
  rewrite S0. now rewrite Qplus_0_l.
Qed.
Lemma hits_all b : (hits b <= length b)%nat /\ (hits b = length b <-> Forall (fun x => snd x = true <-> (0 < fst x)%Q) b).
Proof.
  unfold hits. set (p := fun x : Q * bool => Bool.eqb (negb (Qle_bool (fst x) 0)) (snd x)).
  assert (P : forall x, p x = true <-> (snd x = true <-> (0 < fst x)%Q)).
  { intros [q l]. unfold p. cbn [fst snd]. rewrite Bool.eqb_true_iff. pose proof (Qle_bool_iff q 0) as I. destruct (Qle_bool q 0) eqn:E; cbn [negb].
    - assert (L : (q <= 0)%Q) by now apply I. split; [intros <-; split; [discriminate|intros H; exfalso; lra]|]. intros H. destruct l; [exfalso; pose proof (proj1 H eq_refl); lra|reflexivity].
    - assert (L : (0 < q)%Q) by (apply Qnot_le_lt; intros H; apply I in H; discriminate). split; [intros <-; tauto|]. intros H. symmetry. now apply H. }
  induction b as [|x b [IH1 IH2]]; [split; [cbn; lia|split; [constructor|reflexivity]]|]. cbn [filter length]. destruct (p x) eqn:E; cbn [length].
  - split; [lia|]. split.
    + intros H. constructor; [now apply P|apply IH2; lia].
    + intros H. inversion H; subst. f_equal. now apply IH2.
  - split; [lia|]. split; [intros H; exfalso; lia|]. intros H. inversion H as [|? ? H1 H2]; subst. apply P in H1. congruence.
Qed.
