From Coq Require Import Ascii String Permutation Lia ZifyBool ZifyNat.
From Verif Require Import Base FilesModel FilesProofs AmlModel AmlSpec.
Import ListNotations.
Open Scope list_scope.

(** ** Partitions *)
Lemma py_range_in a b s p : 0 < s -> (In p (py_range a b s) <-> a <= p /\ p < b /\ Nat.divide s (p - a)).
Proof.
  intros Hs. unfold py_range. rewrite in_map_iff. split.
  - intros (k & <- & I). apply in_seq in I. destruct I as [_ I]. cbn in I.
    assert (M := Nat.mul_div_le (b - a + s - 1) s ltac:(lia)).
    assert (s * (k + 1) <= s * ((b - a + s - 1) / s)) by (apply Nat.mul_le_mono_l; lia).
    split; [lia|]. split; [nia|]. exists k. lia.
  - intros (L & L' & k & D). exists k. split; [lia|]. apply in_seq. split; [lia|]. cbn.
    apply Nat.div_le_lower_bound; [lia|]. nia.
Qed.
Lemma py_range_nodup a b s : 0 < s -> NoDup (py_range a b s).
Proof.
  intros Hs. unfold py_range. apply FinFun.Injective_map_NoDup; [|apply seq_NoDup]. intros x y H. assert (x * s = y * s) by lia. now apply Nat.mul_cancel_r in H0; [|lia].
Qed.
Lemma py_range_length a b s : 0 < s -> List.length (py_range a b s) <= b.
Proof.
  intros Hs. unfold py_range. rewrite map_length, seq_length. destruct (Nat.le_gt_cases b a) as [L|L].
  - replace (b - a + s - 1) with (s - 1) by lia. rewrite Nat.div_small; lia.
  - apply Nat.div_le_upper_bound; [lia|]. nia.
Qed.
Lemma combine_repeat {P A} (x : P) : forall (l : list A) n, List.length l <= n -> combine (repeat x n) l = map (pair x) l.
Proof.
  induction l as [|y l IH]; intros [|n] H; cbn in *; try reflexivity; try lia. f_equal. apply IH. lia.
Qed.
Lemma shard_ok {P} (x : P) count index total : 0 < total -> shard x count index total = Some (map (pair x) (py_range index count total)).
Proof.
  intros H. unfold shard. replace (total =? 0) with false by (symmetry; apply Nat.eqb_neq; lia). f_equal. apply combine_repeat. now apply py_range_length.
Qed.
Theorem shard_spec {P} (x : P) count index total l : shard x count index total = Some l ->
  NoDup l /\ forall y p, In (y, p) l <-> y = x /\ index <= p /\ p < count /\ Nat.divide total (p - index).
Proof.
  intros H. assert (T : 0 < total) by (unfold shard in H; destruct total; [discriminate|lia]). rewrite shard_ok in H by exact T. injection H as <-.
  split.
  - apply FinFun.Injective_map_NoDup; [|now apply py_range_nodup]. intros a b E. now injection E.
  - intros y p. rewrite in_map_iff. split.
    + intros (q & E & I). injection E as <- <-. apply py_range_in in I; [|exact T]. tauto.
    + intros (-> & I). exists p. split; [reflexivity|]. now apply py_range_in.
Qed.
Theorem shard_zero {P} (x : P) count index : shard x count index 0 = None.
Proof. reflexivity. Qed.
Theorem shard_total {P} (x : P) count index total : 0 < total -> exists l, shard x count index total = Some l.
Proof. intros H. eexists. now apply shard_ok. Qed.
Lemma divide_sub total i p : 0 < total -> i < total -> (i <= p /\ Nat.divide total (p - i) <-> p mod total = i).
Proof.
  intros T I. split.
  - intros (L & k & E). replace p with (i + k * total) by lia. rewrite Nat.mod_add by lia. now apply Nat.mod_small.
  - intros <-. split; [apply Nat.mod_le; lia|]. exists (p / total). pose proof (Nat.div_mod p total ltac:(lia)) as D. rewrite (Nat.mul_comm (p / total) total). remember (total * (p / total)) as u. remember (p mod total) as v. clear - D. lia.
Qed.
Theorem shard_owner {P} (x : P) count index total l p : index < total -> shard x count index total = Some l ->
  (In (x, p) l <-> p < count /\ p mod total = index).
Proof.
  intros I H. apply shard_spec in H as [_ H]. rewrite H, <- (divide_sub total index p) by lia. tauto.
Qed.
Lemma nodup_app {A} (a b : list A) : NoDup a -> NoDup b -> (forall x, In x a -> ~ In x b) -> NoDup (a ++ b).
Proof.
  induction a as [|x a IH]; cbn; [auto|]. intros Ha Hb D. inversion Ha; subst. constructor.
  - rewrite in_app_iff. intros [?|?]; [contradiction|]. now apply (D x); auto.
  - apply IH; auto.
Qed.
Theorem shards_all {P} (x : P) count total ls : 0 < total ->
  Forall2 (fun i l => shard x count i total = Some l) (seq 0 total) ls -> Permutation (List.concat ls) (map (pair x) (seq 0 count)).
Proof.
  intros T F.
  assert (G : forall is ls, Forall2 (fun i l => shard x count i total = Some l) is ls -> NoDup is -> Forall (fun i => i < total) is ->
     NoDup (List.concat ls) /\ forall y p, In (y, p) (List.concat ls) <-> y = x /\ p < count /\ In (p mod total) is).
  { clear F ls. intros is ls F. induction F as [|i l is ls H F IH]; intros N B; cbn [List.concat].
    - split; [constructor|]. intros y p. cbn. tauto.
    - inversion N; subst. inversion B; subst. destruct (IH H3 H5) as [N' S']. pose proof (shard_spec _ _ _ _ _ H) as [N1 S1].
      assert (S2 : forall y p, In (y, p) l <-> y = x /\ p < count /\ p mod total = i).
      { intros y p. rewrite S1. rewrite <- (divide_sub total i p) by lia. tauto. }
      split.
      + apply nodup_app; [exact N1|exact N'|]. intros [y p] I J. apply S2 in I. apply S' in J. destruct I as (_ & _ & <-). tauto.
      + intros y p. rewrite in_app_iff, S2, S'. cbn [In]. split; [intros [?|?]; intuition congruence|intros (? & ? & [?|?]); intuition congruence]. }
  destruct (G _ _ F (seq_NoDup total 0)) as [N S]; [apply Forall_forall; intros i I; apply in_seq in I; lia|].
  apply NoDup_Permutation; [exact N|apply FinFun.Injective_map_NoDup; [intros a b E; now injection E|apply seq_NoDup]|].
  intros [y p]. rewrite S, in_map_iff. split.
  - intros (-> & L & _). exists p. split; [reflexivity|]. apply in_seq. lia.
  - intros (q & E & I). injection E as <- <-. apply in_seq in I. repeat split; [lia|]. apply in_seq. pose proof (Nat.mod_upper_bound q total). lia.
Qed.

Theorem reload_same t ssl g th q : let c := new_client t ssl g th q in
  servers (reload c) = servers c /\ ssl_cert (reload c) = ssl_cert c.
Proof. split; reflexivity. Qed.
Theorem address_inj r r' : address r = address r' -> r = r'.
Proof.
  unfold address. intros H. apply app_inv_head in H. rewrite <- (app_nil_r (dec r)), <- (app_nil_r (dec r')) in H. now apply dec_inj in H as [-> _].
Qed.
Theorem port_small r : r < 10 -> (port r < 65536)%N.
Proof. intros H. do 10 (destruct r as [|r]; [vm_compute; reflexivity|]). lia. Qed.

(** ** Barrier *)
Section Barrier.
Variable n : nat.
Definition phase (p : place) : nat := match p with Before => 0 | Told => 1 | Polling => 2 | Inside => 3 | Working _ => 4 | Leaving => 5 | Gone => 6 end.
Definition lock_of (p : place) : nat := match p with Before | Told => 0 | Polling | Inside | Working _ => 1 | Leaving | Gone => 2 end.
Record inv (st : state) : Prop := {
  i_lock : forall i, locks st i = lock_of (at_ st i);
  i_cache : forall i, cache st i = match at_ st i with Before => None | _ => Some (address i) end;
  i_in : forall i j, i < n -> 3 <= phase (at_ st j) -> 2 <= phase (at_ st i);
  i_out : forall i j, i < n -> at_ st j = Gone -> 5 <= phase (at_ st i);
  i_got : forall i l, at_ st i = Working l -> l = map (fun k => Some (address k)) (seq 0 n);
  i_world : forall i, n <= i -> at_ st i = Before }.

Lemma all_locks_spec st v : all_locks n st v = true <-> forall i, i < n -> locks st i = v.
Proof.
  unfold all_locks. rewrite forallb_forall. split.
  - intros H i L. apply Nat.eqb_eq, H, in_seq. lia.
  - intros H i I. apply in_seq in I. apply Nat.eqb_eq, H. lia.
Qed.
Lemma upd_same {A} (f : nat -> A) i a : upd f i a i = a.
Proof. unfold upd. now rewrite Nat.eqb_refl. Qed.
Lemma upd_other {A} (f : nat -> A) i j a : j <> i -> upd f i a j = f j.
Proof. unfold upd. intros H. now destruct (Nat.eqb_spec j i). Qed.

Lemma inv_init : inv init.
Proof. constructor; cbn; intros; try reflexivity; try lia; try discriminate. Qed.

Lemma inv_move st i p' st' : inv st -> i < n -> phase (at_ st i) <= phase p' -> p' <> Before ->
  (3 <= phase p' -> forall j, j < n -> 2 <= phase (upd (at_ st) i p' j)) ->
  (p' = Gone -> forall j, j < n -> 5 <= phase (upd (at_ st) i p' j)) ->
  (forall l, p' = Working l -> l = map (fun k => Some (address k)) (seq 0 n)) ->
  (forall j, at_ st' j = upd (at_ st) i p' j) -> (forall j, locks st' j = upd (locks st) i (lock_of p') j) ->
  (forall j, cache st' j = upd (cache st) i (Some (address i)) j) -> inv st'.
Proof.
  intros [IL IC II IO IG IW] Li Ph NB C3 C6 CW A L C.
  assert (Mono : forall j, phase (at_ st j) <= phase (at_ st' j)).
  { intros j. rewrite A. unfold upd. destruct (Nat.eqb_spec j i); subst; lia. }
  constructor.
  - intros j. rewrite L, A. unfold upd. destruct (j =? i); [reflexivity|apply IL].
  - intros j. rewrite C, A. unfold upd. destruct (Nat.eqb_spec j i); [subst; now destruct p'|apply IC].
  - intros a b La Hb. destruct (Nat.eq_dec b i) as [->|N].
    + rewrite (A i), upd_same in Hb. rewrite A. now apply C3.
    + rewrite (A b), upd_other in Hb by exact N. pose proof (II a b La Hb). pose proof (Mono a). lia.
  - intros a b La Hb. destruct (Nat.eq_dec b i) as [->|N].
    + rewrite (A i), upd_same in Hb. rewrite A. now apply C6.
    + rewrite (A b), upd_other in Hb by exact N. pose proof (IO a b La Hb). pose proof (Mono a). lia.
  - intros j l. rewrite A. unfold upd. destruct (j =? i); [apply CW|apply IG].
  - intros j Lj. rewrite A, upd_other by lia. now apply IW.
Qed.
Lemma upd_id {A} (f : nat -> A) i a : f i = a -> forall j, f j = upd f i a j.
Proof. intros H j. unfold upd. destruct (Nat.eqb_spec j i); congruence. Qed.

Lemma inv_next st e st' : inv st -> next n st e = Some st' -> inv st'.
Proof.
  intros I H. unfold next in H. destruct (who e <? n) eqn:W; [|discriminate]. apply Nat.ltb_lt in W. pose proof I as I0. destruct I0 as [IL IC II IO IG IW].
  destruct e as [i|i|i|i|i|i]; cbn [who step] in *; pose proof (IL i) as Li; pose proof (IC i) as Ci; destruct (at_ st i) as [| | | |got| |] eqn:P; try discriminate; cbn in Li, Ci.
  - injection H as <-. apply (inv_move st i Told); auto; cbn [at_ locks cache phase lock_of]; rewrite ?P; cbn; try lia; try discriminate; intros; try reflexivity; now apply upd_id.
  - injection H as <-. apply (inv_move st i Polling); auto; cbn [at_ locks cache phase lock_of]; rewrite ?P; cbn; try lia; try discriminate; intros; try reflexivity; now apply upd_id.
  - destruct (all_locks n st 1) eqn:E; [|discriminate]. injection H as <-. rewrite all_locks_spec in E.
    apply (inv_move st i Inside); auto; cbn [at_ locks cache phase lock_of go]; rewrite ?P; cbn; try lia; try discriminate; intros; try reflexivity; try (now apply upd_id).
    unfold upd. destruct (j =? i); cbn; [lia|]. specialize (E j H0). rewrite IL in E. destruct (at_ st j); cbn in *; lia.
  - injection H as <-. apply (inv_move st i (Working (map (cache st) (seq 0 n)))); auto; cbn [at_ locks cache phase lock_of go]; rewrite ?P; cbn; try lia; try discriminate; intros; try reflexivity; try (now apply upd_id).
    + unfold upd. destruct (j =? i); cbn; [lia|]. apply (II j i H0). rewrite P. cbn. lia.
    + injection H as <-. apply map_ext_in. intros k K. apply in_seq in K. rewrite IC. pose proof (II k i ltac:(lia)) as Q. rewrite P in Q. cbn in Q. specialize (Q ltac:(lia)).
      destruct (at_ st k); cbn in *; try reflexivity. lia.
  - injection H as <-. apply (inv_move st i Leaving); auto; cbn [at_ locks cache phase lock_of go]; rewrite ?P; cbn; try lia; try discriminate; intros; try reflexivity; try (now apply upd_id).
    unfold upd. destruct (j =? i); cbn; [lia|]. apply (II j i H0). rewrite P. cbn. lia.
  - injection H as <-. apply (inv_move st i Leaving); auto; cbn [at_ locks cache phase lock_of go]; rewrite ?P; cbn; try lia; try discriminate; intros; try reflexivity; try (now apply upd_id).
    unfold upd. destruct (j =? i); cbn; [lia|]. apply (II j i H0). rewrite P. cbn. lia.
  - destruct (all_locks n st 2) eqn:E; [|discriminate]. injection H as <-. rewrite all_locks_spec in E.
    assert (Q : forall j, j < n -> 5 <= phase (upd (at_ st) i Gone j)).
    { intros j Lj. unfold upd. destruct (j =? i); cbn; [lia|]. specialize (E j Lj). rewrite IL in E. destruct (at_ st j); cbn in *; lia. }
    apply (inv_move st i Gone); auto; cbn [at_ locks cache phase lock_of go]; rewrite ?P; cbn; try lia; try discriminate; intros; try reflexivity; try (now apply upd_id).
    pose proof (Q j H0). lia.
Qed.
Lemma inv_run es : forall st st', inv st -> run n st es = Some st' -> inv st'.
Proof.
  induction es as [|e es IH]; intros st st' I H; cbn in H; [now injection H as <-|].
  destruct (next n st e) as [s|] eqn:E; [|discriminate]. eapply IH; [|exact H]. eapply inv_next; eassumption.
Qed.

Theorem barrier es st i j : run n init es = Some st -> i < n -> has_entered (at_ st j) -> has_set (at_ st i).
Proof.
  intros H L E. apply inv_run in H; [|apply inv_init]. pose proof (i_in _ H i j L) as Q. destruct (at_ st j); cbn in *; try tauto;
    specialize (Q ltac:(lia)); destruct (at_ st i); cbn in *; try lia; exact I.
Qed.
Theorem addresses es st i l : run n init es = Some st -> at_ st i = Working l -> l = map (fun k => Some (address k)) (seq 0 n).
Proof. intros H E. apply inv_run in H; [|apply inv_init]. now apply (i_got _ H i). Qed.
Theorem all_left es st i j : run n init es = Some st -> i < n -> at_ st j = Gone -> has_left (at_ st i).
Proof.
  intros H L E. apply inv_run in H; [|apply inv_init]. pose proof (i_out _ H i j L E) as Q. destruct (at_ st i); cbn in *; try lia; exact I.
Qed.

Lemma next_phase st e st' j : next n st e = Some st' -> phase (at_ st j) <= phase (at_ st' j).
Proof.
  intros H. unfold next in H. destruct (who e <? n); [|discriminate].
  destruct e as [i|i|i|i|i|i]; cbn [step] in H; destruct (at_ st i) as [| | | |got| |] eqn:P; try discriminate;
    repeat match type of H with context [if ?b then _ else _] => destruct b; [|discriminate] end; injection H as <-; cbn [at_ go]; unfold upd;
    destruct (Nat.eqb_spec j i); subst; rewrite ?P; cbn; lia.
Qed.

Lemma stuck_next st e st' i j : inv st -> i < n -> j < n -> at_ st i = Polling -> at_ st j = Leaving -> next n st e = Some st' ->
  at_ st' i = Polling /\ at_ st' j = Leaving.
Proof.
  intros I Li Lj Pi Pj H. unfold next in H. destruct (who e <? n); [|discriminate].
  assert (N1 : all_locks n st 1 = false). { destruct (all_locks n st 1) eqn:E; [|reflexivity]. rewrite all_locks_spec in E. specialize (E j Lj). rewrite (i_lock _ I), Pj in E. discriminate. }
  assert (N2 : all_locks n st 2 = false). { destruct (all_locks n st 2) eqn:E; [|reflexivity]. rewrite all_locks_spec in E. specialize (E i Li). rewrite (i_lock _ I), Pi in E. discriminate. }
  destruct e as [k|k|k|k|k|k]; cbn [step] in H; rewrite ?N1, ?N2 in H; destruct (at_ st k) as [| | | |got| |] eqn:P; try discriminate;
    injection H as <-; cbn [at_ go]; (rewrite !upd_other by congruence); auto.
Qed.
Theorem stuck es st i j es' st' : run n init es = Some st -> i < n -> ~ has_entered (at_ st i) -> has_left (at_ st j) -> run n st es' = Some st' ->
  at_ st' i = Polling /\ forall k, at_ st' k <> Gone.
Proof.
  intros R Li Pi Pj H. apply inv_run in R; [|apply inv_init].
  assert (Lj : j < n). { destruct (Nat.lt_ge_cases j n) as [|G]; [assumption|]. rewrite (i_world _ R j G) in Pj. destruct Pj. }
  assert (Ei : at_ st i = Polling).
  { pose proof (i_in _ R i j Li) as Q. destruct (at_ st j); cbn in *; try tauto; specialize (Q ltac:(lia)); destruct (at_ st i); cbn in *; tauto || lia || reflexivity. }
  assert (Ej : at_ st j = Leaving).
  { destruct (at_ st j) eqn:E; cbn in Pj; try tauto. pose proof (i_out _ R i j Li E) as Q. rewrite Ei in Q. cbn in Q. lia. }
  clear Pi Pj. revert st R Ei Ej H. induction es' as [|e es' IH]; intros st R Ei Ej H; cbn in H.
  - injection H as <-. split; [exact Ei|]. intros k E. pose proof (i_out _ R i k Li E) as Q. rewrite Ei in Q. cbn in Q. lia.
  - destruct (next n st e) as [s|] eqn:E; [|discriminate]. destruct (stuck_next _ _ _ _ _ R Li Lj Ei Ej E) as [Ei' Ej']. apply (IH s); auto. eapply inv_next; eassumption.
Qed.

Lemma find_worker (f : nat -> bool) : {i | i < n /\ f i = true} + {forall i, i < n -> f i = false}.
Proof.
  induction n as [|m IH]; [right; lia|]. destruct (f m) eqn:E.
  - left. exists m. split; [lia|exact E].
  - destruct IH as [(i & L & F)|H]; [left; exists i; split; [lia|exact F]|right]. intros i L. destruct (Nat.eq_dec i m) as [->|N]; [exact E|apply H; lia].
Qed.
Definition rest (st : state) : nat := list_sum (map (fun i => 6 - phase (at_ st i)) (seq 0 n)).
Lemma list_sum_lt (f g : nat -> nat) l i : (forall j, In j l -> f j <= g j) -> In i l -> f i < g i -> list_sum (map f l) < list_sum (map g l).
Proof.
  induction l as [|x l IH]; intros H I L; [destruct I|]. cbn [map list_sum fold_right].
  assert (Le : list_sum (map f l) <= list_sum (map g l)).
  { clear - H. induction l as [|y l IH]; [reflexivity|]. cbn [map list_sum fold_right]. pose proof (H y ltac:(cbn; tauto)).
    assert (list_sum (map f l) <= list_sum (map g l)) by (apply IH; intros j J; apply H; cbn in *; tauto). unfold list_sum in *. lia. }
  pose proof (H x ltac:(cbn; tauto)). unfold list_sum in *. destruct I as [->|I]; [lia|]. assert (fold_right Nat.add 0 (map f l) < fold_right Nat.add 0 (map g l)) by (apply IH; auto; intros; apply H; cbn; tauto). lia.
Qed.
Lemma rest_next st e st' i : next n st e = Some st' -> i < n -> phase (at_ st i) < phase (at_ st' i) -> rest st' < rest st.
Proof.
  intros H L P. unfold rest. apply (list_sum_lt _ _ _ i).
  - intros j _. pose proof (next_phase _ _ _ j H). lia.
  - apply in_seq. lia.
  - assert (phase (at_ st' i) <= 6) by (destruct (at_ st' i); cbn; lia). lia.
Qed.
Definition good (st : state) : Prop := ~ overtaken n st.

Lemma good_step st : inv st -> good st -> finished n st \/ exists e st' i, next n st e = Some st' /\ good st' /\ i < n /\ phase (at_ st i) < phase (at_ st' i).
Proof.
  intros I G.
  assert (Guard : forall i st' e, i < n -> who e = i -> step n st e = Some st' -> next n st e = Some st') by (intros; unfold next; subst i; replace (who e <? n) with true by (symmetry; now apply Nat.ltb_lt); assumption).
  assert (Keep : forall i p', i < n -> has_entered (at_ st i) \/ ~ has_left p' -> (has_left p' -> forall j, j < n -> has_entered (at_ st j)) -> (has_entered (at_ st i) -> has_entered p') ->
                 forall st', (forall j, at_ st' j = upd (at_ st) i p' j) -> good st').
  { intros i p' Li Hp Hl He st' A (a & b & La & Lb & Na & Lf). rewrite A in Na, Lf. unfold upd in Na, Lf.
    destruct (Nat.eqb_spec b i) as [->|Nb], (Nat.eqb_spec a i) as [->|Na'].
    - destruct Hp as [Hp|Hp]; tauto.
    - apply Na. now apply Hl.
    - apply G. exists i, b. repeat split; auto.
    - apply G. exists a, b. auto. }
  destruct (find_worker (fun i => phase (at_ st i) =? 0)) as [(i & L & E)|N0].
  { right. apply Nat.eqb_eq in E. assert (P : at_ st i = Before) by (destruct (at_ st i); cbn in E; congruence || lia).
    eexists (Put i), _, i. split; [apply (Guard i); [exact L|reflexivity|cbn; now rewrite P]|]. split; [|split; [exact L|cbn; rewrite upd_same, P; cbn; lia]].
    eapply (Keep i Told); cbn; auto; rewrite ?P; cbn; tauto. }
  destruct (find_worker (fun i => phase (at_ st i) =? 1)) as [(i & L & E)|N1].
  { right. apply Nat.eqb_eq in E. assert (P : at_ st i = Told) by (destruct (at_ st i); cbn in E; congruence || lia).
    eexists (SetLock i), _, i. split; [apply (Guard i); [exact L|reflexivity|cbn; now rewrite P]|]. split; [|split; [exact L|cbn; rewrite upd_same, P; cbn; lia]].
    eapply (Keep i Polling); cbn; auto; rewrite ?P; cbn; tauto. }
  destruct (find_worker (fun i => phase (at_ st i) =? 2)) as [(i & L & E)|N2].
  { right. apply Nat.eqb_eq in E. assert (P : at_ st i = Polling) by (destruct (at_ st i); cbn in E; congruence || lia).
    assert (A : all_locks n st 1 = true).
    { apply all_locks_spec. intros j Lj. rewrite (i_lock _ I). specialize (N0 j Lj). specialize (N1 j Lj).
      assert (~ has_left (at_ st j)) by (intros F; apply G; exists i, j; rewrite P; cbn; auto).
      destruct (at_ st j); cbn in *; tauto || discriminate || reflexivity. }
    eexists (WaitSet i), _, i. split; [apply (Guard i); [exact L|reflexivity|cbn; rewrite P, A; reflexivity]|]. split; [|split; [exact L|cbn; rewrite upd_same, P; cbn; lia]].
    eapply (Keep i Inside); cbn; auto; rewrite ?P; cbn; tauto. }
  assert (En : forall j, j < n -> has_entered (at_ st j)).
  { intros j Lj. specialize (N0 j Lj). specialize (N1 j Lj). specialize (N2 j Lj). destruct (at_ st j); cbn in *; discriminate || exact Logic.I. }
  destruct (find_worker (fun i => phase (at_ st i) =? 3)) as [(i & L & E)|N3].
  { right. apply Nat.eqb_eq in E. assert (P : at_ st i = Inside) by (destruct (at_ st i); cbn in E; congruence || lia).
    eexists (GetAddress i), _, i. split; [apply (Guard i); [exact L|reflexivity|cbn; now rewrite P]|]. split; [|split; [exact L|cbn; rewrite upd_same, P; cbn; lia]].
    eapply (Keep i (Working _)); cbn; auto. }
  destruct (find_worker (fun i => phase (at_ st i) =? 4)) as [(i & L & E)|N4].
  { right. apply Nat.eqb_eq in E. assert (P : exists l, at_ st i = Working l) by (destruct (at_ st i); cbn in E; eauto; lia). destruct P as [l P].
    eexists (Release i), _, i. split; [apply (Guard i); [exact L|reflexivity|cbn; now rewrite P]|]. split; [|split; [exact L|cbn; rewrite upd_same, P; cbn; lia]].
    eapply (Keep i Leaving); cbn; auto. }
  assert (A : all_locks n st 2 = true).
  { apply all_locks_spec. intros j Lj. rewrite (i_lock _ I). specialize (N3 j Lj). specialize (N4 j Lj). specialize (En j Lj). destruct (at_ st j); cbn in *; tauto || discriminate || reflexivity. }
  destruct (find_worker (fun i => phase (at_ st i) =? 5)) as [(i & L & E)|N5].
  { right. apply Nat.eqb_eq in E. assert (P : at_ st i = Leaving) by (destruct (at_ st i); cbn in E; congruence || lia).
    eexists (WaitReleased i), _, i. split; [apply (Guard i); [exact L|reflexivity|cbn; rewrite P, A; reflexivity]|]. split; [|split; [exact L|cbn; rewrite upd_same, P; cbn; lia]].
    eapply (Keep i Gone); cbn; auto. }
  left. intros j Lj. specialize (N3 j Lj). specialize (N4 j Lj). specialize (N5 j Lj). specialize (En j Lj). destruct (at_ st j); cbn in *; tauto || discriminate || reflexivity.
Qed.
Lemma good_finish : forall m st, rest st <= m -> inv st -> good st -> can_finish n st.
Proof.
  induction m as [|m IH]; intros st M I G; destruct (good_step st I G) as [F|(e & st' & i & H & G' & L & P)].
  - exists [], st. auto.
  - pose proof (rest_next _ _ _ _ H L P). lia.
  - exists [], st. auto.
  - pose proof (rest_next _ _ _ _ H L P). destruct (IH st') as (es & st2 & R & F); [lia|eapply inv_next; eassumption|exact G'|].
    exists (e :: es), st2. cbn. rewrite H. auto.
Qed.
Theorem finish es st : run n init es = Some st -> (can_finish n st <-> ~ overtaken n st).
Proof.
  intros R. split.
  - intros (es' & st' & R' & F) (i & j & Li & Lj & Ni & Fj). destruct (stuck es st i j es' st' R Li Ni Fj R') as [E _]. rewrite (F i Li) in E. discriminate.
  - intros G. apply (good_finish (rest st)); [reflexivity| |exact G]. eapply inv_run; [apply inv_init|exact R].
Qed.
End Barrier.
