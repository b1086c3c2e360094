(** Proofs about retries. *)
From Verif Require Import Base SetupModel DecoderModel DecoderProofs RetryModel RetrySpec.
Local Open Scope Z_scope.

Section Run.
Context {A : Type}.
Variable attempt : nat -> res A.
Variable t : retryer.

Definition limit : nat := Nat.max 1 (Z.to_nat (t_attempts t)).

Lemma run_right fuel : forall k, (1 <= k <= limit)%nat -> (limit - k <= fuel)%nat -> (forall j, (1 <= j < k)%nat -> exists e, attempt j = Fail e) ->
  exists r n, run attempt t fuel k = (r, n, map (wait t) (seq k (n - k))) /\ (k <= n)%nat /\ answer_of attempt limit r n.
Proof.
  induction fuel as [|f IH]; intros k Hk Hf HF; cbn [run]; destruct (attempt k) as [a|e] eqn:E.
  - exists (Ok a), k. rewrite Nat.sub_diag. split; [reflexivity|]. split; [lia|]. split; [lia|]. now split.
  - replace (t_attempts t <=? Z.of_nat k) with true by (unfold limit in *; lia).
    exists (Fail e), k. rewrite Nat.sub_diag. split; [reflexivity|]. split; [lia|]. split; [lia|]. split; [exact E|]. split; [exact HF|unfold limit in *; lia].
  - exists (Ok a), k. rewrite Nat.sub_diag. split; [reflexivity|]. split; [lia|]. split; [lia|]. now split.
  - destruct (t_attempts t <=? Z.of_nat k) eqn:B.
    + exists (Fail e), k. rewrite Nat.sub_diag. split; [reflexivity|]. split; [lia|]. split; [lia|]. split; [exact E|]. split; [exact HF|unfold limit in *; lia].
    + destruct (IH (S k)) as (r & n & R & L & RS); [unfold limit in *; lia|unfold limit in *; lia| |].
      * intros j Hj. destruct (Nat.eq_dec j k) as [->|N]; [now exists e|apply HF; lia].
      * rewrite R. exists r, n. split; [|split; [lia|exact RS]]. replace (n - k)%nat with (S (n - S k)) by lia. reflexivity.
Qed.
Lemma request_right : exists r n, request attempt t = (r, n, map (wait t) (seq 1 (n - 1))) /\ answer_of attempt limit r n.
Proof.
  destruct (run_right (Z.to_nat (t_attempts t)) 1) as (r & n & H & _ & S); [unfold limit; lia|unfold limit; lia|intros j Hj; lia|].
  exists r, n. split; [exact H|exact S].
Qed.
End Run.

Lemma local_once {A} (attempt : nat -> res A) : request attempt local_retryer = (attempt 1%nat, 1%nat, []).
Proof. unfold request. cbn. destruct (attempt 1%nat); reflexivity. Qed.

Lemma wait_bounds t k : 0 <= t_min t -> t_min t <= wait t k <= Z.max (t_min t) (t_max t).
Proof. intros H. unfold wait. lia. Qed.
Lemma sum_bound (l : list Z) b : Forall (fun x => x <= b) l -> fold_right Z.add 0 l <= Z.of_nat (length l) * b.
Proof. intros H. induction H as [|x l Hx _ IH]; [cbn; lia|]. cbn [fold_right length]. nia. Qed.
Lemma total_wait {A} (attempt : nat -> res A) t : 0 <= t_min t -> 1 <= t_attempts t ->
  forall r n ws, request attempt t = (r, n, ws) -> fold_right Z.add 0 ws <= (t_attempts t - 1) * Z.max (t_min t) (t_max t).
Proof.
  intros Hm Ha r n ws H. destruct (request_right attempt t) as (r' & n' & E & (L & _)). rewrite H in E. injection E as -> -> ->.
  etransitivity; [apply (sum_bound _ (Z.max (t_min t) (t_max t)))|].
  - apply Forall_map, Forall_forall. intros k _. now apply wait_bounds.
  - rewrite map_length, seq_length. unfold limit in L. nia.
Qed.

(** Waits of one policy that are as described. *)
Lemma wait_described p k : 0 <= p_initial p -> p_multiplier p = 2 -> p_initial p = 2 -> p_max p = p_attempts p -> 2 <= p_max p -> (1 <= k)%nat ->
  wait (remote_retryer p) k = policy_wait p k.
Proof.
  intros H0 H1 H2 H3 H4 Hk. unfold wait, policy_wait, remote_retryer. cbn [t_min t_max t_mult]. rewrite H1, H2, H3.
  assert (1 <= 2 ^ (Z.of_nat k - 1)) by (pose proof (Z.pow_pos_nonneg 2 (Z.of_nat k - 1)); lia). lia.
Qed.

(** ** Options *)
Lemma digit_digit z : 0 <= z < 10 -> digit (digit_of z) = Some z.
Proof.
  intros H. assert (C : z = 0 \/ z = 1 \/ z = 2 \/ z = 3 \/ z = 4 \/ z = 5 \/ z = 6 \/ z = 7 \/ z = 8 \/ z = 9) by lia.
  destruct C as [->|[->|[->|[->|[->|[->|[->|[->|[->| ->]]]]]]]]]; reflexivity.
Qed.
Lemma seconds_duration z : 0 <= z < 60 -> seconds (JStr (duration z)) = Ok z.
Proof.
  intros H. unfold duration. destruct (z <? 10) eqn:E; unfold seconds.
  - rewrite digit_digit by lia. reflexivity.
  - rewrite !digit_digit; [|apply Z.mod_pos_bound; lia|split; [apply Z.div_pos; lia|apply Z.div_lt_upper_bound; lia]].
    change (letter_s 115) with true. cbn [andb]. assert (z / 10 <= 5) by (apply Z.lt_succ_r, Z.div_lt_upper_bound; lia).
    replace (z / 10 <=? 5) with true by lia. f_equal. pose proof (Z.div_mod z 10). lia.
Qed.
Lemma digit_inv c x : digit c = Some x -> 0 <= x < 10 /\ c = digit_of x.
Proof.
  unfold digit, digit_of. destruct ((48 <=? c)%N && (c <=? 57)%N) eqn:E; [|discriminate]. intros H. injection H as <-.
  apply andb_prop in E as [E1 E2]. apply N.leb_le in E1, E2. split; lia.
Qed.
Lemma letter_inv c : letter_s c = true <-> In c [115; 83]%N.
Proof. unfold letter_s. rewrite Bool.orb_true_iff, !N.eqb_eq. cbn [In]. intuition congruence. Qed.
Lemma seconds_iff s z : seconds (JStr s) = Ok z <-> 0 <= z < 60 /\ same_duration z s.
Proof.
  split.
  - unfold seconds. destruct s as [|a [|b [|c [|d s]]]]; try discriminate.
    + destruct (digit a) as [x|] eqn:Ea; [|discriminate]. destruct (letter_s b) eqn:Eb; [|discriminate]. intros H. injection H as <-.
      apply digit_inv in Ea as [Ra ->]. split; [lia|]. exists b. split; [now apply letter_inv|]. left. split; [lia|reflexivity].
    + destruct (digit a) as [x|] eqn:Ea; [|discriminate]. destruct (digit b) as [y|] eqn:Eb; [|discriminate].
      destruct (letter_s c && (x <=? 5)) eqn:E; [|discriminate]. intros H. apply (f_equal (fun r => match r with Ok v => v | Fail _ => 0 end)) in H. cbv beta iota in H. subst z. apply andb_prop in E as [Ec E5].
      apply digit_inv in Ea as [Ra ->]. apply digit_inv in Eb as [Rb ->]. split; [lia|]. exists c. split; [now apply letter_inv|]. right.
      assert (D : (10 * x + y) / 10 = x) by (symmetry; apply Z.div_unique with y; lia).
      assert (M : (10 * x + y) mod 10 = y) by (symmetry; apply Z.mod_unique with x; lia). now rewrite D, M.
  - intros [H (c & Hc & [[L ->]| ->])]; apply letter_inv in Hc; unfold seconds.
    + rewrite digit_digit by lia. now rewrite Hc.
    + rewrite !digit_digit; [|apply Z.mod_pos_bound; lia|split; [apply Z.div_pos; lia|apply Z.div_lt_upper_bound; lia]].
      rewrite Hc. cbn [andb]. assert (z / 10 <= 5) by (apply Z.lt_succ_r, Z.div_lt_upper_bound; lia).
      replace (z / 10 <=? 5) with true by lia. f_equal. pose proof (Z.div_mod z 10). lia.
Qed.
Lemma stands_right j z : stands j z -> to_int j = Ok z.
Proof. intros [z'|z'| | |z']; try reflexivity. cbn [to_int]. apply parse_show. Qed.
Lemma parse_config_right loads s a b p more : loads s = Ok (config a b p more) -> stands a (p_attempts p) -> stands b (p_multiplier p) ->
  0 <= p_initial p < 60 -> 0 <= p_max p < 60 -> parse_config loads s = Ok p.
Proof.
  intros HL HA HB HI HM. unfold parse_config. rewrite HL. cbn [bind].
  replace (retry_policy (config a b p more)) with (Ok (JObj ([(k_attempts, a); (k_initial, JStr (duration (p_initial p)));
    (k_max, JStr (duration (p_max p))); (k_multiplier, b)] ++ more))) by reflexivity. cbn [bind].
  change (key k_attempts _) with (Ok a). cbn [bind]. rewrite (stands_right _ _ HA). cbn [bind].
  change (key k_initial _) with (Ok (JStr (duration (p_initial p)))). cbn [bind]. rewrite (seconds_duration _ HI). cbn [bind].
  change (key k_max _) with (Ok (JStr (duration (p_max p)))). cbn [bind]. rewrite (seconds_duration _ HM). cbn [bind].
  change (key k_multiplier _) with (Ok b). cbn [bind]. rewrite (stands_right _ _ HB). cbn [bind]. now destruct p.
Qed.
Lemma options_right loads before v rest a b p more : Forall (fun x => fst x <> k_service) before -> loads v = Ok (config a b p more) ->
  stands a (p_attempts p) -> stands b (p_multiplier p) ->
  0 <= p_initial p < 60 -> 0 <= p_max p < 60 -> parse_options loads (before ++ (k_service, v) :: rest) = p.
Proof.
  intros HF HL HA HB HI HM. induction HF as [|[k w] f N _ IH]; cbn [app parse_options].
  - unfold is_service. destruct (list_eq_dec N.eq_dec k_service k_service) as [_|X]; [|congruence]. now rewrite (parse_config_right loads v a b p more HL HA HB HI HM).
  - unfold is_service. cbn [fst] in N. destruct (list_eq_dec N.eq_dec k k_service) as [X|_]; [congruence|]. exact IH.
Qed.
Lemma options_broken loads before v rest e : Forall (fun x => fst x <> k_service) before -> loads v = Fail e ->
  parse_options loads (before ++ (k_service, v) :: rest) = default_policy.
Proof.
  intros HF HL. induction HF as [|[k w] f N _ IH]; cbn [app parse_options].
  - unfold is_service. destruct (list_eq_dec N.eq_dec k_service k_service) as [_|X]; [|congruence]. unfold parse_config. now rewrite HL.
  - unfold is_service. cbn [fst] in N. destruct (list_eq_dec N.eq_dec k k_service) as [X|_]; [congruence|]. exact IH.
Qed.
Lemma options_none loads l : Forall (fun x => fst x <> k_service) l -> parse_options loads l = default_policy.
Proof.
  intros H. induction H as [|[k v] l N _ IH]; [reflexivity|]. cbn [parse_options]. unfold is_service. cbn [fst] in N.
  destruct (list_eq_dec N.eq_dec k k_service) as [X|_]; [congruence|exact IH].
Qed.

(** ** Cells *)
Section Cells.
Context {A : Type}.
Lemma write_length (l : list A) x : length (write l x) = length l.
Proof.
  unfold write. rewrite app_length, firstn_length. destruct (skipn (fst x) l) as [|a r] eqn:E; pose proof (f_equal (@length A) E) as L; rewrite skipn_length in L; cbn [length] in *; lia.
Qed.
Lemma writes_length xs : forall l : list A, length (writes l xs) = length l.
Proof. induction xs as [|x xs IH]; intros l; [reflexivity|]. cbn [writes fold_left]. change (fold_left write xs (write l x)) with (writes (write l x) xs). now rewrite IH, write_length. Qed.
Lemma write_nth (l : list A) x i : nth_error (write l x) i = if Nat.eqb i (fst x) then (if Nat.ltb i (length l) then Some (snd x) else None) else nth_error l i.
Proof.
  unfold write. destruct x as [p v]. cbn [fst snd]. destruct (skipn p l) as [|a r] eqn:E; pose proof (f_equal (@length A) E) as L; rewrite skipn_length in L; cbn [length] in L.
  - rewrite app_nil_r, firstn_all2 by lia. destruct (Nat.eqb_spec i p) as [->|N]; [|reflexivity]. replace (Nat.ltb p (length l)) with false by lia. apply nth_error_None. lia.
  - assert (D : l = firstn p l ++ a :: r) by (rewrite <- E, firstn_skipn; reflexivity).
    assert (LP : length (firstn p l) = p) by (rewrite firstn_length; lia).
    destruct (Nat.eqb_spec i p) as [->|N].
    + rewrite nth_error_app2, LP, Nat.sub_diag by lia. replace (Nat.ltb p (length l)) with true by lia. reflexivity.
    + rewrite D at 2. destruct (Nat.lt_ge_cases i p) as [H|H].
      * rewrite !nth_error_app1 by lia. reflexivity.
      * rewrite !nth_error_app2, LP by lia. destruct (i - p)%nat as [|k] eqn:K; [lia|reflexivity].
Qed.
Lemma writes_same xs : forall (l l' : list A) i, nth_error l i = nth_error l' i -> length l = length l' -> nth_error (writes l xs) i = nth_error (writes l' xs) i.
Proof.
  induction xs as [|x xs IH]; intros l l' i H HL; [exact H|]. cbn [writes fold_left]. apply (IH (write l x) (write l' x)).
  - rewrite !write_nth, HL, H. reflexivity.
  - now rewrite !write_length.
Qed.
Lemma writes_in xs : forall (l l' : list A) i, In i (map fst xs) -> length l = length l' -> nth_error (writes l xs) i = nth_error (writes l' xs) i.
Proof.
  induction xs as [|x xs IH]; intros l l' i HI HL; [destruct HI|]. cbn [writes fold_left].
  change (nth_error (writes (write l x) xs) i = nth_error (writes (write l' x) xs) i).
  destruct HI as [E|HI]; [|apply IH; [exact HI|now rewrite !write_length]].
  apply writes_same; [|now rewrite !write_length]. rewrite !write_nth, <- E, Nat.eqb_refl, HL. reflexivity.
Qed.
Lemma writes_out xs : forall (l : list A) i, ~ In i (map fst xs) -> nth_error (writes l xs) i = nth_error l i.
Proof.
  induction xs as [|x xs IH]; intros l i HI; [reflexivity|]. cbn [writes fold_left map] in *.
  change (nth_error (writes (write l x) xs) i = nth_error l i). rewrite IH by (intro; apply HI; now right). rewrite write_nth.
  destruct (Nat.eqb_spec i (fst x)) as [->|_]; [exfalso; apply HI; now left|reflexivity].
Qed.
Lemma list_ext (l l' : list A) : (forall i, nth_error l i = nth_error l' i) -> l = l'.
Proof.
  revert l'. induction l as [|a l IH]; intros [|b l'] H; [reflexivity|specialize (H 0%nat); discriminate|specialize (H 0%nat); discriminate|].
  pose proof (H 0%nat) as H0. cbn in H0. injection H0 as ->. f_equal. apply IH. intros i. exact (H (S i)).
Qed.
Lemma failed_length failed : forall init : list A, length (fold_left writes failed init) = length init.
Proof. induction failed as [|f fs IH]; intros init; [reflexivity|]. cbn [fold_left]. now rewrite IH, writes_length. Qed.
Lemma failed_out failed : forall (init : list A) i, (forall f, In f failed -> ~ In i (map fst f)) -> nth_error (fold_left writes failed init) i = nth_error init i.
Proof. induction failed as [|f fs IH]; intros init i H; [reflexivity|]. cbn [fold_left]. rewrite IH by (intros g Hg; apply H; now right). apply writes_out. apply H. now left. Qed.
Lemma after_right (init : list A) failed good : (forall f, In f failed -> incl (map fst f) (map fst good)) -> after init failed good = writes init good.
Proof.
  intros H. apply list_ext. intros i. unfold after. destruct (in_dec Nat.eq_dec i (map fst good)) as [I|I].
  - apply writes_in; [exact I|apply failed_length].
  - rewrite !writes_out by exact I. apply failed_out. intros f Hf X. apply I. now apply (H f Hf).
Qed.
End Cells.
