From Coq Require Import Permutation Lia ZifyBool ZifyNat ZifyN.
From Verif Require Import Base SetupModel DecoderModel DecoderProofs ArgsModel ArgsSpec.
Local Open Scope Z_scope.

Lemma show_no c z : (c <> 45)%N -> ((c < 48)%N \/ (57 < c)%N) -> ~ In c (show_int z).
Proof. intros H1 H2 H. apply show_chars in H. unfold is_digit in H. lia. Qed.

Lemma flat_single d (ws : list str) : Forall (fun w => ~ In d w) ws -> flat_map (split d) ws = ws.
Proof. induction 1 as [|w ws H _ IH]; [reflexivity|]. cbn [flat_map]. rewrite (split_single d w H), IH. reflexivity. Qed.

Lemma split_written l : l <> [] -> split 44 (written l) = map show_int l.
Proof.
  intro H. unfold written. rewrite split_join by (destruct l; [congruence|discriminate]). apply flat_single, Forall_forall.
  intros w Hw. apply in_map_iff in Hw. destruct Hw as (z & <- & _). apply show_no; lia.
Qed.
Lemma written_nonnil l : l <> [] -> written l <> [].
Proof.
  destruct l as [|z l]; [congruence|]. intros _ H. unfold written in H. cbn [map join] in H.
  pose proof (show_nonnil z) as HN. destruct (map show_int l); [contradiction|]. destruct (show_int z); [contradiction|discriminate].
Qed.
Lemma list_read l : str2list_int (written l) = Ok l.
Proof.
  destruct l as [|z l]; [reflexivity|]. assert (HN : z :: l <> []) by discriminate.
  unfold str2list_int. pose proof (written_nonnil _ HN) as H. destruct (written (z :: l)) as [|c w] eqn:E; [contradiction|].
  rewrite <- E, (split_written _ HN). apply parse_ints.
Qed.

Lemma in_join d e ws : In e (join d ws) -> e = d \/ exists w, In w ws /\ In e w.
Proof.
  induction ws as [|w ws IH]; [intros []|]. cbn [join]. destruct ws as [|v ws]; [intro H; right; exists w; split; [now left|exact H]|].
  intro H. apply in_app_or in H. destruct H as [H|[H|H]].
  - right. exists w. split; [now left|exact H].
  - now left.
  - destruct (IH H) as [->|(u & Hu & He)]; [now left|]. right. exists u. split; [now right|exact He].
Qed.
Lemma written_no_semi l : ~ In 59%N (written l).
Proof.
  intro H. apply in_join in H. destruct H as [H|(w & Hw & H)]; [discriminate|].
  apply in_map_iff in Hw. destruct Hw as (z & <- & _). revert H. apply show_no; lia.
Qed.
Definition nonnil {A} (l : list A) : bool := match l with [] => false | _ => true end.
Lemma split_written2 rows : rows <> [] -> split 59 (written2 rows) = map written rows.
Proof.
  intro H. unfold written2. rewrite split_join by (destruct rows; [congruence|discriminate]). apply flat_single, Forall_forall.
  intros w Hw. apply in_map_iff in Hw. destruct Hw as (l & <- & _). apply written_no_semi.
Qed.
Lemma nonempty_written l : nonempty (written l) = nonnil l.
Proof. destruct l as [|z l]; [reflexivity|]. pose proof (written_nonnil (z :: l) ltac:(discriminate)) as H. destruct (written (z :: l)); [contradiction|reflexivity]. Qed.
Lemma filter_written rows : filter nonempty (map written rows) = map written (filter nonnil rows).
Proof.
  induction rows as [|l rows IH]; [reflexivity|]. cbn [map filter]. rewrite nonempty_written. destruct (nonnil l); cbn [map]; now rewrite IH.
Qed.
Lemma rows_read rows : Forall (fun l => nonnil l = true) rows ->
  mapM (fun y => mapM parse_int (split 44 y)) (map written rows) = Ok rows.
Proof.
  induction 1 as [|l rows H _ IH]; [reflexivity|]. cbn [map mapM]. rewrite split_written by (now destruct l).
  rewrite parse_ints, IH. reflexivity.
Qed.
Lemma table_read rows : str2list2_int (written2 rows) = Ok (filter nonnil rows).
Proof.
  destruct rows as [|l rows]; [reflexivity|]. unfold str2list2_int. rewrite split_written2 by discriminate. rewrite filter_written.
  apply rows_read, Forall_forall. intros x Hx. apply filter_In in Hx. apply Hx.
Qed.
Lemma table_read_full rows : ~ In [] rows -> str2list2_int (written2 rows) = Ok rows.
Proof.
  intro H. rewrite table_read. f_equal. induction rows as [|l rows IH]; [reflexivity|]. cbn [filter].
  destruct l as [|z l]; [destruct H; now left|]. cbn [nonnil]. rewrite IH; [reflexivity|]. intro Hn. apply H. now right.
Qed.
Lemma words_read (ws : list str) : ws <> [] -> Forall (fun w => ~ In 44%N w) ws -> str2list_str (join 44 ws) = ws.
Proof. intros H1 H2. unfold str2list_str. rewrite split_join by exact H1. now apply flat_single. Qed.
Lemma words_write (s : str) : join 44 (str2list_str s) = s.
Proof. apply join_split. Qed.
Lemma table_words_read (rows : list (list str)) :
  Forall (fun r => r <> [] /\ r <> [[]] /\ Forall (fun w => ~ In 44%N w /\ ~ In 59%N w) r) rows ->
  str2list2 (join 59 (map (join 44) rows)) = rows.
Proof.
  intro H. destruct rows as [|r0 rows0]; [reflexivity|]. set (rows := r0 :: rows0) in *. unfold str2list2.
  rewrite split_join by discriminate. rewrite flat_single.
  2:{ apply Forall_forall. intros w Hw. apply in_map_iff in Hw. destruct Hw as (r & <- & Hr). intro Hi. apply in_join in Hi.
      destruct Hi as [Hi|(u & Hu & Hi)]; [discriminate|]. rewrite Forall_forall in H. destruct (H r Hr) as (_ & _ & HF).
      rewrite Forall_forall in HF. now apply (HF u Hu). }
  induction H as [|r rs (H1 & H2 & H3) _ IH]; [reflexivity|]. cbn [map filter].
  replace (nonempty (join 44 r)) with true.
  2:{ symmetry. destruct r as [|w r]; [congruence|]. cbn [join]. destruct r as [|v r]; [|destruct w; reflexivity]. destruct w; [congruence|reflexivity]. }
  cbn [map]. rewrite split_join by exact H1. rewrite flat_single; [now rewrite IH|]. eapply Forall_impl; [|exact H3]. intros w Hw. apply Hw.
Qed.

(** str2bool *)
Lemma str_eqb_eq a b : str_eqb a b = true <-> a = b.
Proof.
  revert b. induction a as [|x a IH]; intros [|y b]; cbn [str_eqb]; split; intro H; try congruence; try discriminate.
  - apply andb_prop in H. destruct H as [H1 H2]. apply N.eqb_eq in H1. apply IH in H2. congruence.
  - injection H as -> ->. rewrite N.eqb_refl. cbn [andb]. now apply IH.
Qed.
Lemma existsb_word v ws : existsb (str_eqb v) ws = true <-> In v ws.
Proof.
  rewrite existsb_exists. split.
  - intros (w & Hw & E). apply str_eqb_eq in E. now subst.
  - intro H. exists v. split; [exact H|now apply str_eqb_eq].
Qed.
Definition no_capital (w : str) : Prop := Forall (fun c => (c < 65 \/ 90 < c)%N) w.
Lemma lower_same s w : no_capital w -> (map lower1 s = w <-> same_word s w).
Proof.
  intro H. revert s. induction H as [|d w Hd _ IH]; intros [|c s]; cbn [map]; split; intro E; try discriminate; try (now inversion E); try constructor.
  - injection E as E1 E2. revert E1. unfold lower1, same_letter. destruct ((65 <=? c) && (c <=? 90))%N eqn:Q; lia.
  - injection E as E1 E2. now apply IH.
  - inversion E as [|? ? ? ? E1 E2]; subst. f_equal; [|now apply IH]. unfold lower1. unfold same_letter in E1.
    destruct ((65 <=? c) && (c <=? 90))%N eqn:Q; lia.
Qed.
Lemma yes_small : Forall no_capital yes_words.
Proof. unfold yes_words, no_capital. repeat (constructor; [repeat (constructor; [lia|]); constructor|]). constructor. Qed.
Lemma no_small : Forall no_capital no_words.
Proof. unfold no_words, no_capital. repeat (constructor; [repeat (constructor; [lia|]); constructor|]). constructor. Qed.
Lemma in_same s ws : Forall no_capital ws -> (In (map lower1 s) ws <-> exists w, In w ws /\ same_word s w).
Proof.
  intro H. rewrite Forall_forall in H. split.
  - intro Hi. exists (map lower1 s). split; [exact Hi|]. now apply lower_same; [apply H|].
  - intros (w & Hw & E). apply lower_same in E; [|now apply H]. now subst.
Qed.
Lemma disjoint_words v : In v yes_words -> In v no_words -> False.
Proof. cbn. intuition (subst; discriminate). Qed.
Lemma bool_spec s b : str2bool s = Ok b <-> exists w, In w (if b then yes_words else no_words) /\ same_word s w.
Proof.
  unfold str2bool. destruct (existsb (str_eqb (map lower1 s)) yes_words) eqn:Y.
  - apply existsb_word in Y. destruct b.
    + split; [|reflexivity]. intros _. apply in_same; [apply yes_small|exact Y].
    + split; [discriminate|]. intro H. apply in_same in H; [|apply no_small]. destruct (disjoint_words _ Y H).
  - assert (NY : ~ In (map lower1 s) yes_words) by (rewrite <- existsb_word; congruence).
    destruct (existsb (str_eqb (map lower1 s)) no_words) eqn:Q.
    + apply existsb_word in Q. destruct b; (split; [intro H|intro H]).
      * discriminate.
      * apply in_same in H; [contradiction|apply yes_small].
      * apply in_same; [apply no_small|exact Q].
      * reflexivity.
    + assert (NN : ~ In (map lower1 s) no_words) by (rewrite <- existsb_word; congruence).
      split; [discriminate|]. intro H. destruct b; apply in_same in H; try contradiction; [apply yes_small|apply no_small].
Qed.

(** vec2str *)
Section Vec.
Context {A : Type} (show : A -> str).
Definition clear_text := forall x, ~ In 32%N (show x) /\ ~ In 44%N (show x).
Lemma row_split l : clear_text -> l <> [] -> split 32 (join 32 (map show l)) = map show l.
Proof.
  intros HC H. rewrite split_join by (destruct l; [congruence|discriminate]). apply flat_single, Forall_forall.
  intros w Hw. apply in_map_iff in Hw. destruct Hw as (x & <- & _). apply HC.
Qed.
Lemma rows_split rows : clear_text -> rows <> [] -> split 44 (join 44 (map (fun j => join 32 (map show j)) rows)) = map (fun j => join 32 (map show j)) rows.
Proof.
  intros HC H. rewrite split_join by (destruct rows; [congruence|discriminate]). apply flat_single, Forall_forall.
  intros w Hw. apply in_map_iff in Hw. destruct Hw as (x & <- & _). intro Hi. apply in_join in Hi.
  destruct Hi as [Hi|(u & Hu & Hi)]; [discriminate|]. apply in_map_iff in Hu. destruct Hu as (y & <- & _). now apply (HC y).
Qed.
Lemma vec_row l t : clear_text -> l <> [] -> vec2str show (V1 l) = Ok t -> split 32 t = map show l.
Proof. intros HC H [= <-]. now apply row_split. Qed.
Lemma vec_rows rows t : clear_text -> rows <> [] -> ~ In [] rows -> vec2str show (V2 rows) = Ok t -> map (split 32) (split 44 t) = map (map show) rows.
Proof.
  intros HC H HN [= <-]. rewrite rows_split by assumption. rewrite map_map. apply map_ext_in. intros l Hl. apply row_split; [exact HC|]. intros ->. contradiction.
Qed.
End Vec.

(** Partitions of a server *)
Lemma mapM_with_path meta dir ps : mapM (with_path meta) (map (PPair dir) ps) = Ok (map (pair dir) ps).
Proof. induction ps as [|p ps IH]; [reflexivity|]. cbn [map mapM with_path]. rewrite IH. reflexivity. Qed.
Lemma server_main_ok disk stream dir c : disk && stream = false ->
  server_main disk stream dir c = (do ps <- main_partitions c ;; Ok (map (fun p => (dir, c_uint32 p)) ps)).
Proof.
  intro H. unfold server_main, server_init. rewrite H. destruct (main_partitions c) as [ps|]; [|reflexivity].
  cbn [bind]. rewrite mapM_with_path. cbn [bind]. rewrite map_map. reflexivity.
Qed.
Lemma small_uint p : 0 <= p < 2 ^ 32 -> c_uint32 p = p.
Proof. intro H. unfold c_uint32. now apply Z.mod_small. Qed.

Lemma listed dir disk stream ps : disk && stream = false -> Forall (fun p => 0 <= p < 2 ^ 32) ps ->
  server_main disk stream dir (CPartitions (written ps)) = Ok (map (pair dir) ps).
Proof.
  intros H HF. rewrite server_main_ok by exact H. cbn [main_partitions]. rewrite list_read. cbn [bind]. f_equal. apply map_ext_in. intros p Hp.
  rewrite Forall_forall in HF. now rewrite small_uint by auto.
Qed.

Lemma seq_filter n i : (0 < n)%nat -> (i < n)%nat -> forall m,
  filter (fun x => Z.of_nat x mod Z.of_nat n =? Z.of_nat i) (seq 0 m) =
  map (fun k => (i + n * k)%nat) (seq 0 ((m + n - 1 - i) / n)).
Proof.
  intros Hn Hi. induction m as [|m IH].
  - cbn [seq filter]. rewrite Nat.div_small by lia. reflexivity.
  - rewrite seq_S, filter_app, IH. cbn [filter]. change (0 + m)%nat with m. rewrite <- Nat2Z.inj_mod.
    destruct (Z.of_nat (m mod n) =? Z.of_nat i) eqn:Q.
    + assert (E : (m mod n = i)%nat) by lia. pose proof (Nat.div_mod m n ltac:(lia)) as D. rewrite E in D.
      replace ((m + n - 1 - i) / n)%nat with (m / n)%nat.
      2:{ apply (Nat.div_unique _ n _ (n - 1)); [lia|]. lia. }
      replace ((S m + n - 1 - i) / n)%nat with (S (m / n))%nat.
      2:{ apply (Nat.div_unique _ n _ 0); [lia|]. lia. }
      rewrite seq_S, map_app. cbn [map]. do 2 f_equal. lia.
    + assert (E : (m mod n <> i)%nat) by lia. rewrite app_nil_r. f_equal. f_equal.
      pose proof (Nat.div_mod m n ltac:(lia)) as D. pose proof (Nat.mod_upper_bound m n ltac:(lia)) as B.
      destruct (Nat.lt_ge_cases (m mod n) i).
      * transitivity (m / n)%nat; [symmetry|]; [apply (Nat.div_unique _ n _ (m mod n + n - 1 - i))|apply (Nat.div_unique _ n _ (m mod n + n - i))]; lia.
      * transitivity (S (m / n))%nat; [symmetry|]; [apply (Nat.div_unique _ n _ (m mod n - 1 - i))|apply (Nat.div_unique _ n _ (m mod n - i))]; lia.
Qed.
Lemma filter_map_of_nat (f : Z -> bool) l : filter f (map Z.of_nat l) = map Z.of_nat (filter (fun x => f (Z.of_nat x)) l).
Proof. induction l as [|x l IH]; [reflexivity|]. cbn [map filter]. destruct (f (Z.of_nat x)); cbn [map]; now rewrite IH. Qed.
Lemma range_share i n p : 0 <= i < n -> 0 <= p -> pyrange i p n = Ok (share i n p).
Proof.
  intros Hi Hp. unfold pyrange. replace (n =? 0) with false by lia. replace (0 <? n) with true by lia. f_equal.
  unfold share, all_partitions. rewrite filter_map_of_nat.
  destruct (Z_of_nat_complete i ltac:(lia)) as [a ->]. destruct (Z_of_nat_complete p Hp) as [m ->].
  destruct (Z_of_nat_complete n ltac:(lia)) as [b ->]. rewrite Nat2Z.id. rewrite (seq_filter b a) by lia. rewrite map_map.
  replace (Z.to_nat ((Z.of_nat m - Z.of_nat a + Z.of_nat b - 1) / Z.of_nat b)) with ((m + b - 1 - a) / b)%nat.
  - apply map_ext. intro k. lia.
  - replace (Z.of_nat m - Z.of_nat a + Z.of_nat b - 1) with (Z.of_nat (m + b - 1 - a)) by lia. rewrite <- Nat2Z.inj_div. now rewrite Nat2Z.id.
Qed.
Lemma share_bound i n p x : In x (share i n p) -> 0 <= x < p.
Proof. unfold share, all_partitions. intro H. apply filter_In in H. destruct H as [H _]. apply in_map_iff in H. destruct H as (k & <- & H). apply in_seq in H. lia. Qed.
Lemma in_share i n p x : 0 <= p -> In x (share i n p) <-> 0 <= x < p /\ x mod n = i.
Proof.
  intro Hp. split.
  - intro H. split; [eapply share_bound; exact H|]. apply filter_In in H. lia.
  - intros [H E]. apply filter_In. split; [|lia]. apply in_map_iff. exists (Z.to_nat x). split; [lia|]. apply in_seq. lia.
Qed.
Lemma group_served disk stream dir i n p : disk && stream = false -> 0 <= i < n -> 0 <= p <= 2 ^ 32 ->
  server_main disk stream dir (CGroup (written [i; n; p])) = Ok (map (pair dir) (share i n p)).
Proof.
  intros H Hi Hp. rewrite server_main_ok by exact H. cbn [main_partitions]. rewrite list_read. cbn [bind]. rewrite range_share by lia. cbn [bind].
  f_equal. apply map_ext_in. intros x Hx. apply share_bound in Hx. rewrite small_uint by lia. reflexivity.
Qed.

Lemma filter_partition (g : Z -> nat) n l : (forall x, In x l -> (g x < n)%nat) ->
  Permutation (flat_map (fun i => filter (fun x => (g x =? i)%nat) l) (seq 0 n)) l.
Proof.
  induction l as [|x l IH]; intro H.
  - cbn [filter]. induction (seq 0 n) as [|a s IHs]; [constructor|exact IHs].
  - assert (Hx : (g x < n)%nat) by (apply H; now left).
    assert (IH' := IH (fun y Hy => H y (or_intror Hy))). clear IH.
    replace n with (g x + S (n - S (g x)))%nat in * by lia. set (m := (n - S (g x))%nat) in *. clearbody m.
    rewrite seq_app, flat_map_app in *. cbn [seq flat_map Nat.add] in *.
    assert (F : forall s, ~ In (g x) s -> flat_map (fun i => filter (fun y => (g y =? i)%nat) (x :: l)) s = flat_map (fun i => filter (fun y => (g y =? i)%nat) l) s).
    { induction s as [|a s IHs]; [reflexivity|]. intro Hn. cbn [flat_map filter]. replace (g x =? a)%nat with false by (cbn in Hn; lia).
      f_equal. apply IHs. intro Hi. apply Hn. now right. }
    rewrite !F by (rewrite in_seq; lia). cbn [filter]. rewrite Nat.eqb_refl. cbn [app].
    rewrite <- Permutation_middle. apply perm_skip. exact IH'.
Qed.
Lemma shares_partition n p : 0 < n -> 0 <= p ->
  Permutation (flat_map (fun i => share i n p) (all_partitions n)) (all_partitions p).
Proof.
  intros Hn Hp. unfold all_partitions at 1. rewrite flat_map_concat_map, map_map, <- flat_map_concat_map.
  rewrite (flat_map_ext _ (fun i => filter (fun x => (Z.to_nat (x mod n) =? i)%nat) (all_partitions p))).
  - apply filter_partition. intros x _. pose proof (Z.mod_pos_bound x n Hn). lia.
  - intro i. unfold share. apply filter_ext. intro x. pose proof (Z.mod_pos_bound x n Hn). lia.
Qed.
Lemma group_complete dir n p : 0 < n -> 0 <= p <= 2 ^ 32 ->
  exists loads, mapM (fun i => server_main false false dir (CGroup (written [i; n; p]))) (all_partitions n) = Ok loads /\
    Permutation (concat loads) (map (pair dir) (all_partitions p)).
Proof.
  intros Hn Hp. exists (map (fun i => map (pair dir) (share i n p)) (all_partitions n)). split.
  - assert (HF : forall l, Forall (fun i => 0 <= i < n) l -> mapM (fun i => server_main false false dir (CGroup (written [i; n; p]))) l = Ok (map (fun i => map (pair dir) (share i n p)) l)).
    { induction 1 as [|i l Hi _ IH]; [reflexivity|]. cbn [mapM map]. rewrite group_served by (assumption || reflexivity). rewrite IH. reflexivity. }
    apply HF, Forall_forall. intros x Hx. apply in_map_iff in Hx. destruct Hx as (k & <- & Hk). apply in_seq in Hk. lia.
  - rewrite <- flat_map_concat_map. rewrite <- (shares_partition n p) by lia.
    generalize (all_partitions n). intro l. induction l as [|i l IH]; [constructor|]. cbn [flat_map]. rewrite map_app. now apply Permutation_app_head.
Qed.
Lemma start_iff disk stream meta ps l : Forall (fun a => 0 <= id_of a < 2 ^ 32) ps ->
  (server_init disk stream meta (Some ps) = Ok l <-> disk && stream = false /\ Forall2 (loads meta) ps l).
Proof.
  intro HF. unfold server_init. destruct (disk && stream) eqn:D; [split; [discriminate|intros [H _]; discriminate]|].
  transitivity (Forall2 (loads meta) ps l); [|tauto]. revert l.
  induction HF as [|a ps Ha HF IH]; intro l; cbn [mapM].
  - cbn [bind map]. split; [intros [= <-]; constructor|]. intro H. inversion H. reflexivity.
  - destruct (mapM (with_path meta) ps) as [r|e] eqn:M; cbn [bind] in IH.
    + assert (H0 : Forall2 (loads meta) ps (map (fun '(d, p) => (d, c_uint32 p)) r)) by (apply IH; reflexivity).
      destruct (with_path meta a) as [[d q]|e] eqn:W; cbn [bind map].
      * assert (E : c_uint32 q = q) by (apply small_uint; destruct a; cbn in *; congruence). rewrite E. split.
        -- intros [= <-]. constructor; [destruct a; try discriminate; injection W as <- <-; constructor|exact H0].
        -- intro H. inversion H as [|? y ? l' H1 H2]; subst. apply IH in H2. injection H2 as <-. do 2 f_equal. inversion H1; subst; cbn in W; congruence.
      * split; [discriminate|]. intro H. inversion H as [|? y ? l' H1 H2]; subst. inversion H1; subst; discriminate.
    + destruct (with_path meta a) as [[d q]|e']; cbn [bind]; (split; [discriminate|]); intro H; inversion H as [|? y ? l' H1 H2]; subst; apply IH in H2; discriminate.
Qed.

Lemma range_any a b s : s <> 0 -> exists l, pyrange a b s = Ok l /\
  (forall k, (k < length l)%nat -> nth k l 0 = a + s * Z.of_nat k) /\
  (forall k, (k < length l)%nat <-> (if 0 <? s then a + s * Z.of_nat k < b else b < a + s * Z.of_nat k)).
Proof.
  intro H. unfold pyrange. replace (s =? 0) with false by lia. eexists. split; [reflexivity|]. rewrite map_length, seq_length. split.
  - intros k Hk. rewrite (nth_indep _ 0 (a + s * Z.of_nat 0)) by (now rewrite map_length, seq_length).
    rewrite (map_nth (fun k => a + s * Z.of_nat k)). now rewrite seq_nth by exact Hk.
  - intro k. destruct (0 <? s) eqn:Q.
    + assert (Hs : 0 < s) by lia. pose proof (Z.div_mod (b - a + s - 1) s H) as D. pose proof (Z.mod_pos_bound (b - a + s - 1) s Hs) as M.
      set (q := (b - a + s - 1) / s) in *. split; intro K; [assert (Z.of_nat k <= q - 1) by lia|assert (~ q <= Z.of_nat k); [intro|lia]]; nia.
    + assert (Hs : 0 < - s) by lia. pose proof (Z.div_mod (a - b - s - 1) (- s) ltac:(lia)) as D. pose proof (Z.mod_pos_bound (a - b - s - 1) (- s) Hs) as M.
      set (q := (a - b - s - 1) / (- s)) in *. split; intro K; [assert (Z.of_nat k <= q - 1) by lia|assert (~ q <= Z.of_nat k); [intro|lia]]; nia.
Qed.
Lemma group_any disk stream dir i n p : disk && stream = false -> n <> 0 ->
  exists l, server_main disk stream dir (CGroup (written [i; n; p])) = Ok (map (fun x => (dir, x mod 2 ^ 32)) l) /\
  (forall k, (k < length l)%nat -> nth k l 0 = i + n * Z.of_nat k) /\
  (forall k, (k < length l)%nat <-> (if 0 <? n then i + n * Z.of_nat k < p else p < i + n * Z.of_nat k)).
Proof.
  intros H Hn. destruct (range_any i p n Hn) as (l & E & R). exists l. split; [|exact R].
  rewrite server_main_ok by exact H. cbn [main_partitions]. rewrite list_read. cbn [bind]. rewrite E. reflexivity.
Qed.
