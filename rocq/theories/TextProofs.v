(** Proofs about text features. *)
From Coq Require Import QArith String Lia ZifyBool ZifyNat ZifyN.
From Verif Require Import Base Dist AliasModel AliasProofs AttModel TextModel TextSpec.
From Verif Require ReaderModel.
Local Open Scope list_scope.
Local Open Scope nat_scope.

(** ** Strip *)
Definition solid (p : N -> bool) (m : list N) : Prop :=
  match m with [] => True | c :: _ => p c = false end /\ match rev m with [] => True | c :: _ => p c = false end.
Lemma lstrip_all p a m : forallb p a = true -> lstrip p (a ++ m) = lstrip p m.
Proof.
  induction a as [|c a IH]; intros H; [reflexivity|]. cbn [forallb app lstrip] in *. apply andb_prop in H. destruct H as [-> H].
  now apply IH.
Qed.
Lemma lstrip_solid p m t : match m with [] => False | c :: _ => p c = false end -> lstrip p (m ++ t) = m ++ t.
Proof. destruct m as [|c m]; intros H; [easy|]. cbn [app lstrip]. now rewrite H. Qed.
Lemma lstrip_nil p a : forallb p a = true -> lstrip p a = [].
Proof. intros H. rewrite <- (app_nil_r a). now rewrite lstrip_all. Qed.
Lemma forallb_rev {A} (p : A -> bool) l : forallb p (rev l) = forallb p l.
Proof.
  induction l as [|a l IH]; [reflexivity|]. cbn [rev forallb]. rewrite forallb_app, IH. cbn [forallb]. rewrite andb_true_r. apply andb_comm.
Qed.
Lemma strip_core p a m b : forallb p a = true -> forallb p b = true -> solid p m -> strip p (a ++ m ++ b) = m.
Proof.
  intros Ha Hb [S1 S2]. unfold strip. rewrite lstrip_all by exact Ha.
  destruct m as [|c m].
  - cbn [app]. rewrite (lstrip_nil p b Hb). reflexivity.
  - rewrite lstrip_solid by exact S1. rewrite rev_app_distr. rewrite lstrip_all by now rewrite forallb_rev.
    destruct (rev (c :: m)) as [|d r] eqn:R; [apply (f_equal (@rev N)) in R; rewrite rev_involutive in R; discriminate|].
    cbn [lstrip]. rewrite S2. rewrite <- R. apply rev_involutive.
Qed.
Lemma lstrip_split p l : exists a, l = a ++ lstrip p l /\ forallb p a = true.
Proof.
  induction l as [|c l (a & E & H)]; [now exists []|]. cbn [lstrip]. destruct (p c) eqn:P.
  - exists (c :: a). cbn [app forallb]. rewrite <- E, P, H. now split.
  - exists []. now split.
Qed.
Lemma lstrip_head p l : match lstrip p l with [] => True | c :: _ => p c = false end.
Proof. induction l as [|c l IH]; [exact I|]. cbn [lstrip]. destruct (p c) eqn:P; [exact IH|exact P]. Qed.
Lemma strip_split p l : exists a b, l = a ++ strip p l ++ b /\ forallb p a = true /\ forallb p b = true /\ solid p (strip p l).
Proof.
  destruct (lstrip_split p l) as (a & E & Ha). destruct (lstrip_split p (rev (lstrip p l))) as (b & F & Hb).
  exists a, (rev b). unfold strip. assert (E2 : lstrip p l = rev (lstrip p (rev (lstrip p l))) ++ rev b).
  { rewrite <- rev_app_distr, <- F. now rewrite rev_involutive. }
  split; [rewrite <- E2; exact E|]. split; [exact Ha|]. split; [now rewrite forallb_rev|]. split.
  - pose proof (lstrip_head p l) as X. rewrite E2 in X. destruct (rev (lstrip p (rev (lstrip p l)))); [exact I|exact X].
  - rewrite rev_involutive. apply lstrip_head.
Qed.

(** ** Words *)
Fixpoint join (ws : list (list N)) : list N :=
  match ws with [] => [] | [w] => w | w :: t => w ++ SPACE :: join t end.
Lemma join_cons w ws : ws <> [] -> join (w :: ws) = w ++ SPACE :: join ws.
Proof. destruct ws; [congruence|reflexivity]. Qed.
Lemma keep_valid c : valid c = keep c.
Proof. unfold valid, keep, ReaderModel.between, SPACE. lia. Qed.
Definition starts (l : list N) : bool := match l with c :: _ => is_space c | [] => false end.
Lemma squeeze_spaces l : spaces l -> squeeze l = if starts l then [SPACE] else [].
Proof.
  induction 1 as [|c l Hc H IH]; [reflexivity|]. subst c. cbn [squeeze starts]. change (is_space 32) with true. cbn [andb].
  destruct l as [|d l]; [reflexivity|]. assert (d = 32%N) by now inversion H. subst d. cbn [starts] in *. exact IH.
Qed.
Lemma squeeze_lead a m : spaces a -> starts m = false -> m <> [] -> squeeze (a ++ m) = (if starts a then [SPACE] else []) ++ squeeze m.
Proof.
  intros Ha Hm Hn. induction Ha as [|c a Hc Ha IH]; [reflexivity|]. subst c. cbn [app squeeze starts].
  change (is_space 32) with true. cbn [andb]. destruct a as [|d a].
  - cbn [app]. destruct m as [|x m]; [congruence|]. cbn [starts] in Hm. rewrite Hm. reflexivity.
  - assert (d = 32%N) by now inversion Ha. subst d. cbn [app] in *. change (is_space 32) with true. exact IH.
Qed.
Lemma squeeze_word w rest : Forall (fun c => c <> 32%N) w -> squeeze (w ++ rest) = w ++ squeeze rest.
Proof.
  induction 1 as [|c w Hc H IH]; [reflexivity|]. cbn [app squeeze]. replace (is_space c) with false by (unfold is_space, SPACE; lia).
  cbn [andb]. now rewrite IH.
Qed.
Lemma spaces_forallb l : spaces l -> forallb is_space l = true.
Proof. induction 1 as [|c l Hc H IH]; [reflexivity|]. subst c. cbn [forallb]. now rewrite IH. Qed.
Lemma separated_nil l ws : separated l ws -> l = [] -> ws = [].
Proof.
  destruct 1 as [|a w rest ws Ha Hw]; intros E; [reflexivity|]. apply app_eq_nil in E. destruct E as [_ E].
  apply app_eq_nil in E. destruct E as [E _]. now rewrite E in Hw.
Qed.
Lemma squeeze_separated l ws : separated l ws ->
  exists b, forallb is_space b = true /\ squeeze l = (if starts l then [SPACE] else []) ++ join ws ++ b.
Proof.
  induction 1 as [l H|a w rest ws Ha Hw Hc Hr Hs (b & Hb & IH)].
  - exists []. split; [reflexivity|]. rewrite (squeeze_spaces l H). cbn [join]. now rewrite !app_nil_r.
  - assert (Sw : starts (w ++ rest) = false).
    { destruct w as [|c w]; [congruence|]. cbn [app starts]. assert (c <> 32%N) by now inversion Hc. unfold is_space, SPACE. lia. }
    assert (Se : starts (a ++ w ++ rest) = starts a) by (destruct a; [exact Sw|reflexivity]).
    rewrite Se, squeeze_lead; [|exact Ha|exact Sw|destruct w; [congruence|discriminate]].
    rewrite squeeze_word by exact Hc. rewrite IH. destruct ws as [|v ws].
    + cbn [join]. exists ((if starts rest then [SPACE] else []) ++ b). split; [|cbn [app]; reflexivity].
      rewrite forallb_app, Hb. now destruct (starts rest).
    + destruct Hr as [->|(t & ->)].
      * pose proof (separated_nil _ _ Hs eq_refl). discriminate.
      * exists b. split; [exact Hb|]. rewrite (join_cons w (v :: ws)) by discriminate. cbn [starts]. change (is_space 32) with true.
        rewrite <- !app_assoc. reflexivity.
Qed.
Lemma separated_words l ws : separated l ws -> Forall (fun w => w <> [] /\ Forall (fun c => c <> 32%N) w) ws.
Proof. induction 1; constructor; auto. Qed.
Lemma join_solid ws : Forall (fun w => w <> [] /\ Forall (fun c => c <> 32%N) w) ws -> solid is_space (join ws).
Proof.
  intros H. assert (N32 : forall c, c <> 32%N -> is_space c = false) by (intros; unfold is_space, SPACE; lia). split.
  - destruct ws as [|w ws]; [exact I|]. inversion H as [|? ? [Hn Hc] ?]. subst. destruct w as [|c w]; [congruence|].
    inversion Hc. subst. destruct ws; cbn [join app]; now apply N32.
  - induction H as [|w ws [Hn Hc] H IH]; [exact I|]. destruct ws as [|v ws].
    + cbn [join]. assert (R : rev w <> []) by (intros E; apply (f_equal (@rev N)) in E; rewrite rev_involutive in E; now apply Hn).
      destruct (rev w) as [|c r] eqn:E; [congruence|]. apply N32. rewrite Forall_forall in Hc. apply Hc. apply in_rev. rewrite E. now left.
    + rewrite join_cons by discriminate. rewrite rev_app_distr. cbn [rev].
      assert (J : rev (join (v :: ws)) <> []).
      { intros E. apply (f_equal (@rev N)) in E. rewrite rev_involutive in E. inversion H as [|? ? [Vn _] ?]. subst.
        destruct ws; cbn [join rev] in E; [now apply Vn|]. destruct v; [now apply Vn|discriminate]. }
      destruct (rev (join (v :: ws))) as [|c r]; [congruence|exact IH].
Qed.
Lemma split_space_word w t : Forall (fun c => c <> 32%N) w ->
  split_space (w ++ t) = match split_space t with [] => [w] | x :: r => (w ++ x) :: r end.
Proof.
  induction 1 as [|c w Hc H IH]; cbn [app].
  - destruct (split_space t) eqn:E; [|reflexivity]. destruct t; cbn [split_space] in E; [discriminate|].
    destruct (is_space n); [discriminate|]. unfold ReaderModel.cons_line in E. destruct (split_space t); discriminate.
  - cbn [split_space]. replace (is_space c) with false by (unfold is_space, SPACE; lia). rewrite IH.
    destruct (split_space t); reflexivity.
Qed.
Lemma split_join ws : Forall (fun w => w <> [] /\ Forall (fun c => c <> 32%N) w) ws ->
  split_space (join ws) = match ws with [] => [[]] | _ => ws end.
Proof.
  induction 1 as [|w ws [Hn Hc] H IH]; [reflexivity|]. destruct ws as [|v ws].
  - cbn [join]. rewrite <- (app_nil_r w) at 1. rewrite split_space_word by exact Hc. cbn [split_space]. now rewrite app_nil_r.
  - rewrite join_cons by discriminate. rewrite split_space_word by exact Hc. cbn [split_space].
    change (is_space SPACE) with true. rewrite IH. now rewrite app_nil_r.
Qed.
Lemma filter_valid l : filter valid l = filter keep l.
Proof. apply filter_ext. exact keep_valid. Qed.
Lemma words_ok lower text ws : separated (filter keep (lower text)) ws ->
  words_of lower text = match ws with [] => [[]] | _ => ws end.
Proof.
  intros H. unfold words_of. rewrite filter_valid. pose proof (separated_words _ _ H) as W.
  destruct (squeeze_separated _ _ H) as (b & Hb & ->). rewrite strip_core.
  - now apply split_join.
  - now destruct (starts _).
  - exact Hb.
  - now apply join_solid.
Qed.
Lemma span_spaces l : exists a m, l = a ++ m /\ spaces a /\ (m = [] \/ exists c t, m = c :: t /\ c <> 32%N).
Proof.
  induction l as [|c l (a & m & E & Ha & Hm)]; [exists [], []; repeat split; [constructor|now left]|].
  destruct (N.eq_dec c 32) as [->|D].
  - exists (32%N :: a), m. rewrite E. split; [reflexivity|]. split; [now constructor|exact Hm].
  - exists [], (c :: l). split; [reflexivity|]. split; [constructor|]. right. now exists c, l.
Qed.
Lemma span_word l : exists w r, l = w ++ r /\ Forall (fun c => c <> 32%N) w /\ (r = [] \/ exists t, r = 32%N :: t).
Proof.
  induction l as [|c l (w & r & E & Hw & Hr)]; [exists [], []; repeat split; [constructor|now left]|].
  destruct (N.eq_dec c 32) as [->|D].
  - exists [], (32%N :: l). split; [reflexivity|]. split; [constructor|]. right. now exists l.
  - exists (c :: w), r. rewrite E. split; [reflexivity|]. split; [now constructor|exact Hr].
Qed.
Lemma separated_exists l : exists ws, separated l ws.
Proof.
  remember (List.length l) as n eqn:E. revert l E. induction n as [n IH] using (well_founded_induction lt_wf). intros l E.
  destruct (span_spaces l) as (a & m & El & Ha & [->|(c & t & -> & Hc)]).
  - exists []. constructor. now rewrite El, app_nil_r.
  - destruct (span_word (c :: t)) as (w & r & Ew & Hw & Hr).
    assert (w <> []).
    { intros ->. cbn [app] in Ew. destruct Hr as [->|(u & ->)]; [discriminate|]. injection Ew as -> ->. congruence. }
    destruct (IH (List.length r)) with (l := r) as (ws & Hs); [|reflexivity|].
    + rewrite E, El, Ew, !app_length. destruct w; [congruence|]. cbn [List.length]. lia.
    + exists (w :: ws). rewrite El, Ew. now constructor.
Qed.

(** ** Vocabulary *)
Lemma ends_line_b a : Forall ends_line a <-> forallb line_end a = true.
Proof.
  rewrite forallb_forall, Forall_forall. split; intros H c Hc; specialize (H c Hc); unfold ends_line, line_end in *; lia.
Qed.
Lemma line_is_strip l tok : solid line_end tok -> line_is l tok <-> strip line_end l = tok.
Proof.
  intros S. split.
  - intros (a & b & -> & Ha & Hb). apply strip_core; [now apply ends_line_b|now apply ends_line_b|exact S].
  - intros <-. destruct (strip_split line_end l) as (a & b & E & Ha & Hb & _). exists a, b. rewrite <- E. split; [reflexivity|].
    split; now apply ends_line_b.
Qed.
Lemma beq_spec a b : beq a b = true <-> a = b.
Proof. unfold beq. destruct (list_eq_dec N.eq_dec a b); split; congruence. Qed.
Definition line_tok (lines : list (list N)) (tok : list N) (i : nat) : Prop :=
  exists l, nth_error lines i = Some l /\ strip line_end l = tok.
Lemma vocab_from_spec lines : forall i d tok, tok <> [] ->
  lookup (vocab_from i lines d) tok = lookup d tok /\ (forall k, ~ line_tok lines tok k) \/
  exists k, lookup (vocab_from i lines d) tok = Some (i + k + 1) /\ line_tok lines tok k /\ forall k', k < k' -> ~ line_tok lines tok k'.
Proof.
  induction lines as [|l lines IH]; intros i d tok Hn.
  - left. split; [reflexivity|]. intros k (x & Hx & _). now destruct k.
  - cbn [vocab_from]. destruct (IH (S i) (match strip line_end l with [] => d | _ => (strip line_end l, i + 1) :: d end) tok Hn) as [[E N]|(k & E & K & L)].
    + destruct (list_eq_dec N.eq_dec (strip line_end l) tok) as [T|T].
      * right. exists 0. split; [|split].
        -- rewrite E, T. destruct tok as [|c tok]; [congruence|]. unfold lookup. cbn [find fst].
           replace (beq (c :: tok) (c :: tok)) with true by (symmetry; now apply beq_spec). cbn [snd]. f_equal. lia.
        -- now exists l.
        -- intros [|k'] Hk; [lia|]. intros (x & Hx & Hs). cbn [nth_error] in Hx. apply (N k'). now exists x.
      * left. split.
        -- rewrite E. destruct (strip line_end l) as [|c r] eqn:R; [reflexivity|]. unfold lookup. cbn [find fst].
           replace (beq (c :: r) tok) with false; [reflexivity|]. symmetry. apply not_true_iff_false. rewrite beq_spec. exact T.
        -- intros [|k] (x & Hx & Hs); cbn [nth_error] in Hx; [congruence|]. apply (N k). now exists x.
    + right. exists (S k). split; [rewrite E; f_equal; lia|]. split; [exact K|].
      intros [|k'] Hk; [lia|]. intros (x & Hx & Hs). cbn [nth_error] in Hx. apply (L k'); [lia|]. now exists x.
Qed.
Lemma vocab_ok lines tok : tok <> [] -> solid line_end tok ->
  vocab_id lines tok (match lookup (vocab lines) tok with Some n => n | None => 0 end).
Proof.
  intros Hn S. assert (Eq : forall i, (exists l, nth_error lines i = Some l /\ line_is l tok) <-> line_tok lines tok i).
  { intros i. unfold line_tok. split; intros (l & A & B); exists l; split; try exact A; now apply (line_is_strip l tok S). }
  unfold vocab_id. destruct (vocab_from_spec lines 0 [] tok Hn) as [[E N]|(k & E & K & L)]; unfold vocab; rewrite E.
  - left. split; [reflexivity|]. intros i Hi. apply (N i). now apply Eq.
  - right. split; [lia|]. split.
    + apply Eq. now replace (0 + k + 1 - 1) with k by lia.
    + intros i Hi X. apply (L i); [lia|]. now apply Eq.
Qed.

(** ** Cells *)
Lemma letters_fold d nl i word js : forall seq,
  NoDup js -> (forall j, In j js -> j < nl /\ i * nl + j < List.length seq) ->
  List.length (fold_left (one_letter d nl i word) js seq) = List.length seq /\
  forall x, nth x (fold_left (one_letter d nl i word) js seq) 0 =
    if existsb (fun j => x =? i * nl + j) js
    then match lookup d (firstn 3 (skipn (x - i * nl) word)) with Some n => n | None => nth x seq 0 end
    else nth x seq 0.
Proof.
  induction js as [|j js IH]; intros sq ND H; [now split|]. inversion ND as [|? ? Nj NDs]. subst. cbn [fold_left existsb].
  assert (Ls : List.length (one_letter d nl i word sq j) = List.length sq).
  { unfold one_letter. destruct (lookup d (firstn 3 (skipn j word))); [|reflexivity]. apply set_nth_length. now apply H; left. }
  destruct (IH (one_letter d nl i word sq j) NDs) as [L C].
  { intros j' Hj. rewrite Ls. apply H. now right. }
  split; [congruence|]. intros x. rewrite C.
  assert (O : nth x (one_letter d nl i word sq j) 0 =
              if x =? i * nl + j then match lookup d (firstn 3 (skipn j word)) with Some n => n | None => nth x sq 0 end else nth x sq 0).
  { unfold one_letter. destruct (lookup d (firstn 3 (skipn j word))).
    - rewrite set_nth_nth by (apply H; now left). destruct (Nat.eqb_spec x (i * nl + j)); reflexivity.
    - now destruct (x =? i * nl + j). }
  rewrite O. clear O C. destruct (Nat.eqb_spec x (i * nl + j)) as [Ex|D]; cbn [orb].
  - rewrite Ex. replace (existsb (fun j0 => i * nl + j =? i * nl + j0) js) with false.
    2:{ symmetry. apply not_true_iff_false. rewrite existsb_exists. intros (j' & Hj & Ej). apply Nat.eqb_eq in Ej.
        assert (j' = j) by lia. now subst. }
    replace (i * nl + j - i * nl) with j by lia. reflexivity.
  - destruct (existsb (fun j0 => x =? i * nl + j0) js); reflexivity.
Qed.
Definition cell_id (d : list (list N * nat)) (nl : nat) (words : list (list N)) (i j : nat) : nat :=
  let word := framed (nth i words []) in
  if j <? Nat.min (List.length word - 2) nl then match lookup d (firstn 3 (skipn j word)) with Some n => n | None => 0 end else 0.
Lemma existsb_seq (f : nat -> bool) n : existsb f (seq 0 n) = true <-> exists j, j < n /\ f j = true.
Proof.
  rewrite existsb_exists. split; intros (j & A & B); exists j; [apply in_seq in A|]; (split; [|exact B]); [lia|apply in_seq; lia].
Qed.
Lemma words_fold d nl words n : forall sl, n <= sl ->
  let st := fold_left (one_word d nl words) (seq 0 n) (repeat 0 (sl * nl), repeat 0 sl) in
  List.length (fst st) = sl * nl /\ List.length (snd st) = sl /\
  (forall i j, i < sl -> j < nl -> nth (i * nl + j) (fst st) 0 = if i <? n then cell_id d nl words i j else 0) /\
  (forall i, i < sl -> nth i (snd st) 0 = if i <? n then 1 else 0).
Proof.
  induction n as [|n IH]; intros sl Hn st.
  - subst st. cbn [seq fold_left fst snd]. rewrite !repeat_length. split; [reflexivity|]. split; [reflexivity|]. split.
    + intros i j Hi Hj. now rewrite nth_repeat.
    + intros i Hi. now rewrite nth_repeat.
  - subst st. rewrite seq_S, fold_left_app. cbn [fold_left]. specialize (IH sl ltac:(lia)). cbv zeta in IH.
    set (st := fold_left (one_word d nl words) (seq 0 n) (repeat 0 (sl * nl), repeat 0 sl)) in *.
    destruct IH as (L1 & L2 & C1 & C2). unfold one_word. rewrite Nat.add_0_l.
    set (word := framed (nth n words [])). set (k := Nat.min (List.length word - 2) nl). cbn [fst snd].
    destruct (letters_fold d nl n word (seq 0 k) (fst st)) as [Lf Cf].
    { apply seq_NoDup. }
    { intros j Hj. apply in_seq in Hj. rewrite L1. nia. }
    split; [congruence|]. split; [rewrite set_nth_length; [exact L2|lia]|]. split.
    + intros i j Hi Hj. rewrite Cf, C1 by assumption.
      destruct (existsb (fun j0 => i * nl + j =? n * nl + j0) (seq 0 k)) eqn:E.
      * apply existsb_seq in E. destruct E as (j0 & J1 & J2). apply Nat.eqb_eq in J2.
        assert (i = n) by nia. subst i. assert (j0 = j) by lia. subst j0.
        replace (n <? S n) with true by lia. replace (n <? n) with false by lia.
        unfold cell_id. fold word. fold k. replace (j <? k) with true by lia. replace (n * nl + j - n * nl) with j by lia. reflexivity.
      * destruct (Nat.eq_dec i n) as [->|D].
        -- replace (n <? S n) with true by lia. replace (n <? n) with false by lia. unfold cell_id. fold word. fold k.
           replace (j <? k) with false; [reflexivity|]. symmetry. apply not_true_iff_false. intros J. apply not_true_iff_false in E. apply E.
           apply existsb_seq. exists j. split; lia.
        -- replace (i <? S n) with (i <? n) by lia. reflexivity.
    + intros i Hi. rewrite set_nth_nth by lia. destruct (Nat.eqb_spec i n) as [->|D].
      * now replace (n <? S n) with true by lia.
      * rewrite C2 by exact Hi. now replace (i <? S n) with (i <? n) by lia.
Qed.
Lemma framed_length w : List.length (framed w) - 2 = List.length (match w with [] => [HASH] | _ => w end).
Proof. unfold framed. rewrite !app_length. cbn [List.length]. lia. Qed.
Lemma framed_nth w i : nth i (framed w) HASH =
  if i =? 0 then HASH else nth (i - 1) (match w with [] => [HASH] | _ => w end) HASH.
Proof.
  unfold framed. destruct i as [|i]; [reflexivity|]. cbn [app nth]. replace (S i =? 0) with false by lia. replace (S i - 1) with i by lia.
  set (v := match w with [] => [HASH] | _ => w end). destruct (Nat.lt_ge_cases i (List.length v)).
  - now rewrite app_nth1.
  - rewrite app_nth2 by lia. rewrite (nth_overflow v) by lia. destruct (i - List.length v) as [|[|k]]; reflexivity.
Qed.
Lemma firstn3 (l : list N) j d : j + 2 < List.length l -> firstn 3 (skipn j l) = [nth j l d; nth (S j) l d; nth (S (S j)) l d].
Proof.
  revert j. induction l as [|c l IH]; intros j H; [cbn [List.length] in H; lia|]. destruct j as [|j].
  - destruct l as [|a [|b l]]; cbn [List.length] in H; try lia. reflexivity.
  - cbn [skipn]. rewrite IH by (cbn [List.length] in H; lia). reflexivity.
Qed.
Lemma framed_trigram w j : j < List.length (match w with [] => [HASH] | _ => w end) ->
  firstn 3 (skipn j (framed w)) = trigram (match w with [] => [HASH] | _ => w end) j.
Proof.
  intros H. pose proof (framed_length w). rewrite (firstn3 _ _ HASH) by lia. rewrite !framed_nth. unfold trigram, HASH in *.
  replace (S j =? 0) with false by lia. replace (S (S j) =? 0) with false by lia.
  replace (S j - 1) with j by lia. replace (S (S j) - 1) with (S j) by lia. reflexivity.
Qed.
Definition printable (w : list N) : Prop := Forall (fun c => line_end c = false) w.
Lemma printable_nth w j : printable w -> line_end (nth j w 35%N) = false.
Proof.
  intros H. destruct (Nat.lt_ge_cases j (List.length w)).
  - unfold printable in H. rewrite Forall_forall in H. apply H. now apply nth_In.
  - now rewrite nth_overflow.
Qed.
Lemma trigram_solid w j : printable w -> solid line_end (trigram w j).
Proof.
  intros H. unfold trigram, solid. cbn [rev app]. split; [|now apply printable_nth]. destruct (j =? 0); [reflexivity|now apply printable_nth].
Qed.
Lemma separated_keep l ws : separated l ws -> Forall (fun c => keep c = true) l -> Forall printable ws.
Proof.
  induction 1 as [|a w rest ws Ha Hw Hc Hr Hs IH]; intros K; [constructor|].
  rewrite !Forall_app in K. destruct K as (_ & Kw & Kr). constructor; [|now apply IH].
  unfold printable. eapply Forall_impl; [|exact Kw]. intros c Hk. unfold keep, line_end in *. lia.
Qed.
Lemma triletter_ok lower lines sl nl text ws : separated (filter keep (lower text)) ws ->
  List.length (fst (triletter lower lines sl nl text)) = sl * nl /\
  List.length (snd (triletter lower lines sl nl text)) = sl /\
  (forall i j, i < sl -> j < nl -> cell_of lines ws i j (nth (i * nl + j) (fst (triletter lower lines sl nl text)) 0)) /\
  (forall i, i < sl -> nth i (snd (triletter lower lines sl nl text)) 0 = if i <? count_words ws then 1 else 0).
Proof.
  intros H. unfold triletter, from_words. rewrite (words_ok _ _ _ H). pose proof (separated_words _ _ H) as W.
  assert (P : Forall printable ws).
  { eapply separated_keep; [exact H|]. apply Forall_forall. intros c Hc. now apply filter_In in Hc. }
  set (words := match ws with [] => [[]] | _ => ws end).
  destruct (words_fold (vocab lines) nl words (Nat.min (List.length words) sl) sl ltac:(lia)) as (L1 & L2 & C1 & C2).
  split; [exact L1|]. split; [exact L2|].
  assert (Lw : List.length words = count_words ws) by (unfold words, count_words; now destruct ws).
  split.
  - intros i j Hi Hj. rewrite C1 by assumption. unfold cell_of.
    set (ws1 := match ws with [] => [[35%N]] | _ => ws end).
    assert (Ln : List.length ws1 = List.length words) by (unfold ws1, words; now destruct ws).
    destruct (nth_error ws1 i) as [w|] eqn:Ew.
    + assert (Li : i < List.length ws1) by (apply nth_error_Some; congruence).
      replace (i <? Nat.min (List.length words) sl) with true by lia.
      assert (Wi : match nth i words [] with [] => [HASH] | _ => nth i words [] end = w /\ printable w).
      { unfold ws1, words in *. destruct ws as [|v ws].
        - destruct i as [|i]; [|cbn [List.length] in Li; lia]. injection Ew as <-. split; [reflexivity|]. now constructor.
        - rewrite (nth_error_nth _ _ [] Ew). apply nth_error_In in Ew. rewrite Forall_forall in W, P. destruct (W _ Ew).
          split; [|now apply P]. destruct w; [congruence|reflexivity]. }
      destruct Wi as [Wi Pw]. unfold cell_id. rewrite framed_length, Wi.
      replace (j <? Nat.min (List.length w) nl) with (j <? List.length w) by lia.
      destruct (j <? List.length w) eqn:J; [|reflexivity].
      rewrite framed_trigram by (rewrite Wi; lia). rewrite Wi. apply vocab_ok; [discriminate|]. now apply trigram_solid.
    + apply nth_error_None in Ew. now replace (i <? Nat.min (List.length words) sl) with false by lia.
  - intros i Hi. rewrite C2 by exact Hi. rewrite Lw. destruct (i <? count_words ws) eqn:E; [now replace (i <? Nat.min (count_words ws) sl) with true by lia|].
    now replace (i <? Nat.min (count_words ws) sl) with false by lia.
Qed.

(** ** BERT *)
Lemma nth_skip {A} (l : list A) n k d : nth k (skipn n l) d = nth (n + k) l d.
Proof. revert l. induction n as [|n IH]; intros l; [reflexivity|]. destruct l; [now destruct k|apply IH]. Qed.
Lemma std_bert_ok encode sl text :
  List.length (fst (std_bert encode sl text)) = sl /\ List.length (snd (std_bert encode sl text)) = sl /\
  forall i, i < sl ->
    nth i (fst (std_bert encode sl text)) 0 = nth i (encode text) 0 /\
    nth i (snd (std_bert encode sl text)) 0 = if i <? List.length (encode text) then 1 else 0.
Proof.
  unfold std_bert. cbn [fst snd]. set (r := encode text). set (n := Nat.min sl (List.length r)).
  assert (L1 : List.length (firstn n r) = n) by (rewrite firstn_length; lia).
  split; [rewrite app_length, skipn_length, repeat_length; lia|].
  split; [rewrite app_length, skipn_length, !repeat_length; lia|].
  intros i Hi.
  assert (Z : forall k, nth k (skipn n (repeat 0 sl)) 0 = 0).
  { intros k. destruct (Nat.lt_ge_cases k (List.length (skipn n (repeat 0 sl)))) as [X|X]; [|now apply nth_overflow].
    rewrite skipn_length, repeat_length in X. rewrite nth_skip. apply nth_repeat. }
  destruct (Nat.lt_ge_cases i n) as [X|X].
  - rewrite !app_nth1 by (rewrite ?L1, ?repeat_length; lia). split.
    + rewrite <- (firstn_skipn n r) at 2. now rewrite app_nth1 by lia.
    + replace (i <? List.length r) with true by lia. rewrite nth_indep with (d' := 1) by (rewrite repeat_length; lia). apply nth_repeat.
  - rewrite !app_nth2 by (rewrite ?L1, ?repeat_length; lia). rewrite !Z. split.
    + symmetry. apply nth_overflow. lia.
    + now replace (i <? List.length r) with false by lia.
Qed.

(** ** Sentences *)
Lemma urun_app a b : forall s, ReaderModel.urun s (a ++ b) = match ReaderModel.urun s a with Some s' => ReaderModel.urun s' b | None => None end.
Proof.
  induction a as [|c a IH]; intros s; [reflexivity|]. cbn [app ReaderModel.urun]. destruct (ReaderModel.ustep s c); [apply IH|reflexivity].
Qed.
Lemma urun_zeros k : ReaderModel.urun ReaderModel.UStart (repeat 0%N k) = Some ReaderModel.UStart.
Proof. induction k as [|k IH]; [reflexivity|exact IH]. Qed.
Lemma decode_spec l : is_text l <-> ReaderModel.urun ReaderModel.UStart l = Some ReaderModel.UStart.
Proof.
  unfold is_text, ReaderModel.decode. destruct (ReaderModel.urun ReaderModel.UStart l) as [[]|]; split; intros X; try reflexivity; discriminate X.
Qed.
Lemma step_class s c s' : ReaderModel.ustep s c = Some s' -> s <> ReaderModel.UStart <-> (128 <= c <= 191)%N.
Proof.
  unfold ReaderModel.ustep, ReaderModel.between. destruct s; intros H;
    repeat match type of H with (if ?b then _ else _) = _ => destruct b eqn:? end; try discriminate;
    (split; [intros X|intros X Y]; try discriminate; try congruence; try lia).
Qed.
Lemma firstn_state text n : is_text text ->
  exists s, ReaderModel.urun ReaderModel.UStart (firstn n text) = Some s /\ (boundary text n <-> s = ReaderModel.UStart).
Proof.
  intros H. apply decode_spec in H. rewrite <- (firstn_skipn n text) in H. rewrite urun_app in H.
  destruct (ReaderModel.urun ReaderModel.UStart (firstn n text)) as [s|] eqn:E; [|discriminate].
  exists s. split; [reflexivity|]. destruct (nth_error text n) as [c|] eqn:Ec.
  - assert (S : skipn n text = c :: skipn (S n) text).
    { clear - Ec. revert text Ec. induction n as [|n IH]; intros [|d t] H; try discriminate; [now injection H as ->|]. now apply IH. }
    rewrite S in H. cbn [ReaderModel.urun] in H. destruct (ReaderModel.ustep s c) as [s'|] eqn:St; [|discriminate].
    pose proof (step_class _ _ _ St) as C. unfold boundary. rewrite Ec. split.
    + intros B. specialize (B c eq_refl). destruct s; try reflexivity; exfalso; apply B; apply C; discriminate.
    + intros -> d Hd. injection Hd as <-. intros X. apply C in X. congruence.
  - assert (S : skipn n text = []) by (apply skipn_all2; now apply nth_error_None).
    rewrite S in H. injection H as ->. split; [reflexivity|]. intros _ c Hc. congruence.
Qed.
Lemma blank_zeros k : forallb blank (repeat 0%N k) = true.
Proof. induction k as [|k IH]; [reflexivity|exact IH]. Qed.
Lemma strip_zeros l k : strip blank (l ++ repeat 0%N k) = strip blank l.
Proof.
  destruct (strip_split blank l) as (a & b & E & Ha & Hb & S). rewrite E at 1. rewrite <- !app_assoc.
  rewrite strip_core; [reflexivity|exact Ha|now rewrite forallb_app, Hb, blank_zeros|exact S].
Qed.
Section Enc.
Variable tok : list N -> list nat * list nat.

Lemma sentence_text l : is_text l -> sentence tok l = Ok (tok (strip blank l)).
Proof. unfold is_text, sentence. now intros ->. Qed.
Lemma sentence_inv l t : sentence tok l = Ok t -> is_text l.
Proof.
  unfold sentence, is_text, ReaderModel.decode. destruct (ReaderModel.urun ReaderModel.UStart l) as [[]|]; try discriminate. reflexivity.
Qed.
Lemma sentence_padded text n : is_text text -> boundary text n -> sentence tok (padded n text) = Ok (tok (strip blank (firstn n text))).
Proof.
  intros H B. destruct (firstn_state text n H) as (s & E & Bs). apply Bs in B. subst s.
  rewrite sentence_text; unfold padded; [now rewrite strip_zeros|]. apply decode_spec. rewrite urun_app, E. apply urun_zeros.
Qed.
Lemma sentence_cut text n c : is_text text -> nth_error text n = Some c -> (128 <= c <= 191)%N -> sentence tok (padded n text) = Fail EFatal.
Proof.
  intros H Hc Rc. destruct (firstn_state text n H) as (s & E & Bs).
  assert (Ns : s <> ReaderModel.UStart) by (intros X; apply Bs in X; now apply (X c Hc)).
  assert (Ln : n < List.length text) by (apply nth_error_Some; congruence).
  unfold padded. replace (n - List.length text) with 0 by lia. cbn [repeat]. rewrite app_nil_r.
  unfold sentence, ReaderModel.decode. rewrite E. destruct s; congruence.
Qed.
Lemma ascii_text l : ascii l -> is_text l.
Proof.
  intros H. apply decode_spec. induction H as [|c l Hc H IH]; [reflexivity|]. cbn [ReaderModel.urun ReaderModel.ustep].
  now replace (c <=? 127)%N with true by lia.
Qed.
Lemma ascii_boundary l n : ascii l -> boundary l n.
Proof. intros H c Hc X. apply nth_error_In in Hc. unfold ascii in H. rewrite Forall_forall in H. specialize (H c Hc). cbn beta in H. lia. Qed.

(** ** Arrays *)
Lemma prod_from l : forall a, fold_left Nat.mul l a = a * prod l.
Proof.
  unfold prod. induction l as [|x l IH]; intros a; cbn [fold_left]; [lia|]. rewrite IH. rewrite (IH (1 * x)). lia.
Qed.
Lemma prod_app a b : prod (a ++ b) = prod a * prod b.
Proof. unfold prod. rewrite fold_left_app. apply prod_from. Qed.
Lemma prod_snoc a n : prod (a ++ [n]) = prod a * n.
Proof. rewrite prod_app. unfold prod at 2. cbn [fold_left]. lia. Qed.
Lemma unsnoc_spec l : unsnoc l = match l with [] => None | _ => Some (removelast l, last l 0) end.
Proof.
  induction l as [|x l IH]; [reflexivity|]. cbn [unsnoc removelast last]. destruct l as [|y l]; [reflexivity|]. now rewrite IH.
Qed.
Lemma unsnoc_app a n : unsnoc (a ++ [n]) = Some (a, n).
Proof. rewrite unsnoc_spec. destruct (a ++ [n]) eqn:E; [now destruct a|]. rewrite <- E. now rewrite removelast_last, last_last. Qed.
Lemma unsnoc_inv l a n : unsnoc l = Some (a, n) -> l = a ++ [n].
Proof.
  rewrite unsnoc_spec. destruct l as [|x l]; [discriminate|]. intros H. assert (E : a = removelast (x :: l) /\ n = last (x :: l) 0) by (split; congruence).
  destruct E as [-> ->]. apply app_removelast_last. discriminate.
Qed.
Lemma nth_chunks {A} k c : forall (l : list A) r, r < c -> nth r (chunks k c l) [] = row k r l.
Proof.
  unfold row, slice. induction c as [|c IH]; intros l r H; [lia|]. cbn [chunks]. destruct r as [|r]; [reflexivity|].
  cbn [nth]. rewrite IH by lia. f_equal. replace (S r * k) with (r * k + k) by lia. clear. generalize (r * k) as m. intros m.
  revert l. induction k as [|k IH]; intros l; [now rewrite Nat.add_0_r|]. rewrite Nat.add_succ_r. destruct l as [|x l]; [now rewrite !skipn_nil|].
  cbn [skipn]. apply IH.
Qed.
Lemma row_concat {A} a (rows : list (list A)) : Forall (fun x => List.length x = a) rows ->
  forall r, r < List.length rows -> row a r (List.concat rows) = nth r rows [].
Proof.
  unfold row, slice. induction 1 as [|x rows Hx H IH]; intros r Hr; [cbn [List.length] in Hr; lia|]. cbn [List.concat].
  destruct r as [|r].
  - cbn [Nat.mul skipn nth]. rewrite firstn_app. rewrite firstn_all2 by lia. replace (a - List.length x) with 0 by lia. cbn [firstn].
    apply app_nil_r.
  - cbn [nth]. rewrite <- IH by (cbn [List.length] in Hr; lia). f_equal. rewrite skipn_app. rewrite skipn_all2 by lia.
    cbn [app]. f_equal. lia.
Qed.
Lemma concat_uniform {A} a (rows : list (list A)) : Forall (fun x => List.length x = a) rows -> List.length (List.concat rows) = List.length rows * a.
Proof. induction 1 as [|x rows Hx H IH]; [reflexivity|]. cbn [List.concat List.length]. rewrite app_length, IH. lia. Qed.
Lemma as_array_uniform a rows : Forall (fun x : list nat => List.length x = a) rows ->
  as_array rows = Ok ((if List.length rows =? 0 then [] else [a]), List.concat rows).
Proof.
  intros H. unfold as_array. destruct H as [|x rows Hx H]; [reflexivity|]. rewrite Hx. cbn [List.length].
  replace (forallb (fun y => List.length y =? a) (x :: rows)) with true; [reflexivity|]. symmetry. apply forallb_forall.
  intros y [<-|Hy]; [lia|]. rewrite Forall_forall in H. specialize (H y Hy). lia.
Qed.
Variables a b : nat.
Hypothesis U : forall s, List.length (fst (tok s)) = a /\ List.length (snd (tok s)) = b.
Lemma repeat_map {A B} (f : A -> B) n x : map f (repeat x n) = repeat (f x) n.
Proof. induction n as [|n IH]; [reflexivity|]. cbn [repeat map]. now rewrite IH. Qed.
Lemma tokenize_rows pre n data rows :
  List.length rows = prod pre -> pre <> [] ->
  (if n =? 0 then Ok (repeat (tok []) (prod pre)) else mapM (sentence tok) (chunks n (List.length data / n) data)) = Ok rows ->
  (forall r, r < prod pre -> nth r rows (tok []) = tok (strip blank (row n r data))) ->
  exists c, tokenize_array tok (pre ++ [n]) data = Ok c /\ tokens_at tok a b (pre ++ [n]) data c.
Proof.
  intros L Hp E C. unfold tokenize_array. rewrite unsnoc_app. destruct pre as [|p0 pre0] eqn:Epre; [congruence|]. rewrite <- Epre in *.
  rewrite E. cbn [bind].
  assert (Ft : forall x, In x rows -> exists s, x = tok s).
  { intros x Hx. destruct (In_nth _ _ (tok []) Hx) as (r & Hr & <-). rewrite L in Hr. exists (strip blank (row n r data)). now apply C. }
  assert (F1 : Forall (fun x => List.length x = a) (map fst rows)).
  { apply Forall_forall. intros x Hx. apply in_map_iff in Hx. destruct Hx as (y & <- & Hy). destruct (Ft y Hy) as (s & ->). apply U. }
  assert (F2 : Forall (fun x => List.length x = b) (map snd rows)).
  { apply Forall_forall. intros x Hx. apply in_map_iff in Hx. destruct Hx as (y & <- & Hy). destruct (Ft y Hy) as (s & ->). apply U. }
  rewrite (as_array_uniform a _ F1), (as_array_uniform b _ F2). cbn [bind fst snd]. rewrite !map_length, L. unfold reshape.
  assert (P : forall d, prod (pre ++ (if prod pre =? 0 then [] else [d])) = prod pre * d).
  { intros d. destruct (Nat.eqb_spec (prod pre) 0) as [Z|Z]; [now rewrite app_nil_r, Z|apply prod_snoc]. }
  rewrite !P, (concat_uniform a _ F1), (concat_uniform b _ F2), !map_length, L, !Nat.eqb_refl. cbn [bind].
  eexists. split; [reflexivity|]. unfold tokens_at. exists pre, n, (List.concat (map fst rows)), (List.concat (map snd rows)).
  split; [reflexivity|]. split; [reflexivity|]. rewrite (concat_uniform a _ F1), (concat_uniform b _ F2), !map_length, L.
  split; [reflexivity|]. split; [reflexivity|]. intros r Hr. rewrite (row_concat a _ F1), (row_concat b _ F2) by (rewrite map_length; lia).
  rewrite <- C by exact Hr.
  replace (nth r (map fst rows) []) with (nth r (map fst rows) (fst (tok []))) by (apply nth_indep; rewrite map_length; lia).
  replace (nth r (map snd rows) []) with (nth r (map snd rows) (snd (tok []))) by (apply nth_indep; rewrite map_length; lia).
  rewrite !map_nth. now destruct (nth r rows (tok [])).
Qed.
Lemma row_zero {A} r (l : list A) : row 0 r l = [].
Proof. reflexivity. Qed.
Lemma chunks_In {A} k c (l : list A) x : In x (chunks k c l) -> exists r, r < c /\ x = row k r l.
Proof.
  intros H. destruct (In_nth _ _ [] H) as (r & Hr & <-). rewrite chunks_length in Hr. exists r. split; [exact Hr|]. now apply nth_chunks.
Qed.
Lemma mapM_ok {A B} (f : A -> res B) g l : (forall x, In x l -> f x = Ok (g x)) -> mapM f l = Ok (map g l).
Proof.
  induction l as [|x l IH]; intros H; [reflexivity|]. cbn [mapM map]. rewrite H by now left. cbn [bind].
  rewrite IH by (intros; apply H; now right). reflexivity.
Qed.
Lemma mapM_inv {A B} (f : A -> res B) l : forall r, mapM f l = Ok r -> forall x, In x l -> exists y, f x = Ok y.
Proof.
  induction l as [|x l IH]; intros r H y Hy; [easy|]. cbn [mapM] in H. destruct (f x) as [z|] eqn:E; [|discriminate]. cbn [bind] in H.
  destruct (mapM f l) as [zs|] eqn:E2; [|discriminate]. destruct Hy as [<-|Hy]; [now exists z|]. now apply (IH zs).
Qed.
Lemma tokenize_array_ok shape data : List.length data = prod shape -> texts shape data ->
  exists c, tokenize_array tok shape data = Ok c /\ tokens_at tok a b shape data c.
Proof.
  intros L (pre & n & -> & Hp & T). rewrite prod_snoc in L. destruct (Nat.eqb_spec n 0) as [->|Z].
  - apply (tokenize_rows pre 0 data (repeat (tok []) (prod pre))); [apply repeat_length|exact Hp|reflexivity|].
    intros r Hr. rewrite nth_repeat. rewrite row_zero. reflexivity.
  - assert (D : List.length data / n = prod pre) by (rewrite L; now apply Nat.div_mul).
    apply (tokenize_rows pre n data (map (fun x => tok (strip blank x)) (chunks n (prod pre) data))).
    + now rewrite map_length, chunks_length.
    + exact Hp.
    + replace (n =? 0) with false by lia. rewrite D. apply mapM_ok. intros x Hx. apply chunks_In in Hx. destruct Hx as (r & Hr & ->).
      apply sentence_text. now apply T.
    + intros r Hr. set (f := fun x => tok (strip blank x)). rewrite (nth_indep _ _ (f [])) by (rewrite map_length, chunks_length; exact Hr).
      rewrite (map_nth f). now rewrite nth_chunks.
Qed.
Lemma tokenize_array_inv shape data c : List.length data = prod shape -> tokenize_array tok shape data = Ok c -> texts shape data.
Proof.
  intros L H. unfold tokenize_array in H. destruct (unsnoc shape) as [[pre n]|] eqn:E; [|discriminate]. apply unsnoc_inv in E. subst shape.
  rewrite prod_snoc in L. exists pre, n. split; [reflexivity|]. destruct pre as [|p0 pre0] eqn:Ep; [discriminate|]. rewrite <- Ep in *.
  split; [rewrite Ep; discriminate|]. intros r Hr. destruct (Nat.eqb_spec n 0) as [->|Z].
  - rewrite row_zero. reflexivity.
  - assert (D : List.length data / n = prod pre) by (rewrite L; now apply Nat.div_mul). rewrite D in H.
    destruct (mapM (sentence tok) (chunks n (prod pre) data)) as [rows|] eqn:M; [|discriminate].
    destruct (mapM_inv _ _ _ M (row n r data)) as (y & Hy); [|now apply (sentence_inv _ y)].
    rewrite <- (nth_chunks n (prod pre)) by exact Hr. apply nth_In. now rewrite chunks_length.
Qed.
End Enc.

(** ** Contexts *)
Fixpoint ctx_ind' (P : ctx -> Prop) (HD : forall l, Forall (fun e => P (snd e)) l -> P (Dict l))
  (HB : forall s d, P (Bytes s d)) (HI : forall s d, P (Ints s d)) (HO : forall i, P (Other i)) (c : ctx) : P c :=
  match c with
  | Dict l => HD l ((fix go (l : list (string * ctx)) : Forall (fun e => P (snd e)) l :=
                       match l with [] => Forall_nil _ | e :: t => Forall_cons e (ctx_ind' P HD HB HI HO (snd e)) (go t) end) l)
  | Bytes s d => HB s d
  | Ints s d => HI s d
  | Other i => HO i
  end.
Definition dictM (f : ctx -> res ctx) := fix go (l : list (string * ctx)) : res (list (string * ctx)) :=
  match l with [] => Ok [] | (k, x) :: t => do y <- f x ;; do r <- go t ;; Ok ((k, y) :: r) end.
Lemma tokenize_dict tok l : tokenize tok (Dict l) = do l' <- dictM (tokenize tok) l ;; Ok (Dict l').
Proof. reflexivity. Qed.
Lemma extract_dict sl l : extract sl (Dict l) = do l' <- dictM (extract sl) l ;; Ok (Dict l').
Proof. reflexivity. Qed.
Lemma dictM_ok f l l' : dictM f l = Ok l' -> Forall2 (fun e e' => fst e' = fst e /\ f (snd e) = Ok (snd e')) l l'.
Proof.
  revert l'. induction l as [|[k x] l IH]; intros l' H; cbn [dictM] in H; [injection H as <-; constructor|].
  destruct (f x) as [y|] eqn:E; [|discriminate]. cbn [bind] in H. fold (dictM f) in H. destruct (dictM f l) as [r|] eqn:Er; [|discriminate].
  injection H as <-. constructor; [now split|]. now apply IH.
Qed.
Lemma dictM_all f l : (forall e, In e l -> exists y, f (snd e) = Ok y) -> exists l', dictM f l = Ok l'.
Proof.
  induction l as [|[k x] l IH]; intros H; [now exists []|]. destruct (H (k, x)) as (y & Hy); [now left|]. cbn [snd] in Hy.
  destruct IH as (r & Hr); [intros e He; apply H; now right|]. exists ((k, y) :: r). cbn [dictM]. rewrite Hy. cbn [bind]. fold (dictM f). now rewrite Hr.
Qed.
Lemma dict_wf l : well_formed (Dict l) -> NoDup (map fst l) /\ Forall (fun e => well_formed (snd e)) l.
Proof.
  cbn [well_formed]. intros [N H]. split; [exact N|]. clear N. induction l as [|e l IH]; constructor; [apply H|]. now apply IH.
Qed.
Lemma find_forall2 (f : ctx -> res ctx) (l : list (string * ctx)) l' k e :
  Forall2 (fun e e' => fst e' = fst e /\ f (snd e) = Ok (snd e')) l l' ->
  find (fun x => String.eqb (fst x) k) l = Some e ->
  exists e', find (fun x => String.eqb (fst x) k) l' = Some e' /\ f (snd e) = Ok (snd e').
Proof.
  induction 1 as [|x x' l l' [E1 E2] H IH]; intros F; cbn [find] in F; [discriminate|]. cbn [find]. rewrite E1.
  destruct (String.eqb (fst x) k).
  - injection F as <-. now exists x'.
  - now apply IH.
Qed.
Lemma forall2_keys f (l l' : list (string * ctx)) :
  Forall2 (fun e e' => fst e' = fst e /\ f (snd e) = Ok (snd e')) l l' -> map fst l' = map fst l.
Proof. induction 1 as [|x x' l l' [E1 _] H IH]; [reflexivity|]. cbn [map]. now rewrite E1, IH. Qed.
Lemma find_key {A} (l : list (string * A)) e : NoDup (map fst l) -> In e l -> find (fun x => String.eqb (fst x) (fst e)) l = Some e.
Proof.
  induction l as [|x l IH]; intros N H; [easy|]. cbn [map] in N. inversion N as [|? ? N1 N2]. subst. cbn [find]. destruct H as [->|H].
  - now rewrite String.eqb_refl.
  - destruct (String.eqb_spec (fst x) (fst e)) as [E|_]; [|now apply IH]. exfalso. apply N1. rewrite E. now apply in_map.
Qed.
Lemma tokenize_result tok a b :
  (forall s, List.length (fst (tok s)) = a /\ List.length (snd (tok s)) = b) ->
  forall c, well_formed c -> forall c', tokenize tok c = Ok c' ->
  forall path x, at_path c path = Some x -> tokenized tok a b x (at_path c' path).
Proof.
  intros U. apply (ctx_ind' (fun c => well_formed c -> forall c', tokenize tok c = Ok c' ->
    forall path x, at_path c path = Some x -> tokenized tok a b x (at_path c' path))).
  - intros l IH W c' H path x A. rewrite tokenize_dict in H. destruct (dictM (tokenize tok) l) as [l'|] eqn:E; [|discriminate].
    injection H as <-. apply dictM_ok in E. apply dict_wf in W. destruct W as [_ W].
    destruct path as [|k path]; cbn [at_path] in *.
    + injection A as <-. exists l'. split; [reflexivity|]. now apply forall2_keys in E.
    + destruct (find (fun e => String.eqb (fst e) k) l) as [e|] eqn:F; [|discriminate].
      destruct (find_forall2 _ _ _ _ _ E F) as (e' & -> & Ee). apply find_some in F. destruct F as [Hin _].
      rewrite Forall_forall in IH, W. now apply (IH e Hin (W e Hin)).
  - intros s d W c' H path x A. cbn [tokenize well_formed] in *. destruct path as [|k path]; [|discriminate]. injection A as <-.
    cbn [at_path tokenized]. exists c'. split; [reflexivity|].
    destruct (tokenize_array_ok tok a b U s d W (tokenize_array_inv tok s d c' W H)) as (c & E & T). congruence.
  - intros s d W c' H path x A. cbn [tokenize] in H. injection H as <-. destruct path; [|discriminate]. injection A as <-. reflexivity.
  - intros i W c' H path x A. cbn [tokenize] in H. injection H as <-. destruct path; [|discriminate]. injection A as <-. reflexivity.
Qed.
Lemma tokenize_total tok a b :
  (forall s, List.length (fst (tok s)) = a /\ List.length (snd (tok s)) = b) ->
  forall c, well_formed c ->
  (exists c', tokenize tok c = Ok c') <-> (forall path s d, at_path c path = Some (Bytes s d) -> texts s d).
Proof.
  intros U. apply (ctx_ind' (fun c => well_formed c ->
    (exists c', tokenize tok c = Ok c') <-> (forall path s d, at_path c path = Some (Bytes s d) -> texts s d))).
  - intros l IH W. apply dict_wf in W. destruct W as [N W]. rewrite Forall_forall in IH, W. split.
    + intros (c' & H) path s d A. rewrite tokenize_dict in H. destruct (dictM (tokenize tok) l) as [l'|] eqn:E; [|discriminate].
      apply dictM_ok in E. destruct path as [|k path]; cbn [at_path] in A; [discriminate|].
      destruct (find (fun e => String.eqb (fst e) k) l) as [e|] eqn:F; [|discriminate].
      destruct (find_forall2 _ _ _ _ _ E F) as (e' & _ & Ee). apply find_some in F. destruct F as [Hin _].
      apply (IH e Hin (W e Hin)) with (path := path); [now exists (snd e')|exact A].
    + intros T. rewrite tokenize_dict. destruct (dictM_all (tokenize tok) l) as (l' & El).
      * intros e He. apply (IH e He (W e He)). intros path s d A. apply (T (fst e :: path)). cbn [at_path]. now rewrite (find_key l e N He).
      * exists (Dict l'). now rewrite El.
  - intros s d W. cbn [well_formed tokenize] in *. split.
    + intros (c' & H) path s' d' A. destruct path; [|discriminate]. injection A as <- <-. now apply (tokenize_array_inv tok s d c').
    + intros T. destruct (tokenize_array_ok tok a b U s d W (T [] s d eq_refl)) as (c & E & _). now exists c.
  - intros s d _. split; [|intros _; now exists (Ints s d)]. intros _ path s' d' A. destruct path; discriminate.
  - intros i _. split; [|intros _; now exists (Other i)]. intros _ path s' d' A. destruct path; discriminate.
Qed.

(** ** Tokens made before: a row is the tokens and the mask. *)
Lemma chunks_uniform {A} k (rows : list (list A)) : Forall (fun x => List.length x = k) rows ->
  chunks k (List.length rows) (List.concat rows) = rows.
Proof.
  induction 1 as [|x rows Hx H IH]; [reflexivity|]. cbn [List.length chunks List.concat].
  rewrite firstn_app, firstn_all2 by lia. replace (k - List.length x) with 0 by lia. cbn [firstn]. rewrite app_nil_r.
  rewrite skipn_app, skipn_all2 by lia. replace (k - List.length x) with 0 by lia. cbn [app skipn]. now rewrite IH.
Qed.
Section Offline.
Variable tok : list N -> list nat * list nat.
Variables a sl : nat.
Hypothesis U : forall s, List.length (fst (tok s)) = a /\ List.length (snd (tok s)) = sl.
Hypothesis Hsl : 0 < sl.
Definition stored (ts : list (list N)) : ctx :=
  Ints [List.length ts; a + sl] (List.concat (map (fun s => fst (tok s) ++ snd (tok s)) ts)).
Definition matrices (ts : list (list N)) : ctx :=
  Dict [(encoder_seq, Ints [List.length ts; a] (List.concat (map (fun s => fst (tok s)) ts)));
        (encoder_mask, Ints [List.length ts; sl] (List.concat (map (fun s => snd (tok s)) ts)))].
Lemma extract_stored ts : extract sl (stored ts) = Ok (matrices ts).
Proof.
  unfold stored. cbn [extract]. unfold extract_array.
  change ([List.length ts; a + sl]) with ([List.length ts] ++ [a + sl]) at 1. rewrite unsnoc_app.
  replace (a + sl <? sl) with false by lia. change (prod []) with 1. rewrite !Nat.mul_1_r.
  set (rows := map (fun s => fst (tok s) ++ snd (tok s)) ts).
  assert (F : Forall (fun x => List.length x = a + sl) rows).
  { apply Forall_forall. intros x Hx. apply in_map_iff in Hx. destruct Hx as (s & <- & _). rewrite app_length. destruct (U s). lia. }
  replace (List.length ts) with (List.length rows) by (unfold rows; now rewrite map_length).
  rewrite chunks_uniform by exact F. unfold cut_rows. replace (sl =? 0) with false by lia.
  replace (a + sl - sl) with a by lia. replace (Nat.min sl (a + sl)) with sl by lia.
  assert (E1 : map (firstn a) rows = map (fun s => fst (tok s)) ts).
  { unfold rows. rewrite map_map. apply map_ext. intros s. destruct (U s) as [U1 _]. rewrite firstn_app, firstn_all2 by lia.
    replace (a - List.length (fst (tok s))) with 0 by lia. cbn [firstn]. apply app_nil_r. }
  assert (E2 : map (skipn a) rows = map (fun s => snd (tok s)) ts).
  { unfold rows. rewrite map_map. apply map_ext. intros s. destruct (U s) as [U1 _]. rewrite skipn_app, skipn_all2 by lia.
    replace (a - List.length (fst (tok s))) with 0 by lia. reflexivity. }
  rewrite E1, E2. unfold reshape. cbn [app]. change (prod [List.length rows; a]) with (1 * List.length rows * a).
  change (prod [List.length rows; sl]) with (1 * List.length rows * sl).
  assert (G1 : Forall (fun x => List.length x = a) (map (fun s => fst (tok s)) ts)).
  { apply Forall_forall. intros x Hx. apply in_map_iff in Hx. destruct Hx as (s & <- & _). apply U. }
  assert (G2 : Forall (fun x => List.length x = sl) (map (fun s => snd (tok s)) ts)).
  { apply Forall_forall. intros x Hx. apply in_map_iff in Hx. destruct Hx as (s & <- & _). apply U. }
  rewrite (concat_uniform a _ G1), (concat_uniform sl _ G2), !map_length.
  replace (List.length rows) with (List.length ts) by (unfold rows; now rewrite map_length).
  rewrite !Nat.mul_1_l, !Nat.eqb_refl. cbn [bind]. reflexivity.
Qed.
Definition written (n : nat) (ts : list (list N)) : ctx := Bytes [List.length ts; n] (List.concat (map (padded n) ts)).
Lemma padded_length n v : List.length (padded n v) = n.
Proof. unfold padded. rewrite app_length, firstn_length, repeat_length. lia. Qed.
Lemma tokenize_written n ts : ts <> [] -> 0 < n ->
  Forall (fun s => is_text s /\ boundary s n /\ strip blank (firstn n s) = firstn n s) ts ->
  tokenize tok (written n ts) = Ok (matrices (map (firstn n) ts)).
Proof.
  intros Hn Pn F. unfold written. cbn [tokenize]. unfold tokenize_array.
  change ([List.length ts; n]) with ([List.length ts] ++ [n]). rewrite unsnoc_app.
  assert (Fp : Forall (fun x => List.length x = n) (map (padded n) ts)).
  { apply Forall_forall. intros x Hx. apply in_map_iff in Hx. destruct Hx as (s & <- & _). apply padded_length. }
  replace (n =? 0) with false by lia.
  replace (List.length (List.concat (map (padded n) ts)) / n) with (List.length (map (padded n) ts)).
  2:{ rewrite (concat_uniform n _ Fp). symmetry. apply Nat.div_mul. lia. }
  rewrite chunks_uniform by exact Fp.
  assert (M : mapM (sentence tok) (map (padded n) ts) = Ok (map (fun s => tok (firstn n s)) ts)).
  { clear - F. induction F as [|s ts (H1 & H2 & H3) F IH]; [reflexivity|]. cbn [map mapM]. rewrite sentence_padded by assumption.
    rewrite H3. cbn [bind]. now rewrite IH. }
  rewrite M. cbn [bind]. set (us := map (firstn n) ts).
  replace (map (fun s => tok (firstn n s)) ts) with (map tok us) by (unfold us; now rewrite map_map). rewrite !map_map.
  assert (G1 : Forall (fun x => List.length x = a) (map (fun s => fst (tok s)) us)).
  { apply Forall_forall. intros x Hx. apply in_map_iff in Hx. destruct Hx as (s & <- & _). apply U. }
  assert (G2 : Forall (fun x => List.length x = sl) (map (fun s => snd (tok s)) us)).
  { apply Forall_forall. intros x Hx. apply in_map_iff in Hx. destruct Hx as (s & <- & _). apply U. }
  rewrite (as_array_uniform a _ G1), (as_array_uniform sl _ G2). cbn [bind fst snd]. rewrite !map_length.
  assert (Lu : List.length us = List.length ts) by (unfold us; now rewrite map_length).
  replace (List.length us =? 0) with false by (destruct ts; [congruence|]; rewrite Lu; reflexivity).
  unfold reshape. rewrite !prod_snoc. unfold prod. cbn [fold_left]. rewrite !Nat.mul_1_l.
  rewrite (concat_uniform a _ G1), (concat_uniform sl _ G2), !map_length, Lu, !Nat.eqb_refl. cbn [bind].
  unfold matrices. rewrite Lu. reflexivity.
Qed.
End Offline.

(** A matrix of stored tokens of any width: the assertion for rows that are too short, and a mask of
    no columns ([:, :-0] keeps nothing, [:, -0:] everything). *)
Lemma extract_matrix sl w (rows : list (list nat)) : Forall (fun r => List.length r = w) rows ->
  extract sl (Ints [List.length rows; w] (List.concat rows)) =
  (if w <? sl then Fail EAssert
   else let k := match sl with 0 => 0 | S _ => w - sl end in
     Ok (Dict [(encoder_seq, Ints [List.length rows; k] (List.concat (map (firstn k) rows)));
               (encoder_mask, Ints [List.length rows; w - k] (List.concat (map (skipn k) rows)))])).
Proof.
  intros F. cbn [extract]. unfold extract_array.
  change ([List.length rows; w]) with ([List.length rows] ++ [w]) at 1. rewrite unsnoc_app.
  destruct (w <? sl) eqn:E; [reflexivity|]. cbv zeta. change (prod []) with 1. rewrite !Nat.mul_1_r.
  rewrite chunks_uniform by exact F.
  set (k := match sl with 0 => 0 | S _ => w - sl end).
  assert (C : cut_rows sl w rows = (map (firstn k) rows, map (skipn k) rows)).
  { unfold cut_rows, k. destruct sl; [|reflexivity]. cbn [Nat.eqb]. f_equal.
    induction rows as [|r t IH]; [reflexivity|]. cbn [map skipn]. f_equal. inversion F; subst. now apply IH. }
  rewrite C.
  assert (K1 : (if sl =? 0 then 0 else w - sl) = k) by (unfold k; now destruct sl).
  assert (K2 : (if sl =? 0 then w else Nat.min sl w) = w - k) by (unfold k; destruct sl; cbn [Nat.eqb]; lia).
  assert (K3 : k <= w) by (unfold k; destruct sl; lia).
  rewrite K1, K2.
  assert (G1 : Forall (fun x => List.length x = k) (map (firstn k) rows)).
  { apply Forall_forall. intros x Hx. apply in_map_iff in Hx. destruct Hx as (r & <- & Hr).
    rewrite Forall_forall in F. specialize (F r Hr). rewrite firstn_length. lia. }
  assert (G2 : Forall (fun x => List.length x = w - k) (map (skipn k) rows)).
  { apply Forall_forall. intros x Hx. apply in_map_iff in Hx. destruct Hx as (r & <- & Hr).
    rewrite Forall_forall in F. specialize (F r Hr). rewrite skipn_length. lia. }
  unfold reshape. rewrite (concat_uniform k _ G1), (concat_uniform (w - k) _ G2), !map_length. cbn [app].
  change (prod [List.length rows; k]) with (1 * List.length rows * k).
  change (prod [List.length rows; w - k]) with (1 * List.length rows * (w - k)).
  rewrite !Nat.mul_1_l, !Nat.eqb_refl. reflexivity.
Qed.
