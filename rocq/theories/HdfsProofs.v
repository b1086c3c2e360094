(** Remote files: proofs. *)
From Coq Require Import Ascii String.
From Verif Require Import Base FilesModel FilesProofs StorageModel HdfsModel HdfsSpec.
From Coq Require Import ZifyBool ZifyNat.
Import ListNotations.
Local Open Scope list_scope.
Local Notation length := List.length.

Section Read.
Variable B : nat.
Hypothesis HB : 0 < B.

Lemma taken_split k asked rest b rest' : taken k asked rest = (b, rest') -> b ++ rest' = rest /\ length b = Nat.min (Nat.min k asked) (length rest).
Proof using Type. unfold taken. intro H. injection H as <- <-. split; [apply firstn_skipn|apply firstn_length]. Qed.
Lemma part_sound answers rest want b rest' answers' : part answers rest want = Ok (b, rest', answers') -> b ++ rest' = rest /\ length b = want.
Proof using Type.
  clear HB. unfold part. destruct (next answers want) as [[k|] a1].
  - destruct (taken k want rest) as [b1 r1] eqn:E1. apply taken_split in E1 as [E1 L1]. destruct (length b1 <? want) eqn:W.
    + destruct (next a1 _) as [[k2|] a2]; [|discriminate]. destruct (taken k2 _ r1) as [b2 r2] eqn:E2. apply taken_split in E2 as [E2 L2].
      destruct (_ =? want) eqn:Q; [|discriminate]. intro H. injection H as <- <- <-. rewrite <- app_assoc, E2, app_length. split; [exact E1|lia].
    + intro H. injection H as <- <- <-. split; [exact E1|lia].
  - destruct (next a1 _) as [[k2|] a2]; [|discriminate]. destruct (fst _); discriminate.
Qed.
Lemma loop_sound fuel : forall answers rest n out rest' answers', read_loop B fuel answers rest n = Ok (out, rest', answers') -> out ++ rest' = rest /\ length out = n.
Proof using HB.
  induction fuel as [|fuel IH]; intros answers rest n out rest' answers'; cbn [read_loop]; [discriminate|]. destruct (n =? 0) eqn:N0.
  - intro H. injection H as <- <- <-. split; [reflexivity|cbn; lia].
  - destruct (part _ _ _) as [[[b r1] a1]|e] eqn:E; [|discriminate]. cbn [bind]. apply part_sound in E as [E L].
    destruct (read_loop B fuel a1 r1 _) as [[[o r2] a2]|e] eqn:E2; [|discriminate]. cbn [bind]. intro H. injection H as <- <- <-.
    apply IH in E2 as [E2 L2]. rewrite <- app_assoc, E2, app_length. split; [exact E|lia].
Qed.
Lemma read_sound answers rest n out rest' answers' : hdfs_read B answers rest n = Ok (out, rest', answers') -> out = firstn n rest /\ rest' = skipn n rest /\ n <= length rest.
Proof using HB.
  intro H. apply loop_sound in H as [E L]. subst rest n. rewrite firstn_app, firstn_all, Nat.sub_diag, app_nil_r, skipn_app, skipn_all, Nat.sub_diag, app_length.
  split; [reflexivity|]. split; [reflexivity|lia].
Qed.
(** No answers make the loop run out of fuel. *)
Lemma loop_fuel fuel : forall answers rest n, n < fuel -> read_loop B fuel answers rest n <> Fail EFuel.
Proof using HB.
  induction fuel as [|fuel IH]; intros answers rest n Hn; [lia|]. cbn [read_loop]. destruct (n =? 0) eqn:N0; [discriminate|].
  destruct (part _ _ _) as [[[b r1] a1]|e] eqn:E.
  - cbn [bind]. apply part_sound in E as [E L]. specialize (IH a1 r1 (n - length b) ltac:(lia)).
    destruct (read_loop B fuel a1 r1 _) as [[[o r2] a2]|e]; cbn [bind]; [discriminate|exact IH].
  - cbn [bind]. intro H. injection H as ->. revert E. unfold part. destruct (next answers _) as [[k|] x].
    + destruct (taken _ _ _) as [b1 r1]. destruct (_ <? _); [|intro X; discriminate X]. destruct (next x _) as [[k2|] y]; [|intro X; discriminate X].
      destruct (taken _ _ _). match goal with |- (if ?b then _ else _) = _ -> _ => destruct b end; intro X; discriminate X.
    + destruct (next x _) as [[k2|] y]; [|intro X; discriminate X]. destruct (fst _); intro X; discriminate X.
Qed.

(** Answers of at least half a buffer. *)
Definition prompt (a : answer) : Prop := exists k, a = Some k /\ B <= 2 * k.
Lemma next_prompt answers asked : Forall prompt answers -> exists k answers', next answers asked = (Some k, answers') /\ (B <= 2 * k \/ asked <= k) /\ Forall prompt answers'.
Proof using Type.
  intro H. destruct answers as [|a t]; cbn [next]; [exists asked, []; auto|]. pose proof (Forall_inv H) as (k & -> & Hk). apply Forall_inv_tail in H. exists k, t. auto.
Qed.
Lemma part_prompt answers rest want : Forall prompt answers -> want <= B ->
  (want <= length rest -> exists answers', part answers rest want = Ok (firstn want rest, skipn want rest, answers') /\ Forall prompt answers') /\
  (length rest < want -> part answers rest want = Fail EFatal).
Proof using Type.
  clear HB. intros HP Hw. unfold part. destruct (next_prompt answers want HP) as (k & a1 & -> & Hk & HP1).
  destruct (taken k want rest) as [b1 r1] eqn:E1. apply taken_split in E1 as [E1 L1].
  destruct (length b1 <? want) eqn:W.
  - destruct (next_prompt a1 (want - length b1) HP1) as (k2 & a2 & -> & Hk2 & HP2).
    destruct (taken k2 _ r1) as [b2 r2] eqn:E2. apply taken_split in E2 as [E2 L2]. assert (length rest = length b1 + length r1) by (rewrite <- E1, app_length; reflexivity).
    split; intro Hl.
    + replace (length b1 + length b2 =? want) with true by lia. exists a2. split; [|exact HP2]. subst rest r1. rewrite app_assoc.
      assert (Lw : length (b1 ++ b2) = want) by (rewrite app_length; lia). rewrite firstn_app, skipn_app, Lw, Nat.sub_diag, app_nil_r.
      rewrite <- Lw, firstn_all, skipn_all. reflexivity.
    + replace (length b1 + length b2 =? want) with false by lia. reflexivity.
  - split; intro Hl; [|lia]. exists a1. split; [|exact HP1]. subst rest. assert (Lw : length b1 = want) by lia.
    rewrite firstn_app, skipn_app, Lw, Nat.sub_diag, app_nil_r, <- Lw, firstn_all, skipn_all. reflexivity.
Qed.
Lemma loop_prompt fuel : forall answers rest n, Forall prompt answers -> n < fuel ->
  (n <= length rest -> exists answers', read_loop B fuel answers rest n = Ok (firstn n rest, skipn n rest, answers')) /\
  (length rest < n -> read_loop B fuel answers rest n = Fail EFatal).
Proof using HB.
  induction fuel as [|fuel IH]; intros answers rest n HP Hn; [lia|]. cbn [read_loop]. destruct (n =? 0) eqn:N0.
  - split; [|lia]. intros _. exists answers. replace n with 0 by lia. reflexivity.
  - destruct (part_prompt answers rest (Nat.min n B) HP ltac:(lia)) as [H1 H2].
    destruct (Nat.le_gt_cases (Nat.min n B) (length rest)) as [Hle|Hgt].
    + destruct (H1 Hle) as (a1 & -> & HP1). cbn [bind]. rewrite firstn_length.
      replace (n - Nat.min (Nat.min n B) (length rest)) with (n - Nat.min n B) by lia.
      destruct (IH a1 (skipn (Nat.min n B) rest) (n - Nat.min n B) HP1 ltac:(lia)) as [I1 I2]. rewrite skipn_length in I1, I2. split; intro Hl.
      * destruct I1 as (a2 & ->); [lia|]. cbn [bind]. exists a2. f_equal. f_equal. f_equal.
        { rewrite <- (firstn_skipn (Nat.min n B) rest) at 3. rewrite firstn_app, firstn_length, firstn_firstn.
          replace (Nat.min n (Nat.min n B)) with (Nat.min n B) by lia. f_equal. f_equal. lia. }
        { rewrite <- (firstn_skipn (Nat.min n B) rest) at 2. rewrite skipn_app, firstn_length.
          rewrite (skipn_all2 (firstn (Nat.min n B) rest)) by (rewrite firstn_length; lia). cbn [app]. f_equal. lia. }
      * rewrite I2 by lia. reflexivity.
    + rewrite (H2 Hgt). split; [lia|]. reflexivity.
Qed.
Lemma read_prompt answers rest n : Forall prompt answers ->
  (n <= length rest -> exists answers', hdfs_read B answers rest n = Ok (firstn n rest, skipn n rest, answers')) /\
  (length rest < n -> hdfs_read B answers rest n = Fail EFatal).
Proof using HB. intro H. apply loop_prompt; [exact H|lia]. Qed.
Lemma read_remote answers file pos n : Forall prompt answers -> pos <= length file ->
  (do x <- hdfs_read B answers (skipn pos file) n ;; Ok (fst (fst x))) = remote_read file pos n.
Proof using HB.
  intros H Hp. destruct (read_prompt answers (skipn pos file) n H) as [H1 H2]. rewrite skipn_length in *. unfold remote_read, bytes_at. destruct (pos + n <=? length file) eqn:E.
  - destruct H1 as (a & ->); [lia|]. reflexivity.
  - rewrite H2 by lia. reflexivity.
Qed.

Lemma short_fails k1 k2 answers rest n : k1 + k2 < B -> B <= n -> hdfs_read B (Some k1 :: Some k2 :: answers) rest n = Fail EFatal.
Proof using HB.
  intros Hk Hn. unfold hdfs_read. cbn [read_loop]. replace (n =? 0) with false by lia. replace (Nat.min n B) with B by lia. unfold part. cbn [next].
  destruct (taken k1 B rest) as [b1 r1] eqn:E1. apply taken_split in E1 as [E1 L1]. replace (length b1 <? B) with true by lia.
  destruct (taken k2 _ r1) as [b2 r2] eqn:E2. apply taken_split in E2 as [E2 L2]. replace (length b1 + length b2 =? B) with false by lia. reflexivity.
Qed.
Lemma error_then_data k answers rest n : 0 < k -> rest <> [] -> 0 < n -> hdfs_read B (None :: Some k :: answers) rest n = Fail EUB.
Proof using HB.
  intros Hk Hr Hn. unfold hdfs_read. cbn [read_loop]. replace (n =? 0) with false by lia. unfold part. cbn [next].
  unfold taken. cbn [fst]. destruct rest as [|x rest]; [congruence|]. destruct (Nat.min k (Nat.min n B + 1)) eqn:E; [lia|]. reflexivity.
Qed.

Lemma whole_file width answers file : Forall prompt answers -> 0 < width ->
  (length file mod width = 0 -> read_hdfs B width answers file = Ok file) /\
  (length file mod width <> 0 -> read_hdfs B width answers file = Fail EUB).
Proof using HB.
  intros H Hw. unfold read_hdfs. destruct (read_prompt answers file (length file) H) as [H1 _]. destruct H1 as (a & ->); [lia|]. cbn [bind fst]. rewrite firstn_all.
  pose proof (Nat.div_mod_eq (length file) width). split; intro Hm.
  - replace (_ <? _) with false by lia. reflexivity.
  - replace (_ <? _) with true by lia. reflexivity.
Qed.
End Read.

(** ** Addresses *)
Lemma find_char_free c n : free c n -> find_char c n = None.
Proof.
  unfold free. induction n as [|d n IH]; intro H; [reflexivity|]. cbn [find_char]. destruct (Ascii.eqb_spec c d) as [->|Hne]; [exfalso; apply H; now left|].
  rewrite IH; [reflexivity|]. intro X. apply H. now right.
Qed.
Lemma find_char_app c n r : free c n -> find_char c (n ++ c :: r) = Some (length n).
Proof.
  unfold free. induction n as [|d n IH]; intro H; cbn [app find_char length]; [now rewrite Ascii.eqb_refl|]. destruct (Ascii.eqb_spec c d) as [->|Hne]; [exfalso; apply H; now left|].
  rewrite IH; [reflexivity|]. intro X. apply H. now right.
Qed.
Lemma digits_free c u : digit c = None -> free c (digits u).
Proof.
  intro Hc. unfold free. induction u; cbn [digits In]; try tauto; intros [<-|H]; try (now apply IHu); discriminate Hc.
Qed.
Lemma free_app c a b : free c a -> free c b -> free c (a ++ b).
Proof. unfold free. intros Ha Hb H. apply in_app_or in H as [H|H]; tauto. Qed.

Section Address.
Variables (scheme authority path : nm).
Hypothesis Hs : remote scheme.
Hypothesis Ha1 : free "/" authority.
Hypothesis Ha2 : free ":" authority.
Hypothesis Hp : rooted path.

Lemma head_shape rest : (scheme ++ str "://" ++ rest = str "adl://" ++ rest \/ scheme ++ str "://" ++ rest = str "hdfs://" ++ rest).
Proof using Hs. destruct Hs as [->| ->]; [left|right]; reflexivity. Qed.
Lemma remote_address rest : is_hdfs_path (scheme ++ str "://" ++ rest) = true.
Proof using Hs. destruct (head_shape rest) as [->| ->]; unfold is_hdfs_path; rewrite prefix_app; [reflexivity|]. now rewrite orb_true_r. Qed.
(** The first slash after the beginning and the colon after it. *)
Lemma slash_at rest : find_from "/" 1 (scheme ++ str "://" ++ rest) = Some (length scheme + 1).
Proof using Hs. destruct Hs as [->| ->]; reflexivity. Qed.
Lemma colon_after rest : find_from ":" (length scheme + 1) (scheme ++ str "://" ++ rest) =
  match find_char ":" rest with Some k => Some (length scheme + 3 + k) | None => None end.
Proof using Hs.
  unfold find_from. destruct Hs as [->| ->]; cbn [str list_ascii_of_string app length Nat.add skipn find_char]; destruct (find_char ":" rest); reflexivity.
Qed.
Lemma with_port p : not_file (address scheme authority (Some p) path) -> (Z.of_nat p < 2 ^ 31)%Z ->
  parse_hdfs_path (address scheme authority (Some p) path) = Ok (address scheme authority (Some p) path, scheme ++ str "://" ++ authority, Z.of_nat p).
Proof using Hs Ha1 Ha2 Hp.
  intros Hf Hpn. unfold parse_hdfs_path. unfold address at 1. rewrite remote_address. cbn [negb].
  rewrite (find_sub_none _ _ Hf). set (rest := authority ++ ":"%char :: dec p ++ path).
  assert (E : address scheme authority (Some p) path = scheme ++ str "://" ++ rest) by reflexivity. rewrite E.
  rewrite slash_at, colon_after. assert (F : find_char ":" rest = Some (length authority)) by (apply find_char_app; exact Ha2). rewrite F.
  set (j := length scheme + 3 + length authority).
  assert (H0 : scheme ++ str "://" ++ rest = (scheme ++ str "://" ++ authority) ++ ":"%char :: dec p ++ path) by (unfold rest; now rewrite <- !app_assoc).
  assert (Lh : length (scheme ++ str "://" ++ authority) = j) by (unfold j; rewrite !app_length; cbn [str list_ascii_of_string length]; lia).
  assert (Sj : skipn j (scheme ++ str "://" ++ rest) = ":"%char :: dec p ++ path).
  { rewrite H0, skipn_app, Lh, Nat.sub_diag. rewrite skipn_all2 by lia. reflexivity. }
  assert (Sj1 : skipn (j + 1) (scheme ++ str "://" ++ rest) = dec p ++ path).
  { rewrite H0, skipn_app, Lh. rewrite skipn_all2 by lia. replace (j + 1 - j) with 1 by lia. reflexivity. }
  assert (T : exists r, no_digit r /\ match find_from "/" j (scheme ++ str "://" ++ rest) with
    | Some e => slice (scheme ++ str "://" ++ rest) (j + 1) (e - j - 1) | None => skipn (j + 1) (scheme ++ str "://" ++ rest) end = dec p ++ r).
  { exists []. split; [reflexivity|]. unfold find_from. rewrite Sj. unfold slice. rewrite Sj1. rewrite app_nil_r. destruct Hp as [->|(t & ->)].
    - rewrite find_char_free; [apply app_nil_r|]. rewrite app_nil_r. intros [X|X]; [discriminate|]. revert X. apply digits_free. reflexivity.
    - change (":"%char :: dec p ++ "/"%char :: t) with ((":"%char :: dec p) ++ "/"%char :: t). rewrite find_char_app.
      + cbn [length]. replace (j + S (length (dec p)) - j - 1) with (length (dec p)) by lia. rewrite firstn_app, firstn_all, Nat.sub_diag. apply app_nil_r.
      + intros [X|X]; [discriminate|]. revert X. apply digits_free. reflexivity. }
  destruct T as (r & Hr & ->). rewrite stoi_dec by assumption. cbn [bind]. f_equal. f_equal. f_equal. rewrite H0, firstn_app, Lh, Nat.sub_diag. rewrite firstn_all2 by lia. now rewrite app_nil_r.
Qed.
Lemma without_port : not_file (address scheme authority None path) -> free ":" path ->
  parse_hdfs_path (address scheme authority None path) = Ok (address scheme authority None path, address scheme authority None path, 0%Z).
Proof using Hs Ha2.
  intros Hf Hc. unfold parse_hdfs_path. unfold address at 1. rewrite remote_address. cbn [negb]. rewrite (find_sub_none _ _ Hf).
  assert (E : address scheme authority None path = scheme ++ str "://" ++ authority ++ path) by reflexivity. rewrite E.
  rewrite slash_at, colon_after, find_char_free; [reflexivity|]. now apply free_app.
Qed.
Lemma connected p : not_file (address scheme authority (Some p) path) -> (Z.of_nat p < 65536)%Z ->
  connect (address scheme authority (Some p) path) = Ok (scheme ++ str "://" ++ authority, Z.of_nat p).
Proof using Hs Ha1 Ha2 Hp.
  intros Hf Hpn. unfold connect. rewrite with_port by (exact Hf || lia). cbn [bind fst snd]. f_equal. f_equal. apply Z.mod_small. lia.
Qed.
End Address.

(** ** meta.json in the temporary directory *)
Section Meta.
Context {M : Type}.
Variable mine : nat -> M.
Lemma turns ps : forall (h : @host M), NoDup ps -> (forall p, In p ps -> ~ In p (wrote h)) ->
  got (fold_left (host_step mine) (in_turn ps) h) = got h ++ map (fun p => (p, mine p)) ps.
Proof using Type.
  unfold in_turn. induction ps as [|p ps IH]; intros h Hd Hn; [cbn; now rewrite app_nil_r|]. inversion Hd as [|? ? Hnp Hd']; subst.
  cbn [flat_map app fold_left]. unfold host_step at 2 3.
  replace (existsb (Nat.eqb p) (wrote h)) with false; [|symmetry; apply not_true_iff_false; intro X; apply existsb_exists in X as (q & Hq & E); apply (Hn p); [now left|]; replace p with q by lia; exact Hq].
  cbn [wrote existsb tmp got]. rewrite Nat.eqb_refl. cbn [orb]. rewrite IH; [|exact Hd'|].
  - cbn [got map]. now rewrite <- app_assoc.
  - cbn [wrote]. intros q Hq [X|X]; [now subst|]. apply (Hn q); [now right|exact X].
Qed.
Lemma in_turn_own ps : NoDup ps -> got (host_run mine (in_turn ps)) = map (fun p => (p, mine p)) ps.
Proof using Type. intro H. unfold host_run. rewrite turns; [reflexivity|exact H|]. intros p _ []. Qed.
End Meta.
