(** PPI and Reddit: from the parsed files to the records of the converter. *)
From Coq Require Import Permutation Sorting.Sorted.
From Verif Require MetaProofs.
From Verif Require Import Base SetupModel SetupProofs MetaModel DecoderModel DecoderProofs RawModel RawSpec RawTextProofs RawBuildProofs RawGraphProofs.
Import ListNotations.

Lemma join_start d b c : b <> [] -> join d (join d b :: c) = join d (b ++ c).
Proof.
  induction b as [|x b IH]; [congruence|]. intros _. destruct b as [|y b]; [reflexivity|].
  specialize (IH ltac:(discriminate)). cbn [app]. change (join d (x :: y :: b)) with (x ++ d :: join d (y :: b)).
  change (join d (x :: y :: b ++ c)) with (x ++ d :: join d ((y :: b) ++ c)). rewrite <- IH.
  destruct c as [|z c]; [reflexivity|]. cbn [join]. rewrite <- app_assoc. reflexivity.
Qed.
Lemma join_nested d a b c : b <> [] -> join d (a ++ [join d b] ++ c) = join d (a ++ b ++ c).
Proof.
  intros H. induction a as [|x a IH]; [exact (join_start d b c H)|]. cbn [app]. 
  assert (A : a ++ [join d b] ++ c <> []) by (destruct a; discriminate).
  assert (B : a ++ b ++ c <> []) by (destruct a; [|discriminate]; destruct b; [congruence|discriminate]).
  change (a ++ join d b :: c) with (a ++ [join d b] ++ c).
  assert (J : forall t, t <> [] -> join d (x :: t) = x ++ d :: join d t) by (intros [|? ?] X; [congruence|reflexivity]).
  rewrite !J by assumption. now rewrite IH.
Qed.

Lemma out_ordered tr te : StronglySorted not_after (out_of tr te).
Proof.
  unfold out_of. pose proof (sort_le tr) as S1. pose proof (sort_le te) as S2. induction S1 as [|x l H IH HF]; cbn [map app].
  - induction S2 as [|x l H IH HF]; cbn [map]; constructor; [exact IH|]. rewrite Forall_forall in *. intros e He. apply in_map_iff in He.
    destruct He as (y & <- & Hy). specialize (HF y Hy). right. cbn. lia.
  - constructor; [apply IH|]. rewrite Forall_forall in *. intros e He. apply in_app_or in He.
    destruct He as [He|He]; apply in_map_iff in He; destruct He as (y & <- & Hy).
    + right. cbn. specialize (HF y Hy). lia.
    + left. cbn. lia.
Qed.
Lemma times_app e a b : times e (a ++ b) = times e a + times e b.
Proof. unfold times. now rewrite filter_app, app_length. Qed.
Lemma times_perm e a b : Permutation a b -> times e a = times e b.
Proof.
  unfold times. induction 1 as [|x a b H IH|x y a|a b c H IH H' IH']; [reflexivity| | |congruence]; cbn [filter].
  - destruct (_ && _)%bool; cbn [List.length]; now rewrite IH.
  - destruct (_ && _)%bool, (_ && _)%bool; reflexivity.
Qed.
Lemma times_pair t b s l : times (t, b) (map (pair s) l) = if (s =? t)%Z then List.length (filter (fun x => x =? b)%Z l) else 0.
Proof.
  unfold times. cbn [fst snd]. induction l as [|x l IH]; cbn [map filter fst snd]; [now destruct (s =? t)%Z|].
  destruct (s =? t)%Z; cbn [andb]; [|exact IH]. destruct (x =? b)%Z; cbn [List.length]; now rewrite IH.
Qed.
Definition pairs_count (a b : nat) (l : list (nat * nat)) : nat := List.length (filter (fun p => (fst p =? a) && (snd p =? b)) l).
Lemma nats_count a b l : List.length (filter (fun x => x =? Z.of_nat b)%Z (nats_of a l)) = pairs_count a b l.
Proof.
  unfold nats_of, pairs_count. induction l as [|[x y] l IH]; [reflexivity|]. cbn [filter fst snd]. destruct (x =? a) eqn:E; cbn [map filter snd andb]; [|exact IH].
  replace (Z.of_nat y =? Z.of_nat b)%Z with (y =? b) by lia. destruct (y =? b); cbn [List.length]; now rewrite IH.
Qed.
Definition out_links (adj : list (nat * nat) * list (nat * nat)) (a : nat) : list (Z * Z) := out_of (nats_of a (fst adj)) (nats_of a (snd adj)).
Lemma out_times adj a b c : times (if c : bool then 0 else 1, Z.of_nat b)%Z (out_links adj a) = pairs_count a b (if c then fst adj else snd adj).
Proof.
  unfold out_links, out_of. rewrite times_app.
  rewrite (times_perm _ _ _ (Permutation_map (pair 0%Z) (sort_by_perm Z.leb (nats_of a (fst adj))))).
  rewrite (times_perm _ _ _ (Permutation_map (pair 1%Z) (sort_by_perm Z.leb (nats_of a (snd adj))))).
  rewrite !times_pair, !nats_count. destruct c; cbn; lia.
Qed.
Lemma out_shape adj a e : In e (out_links adj a) -> (fst e = 0 \/ fst e = 1)%Z /\ exists b, snd e = Z.of_nat b.
Proof.
  destruct e as [t b]. unfold out_links. rewrite in_out. intros H.
  assert (N : forall l, In b (nats_of a l) -> exists k, b = Z.of_nat k).
  { intros l X. unfold nats_of in X. apply in_map_iff in X. destruct X as (p & <- & _). eauto. }
  cbn [fst snd]. destruct H as [[-> H]|[-> H]]; (split; [auto|eapply N; exact H]).
Qed.

Lemma pairs_app a b l l' : pairs_count a b (l ++ l') = pairs_count a b l + pairs_count a b l'.
Proof. unfold pairs_count. now rewrite filter_app, app_length. Qed.
Lemma append_both_count keys x y l l' : append_both keys x y l = Ok l' -> forall a b, pairs_count a b l' = pairs_count a b l + links_between [(x, y)] a b.
Proof.
  unfold append_both, append. destruct (existsb (Nat.eqb x) keys); [|discriminate]. cbn [bind]. intros H a b.
  unfold links_between. cbn [filter fst snd].
  destruct (y =? x) eqn:E; cbn [negb] in H.
  - injection H as <-. rewrite pairs_app. unfold pairs_count at 2. cbn [filter fst snd]. apply Nat.eqb_eq in E. subst y.
    destruct (x =? a) eqn:A, (x =? b) eqn:B; cbn; lia.
  - destruct (existsb (Nat.eqb y) keys); [|discriminate]. injection H as <-. rewrite !pairs_app. unfold pairs_count at 2 3. cbn [filter fst snd].
    destruct (x =? a) eqn:A, (y =? b) eqn:B, (y =? a) eqn:C, (x =? b) eqn:D; cbn; lia.
Qed.
Lemma links_cons e l a b : links_between (e :: l) a b = links_between [e] a b + links_between l a b.
Proof. unfold links_between. cbn [filter]. destruct (_ || _)%bool; reflexivity. Qed.
Lemma links_sym l a b : links_between l a b = links_between l b a.
Proof.
  unfold links_between. f_equal. apply filter_ext. intros e.
  destruct (fst e =? a), (snd e =? b), (fst e =? b), (snd e =? a); reflexivity.
Qed.

Section Links.
Context {L : Type}.
Variable resolve : L -> res nat.
Variable keys : list nat.
Variable m : list bool.
Definition resolved (l : L * L) (e : nat * nat) : Prop := resolve (fst l) = Ok (fst e) /\ resolve (snd l) = Ok (snd e).
Definition both (e : nat * nat) : bool := nth (fst e) m false && nth (snd e) m false.
Lemma load_link_step l s s' : load_link resolve keys m l s = Ok s' -> exists e, resolved l e /\
  forall a b c, pairs_count a b (if c : bool then fst s' else snd s') =
    pairs_count a b (if c then fst s else snd s) + links_between (filter (fun e => Bool.eqb (both e) c) [e]) a b.
Proof.
  unfold load_link. intros H. destruct (resolve (fst l)) as [x|] eqn:E1; [|discriminate]. cbn [bind] in H.
  destruct (resolve (snd l)) as [y|] eqn:E2; [|discriminate]. cbn [bind] in H. exists (x, y). split; [now split|]. cbn [filter].
  destruct (flag m x) as [b1|] eqn:F1; [|discriminate]. cbn [bind] in H.
  assert (N1 : nth x m false = b1).
  { unfold flag in F1. destruct (nth_error m x) as [z|] eqn:E; [|discriminate]. injection F1 as ->. now apply nth_error_nth. }
  assert (B : exists b2, (if b1 then flag m y else Ok false) = Ok b2 /\ both (x, y) = b1 && b2).
  { unfold both. cbn [fst snd]. rewrite N1. destruct b1; [|eauto]. destruct (flag m y) as [b2|] eqn:F2; [|discriminate].
    exists b2. split; [reflexivity|]. unfold flag in F2. destruct (nth_error m y) as [z|] eqn:E; [|discriminate]. injection F2 as ->. cbn [andb]. now apply nth_error_nth. }
  destruct B as (b2 & EB & EC). rewrite EB in H. cbn [bind] in H. rewrite EC. destruct (b1 && b2).
  - destruct (append_both keys x y (fst s)) as [q|] eqn:A; [|discriminate]. injection H as <-. intros a b c. cbn [fst snd].
    destruct c; cbn [Bool.eqb]; [now apply append_both_count with (keys := keys)|unfold links_between; cbn; lia].
  - destruct (append_both keys x y (snd s)) as [q|] eqn:A; [|discriminate]. injection H as <-. intros a b c. cbn [fst snd].
    destruct c; cbn [Bool.eqb]; [unfold links_between; cbn; lia|now apply append_both_count with (keys := keys)].
Qed.
Lemma load_links_inv ls : forall s s', load_links resolve keys m ls s = Ok s' -> exists es, Forall2 resolved ls es /\
  forall a b c, pairs_count a b (if c : bool then fst s' else snd s') =
    pairs_count a b (if c then fst s else snd s) + links_between (filter (fun e => Bool.eqb (both e) c) es) a b.
Proof.
  induction ls as [|l ls IH]; intros s s' H; cbn [load_links] in H.
  - injection H as <-. exists []. split; [constructor|]. intros. unfold links_between. cbn. lia.
  - destruct (load_link resolve keys m l s) as [s1|] eqn:E; [|discriminate]. cbn [bind] in H.
    apply load_link_step in E. destruct E as (e & R & C1). apply IH in H. destruct H as (es & RS & C2).
    exists (e :: es). split; [now constructor|]. intros a b c. rewrite C2, C1. cbn [filter]. destruct (Bool.eqb (both e) c); [|unfold links_between at 1; cbn; lia].
    rewrite (links_cons e (filter _ es)). lia.
Qed.
Lemma load_links_ok ls es : Forall2 resolved ls es ->
  Forall (fun e => In (fst e) keys /\ In (snd e) keys /\ fst e < List.length m /\ snd e < List.length m) es ->
  forall s, exists s', load_links resolve keys m ls s = Ok s'.
Proof.
  induction 1 as [|l [x y] ls es [R1 R2] R IH]; intros HK s; cbn [load_links]; [eauto|]. cbn [fst snd] in *. inversion HK as [|? ? (K1 & K2 & K3 & K4) HK']; subst. cbn [fst snd] in *.
  assert (FL : forall i, i < List.length m -> exists b, flag m i = Ok b).
  { intros i Hi. unfold flag. destruct (nth_error m i) eqn:E; [eauto|apply nth_error_None in E; lia]. }
  assert (AP : forall i j l, In i keys -> append keys i j l = Ok (l ++ [(i, j)])).
  { intros i j l0 Hi. unfold append. replace (existsb (Nat.eqb i) keys) with true; [reflexivity|]. symmetry. apply existsb_exists. exists i. split; [exact Hi|apply Nat.eqb_refl]. }
  assert (AB : forall l, exists l', append_both keys x y l = Ok l').
  { intros l0. unfold append_both. rewrite (AP x y l0 K1). cbn [bind]. destruct (negb (y =? x)); [rewrite AP by exact K2; eauto|eauto]. }
  assert (S : exists s1, load_link resolve keys m l s = Ok s1).
  { unfold load_link. rewrite R1, R2. cbn [bind]. destruct (FL x K3) as (b1 & ->). cbn [bind].
    assert (B : exists b2, (if b1 then flag m y else Ok false) = Ok b2) by (destruct b1; [apply FL, K4|eauto]). destruct B as (b2 & ->). cbn [bind].
    destruct (b1 && b2); [destruct (AB (fst s)) as (q & ->)|destruct (AB (snd s)) as (q & ->)]; cbn [bind]; eauto. }
  destruct S as (s1 & ->). cbn [bind]. apply IH, HK'.
Qed.
End Links.

Definition full (l : str) : bool := negb (str_eqb l []).
Lemma full_iff l : full l = true <-> l <> [].
Proof. unfold full. destruct l; cbn; split; congruence. Qed.
Lemma split_lines ls rest : Forall printable ls -> Forall (fun l => l <> []) ls ->
  filter full (split 10 (text_of ls ++ rest)) = ls ++ filter full (split 10 rest).
Proof.
  induction 1 as [|l ls Hl H IH]; intros HN; [reflexivity|]. inversion HN; subst. cbn [text_of flat_map]. fold (text_of ls).
  rewrite <- !app_assoc. cbn [app]. change newline with 10%N. rewrite split_app, filter_app, IH by assumption.
  rewrite split_single.
  - cbn [filter]. replace (full l) with true by (symmetry; now apply full_iff). reflexivity.
  - intros X. unfold printable in Hl. rewrite Forall_forall in Hl. specialize (Hl _ X). lia.
Qed.
Lemma blanks_decoded conv pfloat lines : forall rss, mapM (plain_decoder conv pfloat) (filter full lines) = Ok rss ->
  exists rss', mapM (plain_decoder conv pfloat) lines = Ok rss' /\ List.concat rss' = List.concat rss.
Proof.
  induction lines as [|l lines IH]; intros rss H; cbn [filter] in H; [injection H as <-; now exists []|].
  destruct (full l) eqn:E.
  - cbn [mapM] in *. destruct (plain_decoder conv pfloat l) as [r|]; [|discriminate]. cbn [bind] in *.
    destruct (mapM _ (filter full lines)) as [t|]; [|discriminate]. injection H as <-. destruct (IH t eq_refl) as (t' & -> & C). cbn [bind].
    eexists. split; [reflexivity|]. cbn [List.concat]. now rewrite C.
  - assert (l = []) by (destruct l; [reflexivity|discriminate]). subst l. destruct (IH _ H) as (t' & E' & C). cbn [mapM].
    change (plain_decoder conv pfloat []) with (Ok (@nil decoded)). cbn [bind]. rewrite E'. cbn [bind]. eexists. split; [reflexivity|]. exact C.
Qed.

Section Json.
Context {K L F : Type}.
Variable keqb : K -> K -> bool.
Hypothesis Hk : forall a b, keqb a b = true <-> a = b.
Variable show : F -> str.
Variable conv : str -> list str -> res (list N).
Variable pfloat : str -> res N.
Variable one : N.
Variable bits : list F -> list N.
Variable label_bits : list str -> list N.
Hypothesis Hone : pfloat one_text = Ok one.
Hypothesis Hshow : forall x, number_text (show x).
Hypothesis Hbits : forall xs, xs <> [] -> conv float32_text (map show xs) = Ok (bits xs).
Variable class_map : list (nat * list str).
Hypothesis Hlabel : forall a l, In (a, l) class_map -> l <> [] /\ Forall number_text l /\ conv float32_text l = Ok (label_bits l).

Lemma klookup_in {A} k (l : list (K * A)) v : klookup keqb k l = Some v -> In (k, v) l.
Proof using Hk.
  induction l as [|[x a] l IH]; cbn [klookup]; [discriminate|]. destruct (keqb k x) eqn:E; [|intros H; right; auto].
  apply Hk in E. subst. intros H. injection H as ->. now left.
Qed.
Lemma klookup_out {A} k (l : list (K * A)) : In k (map fst l) -> exists v, klookup keqb k l = Some v.
Proof using Hk.
  induction l as [|[x a] l IH]; cbn [map fst klookup]; [intros []|]. intros H. destruct (keqb k x) eqn:E; [eauto|]. destruct H as [->|H]; [|auto].
  rewrite (proj2 (Hk k k) eq_refl) in E. discriminate.
Qed.
Lemma numbers id_map gs ns : mapM (number keqb id_map) gs = Ok ns -> Forall2 (fun g n => In (g_id g, fst n) id_map /\ typed g_test g_val g (snd n)) gs ns.
Proof using Hk.
  intros H. apply mapM_in in H. induction H as [|g n gs ns H HS IH]; constructor; [|exact IH].
  unfold number in H. destruct (klookup keqb (g_id g) id_map) as [v|] eqn:E; [|discriminate]. cbn [or_raise bind] in H. injection H as <-. cbn [fst snd].
  split; [now apply klookup_in|]. unfold typed. destruct (g_test g), (g_val g); auto.
Qed.
Lemma mask_nth size ns m i : mask size (map fst (filter (fun p => snd p =? 0) ns)) = Ok m -> nth i m false = in_train ns i.
Proof using Type.
  clear dependent conv.
  unfold mask. destruct (forallb _ _) eqn:E; [|discriminate]. intros H. injection H as <-.
  assert (T : existsb (Nat.eqb i) (map fst (filter (fun p : nat * nat => snd p =? 0) ns)) = in_train ns i).
  { unfold in_train. clear E. induction ns as [|[x t] ns IH]; [reflexivity|]. cbn [filter fst snd existsb]. destruct (t =? 0); cbn [map existsb fst].
    - rewrite IH, andb_true_r, (Nat.eqb_sym i x). reflexivity.
    - now rewrite IH, andb_false_r. }
  destruct (lt_dec i size) as [D|D].
  - rewrite nth_indep with (d' := existsb (Nat.eqb 0) (map fst (filter (fun p : nat * nat => snd p =? 0) ns))) by (now rewrite map_length, seq_length).
    rewrite (map_nth (fun j => existsb (Nat.eqb j) (map fst (filter (fun p : nat * nat => snd p =? 0) ns)))), seq_nth by exact D. exact T.
  - rewrite nth_overflow by (rewrite map_length, seq_length; lia). rewrite <- T. symmetry. apply not_true_is_false. intros X. apply existsb_exists in X.
    destruct X as (j & J1 & J2). apply Nat.eqb_eq in J2. subst j. rewrite forallb_forall in E. specialize (E _ J1). apply Nat.ltb_lt in E. lia.
Qed.
Lemma mask_length size train m : mask size train = Ok m -> List.length m = size.
Proof using Type.
  clear dependent conv. unfold mask. destruct (forallb _ _); [|discriminate]. intros H. injection H as <-. now rewrite map_length, seq_length. Qed.

Definition json_feats (xs : list F) (l : list str) : list ufeature :=
  [UArray float32_text l (label_bits l); UArray float32_text (map show xs) (bits xs)].
Lemma ppi_text_line id typ xs l tr te : xs <> [] -> l <> [] ->
  ppi_text show id typ xs l tr te = text_of (block_lines (Z.of_nat id) (Z.of_nat typ) (json_feats xs l) (out_of tr te)).
Proof.
  intros Hx Hl. rewrite block_text. unfold ppi_text.
  match goal with |- join comma ?a ++ _ = node_ln ?i ?t ?f ++ _ => assert (E : join comma a = node_ln i t f) end; [|rewrite E; reflexivity].
  unfold node_ln, node_line, json_feats.
  cbn [no_defaults d_type d_weight given time_columns d_feature_types d_feature_lens all_columns tl].
  rewrite !array_columns, map_length.
  rewrite (join_nested comma _ l _ Hl).
  rewrite !app_assoc. pose proof (join_nested comma) as J.
  match goal with |- join comma (?a ++ [join comma ?b]) = _ => rewrite <- (app_nil_r [join comma b]); rewrite (J a b []) by (destruct xs; [congruence|discriminate]) end.
  rewrite !app_nil_r, <- !app_assoc. reflexivity.
Qed.
Lemma json_feats_ok xs a l : xs <> [] -> In (a, l) class_map -> Forall (feature_ok conv 44 92) (json_feats xs l).
Proof.
  intros Hx Hl. destruct (Hlabel _ _ Hl) as (L1 & L2 & L3). constructor; [|constructor; [|constructor]]; cbn [feature_ok].
  - split; [exact float_key_ok|]. split; [exact L1|]. split; [|split; [exact L3|discriminate]]. eapply Forall_impl; [|exact L2]. intros w Hw. now apply number_word.
  - split; [exact float_key_ok|]. split; [destruct xs; [congruence|discriminate]|]. split; [|split; [now apply Hbits|discriminate]].
    apply Forall_forall. intros w Hw. apply in_map_iff in Hw. destruct Hw as (x & <- & _). apply number_word, Hshow.
Qed.
Lemma json_feats_printable xs a l : In (a, l) class_map -> Forall (fun f => match f with UArray k vs _ => printable k /\ Forall printable vs | _ => False end) (json_feats xs l).
Proof.
  intros Hl. destruct (Hlabel _ _ Hl) as (_ & L2 & _).
  assert (P : printable float32_text) by (repeat constructor; lia).
  constructor; [|constructor; [|constructor]]; (split; [exact P|]).
  - eapply Forall_impl; [|exact L2]. intros w Hw. now apply number_printable.
  - apply Forall_forall. intros w Hw. apply in_map_iff in Hw. destruct Hw as (x & <- & _). apply number_printable, Hshow.
Qed.
Lemma find_in {A} (l : list (nat * A)) k p : find (fun p => fst p =? k) l = Some p -> fst p = k /\ In (k, snd p) l.
Proof using Type.
  clear dependent conv. intros H. apply find_some in H. destruct H as [H1 H2]. apply Nat.eqb_eq in H2. split; [exact H2|]. subst k. now destruct p. Qed.

Lemma ppi_files_text want ns : ppi_file want ns = file_of (map (fun p => show_int (Z.of_nat (fst p))) (filter (fun p => snd p =? want) ns)).
Proof.
  unfold ppi_file, file_of. induction ns as [|[x t] ns IH]; [reflexivity|]. cbn [flat_map filter fst snd]. destruct (t =? want); cbn [map flat_map]; now rewrite IH.
Qed.

Lemma ppi_inv (feats : list (list F)) all_keys (resolve : L -> res nat) id_map gs links d :
  ppi_build keqb show all_keys resolve id_map gs links class_map feats = Ok d ->
  exists ns es (node : nat * nat -> decoded) (out : nat -> list (Z * Z)),
    Forall2 (fun g n => In (g_id g, fst n) id_map /\ typed g_test g_val g (snd n)) gs ns /\ Forall2 (resolved resolve) links es /\
    (forall n, In n ns -> exists xs l, nth_error feats (fst n) = Some xs /\ In (fst n, l) class_map /\
       node n = Decoded (Z.of_nat (fst n)) (-1) (Z.of_nat (snd n)) one None None [FArray (label_bits l); FArray (bits xs)]) /\
    (forall a, StronglySorted not_after (out a)) /\
    (forall a e, In e (out a) -> (fst e = 0 \/ fst e = 1)%Z /\ exists b, snd e = Z.of_nat b) /\
    (forall a b (c : bool), times (if c then 0 else 1, Z.of_nat b)%Z (out a) =
       links_between (filter (fun e => Bool.eqb (in_train ns (fst e) && in_train ns (snd e)) c) es) a b) /\
    converts_up_to_blank conv pfloat (p_csv d)
      (flat_map (fun n => node n :: map (fun e => Decoded (Z.of_nat (fst n)) (snd e) (fst e) one None None []) (out (fst n))) ns) /\
    p_files d = map (fun t => file_of (map (fun p => show_int (Z.of_nat (fst p))) (filter (fun p => snd p =? t) ns))) [0; 1; 2] /\
    exists l, In (0, l) class_map /\ p_classes d = List.length l.
Proof.
  unfold ppi_build. intros H. destruct (mapM (number keqb id_map) gs) as [ns|] eqn:E1; [|discriminate]. cbn [bind] in H. apply numbers in E1.
  destruct (mask _ _) as [m|] eqn:E2; [|discriminate]. cbn [bind] in H.
  destruct (load_links _ _ _ _ _) as [adj|] eqn:E3; [|discriminate]. cbn [bind] in H. apply load_links_inv in E3. destruct E3 as (es & R & C).
  destruct (find (fun p => fst p =? 0) class_map) as [z|] eqn:E4; [|discriminate]. cbn [or_raise bind] in H. apply find_in in E4. destruct E4 as [_ E4].
  match type of H with (do blocks <- mapM ?g ns ;; _) = _ => set (f := g) in H end.
  destruct (mapM f ns) as [bl|] eqn:E5; [|discriminate]. cbn [bind] in H. injection H as <-. cbn [p_csv p_files p_classes]. apply mapM_in in E5.
  set (lab := fun n : nat * nat => match find (fun p => fst p =? fst n) class_map with Some p => snd p | None => [] end).
  set (vec := fun n : nat * nat => match nth_error feats (fst n) with Some xs => xs | None => [] end).
  set (blk := fun n : nat * nat => Block (Z.of_nat (fst n)) (Z.of_nat (snd n)) (json_feats (vec n) (lab n)) (out_links adj (fst n))).
  assert (P : forall n b, f n = Ok b -> nth_error feats (fst n) = Some (vec n) /\ In (fst n, lab n) class_map /\ vec n <> [] /\ b = text_of (lines_of_block (blk n)) ++ [newline]).
  { intros n b Hb. unfold f in Hb. unfold vec, lab, blk. unfold vec, lab. destruct (nth_error feats (fst n)) as [xs|]; [|discriminate]. cbn [bind] in Hb.
    destruct (find _ class_map) as [p|] eqn:EF; [|discriminate]. cbn [or_raise bind] in Hb. apply find_in in EF. destruct EF as [_ EF].
    destruct xs as [|x xs]; [discriminate|]. cbn [bind] in Hb. assert (X : x :: xs <> []) by discriminate. injection Hb as <-.
    split; [reflexivity|]. split; [exact EF|]. split; [exact X|]. rewrite ppi_text_line; [reflexivity|exact X|]. destruct (Hlabel _ _ EF) as (Q & _). exact Q. }
  exists ns, es, (fun n => node_rec one (Z.of_nat (fst n)) (Z.of_nat (snd n)) (json_feats (vec n) (lab n))), (out_links adj).
  split; [exact E1|]. split; [exact R|]. split.
  { intros n Hn. exists (vec n), (lab n). assert (Q : exists b, f n = Ok b).
    { clear - E5 Hn. induction E5 as [|a b l bs H HS IH]; [contradiction|]. destruct Hn as [->|Hn]; eauto. }
    destruct Q as (b & Q). apply P in Q. destruct Q as (Q1 & Q2 & _). split; [exact Q1|]. split; [exact Q2|]. reflexivity. }
  split; [intros a; apply out_ordered|]. split; [intros a e; apply out_shape|]. split.
  { intros a b c. rewrite out_times, C. replace (pairs_count a b (if c then fst ([], []) else snd ([], []))) with 0 by (destruct c; reflexivity). cbn [Nat.add].
    f_equal. apply filter_ext. intros e. unfold both. now rewrite !(mask_nth _ _ _ _ E2). }
  split; [|split; [now rewrite <- (map_ext _ _ (fun t => ppi_files_text t ns))|exists (snd z); now split]].
  assert (BO : Forall (block_ok conv) (map blk ns) /\ filter full (split 10 (List.concat bl)) = flat_map lines_of_block (map blk ns)).
  { clear - E5 P Hbits Hshow Hlabel. induction E5 as [|n b ns bl H HS [I1 I2]]; [split; [constructor|reflexivity]|].
    apply P in H. destruct H as (_ & Q2 & Q3 & ->). cbn [map List.concat flat_map]. split.
    - constructor; [|exact I1]. split; [cbn [blk b_feats]; eapply json_feats_ok; eauto|]. apply out_types.
    - rewrite <- app_assoc. destruct (block_printable (Z.of_nat (fst n)) (Z.of_nat (snd n)) _ (out_links adj (fst n)) (json_feats_printable (vec n) _ _ Q2)) as [B1 B2].
      rewrite split_lines by (first [exact B1|exact B2]). change ([newline] ++ List.concat bl) with ([] ++ 10%N :: List.concat bl). rewrite split_app, filter_app.
      cbn [split filter full str_eqb negb app]. rewrite I2. reflexivity. }
  destruct BO as [BO1 BO2]. intros lines HL. fold full in HL. change (filter full lines = filter full (split 10 (List.concat bl))) in HL. rewrite BO2 in HL.
  destruct (blocks_decoded conv pfloat one Hone _ BO1) as (rss & D1 & D2). rewrite <- HL in D1. apply blanks_decoded in D1. destruct D1 as (rss' & D1 & D3).
  exists rss'. split; [exact D1|]. rewrite D3, D2. clear. induction ns as [|n ns IH]; [reflexivity|]. cbn [map flat_map]. rewrite IH. reflexivity.
Qed.

Lemma ppi_ok (feats : list (list F)) (all_keys : bool) (resolve : L -> res nat) id_map gs links es :
  (forall g, In g gs -> In (g_id g) (map fst id_map)) -> 
  (forall k n, In (k, n) id_map -> n < (if all_keys then List.length id_map else List.length gs) /\ n < List.length feats /\ In n (map fst class_map)) ->
  (forall k n, In (k, n) id_map -> all_keys = false -> exists g, In g gs /\ klookup keqb (g_id g) id_map = Some n) ->
  In 0 (map fst class_map) -> Forall (fun xs => xs <> []) feats ->
  Forall2 (resolved resolve) links es -> Forall (fun e => In (fst e) (map snd id_map) /\ In (snd e) (map snd id_map)) es ->
  exists d, ppi_build keqb show all_keys resolve id_map gs links class_map feats = Ok d.
Proof using Hk.
  clear dependent conv. clear dependent pfloat. clear dependent label_bits. clear dependent bits.
  intros H1 H2 H3 H4 H5 R HE. unfold ppi_build.
  destruct (mapM_out (number keqb id_map) gs) as (ns & E1).
  { intros g Hg. unfold number. destruct (klookup_out _ _ (H1 g Hg)) as (v & ->). cbn. eauto. }
  rewrite E1. cbn [bind]. pose proof (numbers _ _ _ E1) as NS.
  assert (LN : List.length ns = List.length gs) by (clear - NS; induction NS; cbn; congruence).
  assert (NI : forall n, In n ns -> exists k, In (k, fst n) id_map).
  { intros n Hn. clear - NS Hn. induction NS as [|g n' gs ns H NS IH]; [contradiction|]. destruct Hn as [->|Hn]; [|auto]. exists (g_id g). apply H. }
  set (size := if all_keys then List.length id_map else List.length ns).
  assert (SZ : forall k n, In (k, n) id_map -> n < size) by (intros k n Hn; unfold size; rewrite LN; now apply H2 in Hn).
  assert (M : exists m, mask size (map fst (filter (fun p => snd p =? 0) ns)) = Ok m).
  { unfold mask. replace (forallb _ _) with true; [eauto|]. symmetry. apply forallb_forall. intros n Hn. apply in_map_iff in Hn. destruct Hn as (p & <- & Hp).
    apply filter_In in Hp. destruct (NI p (proj1 Hp)) as (k & Hi). apply Nat.ltb_lt. now apply SZ in Hi. }
  destruct M as (m & EM). rewrite EM. cbn [bind]. pose proof (mask_length _ _ _ EM) as LM.
  set (keys := if all_keys then map snd id_map else map fst ns).
  assert (KS : forall n, In n (map snd id_map) -> In n keys /\ n < size).
  { intros n Hn. apply in_map_iff in Hn. destruct Hn as ([k v] & <- & Hi). cbn [snd]. split; [|now apply SZ in Hi]. unfold keys. destruct all_keys eqn:EA; [apply in_map_iff; exists (k, v); now split|].
    destruct (H3 _ _ Hi eq_refl) as (g & Hg & EG). apply mapM_in in E1. clear - E1 Hg EG. induction E1 as [|g' n' gs ns H E IH]; [contradiction|].
    destruct Hg as [->|Hg]; [|right; auto]. left. unfold number in H. rewrite EG in H. cbn in H. injection H as <-. reflexivity. }
  destruct (load_links_ok resolve keys m links es R) with (s := (@nil (nat * nat), @nil (nat * nat))) as (adj & EA).
  { eapply Forall_impl; [|exact HE]. cbv beta. intros e [A B]. apply KS in A, B. rewrite LM. tauto. }
  rewrite EA. cbn [bind].
  assert (FD : forall k, In k (map fst class_map) -> exists p, find (fun p => fst p =? k) class_map = Some p).
  { intros k Hk'. destruct (find (fun p => fst p =? k) class_map) as [p|] eqn:E; [eauto|]. apply in_map_iff in Hk'. destruct Hk' as (p & <- & Hp).
    pose proof (find_none _ _ E p Hp) as X. cbv beta in X. rewrite Nat.eqb_refl in X. discriminate. }
  destruct (FD _ H4) as (z & ->). cbn [or_raise bind].
  match goal with |- exists d, (do blocks <- mapM ?g ns ;; _) = _ => destruct (mapM_out g ns) as (bl & ->) end; [|cbn [bind]; eauto].
  intros n Hn. destruct (NI n Hn) as (k & Hi). destruct (H2 _ _ Hi) as (_ & A & B).
  destruct (nth_error feats (fst n)) as [xs|] eqn:E; [|apply nth_error_None in E; lia]. cbn [bind]. destruct (FD _ B) as (p & ->). cbn [or_raise bind].
  destruct xs as [|x xs]; [|cbn [bind]; eauto]. exfalso. apply nth_error_In in E. rewrite Forall_forall in H5. now apply (H5 _ E).
Qed.
End Json.

(** ** Reddit *)
Lemma aligned {K} keqb (id_map : list (K * nat)) gs ns : (forall i g, nth_error gs i = Some g -> klookup keqb (g_id g) id_map = Some i) ->
  mapM (number keqb id_map) gs = Ok ns -> map fst ns = seq 0 (List.length gs).
Proof.
  intros H E. apply mapM_in in E.
  assert (G : forall k, (forall i g, nth_error gs i = Some g -> klookup keqb (g_id g) id_map = Some (k + i)) -> map fst ns = seq k (List.length gs)); [|exact (G 0 H)].
  clear H. induction E as [|g n gs ns HN E IH]; intros k H; [reflexivity|]. cbn [map List.length seq]. f_equal.
  - unfold number in HN. rewrite (H 0 g eq_refl) in HN. cbn in HN. injection HN as <-. cbn. lia.
  - apply IH. intros i g' Hg. rewrite (H (S i) g' Hg). f_equal. lia.
Qed.
Lemma onehot_lemma v size : (0 <= v < Z.of_nat size)%Z -> exists l, onehot v size = Ok l /\ List.length l = size /\
  forall j, j < size -> nth_error l j = Some (if (Z.of_nat j =? v)%Z then single else zero_text).
Proof.
  intros H. unfold onehot. replace (v <? 0)%Z with false by lia. replace ((0 <=? v) && (v <? Z.of_nat size))%Z with true by lia.
  eexists. split; [reflexivity|]. split; [now rewrite map_length, seq_length|]. intros j Hj. rewrite nth_error_map, (nth_error_nth' _ 0) by (now rewrite seq_length).
  rewrite seq_nth by exact Hj. cbn [option_map Nat.add]. replace (Z.of_nat j =? v)%Z with (j =? Z.to_nat v) by lia. reflexivity.
Qed.
Lemma masked_lemma {L} keep (es : list (L * L)) : masked keep es = map snd (filter fst (combine keep es)).
Proof.
  revert es. induction keep as [|b keep IH]; intros [|e es]; try reflexivity. cbn [masked combine filter fst]. destruct b; cbn [map snd]; now rewrite IH.
Qed.

(** ** Partitions *)
Lemma client_lemma n lines : 0 < n -> exists got, client_lines n lines = Ok got /\
  got = map snd (filter (fun p => fst p mod n =? 0) (combine (seq 0 (List.length lines)) lines)).
Proof.
  intros Hn. unfold client_lines. destruct (MetaProofs.pipe_dispatch_total n lines Hn (0, repeat [] n)) as (s & E); [apply repeat_length|].
  rewrite E. cbn [bind]. destruct (MetaProofs.pipe_queues n lines [] (0, repeat [] n) s eq_refl) as (L & Q); [apply repeat_length| |exact E|].
  - intros i Hi. cbn [snd]. rewrite nth_repeat. reflexivity.
  - cbn [app] in Q. specialize (Q 0 Hn). rewrite (nth_error_nth' _ []) by (now rewrite L). cbn [or_raise]. eexists. split; [reflexivity|]. exact Q.
Qed.
Lemma client_all lines : client_lines 1 lines = Ok lines.
Proof.
  destruct (client_lemma 1 lines) as (got & -> & ->); [lia|]. f_equal.
  assert (G : forall k, map snd (filter (fun p => fst p mod 1 =? 0) (combine (seq k (List.length lines)) lines)) = lines); [|apply G].
  induction lines as [|l lines IH]; intros k; [reflexivity|]. cbn [List.length seq combine filter fst]. rewrite Nat.mod_1_r. cbn [Nat.eqb map snd]. f_equal. apply IH.
Qed.
Lemma opened_lemma location name : opened true location name = stored_as name -> location = [46%N].
Proof.
  unfold opened, stored_as. intros H. change (46%N :: slash :: name) with ([46%N] ++ slash :: name) in H.
  assert (L : List.length location = 1) by (apply (f_equal (@List.length N)) in H; rewrite !app_length in H; cbn in H; lia).
  destruct location as [|c [|]]; try discriminate. injection H as ->. reflexivity.
Qed.
