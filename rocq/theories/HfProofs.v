From Verif Require Import Base FilesModel FilesProofs CkptModel CkptSpec CkptProofs HfModel HfSpec.
From Coq Require Import Ascii String Lia Decimal DecimalNat.
Import ListNotations.
Open Scope list_scope.
Notation after := CkptSpec.after.

(** ** Names *)
Lemma split_last : forall c w, free c w -> split c w = [w].
Proof.
  induction w as [|d w IH]; intros P; [reflexivity|]. cbn [split].
  destruct (ascii_dec c d) as [<-|N]; [destruct P; left; reflexivity|].
  rewrite IH; [reflexivity | intros I; apply P; right; exact I].
Qed.
Lemma split_cons : forall c w s, free c w -> split c (w ++ c :: s) = w :: split c s.
Proof.
  intros c; induction w as [|d w IH]; intros s P.
  - cbn [List.app split]. destruct (ascii_dec c c) as [_|N]; [reflexivity | destruct N; reflexivity].
  - cbn [List.app split]. destruct (ascii_dec c d) as [<-|N]; [destruct P; left; reflexivity|].
    rewrite IH; [reflexivity | intros I; apply P; right; exact I].
Qed.
Lemma split_dots : forall p, p <> [] -> Forall (free ".") p -> split dotted (dots p) = p.
Proof.
  induction p as [|w p IH]; intros N F; [congruence|]. inversion_clear F. destruct p as [|w' p].
  - apply split_last; assumption.
  - change (dots (w :: w' :: p)) with (w ++ dotted :: dots (w' :: p)). rewrite split_cons by assumption.
    rewrite IH; [reflexivity | discriminate | assumption].
Qed.

Lemma digits_digit : forall u c, In c (digits u) -> digit_char c = true.
Proof. induction u; intros c I; cbn in I; [destruct I|..]; (destruct I as [<-|I]; [reflexivity | exact (IHu c I)]). Qed.
Lemma dec_digit : forall n c, In c (dec n) -> digit_char c = true.
Proof. intros n c. apply digits_digit. Qed.
Lemma dec_nonempty : forall n, dec n <> [].
Proof. intros n. destruct (dec_uint n) as (u & _ & Hn & ->). destruct u; [congruence|..]; discriminate. Qed.
Lemma dec_numeric : forall n, isnumeric (dec n) = true.
Proof.
  intros n. unfold isnumeric. pose proof (dec_nonempty n). destruct (dec n) as [|c l] eqn:E; [congruence|].
  rewrite <- E. apply forallb_forall. apply dec_digit.
Qed.
Lemma dec_free : forall n, free "." (dec n).
Proof. intros n I. apply dec_digit in I. discriminate I. Qed.
Lemma canon_digits : forall u, u <> Nil -> canon (digits u) = digits (unorm u).
Proof.
  induction u; intros N; try congruence; try (destruct u; reflexivity).
  assert (D : u = Nil \/ u <> Nil) by (destruct u; [left; reflexivity | right; discriminate ..]).
  destruct D as [->|D]; [reflexivity|].
  transitivity (canon (digits u)); [destruct u; [congruence | reflexivity ..]|]. rewrite (IHu D). reflexivity.
Qed.
Lemma canon_dec : forall n, canon (dec n) = dec n.
Proof.
  intros n. unfold dec. rewrite canon_digits.
  - rewrite <- (Unsigned.to_of (Nat.to_uint n)) at 1. rewrite Unsigned.of_to. reflexivity.
  - destruct (dec_uint n) as (u & E & Hn & _). congruence.
Qed.
Lemma dec_neq : forall n w, (exists c, In c w /\ digit_char c = false) -> nm_eqb (dec n) w = false.
Proof. intros n w (c & I & D). apply nm_eqb_false. intros E. rewrite <- E in I. apply dec_digit in I. congruence. Qed.

Lemma inside_digits : forall P a d b, P <> [] -> (forall c, In c P -> digit_char c = false) -> d <> [] -> (forall c, In c d -> digit_char c = true) ->
  (inside P (a ++ d ++ b) <-> inside P a \/ inside P b).
Proof.
  intros P a d b NP HP Nd Hd. split.
  - intros (u & v & E).
    destruct (le_lt_dec (List.length u + List.length P) (List.length a)) as [L|L].
    + left. rewrite (app_assoc u P v) in E. destruct (app_eq_app _ _ _ _ (eq_sym E)) as (l & [[H1 H2]|[H1 H2]]).
      * assert (Z : l = []).
        { apply (f_equal (@List.length _)) in H1. rewrite !app_length in H1. destruct l; [reflexivity | cbn in H1; lia]. }
        subst l. rewrite app_nil_r in H1. exists u, []. rewrite app_nil_r. congruence.
      * exists u, l. rewrite H1, app_assoc. reflexivity.
    + destruct (le_lt_dec (List.length a + List.length d) (List.length u)) as [M|M].
      * right. exists (skipn (List.length a + List.length d) u), v.
        apply (f_equal (skipn (List.length a + List.length d))) in E.
        rewrite app_assoc in E. rewrite skipn_app, app_length, Nat.sub_diag, skipn_all2 in E by (rewrite app_length; lia). cbn in E.
        rewrite E, skipn_app. f_equal. replace (List.length a + List.length d - List.length u) with 0 by lia. reflexivity.
      * exfalso. set (i := Nat.max (List.length u) (List.length a)).
        assert (LP : List.length P > 0) by (destruct P; [congruence | cbn; lia]).
        assert (Ld : List.length d > 0) by (destruct d; [congruence | cbn; lia]).
        assert (E1 : nth_error (a ++ d ++ b) i = nth_error d (i - List.length a)).
        { rewrite nth_error_app2 by lia. apply nth_error_app1. lia. }
        assert (E2 : nth_error (u ++ P ++ v) i = nth_error P (i - List.length u)).
        { rewrite nth_error_app2 by lia. apply nth_error_app1. lia. }
        rewrite E, E2 in E1. destruct (nth_error P (i - List.length u)) as [c|] eqn:EP.
        -- pose proof (HP c (nth_error_In _ _ EP)). pose proof (Hd c (nth_error_In d _ (eq_sym E1))). congruence.
        -- apply nth_error_None in EP. lia.
  - intros [(u & v & ->)|(u & v & ->)].
    + exists u, (v ++ d ++ b). rewrite !app_assoc. reflexivity.
    + exists (a ++ d ++ u), v. rewrite !app_assoc. reflexivity.
Qed.
Definition no_digits (P : nm) : bool := forallb (fun c => negb (digit_char c)) P.
Lemma contains_layer : forall P n suf, P <> [] -> no_digits P = true ->
  contains P (layer_name n suf) = contains P (str "bert.encoder.layer.") || contains P ("."%char :: suf).
Proof.
  intros P n suf NP HD. apply eq_true_iff_eq. rewrite orb_true_iff, !contains_spec. unfold layer_name.
  apply inside_digits; [exact NP | | apply dec_nonempty | apply dec_digit].
  intros c I. unfold no_digits in HD. rewrite forallb_forall in HD. specialize (HD c I). destruct (digit_char c); [discriminate HD | reflexivity].
Qed.
Lemma later_layer : forall P n suf, P <> [] -> no_digits P = true -> contains P (str "bert.encoder.layer.") = false ->
  hd "b"%char P <> "b"%char ->
  later P (layer_name n suf) = contains P ("."%char :: suf).
Proof.
  intros P n suf NP HD HC HB. pose proof (contains_layer P n suf NP HD) as C. rewrite HC in C. cbn [orb] in C. rewrite <- C.
  unfold later, contains. destruct (find P (layer_name n suf)) as [[|i]|] eqn:F; try reflexivity. exfalso.
  destruct (find_some _ _ _ F) as (a & b & E & La & _). destruct a; [|discriminate La]. cbn [List.app] in E.
  destruct P as [|c P]; [congruence|]. cbn in HB. cbn in E. injection E as E _. congruence.
Qed.
Fixpoint classify_suffix (l : list (nm * bool * target)) (suf : nm) : res target :=
  match l with
  | [] => Fail EFatal
  | (p, noatt, t) :: l' =>
      if contains p suf && negb (noatt && contains (str "attention") suf) then Ok t else classify_suffix l' suf
  end.
Lemma classify_layer : forall n suf, classify rules (layer_name n suf) = classify_suffix rules ("."%char :: suf).
Proof.
  intros n suf.
  assert (A : contains (str "attention") (layer_name n suf) = contains (str "attention") ("."%char :: suf)).
  { rewrite contains_layer by (discriminate || reflexivity). reflexivity. }
  assert (R : forall l, Forall (fun r => let P := fst (fst r) in P <> [] /\ no_digits P = true /\ contains P (str "bert.encoder.layer.") = false /\ hd "b"%char P <> "b"%char) l ->
    classify l (layer_name n suf) = classify_suffix l ("."%char :: suf)).
  { induction l as [|[[p na] t] l IH]; intros F; [reflexivity|]. inversion_clear F as [|? ? H F']. destruct H as (H1 & H2 & H3 & H4). cbn in H1, H2, H3, H4.
    cbn [classify classify_suffix]. rewrite later_layer, A, IH by assumption. reflexivity. }
  apply R. unfold rules. repeat constructor; cbn; discriminate.
Qed.

(** ** Paths *)
Lemma below_spec : forall p q, below p q = true <-> exists r, q = p ++ r.
Proof.
  induction p as [|a p IH]; intros q; cbn.
  - split; [intros _; exists q; reflexivity | trivial].
  - destruct q as [|b q]; [split; [discriminate | intros (r & E); discriminate E]|].
    rewrite andb_true_iff, nm_eqb_true, IH. split.
    + intros [-> (r & ->)]. exists r. reflexivity.
    + intros (r & E). injection E as -> ->. split; [reflexivity | exists r; reflexivity].
Qed.

Section P.
Context {X : Type}.
Variable zero : nat -> X.
Notation model := (model X).
Notation arr := (arr X).

Lemma has_spec : forall (m : model) p, has m p = true <-> exists_below m p.
Proof.
  intros m p. unfold has, exists_below. rewrite existsb_exists. split.
  - intros ([q b] & I & H). apply below_spec in H. destruct H as (r & E). cbn in E. subst q. exists r, b. exact I.
  - intros (r & b & I). exists (p ++ r, b). split; [exact I|]. apply below_spec. exists r. reflexivity.
Qed.
Lemma has_prefix : forall (m : model) p r, has m (p ++ r) = true -> has m p = true.
Proof.
  intros m p r H. apply has_spec in H. destruct H as (r' & b & I). apply has_spec. exists (r ++ r'), b. rewrite app_assoc. exact I.
Qed.
Lemma has_fst : forall (m m' : model) p, map fst m = map fst m' -> has m p = has m' p.
Proof.
  intros m m' p. unfold has. revert m'. induction m as [|e m IH]; intros [|e' m'] E; try discriminate E; [reflexivity|].
  injection E as E1 E2. cbn. rewrite E1, (IH m' E2). reflexivity.
Qed.
Lemma fits_has : forall (m : model) p a, fits m p a -> has m p = true.
Proof. intros m p a (b & I & _). apply has_spec. exists [], b. rewrite app_nil_r. exact I. Qed.

Lemma path_eqb_true : forall a b, path_eqb a b = true <-> a = b.
Proof. intros a b; unfold path_eqb; destruct (list_eq_dec (list_eq_dec ascii_dec) a b); split; congruence. Qed.
Lemma path_eqb_false : forall a b, path_eqb a b = false <-> a <> b.
Proof. intros a b; unfold path_eqb; destruct (list_eq_dec (list_eq_dec ascii_dec) a b); split; congruence. Qed.
Lemma wid_eqb_true : forall a b, wid_eqb a b = true <-> a = b.
Proof.
  intros [a|] [b|]; cbn; try (split; congruence). rewrite Nat.eqb_eq. split; congruence.
Qed.

Lemma set_data_ok : forall (m : model) p a, NoDup (map fst m) -> fits m p a ->
  exists m', set_data p a m = Ok m' /\ map fst m' = map fst m
    /\ forall q b, In (q, b) m' <-> (q = p /\ b = a) \/ (q <> p /\ In (q, b) m).
Proof.
  induction m as [|[q0 b0] m IH]; intros p a N (b & I & Ew & El); [destruct I|]. cbn [set_data fst snd].
  inversion_clear N as [|? ? N1 N2]. destruct (path_eqb p q0) eqn:E.
  - apply path_eqb_true in E. subst q0.
    assert (b0 = b). { destruct I as [I|I]; [congruence|]. apply (in_map fst) in I. destruct (N1 I). }
    subst b0. apply wid_eqb_true in Ew. apply Nat.eqb_eq in El. rewrite Ew, El. cbn [andb].
    exists ((p, a) :: m). split; [reflexivity|]. split; [reflexivity|]. intros q c. cbn [In]. split.
    + intros [H|H]; [injection H as <- <-; left; split; reflexivity|]. right. split; [|right; exact H].
      intros ->. apply (in_map fst) in H. exact (N1 H).
    + intros [[-> ->]|[Nq [H|H]]]; [left; reflexivity | congruence | right; exact H].
  - apply path_eqb_false in E. destruct (IH p a N2) as (m2 & E2 & F2 & G2).
    { exists b. destruct I as [I|I]; [congruence|]. repeat split; assumption. }
    rewrite E2. cbn [bind]. exists ((q0, b0) :: m2). split; [reflexivity|]. split; [cbn; congruence|].
    intros q c. cbn [In]. rewrite G2. split.
    + intros [H|[H|H]]; [|left; exact H | right; split; [tauto | right; tauto]].
      injection H as <- <-. right. split; [congruence | left; reflexivity].
    + intros [H|[Nq [H|H]]]; [right; left; exact H | left; exact H | right; right; split; assumption].
Qed.
Lemma set_data_fits : forall (m m' : model) p a, NoDup (map fst m) -> fits m p a -> set_data p a m = Ok m' ->
  forall q b, fits m q b -> fits m' q b.
Proof.
  intros m m' p a N F E q b (c & I & Ew & El). destruct (set_data_ok m p a N F) as (m2 & E2 & _ & G). rewrite E2 in E. injection E as <-.
  destruct (list_eq_dec (list_eq_dec ascii_dec) q p) as [->|Nq].
  - exists a. split; [apply G; left; split; reflexivity|]. destruct F as (c' & I' & Ew' & El').
    assert (c = c').
    { clear - N I I'. revert N I I'. induction m as [|[q0 b0] m IH]; intros N I I'; [destruct I|]. inversion_clear N as [|? ? N1 N2].
      destruct I as [I|I], I' as [I'|I'].
      - congruence.
      - injection I as -> ->. apply (in_map fst) in I'. destruct (N1 I').
      - injection I' as -> ->. apply (in_map fst) in I. destruct (N1 I).
      - exact (IH N2 I I'). }
    subst c'. split; congruence.
  - exists c. split; [apply G; right; split; assumption|]. split; assumption.
Qed.

(** ** Walks *)
Lemma walk_plain : forall (m : model) full cs ptr, contains (str "bert.pooler.dense") full = false -> ~ In (str "layer") cs ->
  walk m full cs ptr false = Ok (if has m (ptr ++ cs) then At (ptr ++ cs) else match cs with [] => At ptr | _ => Skip end).
Proof.
  intros m full. induction cs as [|c cs IH]; intros ptr C NL.
  - cbn [walk]. rewrite app_nil_r. destruct (has m ptr); reflexivity.
  - cbn [walk]. rewrite C. cbn [andb].
    assert (E : ptr ++ c :: cs = (ptr ++ [c]) ++ cs) by (rewrite <- app_assoc; reflexivity).
    destruct (has m (ptr ++ [c])) eqn:H; cbn [bind].
    + assert (Nc : nm_eqb c (str "layer") = false) by (apply nm_eqb_false; intros ->; apply NL; left; reflexivity).
      rewrite Nc, andb_false_r, IH; [|exact C|intros I; apply NL; right; exact I]. rewrite <- E.
      destruct (has m (ptr ++ c :: cs)) eqn:H2; [reflexivity|]. destruct cs as [|c' cs]; [congruence | reflexivity].
    + destruct (has m (ptr ++ c :: cs)) eqn:H2; [|reflexivity]. rewrite E in H2. apply has_prefix in H2. congruence.
Qed.
Lemma walk_go : forall (m : model) full c cs ptr, contains (str "bert.pooler.dense") full && nm_eqb c (str "dense") = false ->
  has m (ptr ++ [c]) = true -> nm_eqb c (str "layer") = false -> walk m full (c :: cs) ptr false = walk m full cs (ptr ++ [c]) false.
Proof. intros m full c cs ptr C H L. cbn [walk]. rewrite C, H. cbn [bind]. rewrite L, andb_false_r. reflexivity. Qed.
Lemma walk_pool : forall (m : model) w full, contains (str "bert.pooler.dense") full = true -> w <> str "layer" -> w <> str "dense" ->
  has m (pool_path w) = true -> walk m full [str "bert"; str "pooler"; str "dense"; w] [] false = Ok (At (pool_path w)).
Proof.
  intros m w full C N1 N2 H. unfold pool_path in *.
  pose proof (has_prefix m [str "bert"] _ H) as H1. pose proof (has_prefix m [str "bert"; str "pooler"] _ H) as H2.
  pose proof (has_prefix m [str "bert"; str "pooler"; str "dense_act"] _ H) as H3.
  apply nm_eqb_false in N1, N2.
  rewrite walk_go; [|rewrite C; reflexivity | exact H1 | reflexivity].
  rewrite walk_go; [|rewrite C; reflexivity | exact H2 | reflexivity].
  transitivity (walk m full [w] [str "bert"; str "pooler"; str "dense_act"] false).
  - cbn [List.app]. cbn [walk]. rewrite C. change (nm_eqb (str "dense") (str "dense")) with true. cbn [andb List.app]. rewrite H3. cbn [bind].
    change (nm_eqb (str "dense") (str "layer")) with false. rewrite andb_false_r. reflexivity.
  - rewrite walk_go; [reflexivity | rewrite N2, andb_false_r; reflexivity | exact H | exact N1].
Qed.
Lemma walk_layer : forall (m : model) n full t suf, contains (str "bert.pooler.dense") full = false -> classify rules full = Ok t ->
  has m [str "bert"; str "encoder"; str "layer"; dec n] = true ->
  walk m full (str "bert" :: str "encoder" :: str "layer" :: dec n :: suf) [] false =
  match t with
  | ToKey k => Ok (Held k [str "bert"; str "encoder"; str "layer"; dec n])
  | ToAttr a => if has m (layer_path n a) then Ok (At (layer_path n a)) else Fail EIndex
  end.
Proof.
  intros m n full t suf C CL H.
  pose proof (has_prefix m [str "bert"] _ H) as H1. pose proof (has_prefix m [str "bert"; str "encoder"] _ H) as H2.
  pose proof (has_prefix m [str "bert"; str "encoder"; str "layer"] _ H) as H3.
  rewrite walk_go; [|rewrite C; reflexivity | exact H1 | reflexivity].
  rewrite walk_go; [|rewrite C; reflexivity | exact H2 | reflexivity].
  transitivity (walk m full (dec n :: suf) [str "bert"; str "encoder"; str "layer"] true).
  - cbn [List.app]. cbn [walk]. rewrite C. cbn [andb List.app]. rewrite H3. cbn [bind].
    change (nm_eqb (str "layer") (str "layer")) with true. reflexivity.
  - cbn [walk]. rewrite C. cbn [andb bind].
    rewrite dec_neq by (exists "l"%char; split; [left; reflexivity | reflexivity]).
    rewrite dec_numeric, canon_dec. cbn [andb List.app]. rewrite H, CL. cbn [bind]. reflexivity.
Qed.
Lemma split_layer : forall n suf, split dotted (layer_name n suf) = str "bert" :: str "encoder" :: str "layer" :: dec n :: split dotted suf.
Proof.
  intros n suf. unfold layer_name.
  change (str "bert.encoder.layer." ++ dec n ++ "."%char :: suf)
    with (str "bert" ++ dotted :: (str "encoder" ++ dotted :: (str "layer" ++ dotted :: (dec n ++ dotted :: suf)))).
  assert (F : forall w, forallb (fun c => negb (Ascii.eqb c dotted)) w = true -> free dotted w).
  { intros w H I. rewrite forallb_forall in H. specialize (H _ I). rewrite Ascii.eqb_refl in H. discriminate H. }
  rewrite (split_cons dotted (str "bert")) by (apply F; reflexivity).
  rewrite (split_cons dotted (str "encoder")) by (apply F; reflexivity).
  rewrite (split_cons dotted (str "layer")) by (apply F; reflexivity).
  rewrite (split_cons dotted (dec n)) by apply dec_free. reflexivity.
Qed.

Lemma slot_class : forall s t, In (s, t) slots -> classify_suffix rules ("."%char :: s) = Ok (ToAttr t) /\
  contains (str "bert.pooler.dense") ("."%char :: s) = false /\ contains (str "embeddings.word_embeddings") ("."%char :: s) = false.
Proof.
  intros s t I. cbn [slots In] in I. repeat (destruct I as [I|I]; [injection I as <- <-; vm_compute; repeat split; reflexivity|]). destruct I.
Qed.
Definition key_of (l : letter) (bias : bool) : key :=
  match l, bias with Q, false => QW | Q, true => QB | K, false => KW | K, true => KB | V, false => VW | V, true => VB end.
Lemma part_class : forall l b, let s := str "attention.self." ++ word l ++ "."%char :: leaf b in
  classify_suffix rules ("."%char :: s) = Ok (ToKey (key_of l b)) /\
  contains (str "bert.pooler.dense") ("."%char :: s) = false /\ contains (str "embeddings.word_embeddings") ("."%char :: s) = false.
Proof. intros [] []; vm_compute; repeat split; reflexivity. Qed.
Lemma layer_no_pool : forall n s, contains (str "bert.pooler.dense") ("."%char :: s) = false -> contains (str "bert.pooler.dense") (layer_name n s) = false.
Proof. intros n s H. rewrite contains_layer by (discriminate || reflexivity). rewrite H. reflexivity. Qed.
Lemma layer_no_embed : forall n s, contains (str "embeddings.word_embeddings") ("."%char :: s) = false -> contains (str "embeddings.word_embeddings") (layer_name n s) = false.
Proof. intros n s H. rewrite contains_layer by (discriminate || reflexivity). rewrite H. reflexivity. Qed.

Lemma pad_spec : forall diff name (a b : arr), pad zero diff name a = Ok b <-> padded zero diff name a b.
Proof.
  intros diff name a b. unfold pad, padded. rewrite <- contains_spec.
  destruct (Nat.ltb_spec 0 diff) as [L|L]; cbn [andb].
  - destruct (contains (str "embeddings.word_embeddings") name).
    + destruct (wid a) as [w|] eqn:W.
      * split.
        -- intros E. injection E as <-. cbn. split; [reflexivity|]. left. split; [reflexivity|]. exists w. split; reflexivity.
        -- intros (E & [(_ & w' & Ew & Er)|([H|H] & _)]); [|destruct H; reflexivity | lia]. injection Ew as <-. destruct b as [bw br]. cbn in *. congruence.
      * split; [discriminate|]. intros (E & [(_ & w' & Ew & Er)|([H|H] & _)]); [discriminate Ew | destruct H; reflexivity | lia].
    + split.
      * intros E. injection E as <-. split; [reflexivity|]. right. split; [left; discriminate | reflexivity].
      * intros (E & [(H & _)|(_ & Er)]); [discriminate H|]. destruct a, b; cbn in *; congruence.
  - assert (diff = 0) by lia. subst diff. split.
    + intros E. injection E as <-. split; [reflexivity|]. right. split; [right; reflexivity | reflexivity].
    + intros (E & [(_ & w & Ew & Er)|(_ & Er)]); destruct a, b; cbn in *; [rewrite app_nil_r in Er|]; congruence.
Qed.
Lemma pad_id : forall diff name (a : arr), contains (str "embeddings.word_embeddings") name = false -> pad zero diff name a = Ok a.
Proof. intros diff name a H. unfold pad. rewrite H, andb_false_r. reflexivity. Qed.

(** ** Parts of the attention *)
Notation part := (nat * letter * arr)%type.
Fixpoint pick (l : letter) (ps : list part) : option arr :=
  match ps with
  | [] => None
  | (_, l', a) :: r => match l, l' with Q, Q | K, K | V, V => Some a | _, _ => pick l r end
  end.
Definition join3 (x y z : arr) : arr := {| wid := wid x; rows := rows x ++ rows y ++ rows z |}.
Fixpoint threes (bias : bool) (ps : list part) : list (path * arr) :=
  match ps with
  | ((n, _, _) as e1) :: e2 :: e3 :: r =>
      match pick Q [e1; e2; e3], pick K [e1; e2; e3], pick V [e1; e2; e3] with
      | Some x, Some y, Some z => (layer_path n (merged_attr bias), join3 x y z) :: threes bias r
      | _, _, _ => threes bias r
      end
  | _ => []
  end.
Lemma grouped_ind : forall P : list part -> Prop, P [] ->
  (forall n l1 a1 l2 a2 l3 a3 r, l1 <> l2 -> l1 <> l3 -> l2 <> l3 -> wid a1 = wid a2 -> wid a1 = wid a3 -> grouped r -> P r ->
     P ((n, l1, a1) :: (n, l2, a2) :: (n, l3, a3) :: r)) ->
  forall ps, grouped ps -> P ps.
Proof.
  intros P H0 H3. assert (G : forall k ps, List.length ps <= k -> grouped ps -> P ps).
  { induction k as [|k IH]; intros ps L G.
    - destruct ps; [exact H0 | cbn in L; lia].
    - destruct ps as [|[[n1 l1] a1] [|[[n2 l2] a2] [|[[n3 l3] a3] r]]]; [exact H0 | destruct G | destruct G |].
      destruct G as (<- & <- & D1 & D2 & D3 & W1 & W2 & G). apply H3; try assumption. apply IH; [cbn in L; lia | exact G]. }
  intros ps. exact (G (List.length ps) ps (le_n _)).
Qed.
Lemma block_pick : forall (n : nat) l1 a1 l2 a2 l3 a3 l, l1 <> l2 -> l1 <> l3 -> l2 <> l3 ->
  exists a : arr, pick l [(n, l1, a1); (n, l2, a2); (n, l3, a3)] = Some a /\ In (n, l, a) [(n, l1, a1); (n, l2, a2); (n, l3, a3)].
Proof. intros n [] a1 [] a2 [] a3 []; intros; try congruence; eexists; (split; [reflexivity | cbn; tauto]). Qed.

Definition tag (e : part) : nat * letter := fst e.
Lemma tag_unique : forall ps n l (a b : arr), NoDup (map tag ps) -> In (n, l, a) ps -> In (n, l, b) ps -> a = b.
Proof.
  induction ps as [|e ps IH]; intros n l a b N I J; [destruct I|]. inversion_clear N as [|? ? N1 N2].
  destruct I as [->|I], J as [J|J].
  - congruence.
  - apply (in_map tag) in J. destruct (N1 J).
  - subst e. apply (in_map tag) in I. destruct (N1 I).
  - exact (IH n l a b N2 I J).
Qed.
Lemma threes_spec : forall bias ps, grouped ps -> NoDup (map tag ps) -> forall p b,
  In (p, b) (threes bias ps) <-> exists n x y z, In (n, Q, x) ps /\ In (n, K, y) ps /\ In (n, V, z) ps
    /\ p = layer_path n (merged_attr bias) /\ b = join3 x y z.
Proof.
  intros bias. refine (grouped_ind _ _ _).
  - intros _ p b. cbn. split; [intros [] | intros (? & ? & ? & ? & [] & _)].
  - intros n l1 a1 l2 a2 l3 a3 r D1 D2 D3 _ _ _ IH N p b.
    set (bl := [(n, l1, a1); (n, l2, a2); (n, l3, a3)]).
    assert (S : (n, l1, a1) :: (n, l2, a2) :: (n, l3, a3) :: r = bl ++ r) by reflexivity.
    destruct (block_pick n l1 a1 l2 a2 l3 a3 Q D1 D2 D3) as (x & Px & Ix).
    destruct (block_pick n l1 a1 l2 a2 l3 a3 K D1 D2 D3) as (y & Py & Iy).
    destruct (block_pick n l1 a1 l2 a2 l3 a3 V D1 D2 D3) as (z & Pz & Iz).
    fold bl in Px, Py, Pz, Ix, Iy, Iz.
    assert (T : threes bias ((n, l1, a1) :: (n, l2, a2) :: (n, l3, a3) :: r) = (layer_path n (merged_attr bias), join3 x y z) :: threes bias r).
    { unfold bl in Px, Py, Pz. cbn [threes].
 rewrite Px, Py, Pz. reflexivity. }
    rewrite T. rewrite S in N |- *.
    assert (Nr : NoDup (map tag r)).
    { clear - N. unfold bl in N. cbn in N. inversion_clear N as [|? ? _ N1]. inversion_clear N1 as [|? ? _ N2]. inversion_clear N2. assumption. }
    assert (HB : forall l k a, In (k, l, a) bl -> k = n).
    { intros l k a I. unfold bl in I. cbn in I. destruct I as [I|[I|[I|[]]]]; congruence. }
    assert (Apart : forall l a a', In (n, l, a) bl -> In (n, l, a') r -> False).
    { intros l a a' I J. rewrite map_app in N. apply (in_map tag) in I, J. unfold tag in I at 1, J at 1. cbn [fst] in I, J.
      clear - N I J. induction (map tag bl) as [|t ts IHt]; [destruct I|]. cbn in N. inversion_clear N as [|? ? N1 N2].
      destruct I as [->|I]; [apply N1; apply in_or_app; right; exact J | exact (IHt N2 I)]. }
    cbn [In]. rewrite (IH Nr). split.
    + intros [E|(k & x' & y' & z' & I1 & I2 & I3 & Ep & Eb)].
      * injection E as <- <-. exists n, x, y, z. repeat split; apply in_or_app; left; assumption.
      * exists k, x', y', z'. repeat split; try assumption; apply in_or_app; right; assumption.
    + intros (k & x' & y' & z' & I1 & I2 & I3 & Ep & Eb).
      destruct (Nat.eq_dec k n) as [->|Nk].
      * left.
        assert (Ex : x' = x) by (apply (tag_unique _ n Q _ _ N I1); apply in_or_app; left; exact Ix).
        assert (Ey : y' = y) by (apply (tag_unique _ n K _ _ N I2); apply in_or_app; left; exact Iy).
        assert (Ez : z' = z) by (apply (tag_unique _ n V _ _ N I3); apply in_or_app; left; exact Iz).
        congruence.
      * right. exists k, x', y', z'.
        assert (R : forall l a, In (k, l, a) (bl ++ r) -> In (k, l, a) r).
        { intros l a I. apply in_app_or in I. destruct I as [I|I]; [destruct (Nk (HB _ _ _ I)) | exact I]. }
        repeat split; try assumption; apply R; assumption.
Qed.
Lemma threes_layer : forall bias ps, grouped ps -> forall n l a, In (n, l, a) ps -> exists b, In (layer_path n (merged_attr bias), b) (threes bias ps).
Proof.
  intros bias. refine (grouped_ind _ _ _); [intros ? ? ? []|].
  intros n l1 a1 l2 a2 l3 a3 r D1 D2 D3 _ _ _ IH k l a I.
  destruct (block_pick n l1 a1 l2 a2 l3 a3 Q D1 D2 D3) as (x & Px & _).
  destruct (block_pick n l1 a1 l2 a2 l3 a3 K D1 D2 D3) as (y & Py & _).
  destruct (block_pick n l1 a1 l2 a2 l3 a3 V D1 D2 D3) as (z & Pz & _).
  assert (T : threes bias ((n, l1, a1) :: (n, l2, a2) :: (n, l3, a3) :: r) = (layer_path n (merged_attr bias), join3 x y z) :: threes bias r).
  { cbn [threes]. rewrite Px, Py, Pz. reflexivity. }
  rewrite T. destruct I as [I|[I|[I|I]]]; try (injection I as <- _ _; exists (join3 x y z); left; reflexivity).
  destruct (IH k l a I) as (b & J). exists b. right. exact J.
Qed.

(** ** Writes *)
Inductive written : model -> list (path * arr) -> model -> Prop :=
| w_nil : forall m, written m [] m
| w_cons : forall m m1 m' p a ws, fits m p a -> set_data p a m = Ok m1 -> written m1 ws m' -> written m ((p, a) :: ws) m'.
Lemma written_in : forall m ws m', written m ws m' -> NoDup (map fst m) ->
  (forall p a b, In (p, a) ws -> In (p, b) ws -> a = b) ->
  map fst m' = map fst m /\ forall p a, In (p, a) m' <-> In (p, a) ws \/ (In (p, a) m /\ forall b, ~ In (p, b) ws).
Proof.
  induction 1 as [m|m m1 m' p a ws F E W IH]; intros N C.
  - split; [reflexivity|]. intros p a. cbn. split; [intros I; right; split; [exact I | intros ? []] | intros [[]|[I _]]; exact I].
  - destruct (set_data_ok m p a N F) as (m2 & E2 & F2 & G2). rewrite E in E2. injection E2 as <-.
    destruct IH as [F3 G3]; [rewrite F2; exact N | intros q x y I J; apply (C q); right; assumption|].
    split; [congruence|]. intros q b. rewrite G3, G2. cbn [In]. split.
    + intros [I|[[[-> ->]|[Nq I]] Nw]].
      * left. right. exact I.
      * left. left. reflexivity.
      * right. split; [exact I|]. intros c [Ec|Ic]; [congruence | exact (Nw c Ic)].
    + intros [[Ei|I]|[I Nw]].
      * injection Ei as <- <-.
        assert (D : (exists b, In (p, b) ws) \/ ~ exists b, In (p, b) ws).
        { clear. induction ws as [|[q x] ws IH]; [right; intros (? & [])|]. destruct IH as [(b & I)|IH]; [left; exists b; right; exact I|].
          destruct (list_eq_dec (list_eq_dec ascii_dec) q p) as [->|Nq]; [left; exists x; left; reflexivity|].
          right. intros (b & [I|I]); [congruence | apply IH; exists b; exact I]. }
        destruct D as [(b & I)|D].
        -- left. rewrite (C p a b (or_introl eq_refl) (or_intror I)). exact I.
        -- right. split; [left; split; reflexivity|]. intros b I. apply D. exists b. exact I.
      * left. exact I.
      * right. split; [|intros c Ic; exact (Nw c (or_intror Ic))]. right. split; [|exact I]. intros ->. apply (Nw a). left. reflexivity.
Qed.

(** ** The loop *)
Definition missing (q : @held X) (bias : bool) : Prop :=
  q (key_of Q bias) = None \/ q (key_of K bias) = None \/ q (key_of V bias) = None.
Lemma skip3 : forall (o1 o2 o3 : option arr) (T : Type) (f : arr -> arr -> arr -> T) (g : T), o1 = None \/ o2 = None \/ o3 = None ->
  match o1, o2, o3 with Some x, Some y, Some z => f x y z | _, _, _ => g end = g.
Proof. intros [x|] [y|] [z|] T f g [H|[H|H]]; try discriminate H; reflexivity. Qed.
Definition then_store diff full (m : model) (q : @held X) (p : path) (a : arr) : res (model * @held X) :=
  do a <- pad zero diff full a ;; do m <- set_data p a m ;; Ok (m, q).
Lemma store_none : forall diff full (m : model) q p a, missing q false -> missing q true ->
  store zero diff full m q None p a = then_store diff full m q p a.
Proof.
  intros diff full m q p a M1 M2. unfold store.
  rewrite skip3 by exact M1. rewrite skip3 by exact M2. reflexivity.
Qed.
Lemma store_hold : forall diff full (m : model) q k p a, missing (put q k a) false -> missing (put q k a) true ->
  store zero diff full m q (Some k) p a = Ok (m, put q k a).
Proof.
  intros diff full m q k p a M1 M2. unfold store.
  rewrite skip3 by exact M1. rewrite skip3 by exact M2. reflexivity.
Qed.
Definition popped (q : @held X) (bias : bool) : @held X := pop3 q (key_of Q bias) (key_of K bias) (key_of V bias).
Lemma store_merge : forall diff full (m m' : model) q k p a bias x y z,
  (bias = true -> missing (put q k a) false) ->
  put q k a (key_of Q bias) = Some x -> put q k a (key_of K bias) = Some y -> put q k a (key_of V bias) = Some z ->
  wid x = wid y -> wid x = wid z -> contains (str "embeddings.word_embeddings") full = false ->
  has m (p ++ [merged_attr bias]) = true -> set_data (p ++ [merged_attr bias]) (join3 x y z) m = Ok m' ->
  store zero diff full m q (Some k) p a = Ok (m', popped (put q k a) bias).
Proof.
  intros diff full m m' q k p a bias x y z M Hx Hy Hz Wy Wz C H E. unfold store.
  assert (C3 : concat3 x y z = Ok (join3 x y z)).
  { unfold concat3. apply wid_eqb_true in Wy, Wz. rewrite Wy, Wz. reflexivity. }
  destruct bias; cbn [key_of merged_attr] in *.
  - rewrite skip3 by exact (M eq_refl). rewrite Hx, Hy, Hz, C3. cbn [bind]. unfold attr. rewrite H. cbn [bind].
    rewrite pad_id by exact C. cbn [bind]. rewrite E. reflexivity.
  - rewrite Hx, Hy, Hz, C3. cbn [bind]. unfold attr. rewrite H. cbn [bind].
    rewrite pad_id by exact C. cbn [bind]. rewrite E. reflexivity.
Qed.

Definition holds (q : @held X) (bias : bool) (ps : list part) : Prop := forall l, q (key_of l bias) = pick l ps.
Lemma short_missing : forall q bias ps, holds q bias ps -> List.length ps <= 2 -> missing q bias.
Proof.
  intros q bias ps H L. unfold missing. rewrite !H.
  destruct ps as [|[[n1 l1] a1] [|[[n2 l2] a2] [|]]]; cbn in L; try lia.
  - left. reflexivity.
  - destruct l1; cbn; tauto.
  - destruct l1, l2; cbn; tauto.
Qed.
Lemma holds_put : forall q bias ps n l a, holds q bias ps -> pick l ps = None -> holds (put q (key_of l bias) a) bias (ps ++ [(n, l, a)]).
Proof.
  intros q bias ps n l a H N l'.
  assert (PA : pick l' (ps ++ [(n, l, a)]) = match pick l' ps with Some x => Some x | None => pick l' [(n, l, a)] end).
  { clear. induction ps as [|[[k l1] a1] ps IH]; [reflexivity|]. cbn [List.app pick]. destruct l', l1; try reflexivity; exact IH. }
  rewrite PA. unfold put. specialize (H l'). destruct l, l', bias; cbn in *; rewrite ?N; try rewrite H; try (destruct (pick _ ps); reflexivity); reflexivity.
Qed.
Lemma holds_other : forall q bias bias' ps l a, bias <> bias' -> holds q bias' ps -> holds (put q (key_of l bias) a) bias' ps.
Proof. intros q bias bias' ps l a D H l'. unfold put. rewrite <- H. destruct l, l', bias, bias'; try reflexivity; congruence. Qed.
Lemma holds_pop : forall q bias, holds (popped q bias) bias [].
Proof. intros q bias l. destruct l, bias; reflexivity. Qed.
Lemma holds_pop_other : forall q bias bias' ps, bias <> bias' -> holds q bias' ps -> holds (popped q bias) bias' ps.
Proof. intros q bias bias' ps D H l. rewrite <- H. destruct l, bias, bias'; try reflexivity; congruence. Qed.

Lemma grouped_step : forall bias ps n l (a : arr) r, List.length ps <= 2 -> grouped (ps ++ (n, l, a) :: r) ->
  pick l ps = None /\
  (List.length (ps ++ [(n, l, a)]) <= 2 \/
   (exists x y z, pick Q (ps ++ [(n, l, a)]) = Some x /\ pick K (ps ++ [(n, l, a)]) = Some y /\ pick V (ps ++ [(n, l, a)]) = Some z
      /\ wid x = wid y /\ wid x = wid z
      /\ threes bias (ps ++ (n, l, a) :: r) = (layer_path n (merged_attr bias), join3 x y z) :: threes bias r /\ grouped r)).
Proof.
  intros bias ps n l a r L G. destruct ps as [|[[n1 l1] a1] [|[[n2 l2] a2] [|]]]; cbn in L; try lia.
  - split; [reflexivity | left; cbn; lia].
  - split; [|left; cbn; lia]. cbn in G. destruct r as [|[[n3 l3] a3] r]; [destruct G|]. destruct G as (_ & _ & D & _).
    destruct l, l1; try reflexivity; congruence.
  - cbn in G. destruct G as (<- & <- & D1 & D2 & D3 & W1 & W2 & G).
    split; [destruct l, l1, l2; try reflexivity; congruence|]. right.
    destruct l, l1, l2; try congruence; cbn; do 3 eexists; (split; [reflexivity|]); (split; [reflexivity|]); (split; [reflexivity|]);
      (split; [congruence|]); (split; [congruence|]); (split; [reflexivity | exact G]).
Qed.

Definition direct (diff : nat) (m : model) (es : list (@entry X)) (p : path) (b : arr) : Prop :=
  (exists a, In (Other p a) es /\ exists_below m p /\ padded zero diff (dots p) a b)
  \/ (exists w, In (Pool w b) es /\ p = pool_path w)
  \/ (exists n s t, In (Copy n s t b) es /\ p = layer_path n t).
Lemma exists_below_fst : forall (m m' : model) p, map fst m = map fst m' -> (exists_below m p <-> exists_below m' p).
Proof. intros m m' p E. rewrite <- !has_spec, (has_fst m m' p E). reflexivity. Qed.
Lemma direct_cons : forall diff m e es p b, direct diff m (e :: es) p b <-> direct diff m [e] p b \/ direct diff m es p b.
Proof.
  intros diff m e es p b. unfold direct. cbn [In]. split.
  - intros [(a & [I|I] & R)|[(w & [I|I] & R)|(n & s & t & [I|I] & R)]].
    + left. left. exists a. tauto.
    + right. left. exists a. tauto.
    + left. right. left. exists w. tauto.
    + right. right. left. exists w. tauto.
    + left. right. right. exists n, s, t. tauto.
    + right. right. right. exists n, s, t. tauto.
  - intros [[(a & [I|[]] & R)|[(w & [I|[]] & R)|(n & s & t & [I|[]] & R)]]|[(a & I & R)|[(w & I & R)|(n & s & t & I & R)]]].
    + left. exists a. tauto.
    + right. left. exists w. tauto.
    + right. right. exists n, s, t. tauto.
    + left. exists a. tauto.
    + right. left. exists w. tauto.
    + right. right. exists n, s, t. tauto.
Qed.
Lemma direct_fst : forall diff m m' es p b, map fst m = map fst m' -> (direct diff m es p b <-> direct diff m' es p b).
Proof.
  intros diff m m' es p b E. unfold direct.
  assert (S : forall a, (In (Other p a) es /\ exists_below m p /\ padded zero diff (dots p) a b) <-> (In (Other p a) es /\ exists_below m' p /\ padded zero diff (dots p) a b)).
  { intros a. rewrite (exists_below_fst m m' p E). reflexivity. }
  split; (intros [(a & R)|R]; [left; exists a; apply S; exact R | right; exact R]).
Qed.

Lemma layer_has : forall (m : model) n t a, fits m (layer_path n t) a -> has m [str "bert"; str "encoder"; str "layer"; dec n] = true.
Proof. intros m n t a F. apply fits_has in F. exact (has_prefix m [str "bert"; str "encoder"; str "layer"; dec n] [t] F). Qed.

Lemma parts_cons : forall bias n l b (a : arr) es, parts bias (Part n l b a :: es) = (if Bool.eqb b bias then [(n, l, a)] else []) ++ parts bias es.
Proof. reflexivity. Qed.

Lemma many_ok : forall diff es pw pb (m : model) q,
  NoDup (map fst m) -> Forall proper es -> List.length pw <= 2 -> List.length pb <= 2 ->
  grouped (pw ++ parts false es) -> grouped (pb ++ parts true es) -> holds q false pw -> holds q true pb ->
  (forall p a, In (Other p a) es -> exists_below m p -> exists b, padded zero diff (dots p) a b) ->
  (forall p b, direct diff m es p b -> fits m p b) ->
  (forall p b, In (p, b) (threes false (pw ++ parts false es)) -> fits m p b) ->
  (forall p b, In (p, b) (threes true (pb ++ parts true es)) -> fits m p b) ->
  exists m' q' ws, many zero diff (m, q) (file es) = Ok (m', q') /\ written m ws m' /\
    forall p b, In (p, b) ws <-> direct diff m es p b \/ In (p, b) (threes false (pw ++ parts false es)) \/ In (p, b) (threes true (pb ++ parts true es)).
Proof.
  intros diff. induction es as [|e es IH]; intros pw pb m q ND PR Lw Lb Gw Gb Hw Hb HP HD HT1 HT2.
  - exists m, q, []. split; [reflexivity|]. split; [constructor|]. intros p b.
    assert (T : forall bias ps, List.length ps <= 2 -> threes bias ps = []).
    { intros bias [|[[? ?] ?] [|? [|]]] L; try reflexivity. cbn in L. lia. }
    rewrite (T false (pw ++ parts false [])) by (rewrite app_length; cbn; lia).
    rewrite (T true (pb ++ parts true [])) by (rewrite app_length; cbn; lia).
    split; [intros []|]. intros [D|[[]|[]]].
    destruct D as [(a & I' & _)|[(w & I' & _)|(n & s & t & I' & _)]]; destruct I'.
  - inversion_clear PR as [|? ? PE PR'].
    assert (Mw : missing q false) by exact (short_missing _ _ _ Hw Lw).
    assert (Mb : missing q true) by exact (short_missing _ _ _ Hb Lb).
    assert (HD1 : forall p b, direct diff m [e] p b -> fits m p b) by (intros p b D; apply HD, direct_cons; left; exact D).
    assert (SK : HfModel.one zero diff (m, q) (name_of e, arr_of e) = Ok (m, q) -> (forall p b, ~ direct diff m [e] p b) -> (match e with Part _ _ _ _ => False | _ => True end) ->
      exists m' q' ws, many zero diff (m, q) (file (e :: es)) = Ok (m', q') /\ written m ws m' /\
        forall p b, In (p, b) ws <-> direct diff m (e :: es) p b \/ In (p, b) (threes false (pw ++ parts false (e :: es))) \/ In (p, b) (threes true (pb ++ parts true (e :: es)))).
    { intros E ND1 NP.
      assert (Ep : forall bias, parts bias (e :: es) = parts bias es) by (intros bias; destruct e; [reflexivity..|destruct NP]).
      rewrite !Ep in *.
      destruct (IH pw pb m q ND PR' Lw Lb Gw Gb Hw Hb) as (m' & q' & ws & E1 & W & S); try assumption.
      { intros p a I. apply HP. right. exact I. }
      { intros p b D. apply HD, direct_cons. right. exact D. }
      exists m', q', ws. split; [cbn [file map many]; rewrite E; exact E1|]. split; [exact W|]. intros p b. rewrite S, direct_cons.
      specialize (ND1 p b). tauto. }
    assert (WR : forall p0 b0 (N : match e with Part _ _ _ _ => False | _ => True end),
      HfModel.one zero diff (m, q) (name_of e, arr_of e) = (do m1 <- set_data p0 b0 m ;; Ok (m1, q)) -> (forall p b, direct diff m [e] p b <-> p = p0 /\ b = b0) ->
      exists m' q' ws, many zero diff (m, q) (file (e :: es)) = Ok (m', q') /\ written m ws m' /\
        forall p b, In (p, b) ws <-> direct diff m (e :: es) p b \/ In (p, b) (threes false (pw ++ parts false (e :: es))) \/ In (p, b) (threes true (pb ++ parts true (e :: es)))).
    { intros p0 b0 NP E DS.
      assert (Ep : forall bias, parts bias (e :: es) = parts bias es) by (intros bias; destruct e; [reflexivity..|destruct NP]).
      rewrite !Ep in *.
      assert (F0 : fits m p0 b0) by (apply HD1, DS; split; reflexivity).
      destruct (set_data_ok m p0 b0 ND F0) as (m1 & E1 & Em & _).
      rewrite E1 in E. cbn [bind] in E.
      destruct (IH pw pb m1 q) as (m' & q' & ws & E2 & W & S); try assumption.
      { rewrite Em. exact ND. }
      { intros p a I B. apply (HP p a); [right; exact I | apply (exists_below_fst m1 m p Em); exact B]. }
      { intros p b D. apply (set_data_fits m m1 p0 b0 ND F0 E1). apply HD, direct_cons. right. apply (direct_fst _ m1 m _ _ _ Em). exact D. }
      { intros p b I. apply (set_data_fits m m1 p0 b0 ND F0 E1), HT1, I. }
      { intros p b I. apply (set_data_fits m m1 p0 b0 ND F0 E1), HT2, I. }
      exists m', q', ((p0, b0) :: ws). split; [cbn [file map many]; rewrite E; exact E2|]. split; [exact (w_cons _ _ _ _ _ _ F0 E1 W)|].
      intros p b. cbn [In]. rewrite S, direct_cons, DS, (direct_fst _ m1 m _ _ _ Em).
      split; [intros [Ei|R]; [injection Ei as -> ->; tauto | tauto] | intros [[[-> ->]|R]|R]; tauto]. }
    destruct e as [p0 a|w a|n s t a|n l b a]; cbn [proper] in PE.
    + destruct PE as (N0 & FR & NL & NI & NPp).
      assert (C : contains (str "bert.pooler.dense") (dots p0) = false).
      { destruct (contains (str "bert.pooler.dense") (dots p0)) eqn:C; [apply contains_spec in C; destruct (NI C) | reflexivity]. }
      assert (E : HfModel.one zero diff (m, q) (name_of (Other p0 a), arr_of (Other p0 a)) = if has m p0 then then_store diff (dots p0) m q p0 a else Ok (m, q)).
      { unfold HfModel.one. cbn [fst snd name_of arr_of]. rewrite split_dots by assumption. rewrite walk_plain by assumption. cbn [List.app bind].
        destruct (has m p0); [apply store_none; assumption|]. destruct p0; [congruence | reflexivity]. }
      destruct (has m p0) eqn:H.
      * destruct (HP p0 a (or_introl eq_refl) (proj1 (has_spec m p0) H)) as (b0 & PB).
        apply (WR p0 b0 I).
        -- rewrite E. unfold then_store. apply pad_spec in PB. rewrite PB. reflexivity.
        -- intros p b. unfold direct. cbn [In]. split.
           ++ intros [(a' & [I'|[]] & B & PD)|[(w & [I'|[]] & _)|(? & ? & ? & [I'|[]] & _)]]; try discriminate I'. injection I' as <- <-.
              split; [reflexivity|]. apply pad_spec in PB, PD. congruence.
           ++ intros [-> ->]. left. exists a. split; [left; reflexivity|]. split; [apply has_spec; exact H | exact PB].
      * apply SK; [exact E | | exact I]. intros p b [(a' & [I'|[]] & B & PD)|[(w & [I'|[]] & _)|(? & ? & ? & [I'|[]] & _)]]; try discriminate I'.
        injection I' as <- <-. apply has_spec in B. congruence.
    + destruct PE as (FR & NL & NDn & NI).
      assert (DS : forall p b, direct diff m [Pool w a] p b <-> p = pool_path w /\ b = a).
      { intros p b. unfold direct. cbn [In]. split.
        - intros [(a' & [I'|[]] & _)|[(w' & [I'|[]] & Ep)|(? & ? & ? & [I'|[]] & _)]]; try discriminate I'. injection I' as <- <-. split; [exact Ep | reflexivity].
        - intros [-> ->]. right. left. exists w. split; [left; reflexivity | reflexivity]. }
      apply (WR (pool_path w) a I); [|exact DS].
      assert (H : has m (pool_path w) = true) by (apply (fits_has m _ a), HD1, DS; split; reflexivity).
      unfold HfModel.one. cbn [fst snd name_of arr_of].
      assert (SP : split dotted (str "bert.pooler.dense." ++ w) = [str "bert"; str "pooler"; str "dense"; w]).
      { exact (split_dots [str "bert"; str "pooler"; str "dense"; w] ltac:(discriminate)
          (Forall_cons _ (ltac:(unfold free; cbn; intros J; repeat (destruct J as [J|J]; [discriminate J|]); exact J) : free "." (str "bert"))
          (Forall_cons _ (ltac:(unfold free; cbn; intros J; repeat (destruct J as [J|J]; [discriminate J|]); exact J) : free "." (str "pooler"))
          (Forall_cons _ (ltac:(unfold free; cbn; intros J; repeat (destruct J as [J|J]; [discriminate J|]); exact J) : free "." (str "dense"))
          (Forall_cons _ FR (Forall_nil _)))))). }
      rewrite SP.
      rewrite walk_pool; [|apply contains_spec; exists [], ("."%char :: w); reflexivity | exact NL | exact NDn | exact H]. cbn [bind].
      rewrite store_none by assumption. unfold then_store. rewrite pad_id; [reflexivity|].
      destruct (contains _ _) eqn:C; [apply contains_spec in C; destruct (NI C) | reflexivity].
    + assert (DS : forall p b, direct diff m [Copy n s t a] p b <-> p = layer_path n t /\ b = a).
      { intros p b. unfold direct. cbn [In]. split.
        - intros [(a' & [I'|[]] & _)|[(w' & [I'|[]] & Ep)|(n' & s' & t' & [I'|[]] & Ep)]]; try discriminate I'. injection I' as <- <- <- <-. split; [exact Ep | reflexivity].
        - intros [-> ->]. right. right. exists n, s, t. split; [left; reflexivity | reflexivity]. }
      apply (WR (layer_path n t) a I); [|exact DS].
      assert (F : fits m (layer_path n t) a) by (apply HD1, DS; split; reflexivity).
      destruct (slot_class s t PE) as (CL & CP & CE).
      unfold HfModel.one. cbn [fst snd name_of arr_of]. rewrite split_layer.
      rewrite (walk_layer m n _ (ToAttr t)); [|apply layer_no_pool; exact CP | rewrite classify_layer; exact CL | exact (layer_has m n t a F)].
      rewrite (fits_has _ _ _ F). cbn [bind]. rewrite store_none by assumption. unfold then_store. rewrite pad_id by (apply layer_no_embed; exact CE). reflexivity.
    + clear WR SK.
      destruct (part_class l b) as (CL & CP & CE). cbn zeta in CL, CP, CE.
      assert (ND1 : forall p c, ~ direct diff m [Part n l b a] p c).
      { intros p c [(a' & [I'|[]] & _)|[(w' & [I'|[]] & Ep)|(n' & s' & t' & [I'|[]] & Ep)]]; discriminate I'. }
      assert (GN : forall bias ps, b = bias -> grouped (ps ++ parts bias (Part n l b a :: es)) ->
        (forall p c, In (p, c) (threes bias (ps ++ parts bias (Part n l b a :: es))) -> fits m p c) ->
        has m [str "bert"; str "encoder"; str "layer"; dec n] = true).
      { intros bias ps <- G HT. destruct (threes_layer b _ G n l a) as (c & I').
        - rewrite parts_cons, Bool.eqb_reflx. apply in_or_app. right. left. reflexivity.
        - exact (layer_has m n _ c (HT _ _ I')). }
      assert (H : has m [str "bert"; str "encoder"; str "layer"; dec n] = true).
      { destruct b; [exact (GN true pb eq_refl Gb HT2) | exact (GN false pw eq_refl Gw HT1)]. }
      assert (E : HfModel.one zero diff (m, q) (name_of (Part n l b a), arr_of (Part n l b a))
        = store zero diff (name_of (Part n l b a)) m q (Some (key_of l b)) [str "bert"; str "encoder"; str "layer"; dec n] a).
      { unfold HfModel.one. cbn [fst snd name_of arr_of]. rewrite split_layer.
        rewrite (walk_layer m n _ (ToKey (key_of l b))); [reflexivity | apply layer_no_pool; exact CP | rewrite classify_layer; exact CL | exact H]. }
      assert (CN : contains (str "embeddings.word_embeddings") (name_of (Part n l b a)) = false) by (apply layer_no_embed; exact CE).
      destruct b.
      * rewrite (parts_cons true n l true) in *. rewrite (parts_cons false n l true) in *. cbn [Bool.eqb List.app] in *.
        destruct (grouped_step true pb n l a _ Lb Gb) as (PN & [Lb'|(x & y & z & Px & Py & Pz & Wy & Wz & T & Gr)]).
        -- assert (Hb' : holds (put q (key_of l true) a) true (pb ++ [(n, l, a)])) by (apply holds_put; assumption).
           assert (Hw' : holds (put q (key_of l true) a) false pw) by (apply holds_other; [discriminate | exact Hw]).
           rewrite store_hold in E; [|exact (short_missing _ _ _ Hw' Lw) | exact (short_missing _ _ _ Hb' Lb')].
           change ((n, l, a) :: parts true es) with ([(n, l, a)] ++ parts true es) in *. rewrite (app_assoc pb) in *.
           destruct (IH pw (pb ++ [(n, l, a)]) m (put q (key_of l true) a)) as (m' & q' & ws & E1 & W & S); try assumption.
           { intros p a' I'. apply HP. right. exact I'. }
           { intros p c D. apply HD, direct_cons. right. exact D. }
           exists m', q', ws. split; [cbn [file map many]; rewrite E; exact E1|]. split; [exact W|]. intros p c. rewrite S, direct_cons.
           specialize (ND1 p c). tauto.
        -- assert (Hb' : holds (put q (key_of l true) a) true (pb ++ [(n, l, a)])) by (apply holds_put; assumption).
           assert (Hw' : holds (put q (key_of l true) a) false pw) by (apply holds_other; [discriminate | exact Hw]).
           assert (F0 : fits m (layer_path n (merged_attr true)) (join3 x y z)) by (apply HT2; rewrite T; left; reflexivity).
           destruct (set_data_ok m _ _ ND F0) as (m1 & E1 & Em & _).
           rewrite (store_merge diff _ m m1 q _ _ a true x y z) in E;
             [|intros _; exact (short_missing _ _ _ Hw' Lw) | rewrite Hb'; exact Px | rewrite Hb'; exact Py | rewrite Hb'; exact Pz | exact Wy | exact Wz | exact CN | exact (fits_has _ _ _ F0) | exact E1].
           destruct (IH pw [] m1 (popped (put q (key_of l true) a) true)) as (m' & q' & ws & E2 & W & S); try assumption.
           { rewrite Em. exact ND. }
           { cbn. lia. }
           { apply holds_pop_other; [discriminate | exact Hw']. }
           { apply holds_pop. }
           { intros p a' I' B. apply (HP p a'); [right; exact I' | apply (exists_below_fst m1 m p Em); exact B]. }
           { intros p c D. apply (set_data_fits m m1 _ _ ND F0 E1). apply HD, direct_cons. right. apply (direct_fst _ m1 m _ _ _ Em). exact D. }
           { intros p c I'. apply (set_data_fits m m1 _ _ ND F0 E1), HT1, I'. }
           { intros p c I'. apply (set_data_fits m m1 _ _ ND F0 E1), HT2. rewrite T. right. exact I'. }
           exists m', q', ((layer_path n (merged_attr true), join3 x y z) :: ws). split; [cbn [file map many]; rewrite E; exact E2|].
           split; [exact (w_cons _ _ _ _ _ _ F0 E1 W)|]. intros p c. rewrite T. cbn [In List.app] in S |- *. rewrite S, direct_cons, (direct_fst _ m1 m _ _ _ Em).
           specialize (ND1 p c). tauto.
      * rewrite (parts_cons true n l false) in *. rewrite (parts_cons false n l false) in *. cbn [Bool.eqb List.app] in *.
        destruct (grouped_step false pw n l a _ Lw Gw) as (PN & [Lw'|(x & y & z & Px & Py & Pz & Wy & Wz & T & Gr)]).
        -- assert (Hw' : holds (put q (key_of l false) a) false (pw ++ [(n, l, a)])) by (apply holds_put; assumption).
           assert (Hb' : holds (put q (key_of l false) a) true pb) by (apply holds_other; [discriminate | exact Hb]).
           rewrite store_hold in E; [|exact (short_missing _ _ _ Hw' Lw') | exact (short_missing _ _ _ Hb' Lb)].
           change ((n, l, a) :: parts false es) with ([(n, l, a)] ++ parts false es) in *. rewrite (app_assoc pw) in *.
           destruct (IH (pw ++ [(n, l, a)]) pb m (put q (key_of l false) a)) as (m' & q' & ws & E1 & W & S); try assumption.
           { intros p a' I'. apply HP. right. exact I'. }
           { intros p c D. apply HD, direct_cons. right. exact D. }
           exists m', q', ws. split; [cbn [file map many]; rewrite E; exact E1|]. split; [exact W|]. intros p c. rewrite S, direct_cons.
           specialize (ND1 p c). tauto.
        -- assert (Hw' : holds (put q (key_of l false) a) false (pw ++ [(n, l, a)])) by (apply holds_put; assumption).
           assert (Hb' : holds (put q (key_of l false) a) true pb) by (apply holds_other; [discriminate | exact Hb]).
           assert (F0 : fits m (layer_path n (merged_attr false)) (join3 x y z)) by (apply HT1; rewrite T; left; reflexivity).
           destruct (set_data_ok m _ _ ND F0) as (m1 & E1 & Em & _).
           rewrite (store_merge diff _ m m1 q _ _ a false x y z) in E;
             [|discriminate | rewrite Hw'; exact Px | rewrite Hw'; exact Py | rewrite Hw'; exact Pz | exact Wy | exact Wz | exact CN | exact (fits_has _ _ _ F0) | exact E1].
           destruct (IH [] pb m1 (popped (put q (key_of l false) a) false)) as (m' & q' & ws & E2 & W & S); try assumption.
           { rewrite Em. exact ND. }
           { cbn. lia. }
           { apply holds_pop. }
           { apply holds_pop_other; [discriminate | exact Hb']. }
           { intros p a' I' B. apply (HP p a'); [right; exact I' | apply (exists_below_fst m1 m p Em); exact B]. }
           { intros p c D. apply (set_data_fits m m1 _ _ ND F0 E1). apply HD, direct_cons. right. apply (direct_fst _ m1 m _ _ _ Em). exact D. }
           { intros p c I'. apply (set_data_fits m m1 _ _ ND F0 E1), HT1. rewrite T. right. exact I'. }
           { intros p c I'. apply (set_data_fits m m1 _ _ ND F0 E1), HT2, I'. }
           exists m', q', ((layer_path n (merged_attr false), join3 x y z) :: ws). split; [cbn [file map many]; rewrite E; exact E2|].
           split; [exact (w_cons _ _ _ _ _ _ F0 E1 W)|]. intros p c. rewrite T. cbn [In List.app] in S |- *. rewrite S, direct_cons, (direct_fst _ m1 m _ _ _ Em).
           specialize (ND1 p c). tauto.
Qed.

(** ** Nothing is wanted twice *)
Lemma name_unique : forall (es : list (@entry X)) e e', NoDup (map name_of es) -> In e es -> In e' es -> name_of e = name_of e' -> e = e'.
Proof.
  induction es as [|x es IH]; intros e e' N I J E; [destruct I|]. inversion_clear N as [|? ? N1 N2].
  destruct I as [->|I], J as [->|J]; [reflexivity | | |exact (IH e e' N2 I J E)].
  - apply (in_map name_of) in J. rewrite <- E in J. destruct (N1 J).
  - apply (in_map name_of) in I. rewrite E in I. destruct (N1 I).
Qed.
Lemma slots_inj : forall s s' t, In (s, t) slots -> In (s', t) slots -> s = s'.
Proof.
  assert (N : NoDup (map snd slots)).
  { cbn [slots map snd]. repeat constructor; cbn [In]; intros I; repeat (destruct I as [I|I]; [discriminate I|]); exact I. }
  intros s s' t I J. revert N I J. generalize slots. induction l as [|[a b] l IH]; intros N I J; [destruct I|].
  cbn in N. inversion_clear N as [|? ? N1 N2]. destruct I as [I|I], J as [J|J].
  - congruence.
  - injection I as <- <-. apply (in_map snd) in J. destruct (N1 J).
  - injection J as <- <-. apply (in_map snd) in I. destruct (N1 I).
  - exact (IH N2 I J).
Qed.
Lemma slots_attr : forall s t b, In (s, t) slots -> t <> merged_attr b.
Proof. intros s t b I. cbn [slots In] in I. destruct b; repeat (destruct I as [I|I]; [injection I as <- <-; discriminate|]); destruct I. Qed.
Lemma layer_path_inj : forall n n' t t', layer_path n t = layer_path n' t' -> n = n' /\ t = t'.
Proof.
  intros n n' t t' E. unfold layer_path in E. injection E as E1 E2. split; [|exact E2].
  destruct (dec_inj n n' [] [] I I) as [H _]; [rewrite !app_nil_r; exact E1 | exact H].
Qed.
Lemma in_parts : forall bias (es : list (@entry X)) n l a, In (n, l, a) (parts bias es) <-> In (Part n l bias a) es.
Proof.
  intros bias es n l a. unfold parts. rewrite in_flat_map. split.
  - intros (e & I & J). destruct e as [| | |n' l' b' a']; try destruct J. destruct (Bool.eqb b' bias) eqn:B; [|destruct J].
    apply Bool.eqb_prop in B. subst b'. destruct J as [J|[]]. injection J as -> -> ->. exact I.
  - intros I. exists (Part n l bias a). split; [exact I|]. rewrite Bool.eqb_reflx. left. reflexivity.
Qed.
Lemma parts_nodup : forall bias (es : list (@entry X)), NoDup (map name_of es) -> NoDup (map tag (parts bias es)).
Proof.
  intros bias es. induction es as [|e es IH]; intros N; [constructor|]. inversion_clear N as [|? ? N1 N2].
  destruct e as [| | |n l b a]; try exact (IH N2). rewrite parts_cons. destruct (Bool.eqb b bias) eqn:B; [|exact (IH N2)].
  apply Bool.eqb_prop in B. subst b. cbn [List.app map]. constructor; [|exact (IH N2)]. intros I.
  apply in_map_iff in I. destruct I as ([[n' l'] a'] & E & I). unfold tag in E. cbn in E. injection E as -> ->.
  apply in_parts in I. apply N1. apply in_map_iff. exists (Part n l bias a'). split; [reflexivity | exact I].
Qed.
Lemma wants_fun : forall diff (m : model) es, Forall proper es -> NoDup (map name_of es) -> forall p a b,
  wants zero diff m es p a -> wants zero diff m es p b -> a = b.
Proof.
  intros diff m es PR N.
  assert (PE : forall e, In e es -> proper e) by (apply Forall_forall; exact PR).
  assert (OL : forall p x n t, In (Other p x) es -> p = layer_path n t -> False).
  { intros p x n t I ->. apply PE in I. cbn in I. destruct I as (_ & _ & NL & _). apply NL. right. right. left. reflexivity. }
  assert (OP : forall p x w, In (Other p x) es -> p = pool_path w -> False).
  { intros p x w I E. apply PE in I. cbn [proper] in I. destruct I as (_ & _ & _ & _ & NP). exact (NP w E). }
  assert (PL : forall w n t, pool_path w = layer_path n t -> False) by (intros w n t E; discriminate E).
  assert (PU : forall n l bias x y, In (Part n l bias x) es -> In (Part n l bias y) es -> x = y).
  { intros n l bias x y I J. assert (E : Part n l bias x = Part n l bias y) by (exact (name_unique es _ _ N I J eq_refl)). congruence. }
  intros p a b.
  intros [(x & I1 & B1 & P1)|[(w & I1 & E1)|[(n & s & t & I1 & E1)|(n & bias & x & y & z & I1 & J1 & K1 & E1 & M1)]]];
  intros [(x' & I2 & B2 & P2)|[(w' & I2 & E2)|[(n' & s' & t' & I2 & E2)|(n' & bias' & x' & y' & z' & I2 & J2 & K2 & E2 & M2)]]].
  - assert (E : Other p x = Other p x') by (exact (name_unique es _ _ N I1 I2 eq_refl)). injection E as <-.
    apply pad_spec in P1, P2. congruence.
  - destruct (OP _ _ _ I1 E2).
  - destruct (OL _ _ _ _ I1 E2).
  - destruct (OL _ _ _ _ I1 E2).
  - destruct (OP _ _ _ I2 E1).
  - rewrite E1 in E2. injection E2 as <-. assert (E : Pool w a = Pool w b) by (exact (name_unique es _ _ N I1 I2 eq_refl)). congruence.
  - rewrite E1 in E2. destruct (PL _ _ _ E2).
  - rewrite E1 in E2. destruct (PL _ _ _ E2).
  - destruct (OL _ _ _ _ I2 E1).
  - rewrite E2 in E1. destruct (PL _ _ _ E1).
  - rewrite E1 in E2. apply layer_path_inj in E2. destruct E2 as [<- <-].
    pose proof (slots_inj s s' t (PE _ I1) (PE _ I2)) as <-.
    assert (E : Copy n s t a = Copy n s t b) by (exact (name_unique es _ _ N I1 I2 eq_refl)). congruence.
  - rewrite E1 in E2. apply layer_path_inj in E2. destruct E2 as [_ E]. destruct (slots_attr s t bias' (PE _ I1) E).
  - destruct (OL _ _ _ _ I2 E1).
  - rewrite E2 in E1. destruct (PL _ _ _ E1).
  - rewrite E1 in E2. apply layer_path_inj in E2. destruct E2 as [_ E]. destruct (slots_attr s' t' bias (PE _ I2) (eq_sym E)).
  - rewrite E1 in E2. apply layer_path_inj in E2. destruct E2 as [<- Eb].
    assert (bias = bias') by (destruct bias, bias'; try reflexivity; discriminate Eb). subst bias'.
    rewrite (PU _ _ _ _ _ I1 I2), (PU _ _ _ _ _ J1 J2), (PU _ _ _ _ _ K1 K2) in M1. congruence.
Qed.

Lemma kernel_ok : forall diff (m : model) es, NoDup (map fst m) -> Forall proper es -> NoDup (map name_of es) ->
  grouped (parts false es) -> grouped (parts true es) ->
  (forall p a, In (Other p a) es -> exists_below m p -> exists b, padded zero diff (dots p) a b) ->
  (forall p b, wants zero diff m es p b -> fits m p b) ->
  exists m', kernel zero diff m (file es) = Ok m' /\ outcome zero diff m es m'.
Proof.
  intros diff m es ND PR NN Gw Gb HP HF.
  assert (WS : forall p b, wants zero diff m es p b <-> direct diff m es p b \/ In (p, b) (threes false ([] ++ parts false es)) \/ In (p, b) (threes true ([] ++ parts true es))).
  { intros p b. cbn [List.app]. rewrite (threes_spec false _ Gw (parts_nodup false es NN)), (threes_spec true _ Gb (parts_nodup true es NN)).
    unfold wants, direct, join3. split.
    - intros [H|[H|[H|(n & bias & x & y & z & I1 & J1 & K1 & E1 & M1)]]]; [tauto | tauto | tauto|]. right.
      destruct bias; [right | left]; exists n, x, y, z; rewrite !in_parts; tauto.
    - intros [H|[(n & x & y & z & H)|(n & x & y & z & H)]]; [tauto | |]; rewrite !in_parts in H; right; right; right.
      + exists n, false, x, y, z. exact H.
      + exists n, true, x, y, z. exact H. }
  destruct (many_ok diff es [] [] m (fun _ => None)) as (m' & q' & ws & E & W & S); try assumption; cbn [List.length]; try lia.
  - intros l. reflexivity.
  - intros l. reflexivity.
  - intros p b D. apply HF, WS. left. exact D.
  - intros p b D. apply HF, WS. right. left. exact D.
  - intros p b D. apply HF, WS. right. right. exact D.
  - exists m'. split.
    { unfold kernel. match type of E with ?l = _ => change ((do s <- l ;; Ok (fst s)) = Ok m') end. rewrite E. reflexivity. }
    assert (SW : forall p b, In (p, b) ws <-> wants zero diff m es p b) by (intros p b; rewrite S, WS; reflexivity).
    destruct (written_in m ws m' W ND) as [Ef G].
    { intros p a b I J. apply SW in I, J. exact (wants_fun diff m es PR NN p a b I J). }
    split; [exact Ef|]. intros p a. rewrite G, SW. split; (intros [H|[H1 H2]]; [left; exact H | right; split; [exact H1|]; intros b H3; apply (H2 b), SW, H3]).
Qed.

(** ** The converter of the layers of torch *)
Definition acted (full c : nm) : nm :=
  if (contains (str "intermediate.dense") full || contains (str "pooler.dense") full) && nm_eqb c (str "dense") then str "dense_act" else c.
Lemma walk_torch_ok : forall (m : model) full cs ptr,
  has m (ptr ++ map (acted full) cs) = true -> walk_torch m full cs ptr = Ok (Some (ptr ++ map (acted full) cs)).
Proof.
  intros m full. induction cs as [|c cs IH]; intros ptr H; cbn [walk_torch map] in *.
  - rewrite app_nil_r. reflexivity.
  - assert (E : ptr ++ acted full c :: map (acted full) cs = (ptr ++ [acted full c]) ++ map (acted full) cs) by (rewrite <- app_assoc; reflexivity).
    rewrite E in *. pose proof (has_prefix _ _ _ H) as H1.
    destruct ((contains (str "intermediate.dense") full || contains (str "pooler.dense") full) && nm_eqb c (str "dense")) eqn:C.
    + assert (A : acted full c = str "dense_act") by (unfold acted; rewrite C; reflexivity). rewrite A in *. rewrite H1. exact (IH _ H).
    + assert (A : acted full c = c) by (unfold acted; rewrite C; reflexivity). rewrite A in *. rewrite H1. exact (IH _ H).
Qed.
Lemma walk_torch_none : forall (m : model) full cs ptr, cs <> [] ->
  ~ (exists a b, cs = a ++ str "dense" :: b /\ (contains (str "intermediate.dense") full || contains (str "pooler.dense") full) = true) ->
  has m (ptr ++ cs) = false -> walk_torch m full cs ptr = Ok None.
Proof.
  intros m full. induction cs as [|c cs IH]; intros ptr N D H; [congruence|]. cbn [walk_torch].
  assert (C : (contains (str "intermediate.dense") full || contains (str "pooler.dense") full) && nm_eqb c (str "dense") = false).
  { apply andb_false_iff. destruct (nm_eqb c (str "dense")) eqn:E; [|right; reflexivity]. left. apply nm_eqb_true in E. subst c.
    destruct (contains _ full || contains _ full) eqn:F; [|reflexivity]. exfalso. apply D. exists [], cs. split; reflexivity. }
  rewrite C. destruct (has m (ptr ++ [c])) eqn:H1; [|reflexivity].
  destruct cs as [|c' cs]; [congruence|]. apply IH; [discriminate | | rewrite <- app_assoc; exact H].
  intros (a & b & E & F). apply D. exists (c :: a), b. split; [rewrite E; reflexivity | exact F].
Qed.

(** Neither converter gets past the pooler of a model without dense_act. *)
Lemma kernel_stuck : forall diff (m : model) ckpt w a, free "." w -> has m [str "bert"; str "pooler"] = true ->
  has m [str "bert"; str "pooler"; str "dense_act"] = false ->
  In (str "bert.pooler.dense." ++ w, a) ckpt -> forall m', kernel zero diff m ckpt <> Ok m'.
Proof.
  intros diff m ckpt w a FR H1 H2 I m' E. unfold kernel in E.
  assert (G : forall ckpt s, map fst (fst s) = map fst m -> In (str "bert.pooler.dense." ++ w, a) ckpt -> forall r, many zero diff s ckpt <> Ok r).
  { clear ckpt I E m'. induction ckpt as [|[k x] ckpt IH]; intros [m1 q] Em I r E; [destruct I|]. cbn [many] in E.
    destruct (HfModel.one zero diff (m1, q) (k, x)) as [[m2 q2]|] eqn:O; [|discriminate E]. cbn [bind] in E. destruct I as [I|I].
    - assert (Ek : k = str "bert.pooler.dense." ++ w) by congruence. subst k. clear E. unfold HfModel.one in O. cbn [fst snd] in O.
      assert (SP : split dotted (str "bert.pooler.dense." ++ w) = [str "bert"; str "pooler"; str "dense"; w]).
      { apply (split_dots [str "bert"; str "pooler"; str "dense"; w]); [discriminate|].
        repeat constructor; try exact FR; intros J; cbn in J; repeat (destruct J as [J|J]; [discriminate J|]); exact J. }
      rewrite SP in O.
      assert (C : contains (str "bert.pooler.dense") (str "bert.pooler.dense." ++ w) = true) by (apply contains_spec; exists [], ("."%char :: w); reflexivity).
      rewrite walk_go in O; [|rewrite C; reflexivity | rewrite (has_fst m1 m _ Em); exact (has_prefix m [str "bert"] [str "pooler"] H1) | reflexivity].
      rewrite walk_go in O; [|rewrite C; reflexivity | rewrite (has_fst m1 m _ Em); exact H1 | reflexivity].
      cbn [walk List.app] in O. rewrite C in O. change (nm_eqb (str "dense") (str "dense")) with true in O. cbn [andb] in O.
      rewrite (has_fst m1 m _ Em), H2 in O. discriminate O.
    - refine (IH (m2, q2) _ I r E). cbn [fst] in *. rewrite <- Em. clear - O. unfold HfModel.one in O. cbn [fst snd] in O.
      assert (SD : forall (mm mm' : model) p b, set_data p b mm = Ok mm' -> map fst mm' = map fst mm).
      { induction mm as [|e mm IHm]; intros mm' p b S; [discriminate S|]. cbn [set_data] in S. destruct (path_eqb p (fst e)).
        - destruct (_ && _); [|discriminate S]. injection S as <-. reflexivity.
        - destruct (set_data p b mm) as [m3|] eqn:S3; [|discriminate S]. injection S as <-. cbn. rewrite (IHm _ _ _ S3). reflexivity. }
      assert (ST : forall kk p, store zero diff k m1 q kk p x = Ok (m2, q2) -> map fst m2 = map fst m1).
      { intros kk p S. unfold store in S. cbn zeta in S.
        set (q' := match kk with Some k0 => put q k0 x | None => q end) in S.
        assert (TH : forall y pp qq, (do a1 <- pad zero diff k y ;; do m3 <- set_data pp a1 m1 ;; Ok (m3, qq)) = Ok (m2, q2) -> map fst m2 = map fst m1).
        { intros y pp qq T. destruct (pad zero diff k y) as [y2|]; [|discriminate T]. cbn [bind] in T.
          destruct (set_data pp y2 m1) as [m3|] eqn:S3; [|discriminate T]. injection T as <- _. exact (SD _ _ _ _ S3). }
        assert (TM : forall x1 y1 z1 nmn qq, (do a1 <- concat3 x1 y1 z1 ;; do p1 <- attr m1 p nmn ;; do a2 <- pad zero diff k a1 ;; do m3 <- set_data p1 a2 m1 ;; Ok (m3, qq)) = Ok (m2, q2) -> map fst m2 = map fst m1).
        { intros x1 y1 z1 nmn qq T. destruct (concat3 x1 y1 z1) as [a1|]; [|discriminate T]. cbn [bind] in T.
          destruct (attr m1 p nmn) as [p1|]; [|discriminate T]. cbn [bind] in T. exact (TH a1 p1 qq T). }
        assert (TB : match q' QB, q' KB, q' VB with
          | Some x0, Some y, Some z => do a0 <- concat3 x0 y z ;; do p0 <- attr m1 p (str "attn_qkvb") ;; do a1 <- pad zero diff k a0 ;; do m3 <- set_data p0 a1 m1 ;; Ok (m3, pop3 q' QB KB VB)
          | _, _, _ => match kk with Some _ => Ok (m1, q') | None => do a0 <- pad zero diff k x ;; do m3 <- set_data p a0 m1 ;; Ok (m3, q') end
          end = Ok (m2, q2) -> map fst m2 = map fst m1).
        { intros T.
          assert (TN : match kk with Some _ => Ok (m1, q') | None => do a0 <- pad zero diff k x ;; do m3 <- set_data p a0 m1 ;; Ok (m3, q') end = Ok (m2, q2) -> map fst m2 = map fst m1).
          { intros U. destruct kk; [injection U as <- _; reflexivity | exact (TH _ _ _ U)]. }
          destruct (q' QB); [|exact (TN T)]. destruct (q' KB); [|exact (TN T)]. destruct (q' VB); [|exact (TN T)]. exact (TM _ _ _ _ _ T). }
        destruct (q' QW); [|exact (TB S)]. destruct (q' KW); [|exact (TB S)]. destruct (q' VW); [|exact (TB S)]. exact (TM _ _ _ _ _ S). }
      destruct (walk m1 k (split dotted k) [] false) as [[|p|kk p]|]; cbn [bind] in O; try discriminate O.
      + injection O as <- _. reflexivity.
      + exact (ST _ _ O).
      + exact (ST _ _ O). }
  match type of E with (do s <- ?l ;; _) = _ => destruct l as [r|] eqn:M; [|discriminate E] end.
  refine (G ckpt _ _ I r M). reflexivity.
Qed.
Lemma torch_stuck : forall diff (m : model) ckpt w a, free "." w -> has m [str "bert"; str "pooler"] = true ->
  has m [str "bert"; str "pooler"; str "dense_act"] = false ->
  In (str "bert.pooler.dense." ++ w, a) ckpt -> forall m', torch zero diff m ckpt <> Ok m'.
Proof.
  intros diff m ckpt w a FR H1 H2. revert m H1 H2. induction ckpt as [|[k x] ckpt IH]; intros m H1 H2 I m' E; [destruct I|].
  cbn [torch fst snd] in E. destruct I as [I|I].
  - assert (Ek : k = str "bert.pooler.dense." ++ w) by congruence. subst k.
    assert (SP : split dotted (str "bert.pooler.dense." ++ w) = [str "bert"; str "pooler"; str "dense"; w]).
    { apply (split_dots [str "bert"; str "pooler"; str "dense"; w]); [discriminate|].
      repeat constructor; try exact FR; intros J; cbn in J; repeat (destruct J as [J|J]; [discriminate J|]); exact J. }
    rewrite SP in E.
    assert (C : contains (str "pooler.dense") (str "bert.pooler.dense." ++ w) = true) by (apply contains_spec; exists (str "bert."), ("."%char :: w); reflexivity).
    assert (T : walk_torch m (str "bert.pooler.dense." ++ w) [str "bert"; str "pooler"; str "dense"; w] [] = Fail EIndex).
    { cbn [walk_torch]. rewrite C, orb_true_r.
      change (nm_eqb (str "bert") (str "dense")) with false. change (nm_eqb (str "pooler") (str "dense")) with false. change (nm_eqb (str "dense") (str "dense")) with true.
      cbn [andb List.app]. change (has m [str "bert"]) with (has m ([str "bert"])). pose proof (has_prefix m [str "bert"] [str "pooler"] H1) as H0.
      rewrite H0, H1, H2. reflexivity. }
    rewrite T in E. discriminate E.
  - destruct (walk_torch m k (split dotted k) []) as [[p|]|]; cbn [bind] in E; [| exact (IH m H1 H2 I m' E) | discriminate E].
    destruct (pad zero diff k x) as [y|]; [|discriminate E]. cbn [bind] in E.
    destruct (set_data p y m) as [m1|] eqn:S; [|discriminate E]. cbn [bind] in E.
    assert (F : map fst m1 = map fst m).
    { clear - S. revert m1 S. induction m as [|e m IHm]; intros m1 S; [discriminate S|]. cbn [set_data] in S. destruct (path_eqb p (fst e)).
      - destruct (_ && _); [|discriminate S]. injection S as <-. reflexivity.
      - destruct (set_data p y m) as [m3|] eqn:S3; [|discriminate S]. injection S as <-. cbn. rewrite (IHm _ eq_refl). reflexivity. }
    refine (IH m1 _ _ I m' E); rewrite (has_fst m1 m _ F); assumption.
Qed.

Lemma acted_renames : forall q, renames q (map (acted (dots q)) q).
Proof.
  intros q. unfold renames.
  assert (SP : (contains (str "intermediate.dense") (dots q) || contains (str "pooler.dense") (dots q)) = true <-> special (dots q)).
  { rewrite orb_true_iff, !contains_spec. reflexivity. }
  assert (G : forall l, Forall2 (fun c d => (special (dots q) /\ c = str "dense" /\ d = str "dense_act") \/ ((~ special (dots q) \/ c <> str "dense") /\ d = c)) l (map (acted (dots q)) l)).
  { induction l as [|c l IH]; constructor; [|exact IH]. unfold acted.
    destruct (contains (str "intermediate.dense") (dots q) || contains (str "pooler.dense") (dots q)); cbn [andb].
    - destruct (nm_eqb c (str "dense")) eqn:E.
      + left. apply nm_eqb_true in E. repeat split; [apply SP; reflexivity | exact E].
      + right. apply nm_eqb_false in E. split; [right; exact E | reflexivity].
    - right. split; [left; intros S; apply SP in S; discriminate S | reflexivity]. }
  apply G.
Qed.
Lemma renames_fun : forall q p p', renames q p -> renames q p' -> p = p'.
Proof.
  intros q p p'. unfold renames. generalize (special (dots q)). intros S. revert p p'. induction q as [|c q IH]; intros p p' R R'.
  - inversion R. inversion R'. reflexivity.
  - inversion_clear R as [|? d ? r H R1]. inversion_clear R' as [|? d' ? r' H' R1']. f_equal; [|exact (IH _ _ R1 R1')].
    destruct H as [(A & B & C)|([A|A] & C)], H' as [(A' & B' & C')|([A'|A'] & C')]; congruence || tauto.
Qed.
Lemma torch_ok : forall diff (es : list (path * arr)) (m : model), NoDup (map fst m) ->
  (forall q a, In (q, a) es -> q <> [] /\ Forall (free ".") q) ->
  (forall q a p, In (q, a) es -> renames q p -> ~ exists_below m p -> p = q) ->
  (forall q a p, In (q, a) es -> renames q p -> exists_below m p -> exists b, padded zero diff (dots q) a b) ->
  (forall p a b, torch_wants zero diff m es p a -> torch_wants zero diff m es p b -> a = b) ->
  (forall p b, torch_wants zero diff m es p b -> fits m p b) ->
  exists m', torch zero diff m (torch_file es) = Ok m' /\ torch_outcome zero diff m es m'.
Proof.
  intros diff es m ND PR SK HP FN HF.
  assert (G : forall es (m : model), NoDup (map fst m) ->
    (forall q a, In (q, a) es -> q <> [] /\ Forall (free ".") q) ->
    (forall q a p, In (q, a) es -> renames q p -> ~ exists_below m p -> p = q) ->
    (forall q a p, In (q, a) es -> renames q p -> exists_below m p -> exists b, padded zero diff (dots q) a b) ->
    (forall p b, torch_wants zero diff m es p b -> fits m p b) ->
    exists m' ws, torch zero diff m (torch_file es) = Ok m' /\ written m ws m' /\ forall p b, In (p, b) ws <-> torch_wants zero diff m es p b).
  { clear. induction es as [|[q a] es IH]; intros m ND PR SK HP HF.
    - exists m, []. split; [reflexivity|]. split; [constructor|]. intros p b. cbn. split; [intros [] | intros (? & ? & [] & _)].
    - destruct (PR q a (or_introl eq_refl)) as [Nq Fq]. pose proof (acted_renames q) as RN. set (p0 := map (acted (dots q)) q) in *.
      cbn [torch_file map torch fst snd]. rewrite split_dots by assumption.
      destruct (has m p0) eqn:H.
      + rewrite (walk_torch_ok m (dots q) q [] H). cbn [bind List.app]. fold p0.
        destruct (HP q a p0 (or_introl eq_refl) RN (proj1 (has_spec m p0) H)) as (b0 & PB).
        assert (W0 : torch_wants zero diff m ((q, a) :: es) p0 b0).
        { exists q, a. split; [left; reflexivity|]. split; [exact RN|]. split; [apply has_spec; exact H | exact PB]. }
        pose proof (HF _ _ W0) as F0. destruct (set_data_ok m p0 b0 ND F0) as (m1 & E1 & Em & _).
        pose proof PB as PB'. apply pad_spec in PB'. rewrite PB'. cbn [bind]. rewrite E1. cbn [bind].
        assert (WM : forall p b, torch_wants zero diff m1 es p b <-> torch_wants zero diff m es p b).
        { intros p b. unfold torch_wants. split; intros (q' & a' & I & R & B & P); exists q', a'; (split; [exact I|]); (split; [exact R|]); (split; [|exact P]); apply (exists_below_fst m1 m p Em) in B || apply (exists_below_fst m1 m p Em); exact B. }
        destruct (IH m1) as (m' & ws & E2 & W & S).
        { rewrite Em. exact ND. }
        { intros q' a' I. apply (PR q' a'). right. exact I. }
        { intros q' a' p I R B. apply (SK q' a' p); [right; exact I | exact R|]. intros B'. apply B, (exists_below_fst m1 m p Em), B'. }
        { intros q' a' p I R B. apply (HP q' a' p); [right; exact I | exact R|]. apply (exists_below_fst m1 m p Em), B. }
        { intros p b D. apply (set_data_fits m m1 _ _ ND F0 E1), HF. apply WM in D. destruct D as (q' & a' & I & R). exists q', a'. split; [right; exact I | exact R]. }
        exists m', ((p0, b0) :: ws). split; [exact E2|]. split; [exact (w_cons _ _ _ _ _ _ F0 E1 W)|]. intros p b. cbn [In]. rewrite S, WM. split.
        * intros [E|(q' & a' & I & R)]; [injection E as <- <-; exact W0 | exists q', a'; split; [right; exact I | exact R]].
        * intros (q' & a' & [I|I] & R & B & P); [|right; exists q', a'; exact (conj I (conj R (conj B P)))]. injection I as <- <-. left.
          apply pad_spec in P.
          assert (Eb : Ok b = Ok b0) by (rewrite <- P; exact PB'). injection Eb as ->. rewrite (renames_fun _ _ _ R RN). reflexivity.
      + assert (NB : ~ exists_below m p0) by (intros B; apply has_spec in B; congruence).
        pose proof (SK q a p0 (or_introl eq_refl) RN NB) as Eq.
        assert (T : walk_torch m (dots q) q [] = Ok None).
        { apply walk_torch_none; [exact Nq | | rewrite Eq in H; exact H]. intros (x & y & Ex & C). unfold p0 in Eq. clear - Eq Ex C.
          rewrite Ex in Eq at 2 3. rewrite map_app in Eq. apply (f_equal (skipn (List.length x))) in Eq.
          rewrite skipn_app, map_length, Nat.sub_diag, skipn_all2 in Eq by (rewrite map_length; lia).
          rewrite skipn_app, Nat.sub_diag, skipn_all in Eq. cbn [List.app skipn map] in Eq. injection Eq as Eq _. unfold acted in Eq. rewrite C in Eq. discriminate Eq. }
        rewrite T. cbn [bind].
        destruct (IH m ND) as (m' & ws & E2 & W & S).
        { intros q' a' I. apply (PR q' a'). right. exact I. }
        { intros q' a' p I R B. apply (SK q' a' p); [right; exact I | exact R | exact B]. }
        { intros q' a' p I R B. apply (HP q' a' p); [right; exact I | exact R | exact B]. }
        { intros p b (q' & a' & I & R). apply HF. exists q', a'. split; [right; exact I | exact R]. }
        exists m', ws. split; [exact E2|]. split; [exact W|]. intros p b. rewrite S. split.
        * intros (q' & a' & I & R). exists q', a'. split; [right; exact I | exact R].
        * intros (q' & a' & [I|I] & R & B & P); [|exists q', a'; exact (conj I (conj R (conj B P)))]. injection I as <- <-.
          rewrite (renames_fun _ _ _ R RN) in B. destruct (NB B). }
  destruct (G es m ND PR SK HP HF) as (m' & ws & E & W & S). exists m'. split; [exact E|].
  destruct (written_in m ws m' W ND) as [Ef G2].
  { intros p a b I J. apply S in I, J. exact (FN p a b I J). }
  split; [exact Ef|]. intros p a. rewrite G2, S. split; (intros [H|[H1 H2]]; [left; exact H | right; split; [exact H1|]; intros b H3; apply (H2 b), S, H3]).
Qed.
End P.
