(** Proofs about the text decoders. *)
From Coq Require Import Permutation Sorted Decimal DecimalZ DecimalPos DecimalN DecimalFacts.
From Verif Require Import Base WriterModel SetupModel SetupProofs DecoderModel.
From Coq Require Import ZifyBool ZifyNat ZifyN.

(** ** Splitting *)
Lemma split_cons d s : exists w ws, split d s = w :: ws.
Proof.
  induction s as [|c s (w & ws & E)]; cbn; [eauto|]. rewrite E. destruct (c =? d)%N; eauto.
Qed.
Lemma split_app d a b : split d (a ++ d :: b) = split d a ++ split d b.
Proof.
  induction a as [|c a IH]; cbn [split app].
  - rewrite N.eqb_refl. reflexivity.
  - rewrite IH. destruct (c =? d)%N; [reflexivity|]. destruct (split_cons d a) as (w & ws & E). rewrite E. reflexivity.
Qed.
Lemma split_single d s : ~ In d s -> split d s = [s].
Proof.
  induction s as [|c s IH]; intro H; [reflexivity|]. cbn. destruct (N.eqb_spec c d) as [->|Hc]; [exfalso; apply H; now left|].
  rewrite IH by (intro; apply H; now right). reflexivity.
Qed.
Lemma split_no_delim d s : Forall (fun w => ~ In d w) (split d s).
Proof.
  induction s as [|c s IH]; cbn; [constructor; [intros []|constructor]|].
  destruct (N.eqb_spec c d); [constructor; [intros []|assumption]|].
  destruct (split d s) as [|w ws]; [constructor; [|constructor]|].
  - intros [H|[]]. congruence.
  - inversion IH; subst. constructor; [|assumption]. intros [H|H]; [congruence|contradiction].
Qed.
Lemma split_join d l : l <> [] -> split d (join d l) = flat_map (split d) l.
Proof.
  induction l as [|w l IH]; intro H; [congruence|]. cbn [join flat_map]. destruct l as [|w' l].
  - cbn. now rewrite app_nil_r.
  - rewrite split_app, IH by discriminate. reflexivity.
Qed.
Lemma join_split d s : join d (split d s) = s.
Proof.
  induction s as [|c s IH]; [reflexivity|]. cbn [split]. destruct (split_cons d s) as (w & ws & E). rewrite E in *.
  destruct (N.eqb_spec c d) as [->|Hc].
  - cbn [join]. cbn [join] in IH. rewrite IH. reflexivity.
  - cbn [join] in *. destruct ws; cbn in *; now rewrite IH.
Qed.

(** ** Integers *)
Lemma undigits_digits u : undigits (digits u) = Some u.
Proof. induction u; cbn [digits undigits]; [reflexivity|..]; rewrite IHu; reflexivity. Qed.
Definition is_digit (c : N) : Prop := (48 <= c <= 57)%N.
Lemma digits_digit u : Forall is_digit (digits u).
Proof. induction u; cbn [digits]; [constructor|..]; constructor; auto; unfold is_digit; lia. Qed.
Lemma digits_nonnil u : u <> Nil -> digits u <> [].
Proof. destruct u; cbn; congruence. Qed.
Lemma lstrip_id s : (forall c, In c s -> blank c = false) -> lstrip s = s.
Proof. destruct s as [|c s]; intro H; [reflexivity|]. cbn. rewrite (H c (or_introl eq_refl)). reflexivity. Qed.
Lemma strip_id s : (forall c, In c s -> blank c = false) -> strip s = s.
Proof.
  intro H. unfold strip. rewrite (lstrip_id s H), lstrip_id; [apply rev_involutive|].
  intros c Hc. apply H. now apply in_rev.
Qed.
Lemma digit_not_blank c : is_digit c -> blank c = false.
Proof. unfold is_digit, blank. lia. Qed.
Lemma to_int_nonnil z : match Z.to_int z with Pos u => u <> Nil | Neg u => u <> Nil end.
Proof.
  destruct z; cbn.
  - discriminate.
  - apply DecimalPos.Unsigned.to_uint_nonnil.
  - apply DecimalPos.Unsigned.to_uint_nonnil.
Qed.
Lemma parse_show z : parse_int (show_int z) = Ok z.
Proof.
  unfold parse_int, show_int. pose proof (to_int_nonnil z) as HN. pose proof (DecimalZ.of_to z) as HO.
  destruct (Z.to_int z) as [u|u].
  - rewrite strip_id by (intros c Hc; apply digit_not_blank; pose proof (digits_digit u) as F; rewrite Forall_forall in F; auto).
    pose proof (digits_digit u) as F. pose proof (undigits_digits u) as U. apply digits_nonnil in HN.
    destruct (digits u) as [|c s] eqn:E; [congruence|]. inversion F as [|? ? Hc Hs]; subst.
    assert (Hm : c <> 45%N) by (unfold is_digit in Hc; lia).
    destruct c as [|p]; [rewrite U; reflexivity|].
    repeat (destruct p as [p|p|]; try (rewrite U; reflexivity)); congruence.
  - rewrite strip_id.
    + apply digits_nonnil in HN. rewrite undigits_digits. destruct (digits u); [congruence|]. now rewrite HO.
    + intros c [<-|Hc]; [reflexivity|]. apply digit_not_blank. pose proof (digits_digit u) as F. rewrite Forall_forall in F; auto.
Qed.
Lemma show_chars z c : In c (show_int z) -> c = 45%N \/ is_digit c.
Proof.
  unfold show_int. pose proof (fun u => digits_digit u) as F. destruct (Z.to_int z) as [u|u]; [|intros [<-|H]; [now left|]].
  - intro H. right. specialize (F u). rewrite Forall_forall in F. auto.
  - right. specialize (F u). rewrite Forall_forall in F. auto.
Qed.

(** ** Escapes *)
Section Escapes.
Variables delim esc : N.
Hypothesis Hde : delim <> esc.

(** Whether a text ends in an odd number of escapes, read from left to right. *)
Fixpoint odd_end (acc : bool) (s : str) : bool :=
  match s with [] => acc | c :: s' => odd_end (if (c =? esc)%N then negb acc else false) s' end.
Definition last_esc (s : str) : bool := match rev s with c :: _ => (c =? esc)%N | [] => false end.
Lemma last_esc_cons a s : last_esc (a :: s) = match s with [] => (a =? esc)%N | _ => last_esc s end.
Proof.
  unfold last_esc. cbn [rev]. destruct s as [|b s]; [reflexivity|].
  destruct (rev (b :: s)) as [|c t] eqn:E; [|reflexivity]. apply (f_equal (@length N)) in E.
  rewrite rev_length in E. discriminate.
Qed.
Lemma strip_pairs_cons a b t : strip_pairs esc (a :: b :: t) =
  if (a =? esc)%N && (b =? esc)%N then strip_pairs esc t else a :: strip_pairs esc (b :: t).
Proof. reflexivity. Qed.
Lemma strip_pairs_last s : last_esc (strip_pairs esc s) = odd_end false s.
Proof.
  assert (G : forall n s, length s <= n -> last_esc (strip_pairs esc s) = odd_end false s).
  { induction n as [|n IH]; intros [|a [|b t]] HL; try reflexivity; try (cbn in HL; lia).
    - cbn. now destruct (a =? esc)%N.
    - rewrite strip_pairs_cons. destruct (N.eqb_spec a esc) as [Ha|Ha]; cbn [andb].
      + destruct (N.eqb_spec b esc) as [Hb|Hb].
        * rewrite IH by (cbn in HL; lia). cbn [odd_end]. subst. rewrite N.eqb_refl. reflexivity.
        * rewrite last_esc_cons.
          assert (Hn : strip_pairs esc (b :: t) <> []).
          { cbn. destruct t as [|c t]; [discriminate|]. destruct (N.eqb_spec b esc); [contradiction|discriminate]. }
          assert (E : odd_end false (a :: b :: t) = odd_end false (b :: t)).
          { cbn [odd_end]. rewrite (proj2 (N.eqb_neq b esc) Hb). now destruct (a =? esc)%N. }
          rewrite E, <- (IH (b :: t)) by (cbn in HL; cbn; lia).
          destruct (strip_pairs esc (b :: t)); [congruence|reflexivity].
      + rewrite last_esc_cons.
        assert (E : odd_end false (a :: b :: t) = odd_end false (b :: t)).
        { cbn [odd_end]. rewrite (proj2 (N.eqb_neq a esc) Ha). reflexivity. }
        rewrite E, <- (IH (b :: t)) by (cbn in HL; cbn; lia).
        destruct (strip_pairs esc (b :: t)) eqn:Es; [|reflexivity].
        unfold last_esc. cbn. now apply N.eqb_neq. }
  eapply G. reflexivity.
Qed.
Lemma ends_escaped_odd s : ends_escaped esc s = odd_end false s.
Proof. rewrite <- strip_pairs_last. reflexivity. Qed.
Lemma odd_end_app acc s t : odd_end acc (s ++ t) = odd_end (odd_end acc s) t.
Proof. revert acc. induction s as [|c s IH]; intro acc; [reflexivity|]. cbn. apply IH. Qed.
Lemma odd_end_snoc s c : odd_end false (s ++ [c]) = if (c =? esc)%N then negb (odd_end false s) else false.
Proof. rewrite odd_end_app. reflexivity. Qed.
Lemma removelast_snoc {A} (s : list A) c : removelast (s ++ [c]) = s.
Proof. rewrite removelast_app by discriminate. cbn. apply app_nil_r. Qed.
Lemma odd_end_inv s : odd_end false s = true -> s = removelast s ++ [esc] /\ odd_end false (removelast s) = false.
Proof.
  intro H. destruct s as [|a s] using rev_ind; [discriminate|]. rewrite removelast_snoc. rewrite odd_end_snoc in H.
  destruct (N.eqb_spec a esc) as [->|]; [|discriminate]. split; [reflexivity|]. now destruct (odd_end false s).
Qed.

(** Texts a field can hold: an even number of escapes before every delimiter and at the end. *)
Definition holdable (s : str) : Prop :=
  odd_end false s = false /\ forall p q, s = p ++ delim :: q -> odd_end false p = false.
(** How it is written: an escape before every delimiter. *)
Definition escape (s : str) : str := flat_map (fun c => if (c =? delim)%N then [esc; delim] else [c]) s.

Lemma escape_app a b : escape (a ++ b) = escape a ++ escape b.
Proof. unfold escape. apply flat_map_app. Qed.
Lemma escape_none a : ~ In delim a -> escape a = a.
Proof.
  induction a as [|c a IH]; intro H; [reflexivity|]. cbn. destruct (N.eqb_spec c delim) as [->|]; [exfalso; apply H; now left|].
  cbn. f_equal. apply IH. intro; apply H; now right.
Qed.
(** Every text is a delimiter free text, or one followed by a delimiter and a shorter text. *)
Lemma first_delim (s : str) : ~ In delim s \/ exists p q, s = p ++ delim :: q /\ ~ In delim p.
Proof.
  induction s as [|c s IH]; [left; intros []|]. destruct (N.eq_dec c delim) as [->|Hc].
  - right. exists [], s. split; [reflexivity|intros []].
  - destruct IH as [H|(p & q & -> & H)].
    + left. intros [E|E]; [congruence|contradiction].
    + right. exists (c :: p), q. split; [reflexivity|]. intros [E|E]; [congruence|contradiction].
Qed.

(** Reading back: from an output [out] (all delimiters fine so far) and the pieces of the rest. *)
Lemma join_text_escape s : forall out w ws rest,
  split delim (escape s) = w :: ws ->
  odd_end false (out ++ s) = false ->
  (forall p q, s = p ++ delim :: q -> odd_end false (out ++ p) = false) ->
  join_text delim esc (out ++ w) (ws ++ rest) = (out ++ s, rest).
Proof.
  assert (G : forall n s, length s <= n -> forall out w ws rest,
    split delim (escape s) = w :: ws ->
    odd_end false (out ++ s) = false ->
    (forall p q, s = p ++ delim :: q -> odd_end false (out ++ p) = false) ->
    join_text delim esc (out ++ w) (ws ++ rest) = (out ++ s, rest)).
  { induction n as [|n IH]; intros x HL out w ws rest E H1 H2;
      (destruct (first_delim x) as [Hn|(p & q & -> & Hn)];
       [rewrite (escape_none x Hn), (split_single delim x Hn) in E; injection E as <- <-;
        cbn [app]; destruct rest as [|r rest]; cbn [join_text]; rewrite ends_escaped_odd, H1; reflexivity|]).
    - rewrite app_length in HL. cbn in HL. lia.
    - rewrite escape_app, (escape_none p Hn) in E. unfold escape at 1 in E. cbn [flat_map] in E. rewrite N.eqb_refl in E. fold (escape q) in E.
      replace (p ++ [esc; delim] ++ escape q) with ((p ++ [esc]) ++ delim :: escape q) in E
        by (rewrite <- !app_assoc; reflexivity).
      rewrite split_app in E. rewrite (split_single delim (p ++ [esc])) in E.
      2:{ intro Hi. apply in_app_or in Hi. destruct Hi as [Hi|[Hi|[]]]; [contradiction|congruence]. }
      cbn [app] in E. injection E as <- <-.
      destruct (split_cons delim (escape q)) as (w' & ws' & E'). rewrite E'. cbn [app join_text].
      pose proof (H2 p q eq_refl) as Hp.
      rewrite ends_escaped_odd, app_assoc, odd_end_snoc, N.eqb_refl, Hp. cbn [negb]. rewrite removelast_snoc.
      replace ((out ++ p) ++ delim :: w') with ((out ++ p ++ [delim]) ++ w') by (rewrite <- !app_assoc; reflexivity).
      replace (out ++ p ++ delim :: q) with ((out ++ p ++ [delim]) ++ q) by (rewrite <- !app_assoc; reflexivity).
      apply IH.
      + rewrite app_length in HL. cbn in HL. lia.
      + exact E'.
      + etransitivity; [|exact H1]. f_equal. rewrite <- !app_assoc. reflexivity.
      + intros p' q' ->. etransitivity; [|apply (H2 (p ++ delim :: p') q')].
        * f_equal. rewrite <- !app_assoc. reflexivity.
        * rewrite <- app_assoc. reflexivity. }
  intro out. intros. eapply G; [reflexivity|eassumption..].
Qed.
Lemma field_read_back s : holdable s -> forall w ws rest, split delim (escape s) = w :: ws ->
  join_text delim esc w (ws ++ rest) = (s, rest).
Proof. intros [H1 H2] w ws rest E. apply (join_text_escape s [] w ws rest E); assumption. Qed.

(** Nothing else is ever read. *)
Lemma join_text_holdable data : forall out s rest,
  Forall (fun w => ~ In delim w) data ->
  (forall p q, out = p ++ delim :: q -> odd_end false p = false) ->
  join_text delim esc out data = (s, rest) -> holdable s.
Proof.
  assert (R : forall out, (forall p q, out = p ++ delim :: q -> odd_end false p = false) -> odd_end false out = true ->
    holdable (removelast out)).
  { intros out Hi Ho. apply odd_end_inv in Ho. destruct Ho as [Ho He]. split; [exact He|].
    intros p q E. apply (Hi p (q ++ [esc])). rewrite Ho, E, <- app_assoc. reflexivity. }
  induction data as [|w data IH]; intros out s rest HF Hi H; cbn [join_text] in H; rewrite ends_escaped_odd in H;
    destruct (odd_end false out) eqn:Eo.
  - assert (s = removelast out) by congruence. subst. now apply R.
  - assert (s = out) by congruence. subst. now split.
  - inversion HF as [|? ? Hw HF']; subst. eapply IH; [exact HF'| |exact H].
    intros p q E. destruct (R out Hi Eo) as [R1 R2].
    (* the delimiter is the new one or an old one *)
    clear -E Hw R1 R2. revert p q E R1 R2. generalize (removelast out) as x. intros x p q E R1 R2.
    assert (Hc : x = p \/ exists q', x = p ++ delim :: q').
    { clear R1 R2. revert p E. induction x as [|c x IHx]; intros [|d p] E; cbn in E.
      - now left.
      - injection E as -> E. exfalso. apply Hw. rewrite E. apply in_or_app. right. now left.
      - injection E as -> E. right. exists x. reflexivity.
      - injection E as -> E. destruct (IHx p E) as [->|(q' & ->)]; [now left|]. right. exists q'. reflexivity. }
    destruct Hc as [<-|(q' & Hx)]; [exact R1|]. eapply R2. exact Hx.
  - assert (s = out) by congruence. subst. now split.
Qed.
End Escapes.

(** One field of a line. *)
Lemma text_field_any (conv : str -> list str -> res (list N)) delim esc s tail : delim <> esc -> holdable delim esc s ->
  get_feature conv delim esc binary_key [1%Z] (split delim (escape delim esc s ++ delim :: tail)) = Ok (FText s, split delim tail) /\
  get_feature conv delim esc binary_key [1%Z] (split delim (escape delim esc s)) = Ok (FText s, []).
Proof.
  intros Hd Hs. unfold get_feature. cbn [existsb Z.ltb Z.compare Z.eqb Pos.eqb orb andb].
  change (str_eqb binary_key binary_key) with true. cbn [andb].
  rewrite split_app. destruct (split_cons delim (escape delim esc s)) as (w & ws & E). rewrite E. cbn [app].
  pose proof (field_read_back delim esc Hd s Hs w ws) as F.
  rewrite (F (split delim tail) E). specialize (F [] E). rewrite app_nil_r in F. rewrite F. auto.
Qed.
Lemma text_field_only (conv : str -> list str -> res (list N)) delim esc line s rest : delim <> esc ->
  get_feature conv delim esc binary_key [1%Z] (split delim line) = Ok (FText s, rest) -> holdable delim esc s.
Proof.
  intros Hd. unfold get_feature. cbn [existsb Z.ltb Z.compare Z.eqb Pos.eqb orb andb].
  change (str_eqb binary_key binary_key) with true. cbn [andb].
  pose proof (split_no_delim delim line) as HF. destruct (split delim line) as [|w ws]; [discriminate|].
  destruct (join_text delim esc w ws) as [s0 r0] eqn:E. cbn [fst snd]. intro H. injection H as <- <-.
  eapply (join_text_holdable delim esc Hd); [exact (Forall_inv_tail HF)| |exact E].
  intros p q ->. exfalso. apply (Forall_inv HF). apply in_or_app. right. now left.
Qed.

(** Doubling the escapes. *)
Definition double (esc : N) (s : str) : str := flat_map (fun c => if (c =? esc)%N then [esc; esc] else [c]) s.
Lemma odd_end_double esc s : odd_end esc false (double esc s) = false.
Proof.
  induction s as [|c s IH]; [reflexivity|]. cbn [double flat_map]. fold (double esc s).
  destruct (N.eqb_spec c esc) as [->|Hc]; cbn [app odd_end].
  - rewrite N.eqb_refl. cbn [negb]. exact IH.
  - rewrite (proj2 (N.eqb_neq c esc) Hc). exact IH.
Qed.
Lemma double_holdable delim esc s : delim <> esc -> holdable delim esc (double esc s).
Proof.
  intro Hd. split; [apply odd_end_double|]. intros p q E.
  enough (G : forall p q, double esc s = p ++ delim :: q -> exists p', p = double esc p').
  { destruct (G p q E) as (p' & ->). apply odd_end_double. }
  clear p q E. induction s as [|c s IH]; intros p q E; [destruct p; discriminate|].
  cbn [double flat_map] in E. fold (double esc s) in E. destruct (N.eqb_spec c esc) as [->|Hc]; cbn [app] in E.
  - destruct p as [|a [|b p]]; cbn in E; [injection E as E _; congruence|injection E as _ E _; congruence|].
    injection E as <- <- E. destruct (IH _ _ E) as (p' & ->). exists (esc :: p'). cbn. now rewrite N.eqb_refl.
  - destruct p as [|a p]; cbn in E; [exists []; reflexivity|]. injection E as <- E. destruct (IH _ _ E) as (p' & ->).
    exists (c :: p'). cbn. now rewrite (proj2 (N.eqb_neq c esc) Hc).
Qed.

(** ** Lines *)
Section Lines.
Variable conv : str -> list str -> res (list N).
Variable pfloat : str -> res N.
Variables delim ldelim esc : N.
Hypothesis Hde : delim <> esc.
Hypothesis Hdl : delim <> ldelim.
(** The delimiters are not part of numbers. *)
Definition plain (c : N) : Prop := c <> 45%N /\ ~ is_digit c.
Hypothesis Hd : plain delim.
Hypothesis Hl : plain ldelim.

(** A feature as a user has it, its columns, and what is read. *)
Inductive ufeature :=
| UNone (key : str)
| UText (s : str)
| UArray (key : str) (values : list str) (bytes : list N)
| USparse (key : str) (dim : nat) (coords values : list str) (cbytes vbytes : list N).
Definition key_of (f : ufeature) : str :=
  match f with UNone key => key | UText _ => binary_key | UArray key _ _ => key | USparse key _ _ _ _ _ => key end.
Definition lens_of (f : ufeature) : list Z :=
  match f with
  | UNone _ => [0]%Z
  | UText _ => [1]%Z
  | UArray _ vs _ => [Z.of_nat (length vs)]
  | USparse _ dim _ vs _ _ => [Z.of_nat (length vs); Z.of_nat dim]
  end.
Definition data_of (f : ufeature) : list str :=
  match f with
  | UNone _ => []
  | UText s => [escape delim esc s]
  | UArray _ vs _ => vs
  | USparse _ _ cs vs _ _ => cs ++ vs
  end.
Definition meaning (f : ufeature) : feature :=
  match f with
  | UNone _ => FNone | UText s => FText s | UArray _ _ b => FArray b | USparse _ dim _ _ c v => FSparse dim c v
  end.
Definition word (w : str) : Prop := ~ In delim w.
Definition key_ok (k : str) : Prop := k <> [] /\ strip k = k /\ word k.
Definition feature_ok (f : ufeature) : Prop :=
  match f with
  | UNone key => key_ok key
  | UText s => holdable delim esc s
  | UArray key vs b => key_ok key /\ vs <> [] /\ Forall word vs /\ conv key vs = Ok b /\ (key = binary_key -> length vs <> 1)
  | USparse key dim cs vs c v => key_ok key /\ vs <> [] /\ length cs = length vs * Nat.max dim 1 /\ Forall word cs /\ Forall word vs /\
      conv int64_key cs = Ok c /\ conv key vs = Ok v
  end.

(** A column is left out when the decoder has a default for it, which is then the value. *)
Definition given {A} (o : option A) (column : str) : list str := match o with Some _ => [] | None => [column] end.
Definition agrees {A} (o : option A) (a : A) : Prop := match o with Some b => b = a | None => True end.
Definition columns (types : list (option str)) (lens : list (option (list Z))) (f : ufeature) : list str :=
  given (hd None types) (key_of f) ++ given (hd None lens) (join ldelim (map show_int (lens_of f))) ++ data_of f.
Fixpoint all_columns (types : list (option str)) (lens : list (option (list Z))) (fs : list ufeature) : list str :=
  match fs with [] => [] | f :: fs' => columns types lens f ++ all_columns (tl types) (tl lens) fs' end.
(** Defaults agree with the features; after the last feature there is no default type left. *)
Fixpoint defaults_ok (types : list (option str)) (lens : list (option (list Z))) (fs : list ufeature) : Prop :=
  match fs with
  | [] => hd None types = None
  | f :: fs' => agrees (hd None types) (key_of f) /\ agrees (hd None lens) (lens_of f) /\ defaults_ok (tl types) (tl lens) fs'
  end.

Lemma show_word c z : plain c -> ~ In c (show_int z).
Proof. intros [H1 H2] H. apply show_chars in H. destruct H; [congruence|contradiction]. Qed.
Lemma split_words ws : Forall word ws -> flat_map (split delim) ws = ws.
Proof. induction 1 as [|w ws Hw _ IH]; [reflexivity|]. cbn. rewrite (split_single delim w Hw), IH. reflexivity. Qed.
Lemma take_app a b : take (length a) (a ++ b) = Ok (a, b).
Proof.
  unfold take. rewrite (proj2 (Nat.ltb_ge (length (a ++ b)) (length a))) by (rewrite app_length; lia).
  rewrite firstn_app, firstn_all, Nat.sub_diag, skipn_app, skipn_all, Nat.sub_diag. cbn. now rewrite app_nil_r.
Qed.

Lemma key_read k rest : key_ok k -> next_key (k :: rest) = Some (k, rest).
Proof. intros (H1 & H2 & _). unfold next_key. rewrite H2. destruct k; [congruence|reflexivity]. Qed.
Lemma show_ints_split zs : zs <> [] -> split ldelim (join ldelim (map show_int zs)) = map show_int zs.
Proof.
  intro H. rewrite split_join by (destruct zs; [congruence|discriminate]).
  induction zs as [|z zs IH]; [congruence|]. cbn [map flat_map]. rewrite (split_single ldelim) by (now apply show_word). cbn [app]. f_equal.
  destruct zs; [reflexivity|]. apply IH. discriminate.
Qed.
Lemma parse_ints zs : mapM parse_int (map show_int zs) = Ok zs.
Proof. induction zs as [|z zs IH]; [reflexivity|]. cbn [map mapM]. rewrite parse_show, IH. reflexivity. Qed.
Lemma lens_nonnil f : lens_of f <> [].
Proof. destruct f; discriminate. Qed.
Lemma len_read f rest : next_len ldelim (join ldelim (map show_int (lens_of f)) :: rest) = Ok (lens_of f, rest).
Proof. unfold next_len. rewrite show_ints_split by apply lens_nonnil. rewrite parse_ints. reflexivity. Qed.
Lemma show_ints_word zs : word (join ldelim (map show_int zs)).
Proof.
  unfold word. induction zs as [|z zs IH]; [intros []|]. cbn [map join]. destruct zs as [|y zs]; cbn [map] in *; [now apply show_word|].
  intro H. apply in_app_or in H. destruct H as [H|[H|H]]; [revert H; now apply show_word|congruence|exact (IH H)].
Qed.
Lemma feature_key_ok f : ~ In delim binary_key -> feature_ok f -> key_ok (key_of f).
Proof.
  intros Hb Hf. destruct f as [key|s|key vs b|key dim cs vs c v]; cbn in *; try exact Hf; try exact (proj1 Hf).
  split; [discriminate|]. split; [reflexivity|exact Hb].
Qed.

(** One feature is read and the rest left. *)
Lemma feature_read f rest : feature_ok f ->
  get_feature conv delim esc (key_of f) (lens_of f) (flat_map (split delim) (data_of f) ++ rest) = Ok (meaning f, rest).
Proof.
  intro Hf. unfold get_feature. destruct f as [key|s|key vs b|key dim cs vs c v]; cbn [key_of lens_of data_of meaning feature_ok] in *.
  - reflexivity.
  - cbn [flat_map existsb Z.ltb Z.compare Z.eqb orb Pos.eqb andb]. rewrite app_nil_r.
    replace (str_eqb binary_key binary_key) with true by reflexivity.
    destruct (split_cons delim (escape delim esc s)) as (w & ws & E). rewrite E. cbn [app].
    rewrite (field_read_back delim esc Hde s Hf w ws rest E). reflexivity.
  - destruct Hf as (_ & Hn & Hw & Hc & Hbin). rewrite (split_words vs Hw). cbn [existsb].
    replace (Z.of_nat (length vs) <? 0)%Z with false by (symmetry; apply Z.ltb_ge; lia).
    cbn [orb]. destruct (Z.eqb_spec (Z.of_nat (length vs)) 0) as [E0|E0].
    { destruct vs; [congruence|cbn in E0; lia]. }
    destruct ((Z.of_nat (length vs) =? 1)%Z && str_eqb key binary_key) eqn:Eb.
    { apply andb_true_iff in Eb. destruct Eb as [E1 E2]. apply Z.eqb_eq in E1. apply str_eqb_eq in E2. exfalso. apply (Hbin E2). lia. }
    rewrite Nat2Z.id, take_app. cbn [bind fst snd]. rewrite Hc. reflexivity.
  - destruct Hf as (_ & Hn & HL & Hw1 & Hw2 & Hc & Hv). rewrite flat_map_app, (split_words cs Hw1), (split_words vs Hw2). cbn [existsb].
    replace (Z.of_nat (length vs) <? 0)%Z with false by (symmetry; apply Z.ltb_ge; lia).
    replace (Z.of_nat dim <? 0)%Z with false by (symmetry; apply Z.ltb_ge; lia). cbn [orb].
    destruct (Z.eqb_spec (Z.of_nat (length vs)) 0) as [E0|E0].
    { destruct vs; [congruence|cbn in E0; lia]. }
    rewrite !Nat2Z.id, <- HL, <- app_assoc, take_app. cbn [bind fst snd]. rewrite Hc. cbn [bind]. rewrite take_app. cbn [bind fst snd].
    rewrite Hv. reflexivity.
Qed.

Lemma hd_skipn {A} (l : list (option A)) n : hd None (skipn n l) = match nth_error l n with Some o => o | None => None end.
Proof. revert n. induction l as [|x l IH]; intros [|n]; cbn; auto. Qed.
Lemma tl_skipn {A} (l : list A) n : tl (skipn n l) = skipn (S n) l.
Proof. revert n. induction l as [|x l IH]; intros [|n]; try reflexivity. cbn [skipn]. rewrite IH. now destruct l. Qed.
Lemma def_at d n : length (d_feature_lens d) = length (d_feature_types d) ->
  (if n <? length (d_feature_types d)
   then match nth_error (d_feature_types d) n, nth_error (d_feature_lens d) n with
        | Some k, Some l => Ok (k, l)
        | _, _ => Fail EIndex
        end
   else Ok (None, None)) = Ok (hd None (skipn n (d_feature_types d)), hd None (skipn n (d_feature_lens d))).
Proof.
  intro HL. rewrite !hd_skipn. destruct (Nat.ltb_spec n (length (d_feature_types d))) as [L|L].
  - destruct (nth_error (d_feature_types d) n) eqn:E1; [|apply nth_error_None in E1; lia].
    destruct (nth_error (d_feature_lens d) n) eqn:E2; [|apply nth_error_None in E2; lia]. reflexivity.
  - rewrite (proj2 (nth_error_None (d_feature_types d) n)) by lia. rewrite (proj2 (nth_error_None (d_feature_lens d) n)) by lia. reflexivity.
Qed.

Lemma loop_all d fs : length (d_feature_lens d) = length (d_feature_types d) -> ~ In delim binary_key -> forall fuel done,
  Forall feature_ok fs ->
  defaults_ok (skipn (length done) (d_feature_types d)) (skipn (length done) (d_feature_lens d)) fs -> length fs < fuel ->
  features_loop conv delim ldelim esc fuel d done
    (flat_map (split delim) (all_columns (skipn (length done) (d_feature_types d)) (skipn (length done) (d_feature_lens d)) fs)) =
  Ok (done ++ map meaning fs).
Proof.
  intros HL Hb. induction fs as [|f fs IH]; intros fuel done HF HD Hfuel; (destruct fuel as [|fuel]; [lia|]).
  - cbn [features_loop]. cbv zeta. rewrite def_at by exact HL. cbn [bind fst snd]. cbn [defaults_ok] in HD. rewrite HD.
    cbn. now rewrite app_nil_r.
  - pose proof (Forall_inv HF) as Hf. pose proof (Forall_inv_tail HF) as HF'. destruct HD as (D1 & D2 & D3).
    cbn [features_loop]. cbv zeta. rewrite def_at by exact HL. cbn [bind fst snd all_columns].
    rewrite flat_map_app. unfold columns. rewrite !flat_map_app, <- !app_assoc.
    set (T := skipn (length done) (d_feature_types d)) in *. set (L := skipn (length done) (d_feature_lens d)) in *.
    set (rest := flat_map (split delim) (all_columns (tl T) (tl L) fs)).
    set (ldata := flat_map (split delim) (given (hd None L) (join ldelim (map show_int (lens_of f)))) ++ flat_map (split delim) (data_of f) ++ rest).
    assert (E1 : (match hd None T with Some k => Some (k, flat_map (split delim) (given (hd None T) (key_of f)) ++ ldata)
                  | None => next_key (flat_map (split delim) (given (hd None T) (key_of f)) ++ ldata) end) = Some (key_of f, ldata)).
    { pose proof (feature_key_ok f Hb Hf) as K. destruct (hd None T) as [k|]; cbn [given flat_map app].
      - cbn in D1. now subst k.
      - rewrite (split_single delim (key_of f)) by exact (proj2 (proj2 K)). cbn [app]. now apply key_read. }
    rewrite E1.
    assert (E2 : or_next (hd None L) (next_len ldelim) ldata = Ok (lens_of f, flat_map (split delim) (data_of f) ++ rest)).
    { unfold ldata. destruct (hd None L) as [l|]; cbn [given flat_map app or_next].
      - cbn in D2. now subst l.
      - rewrite (split_single delim) by apply show_ints_word. cbn [app]. apply len_read. }
    rewrite E2. cbn [bind fst snd]. rewrite feature_read by exact Hf. cbn [bind fst snd].
    unfold rest, T, L. rewrite !tl_skipn. unfold T, L in D3. rewrite !tl_skipn in D3.
    specialize (IH fuel (done ++ [meaning f]) HF').
    rewrite app_length in IH. cbn [length] in IH. rewrite Nat.add_1_r in IH. rewrite IH; [|exact D3|cbn in Hfuel; lia].
    cbn [map]. now rewrite <- app_assoc.
Qed.
Lemma split_length w : 1 <= length (split delim w).
Proof. destruct (split_cons delim w) as (x & xs & ->). cbn. lia. Qed.
Lemma fuel_enough fs : forall types lens,
  length fs <= length (flat_map (split delim) (all_columns types lens fs)) + length types.
Proof.
  induction fs as [|f fs IH]; intros types lens; [cbn; lia|]. cbn [all_columns length]. rewrite flat_map_app, app_length.
  specialize (IH (tl types) (tl lens)). unfold columns at 1. rewrite flat_map_app, app_length.
  destruct types as [|[k|] types]; cbn [tl hd given flat_map length] in *.
  - rewrite app_nil_r. pose proof (split_length (key_of f)). lia.
  - lia.
  - rewrite app_nil_r. pose proof (split_length (key_of f)). lia.
Qed.

(** Lines of nodes and edges as described in the documentation. *)
Definition time_columns (temporal : bool) (dc dr : option Z) (c r : Z) : list str :=
  if temporal then given dc (show_int c) ++ given dr (show_int r) else [].
Definition node_line (d : defaults) (temporal : bool) (dc dr : option Z) (id typ : Z) (w : str) (c r : Z) (fs : list ufeature) : str :=
  join delim (show_int id :: show_int (-1) :: given (d_type d) (show_int typ) ++ given (d_weight d) w ++
    time_columns temporal dc dr c r ++ all_columns (d_feature_types d) (d_feature_lens d) fs).
Definition edge_line (d : defaults) (temporal : bool) (dc dr : option Z) (src typ dst : Z) (w : str) (c r : Z) (fs : list ufeature) : str :=
  join delim (show_int src :: given (d_type d) (show_int typ) ++ show_int dst :: given (d_weight d) w ++
    time_columns temporal dc dr c r ++ all_columns (d_feature_types d) (d_feature_lens d) fs).

Lemma int_read z rest : next_int (show_int z :: rest) = Ok (z, rest).
Proof. unfold next_int. rewrite parse_show. reflexivity. Qed.
Lemma join_nonnil a l : a <> [] -> join delim (a :: l) <> [].
Proof. intros Ha. destruct a; [congruence|]. destruct l; cbn; discriminate. Qed.
Lemma show_nonnil z : show_int z <> [].
Proof.
  unfold show_int. pose proof (to_int_nonnil z) as H. destruct (Z.to_int z); [now apply digits_nonnil|discriminate].
Qed.
Lemma split_given {A} (o : option A) w : word w -> flat_map (split delim) (given o w) = given o w.
Proof. intro H. destruct o; [reflexivity|]. cbn. now rewrite (split_single delim w H). Qed.
Lemma split_show z : split delim (show_int z) = [show_int z].
Proof. apply split_single. now apply show_word. Qed.
Lemma split_times temporal dc dr c r : flat_map (split delim) (time_columns temporal dc dr c r) = time_columns temporal dc dr c r.
Proof. destruct temporal; [|reflexivity]. cbn. rewrite flat_map_app, !split_given by (now apply show_word). reflexivity. Qed.
Lemma given_read {A} (o : option A) (a : A) w rest (next : list str -> res (A * list str)) :
  agrees o a -> (o = None -> next (w :: rest) = Ok (a, rest)) -> or_next o next (given o w ++ rest) = Ok (a, rest).
Proof. destruct o as [b|]; cbn; [intros -> _; reflexivity|auto]. Qed.
Definition weight_ok (o : option N) (w : str) (wb : N) : Prop :=
  agrees o wb /\ word w /\ (o = None -> pfloat w = Ok wb).
Definition times_of (temporal : bool) (dflt : option Z) (t : Z) : option Z := if temporal then Some t else dflt.

(** What follows the type and the destination. *)
Lemma tail_read {B} d temporal dc dr w wb c r fs (k : N -> option Z -> option Z -> list feature -> res B) :
  length (d_feature_lens d) = length (d_feature_types d) -> ~ In delim binary_key -> Forall feature_ok fs ->
  defaults_ok (d_feature_types d) (d_feature_lens d) fs ->
  weight_ok (d_weight d) w wb -> agrees dc c -> agrees dr r ->
  (do w <- or_next (d_weight d) (next_float pfloat) (given (d_weight d) w ++ time_columns temporal dc dr c r ++
              flat_map (split delim) (all_columns (d_feature_types d) (d_feature_lens d) fs)) ;;
   do c <- (if temporal then do x <- or_next dc next_int (snd w) ;; Ok (Some (fst x), snd x) else Ok (dc, snd w)) ;;
   do r <- (if temporal then do x <- or_next dr next_int (snd c) ;; Ok (Some (fst x), snd x) else Ok (dr, snd c)) ;;
   do fs <- features_loop conv delim ldelim esc (S (length (snd r) + length (d_feature_types d))) d [] (snd r) ;;
   k (fst w) (fst c) (fst r) fs) = k wb (times_of temporal dc c) (times_of temporal dr r) (map meaning fs).
Proof.
  intros HL Hb HF HD (W1 & W2 & W3) Hc Hr.
  rewrite (given_read (d_weight d) wb w _ (next_float pfloat) W1) by (intro E; cbn; now rewrite (W3 E)). cbn [bind fst snd].
  assert (HA : forall rest, (do c <- (if temporal then do x <- or_next dc next_int (time_columns temporal dc dr c r ++ rest) ;; Ok (Some (fst x), snd x)
      else Ok (dc, time_columns temporal dc dr c r ++ rest)) ;;
    do r <- (if temporal then do x <- or_next dr next_int (snd c) ;; Ok (Some (fst x), snd x) else Ok (dr, snd c)) ;; Ok (fst c, fst r, snd r)) =
    Ok (times_of temporal dc c, times_of temporal dr r, rest)).
  { intro rest. destruct temporal; [|reflexivity]. cbn [time_columns times_of]. rewrite <- app_assoc.
    rewrite (given_read dc c _ _ next_int Hc) by (intros _; apply int_read). cbn [bind fst snd].
    rewrite (given_read dr r _ _ next_int Hr) by (intros _; apply int_read). reflexivity. }
  specialize (HA (flat_map (split delim) (all_columns (d_feature_types d) (d_feature_lens d) fs))).
  destruct (if temporal then do x <- or_next dc next_int _ ;; Ok (Some (fst x), snd x) else _) as [c'|]; [|discriminate HA]. cbn [bind] in *.
  destruct (if temporal then do x <- or_next dr next_int _ ;; Ok (Some (fst x), snd x) else _) as [r'|]; [|discriminate HA]. cbn [bind] in *.
  injection HA as E1 E2 E3. rewrite E1, E2, E3.
  rewrite (loop_all d fs HL Hb) with (done := []); [reflexivity|exact HF|exact HD|].
  pose proof (fuel_enough fs (d_feature_types d) (d_feature_lens d)). cbn [length skipn]. lia.
Qed.

Lemma node_line_decoded dn de temporal dc dr id typ w wb c r fs :
  length (d_feature_lens dn) = length (d_feature_types dn) -> ~ In delim binary_key -> Forall feature_ok fs ->
  defaults_ok (d_feature_types dn) (d_feature_lens dn) fs ->
  agrees (d_type dn) typ -> weight_ok (d_weight dn) w wb -> agrees dc c -> agrees dr r ->
  decode_line conv pfloat delim ldelim esc dn de temporal dc dr (node_line dn temporal dc dr id typ w c r fs) =
  Ok [Decoded id (-1) typ wb (times_of temporal dc c) (times_of temporal dr r) (map meaning fs)].
Proof.
  intros HL Hb HF HD Ht Hw Hc Hr. unfold decode_line, node_line.
  destruct (join delim _) as [|c0 l0] eqn:El; [exfalso; revert El; apply join_nonnil, show_nonnil|]. rewrite <- El. clear El c0 l0.
  rewrite split_join by discriminate. cbn [flat_map]. rewrite !split_show. cbn [app].
  rewrite !flat_map_app, split_times, !split_given by (try apply (proj1 (proj2 Hw)); now apply show_word).
  rewrite !int_read. cbn [bind fst snd]. rewrite int_read. cbn [bind fst snd Z.eqb Pos.eqb].
  rewrite (given_read (d_type dn) typ _ _ next_int Ht) by (intros _; apply int_read). cbn [bind fst snd].
  apply (tail_read dn temporal dc dr w wb c r fs (fun a b e f => Ok [Decoded id (-1) typ a b e f])); assumption.
Qed.
Lemma edge_line_decoded dn de temporal dc dr src typ dst w wb c r fs :
  length (d_feature_lens de) = length (d_feature_types de) -> ~ In delim binary_key -> Forall feature_ok fs ->
  defaults_ok (d_feature_types de) (d_feature_lens de) fs ->
  agrees (d_type de) typ -> weight_ok (d_weight de) w wb -> agrees dc c -> agrees dr r ->
  match d_type de with None => typ | Some _ => dst end <> (-1)%Z ->
  decode_line conv pfloat delim ldelim esc dn de temporal dc dr (edge_line de temporal dc dr src typ dst w c r fs) =
  Ok [Decoded src dst typ wb (times_of temporal dc c) (times_of temporal dr r) (map meaning fs)].
Proof.
  intros HL Hb HF HD Ht Hw Hc Hr Hm. unfold decode_line, edge_line.
  destruct (join delim _) as [|c0 l0] eqn:El; [exfalso; revert El; apply join_nonnil, show_nonnil|]. rewrite <- El. clear El c0 l0.
  rewrite split_join by (destruct (d_type de); discriminate). cbn [flat_map]. rewrite flat_map_app. cbn [flat_map]. rewrite !split_show. cbn [app].
  rewrite !flat_map_app, split_times, !split_given by (try apply (proj1 (proj2 Hw)); now apply show_word).
  rewrite int_read. cbn [bind fst snd]. destruct (d_type de) as [t|]; cbn [given app].
  - cbn in Ht. subst t. rewrite int_read. cbn [bind fst snd]. rewrite (proj2 (Z.eqb_neq dst (-1)) Hm). cbn [bind].
    apply (tail_read de temporal dc dr w wb c r fs (fun a b e f => Ok [Decoded src dst typ a b e f])); assumption.
  - rewrite int_read. cbn [bind fst snd]. rewrite (proj2 (Z.eqb_neq typ (-1)) Hm). rewrite int_read. cbn [bind fst snd].
    apply (tail_read de temporal dc dr w wb c r fs (fun a b e f => Ok [Decoded src dst typ a b e f])); assumption.
Qed.
End Lines.

(** ** Sorting *)
Lemma insert_by_perm {A} leb (x : A) l : Permutation (insert_by leb x l) (x :: l).
Proof.
  induction l as [|y l IH]; cbn; [reflexivity|]. destruct (leb x y); [reflexivity|]. rewrite IH. apply perm_swap.
Qed.
Lemma sort_by_perm {A} leb (l : list A) : Permutation (sort_by leb l) l.
Proof. induction l as [|x l IH]; cbn; [reflexivity|]. rewrite insert_by_perm. now constructor. Qed.
Lemma insert_by_sorted {A} (leb : A -> A -> bool) (R : A -> A -> Prop) x l :
  (forall a b, leb a b = true -> R a b) -> (forall a b, leb a b = false -> R b a) ->
  (forall a b c, R a b -> R b c -> R a c) ->
  StronglySorted R l -> StronglySorted R (insert_by leb x l).
Proof.
  intros H1 H2 H3 HS. induction HS as [|y l HS IH HF]; cbn; [repeat constructor|].
  destruct (leb x y) eqn:E.
  - constructor; [now constructor|]. constructor; [now apply H1|]. eapply Forall_impl; [|exact HF].
    intros a Ha. eapply H3; [apply H1; exact E|exact Ha].
  - constructor; [exact IH|]. apply Forall_forall. intros a Ha.
    eapply Permutation_in in Ha; [|apply insert_by_perm]. destruct Ha as [<-|Ha]; [now apply H2|].
    rewrite Forall_forall in HF. auto.
Qed.
Lemma sort_by_sorted {A} (leb : A -> A -> bool) (R : A -> A -> Prop) l :
  (forall a b, leb a b = true -> R a b) -> (forall a b, leb a b = false -> R b a) ->
  (forall a b c, R a b -> R b c -> R a c) -> StronglySorted R (sort_by leb l).
Proof.
  intros H1 H2 H3. induction l as [|x l IH]; cbn; [constructor|]. now apply (insert_by_sorted leb R).
Qed.
Lemma sorted_map {A B} (f : A -> B) (R : A -> A -> Prop) (Q : B -> B -> Prop) l :
  (forall a b, In a l -> In b l -> R a b -> Q (f a) (f b)) -> StronglySorted R l -> StronglySorted Q (map f l).
Proof.
  intros H HS. induction HS as [|x l HS IH HF]; cbn; constructor.
  - apply IH. intros a b Ha Hb. apply H; now right.
  - rewrite Forall_map. rewrite Forall_forall in *. intros a Ha. apply H; [now left|now right|auto].
Qed.

(** ** JSON *)
(** Order of the outgoing edges a temporal graph needs: type, creation, removal with -1 for
    never, destination. *)
Definition never_last (r : Z) : option Z := if (r =? -1)%Z then None else Some r.
Definition time_le (a b : option Z) : Prop := match a, b with _, None => True | None, Some _ => False | Some x, Some y => (x <= y)%Z end.
Definition record_le (a b : record) : Prop :=
  (rtyp a < rtyp b)%Z \/ (rtyp a = rtyp b /\
  (or_default (rcreated a) 0 < or_default (rcreated b) 0 \/ (or_default (rcreated a) 0 = or_default (rcreated b) 0 /\
  ((time_le (never_last (or_default (rremoved a) (-1))) (never_last (or_default (rremoved b) (-1))) /\
    never_last (or_default (rremoved a) (-1)) <> never_last (or_default (rremoved b) (-1))) \/
   (never_last (or_default (rremoved a) (-1)) = never_last (or_default (rremoved b) (-1)) /\ rdst a <= rdst b)))))%Z.
Definition jedge_le (a b : jedge) : Prop :=
  (je_typ a < je_typ b)%Z \/ (je_typ a = je_typ b /\
  (or_default (je_created a) 0 < or_default (je_created b) 0 \/ (or_default (je_created a) 0 = or_default (je_created b) 0 /\
  ((time_le (removed_key (je_removed a)) (removed_key (je_removed b)) /\ removed_key (je_removed a) <> removed_key (je_removed b)) \/
   (removed_key (je_removed a) = removed_key (je_removed b) /\ je_dst a <= je_dst b)))))%Z.

Lemma inf_eqb_eq a b : inf_eqb a b = true <-> a = b.
Proof. destruct a, b; cbn; split; intro H; try discriminate; try reflexivity; [apply Z.eqb_eq in H; congruence|injection H as ->; apply Z.eqb_refl]. Qed.
Lemma inf_leb_le a b : inf_leb a b = true <-> time_le a b.
Proof. destruct a, b; cbn; try (rewrite Z.leb_le; tauto); split; intro H; auto; try discriminate; contradiction. Qed.
Lemma time_le_total a b : time_le a b \/ time_le b a.
Proof. destruct a, b; cbn; auto. lia. Qed.
Lemma edge_leb_true a b : edge_leb a b = true -> jedge_le a b.
Proof.
  unfold edge_leb, jedge_le. intro H.
  destruct (Z.eqb_spec (je_typ a) (je_typ b)) as [Et|Et]; cbn [negb] in H; [|left; lia]. right. split; [exact Et|].
  destruct (Z.eqb_spec (or_default (je_created a) 0) (or_default (je_created b) 0))%Z as [Ec|Ec]; cbn [negb] in H; [|left; lia].
  right. split; [exact Ec|]. destruct (inf_eqb _ _) eqn:Er; cbn [negb] in H.
  - right. apply inf_eqb_eq in Er. split; [exact Er|lia].
  - left. split; [now apply inf_leb_le|]. intro E. apply inf_eqb_eq in E. congruence.
Qed.
Lemma edge_leb_false a b : edge_leb a b = false -> jedge_le b a.
Proof.
  unfold edge_leb, jedge_le. intro H.
  destruct (Z.eqb_spec (je_typ a) (je_typ b)) as [Et|Et]; cbn [negb] in H; [|left; lia]. right. split; [congruence|].
  destruct (Z.eqb_spec (or_default (je_created a) 0) (or_default (je_created b) 0))%Z as [Ec|Ec]; cbn [negb] in H; [|left; lia].
  right. split; [congruence|]. destruct (inf_eqb _ _) eqn:Er; cbn [negb] in H.
  - right. apply inf_eqb_eq in Er. split; [congruence|lia].
  - left. split.
    + destruct (time_le_total (removed_key (je_removed a)) (removed_key (je_removed b))) as [T|T]; [|exact T].
      apply inf_leb_le in T. congruence.
    + intro E. symmetry in E. apply inf_eqb_eq in E. congruence.
Qed.
Lemma time_le_trans a b c : time_le a b -> time_le b c -> time_le a c.
Proof. destruct a, b, c; cbn; try tauto. lia. Qed.
Lemma time_le_antisym a b : time_le a b -> time_le b a -> a = b.
Proof. destruct a, b; cbn; try tauto. intros. f_equal. lia. Qed.
Lemma jedge_le_trans a b c : jedge_le a b -> jedge_le b c -> jedge_le a c.
Proof.
  unfold jedge_le. generalize (removed_key (je_removed a)) (removed_key (je_removed b)) (removed_key (je_removed c)). intros x y z.
  intros [H1|(E1 & H1)] [H2|(E2 & H2)]; try (left; lia). right. split; [congruence|].
  destruct H1 as [H1|(C1 & H1)], H2 as [H2|(C2 & H2)]; try (left; lia). right. split; [congruence|].
  destruct H1 as [[T1 N1]|[R1 D1]], H2 as [[T2 N2]|[R2 D2]].
  - left. split; [eapply time_le_trans; eassumption|]. intros ->. apply N1. now apply time_le_antisym.
  - left. subst. auto.
  - left. subst. auto.
  - right. subst. split; [reflexivity|lia].
Qed.
Definition timed (e : jedge) : Prop := je_created e <> None /\ je_removed e <> None.
Lemma removed_key_some r : removed_key (Some r) = never_last r.
Proof. reflexivity. Qed.
Lemma json_sorted j : Forall timed (jn_edges j) -> StronglySorted record_le (tl (json_decode j)).
Proof.
  intro HT. cbn [json_decode tl]. cbv zeta.
  eapply sorted_map; [|apply (sort_by_sorted edge_leb jedge_le); [exact edge_leb_true|exact edge_leb_false|exact jedge_le_trans]].
  intros a b Ha Hb H. apply (Permutation_in a (sort_by_perm _ _)) in Ha. apply (Permutation_in b (sort_by_perm _ _)) in Hb.
  rewrite Forall_forall in HT. destruct (HT a Ha) as [A1 A2], (HT b Hb) as [B1 B2].
  unfold jedge_le in H. unfold record_le, json_edge. cbn [rtyp rcreated rremoved rdst or_default].
  destruct (je_created a) as [ca|]; [|congruence]. destruct (je_created b) as [cb|]; [|congruence].
  destruct (je_removed a) as [ra|]; [|congruence]. destruct (je_removed b) as [rb|]; [|congruence].
  rewrite !removed_key_some in H. exact H.
Qed.
Lemma json_types j : StronglySorted (fun a b => (rtyp a <= rtyp b)%Z) (tl (json_decode j)).
Proof.
  cbn [json_decode tl]. cbv zeta.
  eapply sorted_map; [|apply (sort_by_sorted edge_leb jedge_le); [exact edge_leb_true|exact edge_leb_false|exact jedge_le_trans]].
  intros a b _ _ [H|[H _]]; cbn; lia.
Qed.

(** The writer takes it: its three assertions hold. *)
Definition within_node (j : jnode) (e : jedge) : Prop :=
  let nc := or_default (jn_created j) 0%Z in
  let nr := or_default (jn_removed j) (-1)%Z in
  (nc <= or_default (je_created e) nc)%Z /\ (nr = -1 \/ nr = 0 \/ or_default (je_removed e) nr <= nr)%Z.
Lemma packs_no_assert : (forall z, packQ z <> Fail EAssert) /\ (forall z, packi z <> Fail EAssert) /\ (forall z, packq z <> Fail EAssert).
Proof. repeat split; intro z; unfold packQ, packi, packq; destruct (_ && _); discriminate. Qed.
Lemma bind_no_assert {A B} (r : res A) (k : A -> res B) : r <> Fail EAssert -> (forall a, r = Ok a -> k a <> Fail EAssert) -> bind r k <> Fail EAssert.
Proof. destruct r as [a|e]; cbn; intros H1 H2; [now apply H2|congruence]. Qed.
Lemma add_node_no_assert id typ fs s : add_node id typ fs s <> Fail EAssert.
Proof.
  destruct packs_no_assert as (P1 & P2 & P3). unfold add_node.
  apply bind_no_assert; [apply P1|]. intros a _. apply bind_no_assert; [apply P2|]. intros t _.
  destruct (write_features fs (nfi s) (nfd s) (nfd_pos s)) as [[x y] z]. discriminate.
Qed.
Lemma add_edge_no_assert t d y w fs c r s : add_edge t d y w fs c r s <> Fail EAssert.
Proof.
  destruct packs_no_assert as (P1 & P2 & P3). unfold add_edge.
  apply bind_no_assert; [apply P1|]. intros a _. apply bind_no_assert; [apply P2|]. intros b _.
  apply bind_no_assert.
  - destruct t; [|discriminate]. apply bind_no_assert; [apply P3|]. intros x _. apply bind_no_assert; [apply P3|]. intros; discriminate.
  - intros ts _. destruct (write_features fs (efi s) (efd s) (efd_pos s)) as [[x z] p]. discriminate.
Qed.
Lemma py_add_no_assert {A} (f : A -> A) l i : py_add f l i <> Fail EAssert.
Proof. unfold py_add. destruct (_ || _); [discriminate|]. destruct (nth_error _ _); discriminate. Qed.
Lemma add_node_prev_type id typ fs s s' : add_node id typ fs s = Ok s' -> prev_type s' = prev_type s.
Proof.
  unfold add_node. destruct (packQ id); [|discriminate]. cbn [bind]. destruct (packi typ); [|discriminate]. cbn [bind].
  destruct (write_features fs (nfi s) (nfd s) (nfd_pos s)) as [[x y] z]. intro H. injection H as <-. reflexivity.
Qed.

Lemma edges_accepted wval temporal nc nr es : forall s,
  StronglySorted (fun a b => (rtyp a <= rtyp b)%Z) es ->
  (forall p e, prev_type s = Some p -> In e es -> (p <= rtyp e)%Z) ->
  Forall (fun e => (nc <= or_default (rcreated e) nc)%Z /\ (nr = -1 \/ or_default (rremoved e) nr <= nr)%Z) es ->
  Forall (fun e => rdst e <> -1)%Z es ->
  add_records wval temporal es nc nr s <> Fail EAssert.
Proof.
  induction es as [|e es IH]; intros s HS HP HF HD; [discriminate|].
  inversion HS as [|? ? HS' HSe]; subst. inversion HF as [|? ? [T1 T2] HF']; subst. inversion HD as [|? ? D1 HD']; subst.
  cbn [add_records]. apply bind_no_assert.
  - unfold add_record. rewrite (proj2 (Z.eqb_neq (rdst e) (-1)) D1). apply bind_no_assert.
    + destruct (match prev_node s with Some p => (rsrc e =? p)%Z | None => false end); [discriminate|].
      apply bind_no_assert; [apply add_node_no_assert|]. intros; discriminate.
    + intros s1 E1.
      assert (P1 : forall p, prev_type s1 = Some p -> (p <= rtyp e)%Z).
      { intros p Hp. destruct (match prev_node s with Some q => (rsrc e =? q)%Z | None => false end).
        - injection E1 as <-. apply (HP p e Hp). now left.
        - destruct (add_node (rsrc e) (-1) [] s); [|discriminate]. cbn [bind] in E1. injection E1 as <-. discriminate. }
      destruct (prev_type s1) as [p|] eqn:Ep.
      * specialize (P1 p eq_refl). rewrite (proj2 (Z.ltb_ge (rtyp e) p)) by lia.
        destruct (match rcreated e with Some c => (c <? nc)%Z | None => false end) eqn:Ec.
        { destruct (rcreated e); [cbn in T1; lia|discriminate]. }
        destruct (match rremoved e with Some d => negb (nr =? -1)%Z && (nr <? d)%Z | None => false end) eqn:Er.
        { destruct (rremoved e); [cbn in T2; lia|discriminate]. }
        apply bind_no_assert; [apply add_edge_no_assert|]. intros s2 _.
        apply bind_no_assert; [apply py_add_no_assert|]. intros x _. apply bind_no_assert; [apply py_add_no_assert|]. intros; discriminate.
      * destruct (match rcreated e with Some c => (c <? nc)%Z | None => false end) eqn:Ec.
        { destruct (rcreated e); [cbn in T1; lia|discriminate]. }
        destruct (match rremoved e with Some d => negb (nr =? -1)%Z && (nr <? d)%Z | None => false end) eqn:Er.
        { destruct (rremoved e); [cbn in T2; lia|discriminate]. }
        apply bind_no_assert; [apply add_edge_no_assert|]. intros s2 _.
        apply bind_no_assert; [apply py_add_no_assert|]. intros x _. apply bind_no_assert; [apply py_add_no_assert|]. intros; discriminate.
  - intros [[nc' nr'] s'] E.
    assert (G : nc' = nc /\ nr' = nr /\ prev_type s' = Some (rtyp e)).
    { unfold add_record in E. rewrite (proj2 (Z.eqb_neq (rdst e) (-1)) D1) in E.
      destruct (if match prev_node s with Some p => (rsrc e =? p)%Z | None => false end then _ else _) as [s1|]; [|discriminate]. cbn [bind] in E.
      destruct (match prev_type s1 with Some p => (rtyp e <? p)%Z | None => false end); [discriminate|]. cbv zeta in E.
      destruct (match rcreated e with Some c => (c <? nc)%Z | None => false end); [discriminate|].
      destruct (match rremoved e with Some d => negb (nr =? -1)%Z && (nr <? d)%Z | None => false end); [discriminate|].
      destruct (add_edge _ _ _ _ _ _ _ s1) as [s2|]; [|discriminate]. cbn [bind] in E.
      destruct (py_add _ _ _); [|discriminate]. cbn [bind] in E.
      destruct (py_add _ _ _); [|discriminate]. cbn [bind] in E.
      injection E as <- <- <-. auto. }
    destruct G as (-> & -> & G). apply IH; try assumption.
    intros p x Hp Hx. rewrite G in Hp. injection Hp as <-. rewrite Forall_forall in HSe. auto.
Qed.
Lemma json_accepted wval temporal j s :
  Forall (within_node j) (jn_edges j) -> Forall (fun e => je_dst e <> -1)%Z (jn_edges j) ->
  add_batch wval temporal (json_decode j) s <> Fail EAssert.
Proof.
  intros HW HD. unfold add_batch. pose proof (json_types j) as HS. unfold json_decode in *. cbv zeta in *. cbn [tl] in HS.
  cbn [add_records]. apply bind_no_assert.
  - unfold add_record. cbn [rdst Z.eqb Pos.eqb]. apply bind_no_assert; [apply add_node_no_assert|]. intros s1 _.
    apply bind_no_assert; [apply py_add_no_assert|]. intros x _. apply bind_no_assert; [apply py_add_no_assert|]. intros; discriminate.
  - intros [[nc' nr'] s'] E. unfold add_record in E. cbn [rdst Z.eqb Pos.eqb rcreated rremoved] in E.
    destruct (add_node _ _ _ s) as [s1|]; [|discriminate]. cbn [bind] in E.
    destruct (py_add _ _ _); [|discriminate]. cbn [bind] in E.
    destruct (py_add _ _ _); [|discriminate]. cbn [bind] in E. injection E as <- <- <-.
    apply edges_accepted.
    + exact HS.
    + intros p e Hp. discriminate.
    + rewrite Forall_map. rewrite Forall_forall in *. intros e He. apply (Permutation_in e (sort_by_perm _ _)) in He.
      specialize (HW e He). unfold within_node in HW. cbv zeta in HW.
      cbn [json_edge rcreated rremoved or_default]. unfold py_or. cbn.
      revert HW. generalize (or_default (jn_created j) 0%Z) (or_default (jn_removed j) (-1)%Z). intros c r.
      generalize (or_default (je_created e) c) (or_default (je_removed e) r). intros x y HW.
      destruct c, r; lia.
    + rewrite Forall_map. rewrite Forall_forall in *. intros e He. apply (Permutation_in e (sort_by_perm _ _)) in He. now apply HD.
Qed.

(** Features land at their index: the last value given for it. *)
Definition last_for {A} (i : nat) (kvs : list (nat * A)) : option A :=
  fold_left (fun o kv => if fst kv =? i then Some (snd kv) else o) kvs None.
Definition nth_feature {A} (l : list (option A)) (i : nat) : option A := nth i l None.
Lemma nth_repeat_none {A} n i : nth i (repeat (@None A) n) None = None.
Proof. revert i. induction n as [|n IH]; intros [|i]; cbn; auto. Qed.
Lemma set_nth_length {A} (l : list A) i x : i < length l -> length (set_nth l i x) = length l.
Proof. intro H. unfold set_nth. rewrite app_length. cbn [length]. rewrite firstn_length, skipn_length. lia. Qed.
Lemma nth_firstn {A} (l : list A) d : forall i j, j < i -> nth j (firstn i l) d = nth j l d.
Proof. induction l as [|a l IH]; intros [|i] [|j] H; cbn; try lia; auto. apply IH. lia. Qed.
Lemma nth_skipn {A} (l : list A) d : forall i j, nth j (skipn i l) d = nth (i + j) l d.
Proof. induction l as [|a l IH]; intros [|i] j; cbn; try reflexivity; [now destruct j|]. apply IH. Qed.
Lemma set_nth_nth {A} (l : list A) i x d j : i < length l -> nth j (set_nth l i x) d = if i =? j then x else nth j l d.
Proof.
  intro H. unfold set_nth. destruct (Nat.eqb_spec i j) as [->|Hne].
  - rewrite app_nth2 by (rewrite firstn_length; lia). rewrite firstn_length. replace (j - Nat.min j (length l)) with 0 by lia. reflexivity.
  - destruct (Nat.lt_ge_cases j i).
    + rewrite app_nth1 by (rewrite firstn_length; lia). apply nth_firstn. lia.
    + rewrite app_nth2 by (rewrite firstn_length; lia). rewrite firstn_length.
      replace (j - Nat.min i (length l)) with (S (j - S i)) by lia. cbn [nth]. rewrite nth_skipn. f_equal. lia.
Qed.
Lemma put_feature_length {A} (l : list (option A)) i v : length (put_feature l i v) = Nat.max (length l) (S i).
Proof. unfold put_feature. rewrite set_nth_length; rewrite app_length, repeat_length; lia. Qed.
Lemma put_feature_nth {A} (l : list (option A)) i v j :
  nth_feature (put_feature l i v) j = if i =? j then Some v else nth_feature l j.
Proof.
  unfold nth_feature, put_feature. rewrite set_nth_nth by (rewrite app_length, repeat_length; lia).
  destruct (i =? j); [reflexivity|]. destruct (Nat.lt_ge_cases j (length l)).
  - now rewrite app_nth1.
  - rewrite app_nth2, nth_repeat_none by lia. now rewrite nth_overflow by lia.
Qed.
Lemma pull_features_nth {A} (dicts : list (list (nat * A))) i :
  nth_feature (pull_features dicts) i = last_for i (concat dicts).
Proof.
  unfold pull_features, last_for.
  assert (G : forall (kvs : list (nat * A)) l (o : option A), nth_feature l i = o ->
    nth_feature (fold_left (fun l kv => put_feature l (fst kv) (snd kv)) kvs l) i =
    fold_left (fun o kv => if fst kv =? i then Some (snd kv) else o) kvs o).
  { induction kvs as [|[k v] kvs IH]; intros l o H; [exact H|]. cbn [fold_left fst snd]. apply IH.
    rewrite put_feature_nth. destruct (k =? i); [reflexivity|exact H]. }
  apply G. unfold nth_feature. now destruct i.
Qed.
Lemma pull_features_length {A} (dicts : list (list (nat * A))) :
  length (pull_features dicts) = list_max (map (fun kv => S (fst kv)) (concat dicts)).
Proof.
  unfold pull_features.
  assert (G : forall (kvs : list (nat * A)) l, length (fold_left (fun l kv => put_feature l (fst kv) (snd kv)) kvs l) =
    Nat.max (length l) (list_max (map (fun kv => S (fst kv)) kvs))).
  { induction kvs as [|[k v] kvs IH]; intro l; cbn [fold_left map]; [cbn; lia|]. rewrite IH, put_feature_length. cbn [fst snd list_max fold_right]. fold (list_max (map (fun kv : nat * A => S (fst kv)) kvs)). lia. }
  rewrite G. reflexivity.
Qed.

(** ** TSV *)
Section TsvProofs.
Variable conv : str -> list str -> res (list N).
Variable pfloat : str -> res N.
Lemma mapM_perm {A B} (f : A -> res B) l l' : Permutation l l' -> forall r, mapM f l = Ok r ->
  exists r', mapM f l' = Ok r' /\ Permutation r r'.
Proof.
  induction 1 as [|x l l' _ IH|x y l|l l' l'' _ IH1 _ IH2]; intros r E.
  - exists r. split; [exact E|reflexivity].
  - cbn in E. destruct (f x) as [b|] eqn:Ex; [|discriminate]. cbn in E. destruct (mapM f l) as [bs|]; [|discriminate]. cbn in E.
    injection E as <-. destruct (IH bs eq_refl) as (r' & E' & P). exists (b :: r'). cbn. rewrite Ex, E'. cbn. split; [reflexivity|now constructor].
  - cbn in E. destruct (f y) as [b|] eqn:Ey; [|discriminate]. cbn in E. destruct (f x) as [c|] eqn:Ex; [|discriminate]. cbn in E.
    destruct (mapM f l) as [bs|] eqn:El; [|discriminate]. cbn in E. injection E as <-. exists (c :: b :: bs). cbn. rewrite Ex. cbn. rewrite Ey. cbn. rewrite El. cbn.
    split; [reflexivity|apply perm_swap].
  - destruct (IH1 r E) as (r1 & E1 & P1). destruct (IH2 r1 E1) as (r2 & E2 & P2). exists r2. split; [exact E2|now rewrite P1].
Qed.
Lemma mapM_ok_forall {A B} (f : A -> res B) (P : A -> B -> Prop) l : forall r, (forall a b, f a = Ok b -> P a b) -> mapM f l = Ok r -> Forall2 P l r.
Proof.
  induction l as [|a l IH]; intros r H E; cbn in E; [injection E as <-; constructor|].
  destruct (f a) as [b|] eqn:Ea; [|discriminate]. cbn in E. destruct (mapM f l) as [bs|] eqn:El; [|discriminate]. cbn in E. injection E as <-.
  constructor; [now apply H|now apply IH].
Qed.
Definition tle (a b : Z * Z) : Prop := (fst a < fst b \/ (fst a = fst b /\ snd a <= snd b))%Z.
Lemma keyed_edge id k n e : (do k <- tsv_order n ;; Ok (k, n)) = Ok k -> tsv_edge conv pfloat id (snd k) = Ok e ->
  fst k = (x_typ e, x_dst e) /\ x_src e = id.
Proof.
  unfold tsv_order, tsv_edge, column. destruct (split 44 n) as [|a [|b l]] eqn:Es; try discriminate.
  destruct (parse_int b) as [t|] eqn:Eb; [|discriminate]. cbn [bind].
  destruct (parse_int a) as [d|] eqn:Ea; [|discriminate]. cbn [bind]. intro H. injection H as <-. cbn [fst snd]. rewrite Es. cbn [nth].
  destruct (length a =? 0); [discriminate|]. rewrite Ea. cbn [bind].
  assert (Hb : int_or b 0 = Ok t).
  { unfold int_or. destruct b; [discriminate|exact Eb]. }
  rewrite Hb. cbn [bind]. destruct (float_or_zero pfloat _) as [w|]; [|discriminate]. cbn [bind].
  destruct (tsv_features conv _) as [fs|]; [|discriminate]. cbn [bind]. intro H. injection H as <-. auto.
Qed.
Lemma tsv_decoded line x es : tsv_decode conv pfloat line = Ok (x :: es) ->
  x_dst x = (-1)%Z /\ Forall (fun e => x_src e = x_src x) es /\
  StronglySorted tle (map (fun e => (x_typ e, x_dst e)) es) /\
  exists es', mapM (tsv_edge conv pfloat (x_src x))
                (match column (split 9 line) 4 with [] => [] | ns => split 124 ns end) = Ok es' /\ Permutation es es'.
Proof.
  unfold tsv_decode. destruct line as [|c0 l0]; [discriminate|]. set (line := c0 :: l0). set (cols := split 9 line).
  destruct (length (column cols 0) =? 0); [discriminate|].
  destruct (parse_int (column cols 0)) as [id|]; [|discriminate]. cbn [bind].
  destruct (int_or (column cols 1) 0) as [t|]; [|discriminate]. cbn [bind].
  destruct (float_or_zero pfloat (column cols 2)) as [w|]; [|discriminate]. cbn [bind].
  destruct (tsv_features conv (column cols 3)) as [fs|]; [|discriminate]. cbn [bind].
  destruct (column cols 4) as [|c ns] eqn:E4.
  - intro H. injection H as <- <-. cbn. repeat split; try constructor. exists []. split; [reflexivity|constructor].
  - destruct (mapM _ (split 124 (c :: ns))) as [keyed|] eqn:Ek; [|discriminate]. cbn [bind].
    destruct (mapM (fun kn => tsv_edge conv pfloat id (snd kn)) _) as [es0|] eqn:Ee; [|discriminate]. cbn [bind].
    intro H. injection H as <- <-. cbn [x_dst x_src].
    pose proof (sort_by_perm (fun a b : Z * Z * str => pair_leb (fst a) (fst b)) keyed) as HP.
    assert (HK : Forall (fun k => exists n, (do k <- tsv_order n ;; Ok (k, n)) = Ok k) keyed).
    { clear -Ek. revert keyed Ek. generalize (split 124 (c :: ns)) as l. induction l as [|n l IH]; intros keyed Ek; cbn in Ek; [injection Ek as <-; constructor|].
      destruct (do k <- tsv_order n;; Ok (k, n)) as [k|] eqn:En; [|discriminate]. cbn in Ek. destruct (mapM _ l) as [ks|]; [|discriminate]. cbn in Ek.
      injection Ek as <-. constructor; [exists n; exact En|now apply IH]. }
    assert (HK' : Forall (fun k => exists n, (do k <- tsv_order n ;; Ok (k, n)) = Ok k) (sort_by (fun a b : Z * Z * str => pair_leb (fst a) (fst b)) keyed)).
    { eapply Permutation_Forall; [symmetry; exact HP|exact HK]. }
    assert (HE : map (fun e => (x_typ e, x_dst e)) es0 = map fst (sort_by (fun a b : Z * Z * str => pair_leb (fst a) (fst b)) keyed) /\
                 Forall (fun e => x_src e = id) es0).
    { clear -HK' Ee. revert es0 Ee. induction HK' as [|k ks (n & Hk) _ IH]; intros es0 Ee; cbn in Ee; [injection Ee as <-; split; [reflexivity|constructor]|].
      destruct (tsv_edge conv pfloat id (snd k)) as [e|] eqn:Et; [|discriminate]. cbn in Ee. destruct (mapM _ ks) as [es|]; [|discriminate]. cbn in Ee.
      injection Ee as <-. destruct (keyed_edge id k n e Hk Et) as [K1 K2]. destruct (IH es eq_refl) as [I1 I2].
      cbn. rewrite I1, K1. split; [reflexivity|now constructor]. }
    destruct HE as [HE1 HE2]. split; [reflexivity|]. split; [exact HE2|]. split.
    + rewrite HE1. eapply sorted_map; [|apply (sort_by_sorted (fun a b : Z * Z * str => pair_leb (fst a) (fst b)) (fun a b => tle (fst a) (fst b)))].
      * intros a b _ _ Hab. exact Hab.
      * intros a b. unfold pair_leb, tle. lia.
      * intros a b. unfold pair_leb, tle. lia.
      * intros a b d. unfold tle. lia.
    + destruct (mapM_perm _ _ _ HP _ Ee) as (es' & E' & P'). exists es'. split; [|exact P']. rewrite <- E'.
      assert (Hs : map snd keyed = split 124 (c :: ns)).
      { clear -Ek. revert keyed Ek. generalize (split 124 (c :: ns)) as l. induction l as [|n l IH]; intros keyed Ek; cbn in Ek; [injection Ek as <-; reflexivity|].
        destruct (tsv_order n) as [k|]; [|discriminate]. cbn in Ek. destruct (mapM _ l) as [ks|]; [|discriminate]. cbn in Ek. injection Ek as <-. cbn. f_equal. now apply IH. }
      rewrite <- Hs. clear. induction keyed as [|k ks IH]; [reflexivity|]. cbn. rewrite IH. reflexivity.
Qed.

(** Features as documented: a known number type, double or binary, then the values. *)
Inductive tfeature :=
| TNumber (prefix rest : str) (values : list str) (bytes : list N)
| TDouble (values : list str) (bytes : list N)
| TText (s : str)
| TAbsent.
Definition tfree (w : str) : Prop := ~ In 58%N w /\ ~ In 59%N w.
Definition tfeature_ok (f : tfeature) : Prop :=
  match f with
  | TNumber p r vs b => In p [[105]; [117]; [102]]%N /\ known p r = true /\ Forall tfree vs /\ join 32 vs <> [] /\
                        Forall (fun v => ~ In 32%N v) vs /\ conv (p ++ r) vs = Ok b
  | TDouble vs b => Forall tfree vs /\ join 32 vs <> [] /\ Forall (fun v => ~ In 32%N v) vs /\ conv [100]%N vs = Ok b
  | TText s => tfree s /\ s <> []
  | TAbsent => True
  end.
Definition tfeature_text (f : tfeature) : str :=
  match f with
  | TNumber p r vs _ => p ++ r ++ 58%N :: join 32 vs
  | TDouble vs _ => 100%N :: 58%N :: join 32 vs
  | TText s => 98%N :: 58%N :: s
  | TAbsent => []
  end.
Definition tmeaning (f : tfeature) : feature :=
  match f with TNumber _ _ _ b => FArray b | TDouble _ b => FArray b | TText s => FText s | TAbsent => FNone end.
Lemma join_free d vs : d <> 32%N -> Forall (fun v => ~ In d v) vs -> ~ In d (join 32 vs).
Proof.
  intros Hd. induction 1 as [|v vs Hv HF IH]; [intros []|]. cbn [join]. destruct vs; [exact Hv|].
  intro H. apply in_app_or in H. destruct H as [H|[H|H]]; [exact (Hv H)|congruence|exact (IH H)].
Qed.
Lemma tfree_join vs : Forall tfree vs -> tfree (join 32 vs).
Proof.
  intro H. split; apply join_free; try discriminate; eapply Forall_impl; try exact H; intros v [A B]; assumption.
Qed.
Lemma join_words vs : Forall (fun v => ~ In 32%N v) vs -> join 32 vs <> [] -> split 32 (join 32 vs) = vs.
Proof.
  intros HF Hn. rewrite split_join by (destruct vs; [contradiction Hn; reflexivity|discriminate]).
  clear Hn. induction HF as [|v vs Hv _ IH]; [reflexivity|]. cbn. rewrite (split_single 32 v Hv). cbn. now rewrite IH.
Qed.
Lemma known_free p r : known p r = true -> ~ In 58%N r /\ ~ In 59%N r.
Proof.
  unfold known. destruct (str_eqb p [102]%N); cbn [existsb]; rewrite ?orb_true_iff, ?str_eqb_eq; intro H;
    repeat (destruct H as [H|H]; [subst r; cbn; split; intros K; repeat (destruct K as [K|K]; [discriminate K|]); exact K|]); discriminate.
Qed.
Lemma tsv_key_text prev key v vtext : v <> [] -> tfree v -> tsv_key prev key = Some vtext -> key <> [] -> ~ In 58%N key -> forall l,
  tsv_features_loop conv prev ((key ++ 58%N :: v) :: l) =
  (do x <- tsv_value conv vtext v ;; do xs <- tsv_features_loop conv (Some vtext) l ;; Ok (x :: xs)).
Proof.
  intros Hv [F1 F2] Hk Hn Hf l. cbn [tsv_features_loop]. rewrite split_app, (split_single 58 key Hf), (split_single 58 v F1). cbn [app].
  destruct key as [|k0 key]; [congruence|]. destruct v as [|v0 v]; [congruence|]. rewrite Hk. reflexivity.
Qed.
Lemma tsv_loop_read fs : Forall tfeature_ok fs -> forall prev,
  tsv_features_loop conv prev (map tfeature_text fs) = Ok (map tmeaning fs).
Proof.
  induction 1 as [|f fs Hf _ IH]; intro prev; [reflexivity|]. cbn [map].
  destruct f as [p r vs b|vs b|s|]; cbn [tfeature_ok tfeature_text tmeaning] in *.
  - destruct Hf as (Hp & Hk & Hv & Hn & H32 & Hc). destruct (known_free p r Hk) as [K1 K2].
    rewrite app_assoc. rewrite (tsv_key_text prev (p ++ r) _ (KNumber p r)); [|exact Hn|now apply tfree_join| | |].
    + cbn [tsv_value]. rewrite Hk, join_words by assumption. rewrite Hc. cbn [bind]. rewrite IH. reflexivity.
    + destruct Hp as [<-|[<-|[<-|[]]]]; reflexivity.
    + destruct Hp as [<-|[<-|[<-|[]]]]; discriminate.
    + intro H. apply in_app_or in H. destruct H as [H|H]; [|exact (K1 H)]. destruct Hp as [<-|[<-|[<-|[]]]]; destruct H as [H|[]]; discriminate.
  - destruct Hf as (Hv & Hn & H32 & Hc). change (100%N :: 58%N :: join 32 vs) with ([100%N] ++ 58%N :: join 32 vs).
    rewrite (tsv_key_text prev [100%N] _ KDouble); [|exact Hn|now apply tfree_join|reflexivity|discriminate|intros [H|[]]; discriminate].
    cbn [tsv_value]. rewrite join_words by assumption. rewrite Hc. cbn [bind]. rewrite IH. reflexivity.
  - destruct Hf as [Hs Hn]. change (98%N :: 58%N :: s) with ([98%N] ++ 58%N :: s).
    rewrite (tsv_key_text prev [98%N] _ KBinary); [|exact Hn|exact Hs|reflexivity|discriminate|intros [H|[]]; discriminate].
    cbn [tsv_value bind]. rewrite IH. reflexivity.
  - cbn [tsv_features_loop split]. rewrite IH. reflexivity.
Qed.
Lemma tfeature_no_semicolon f : tfeature_ok f -> ~ In 59%N (tfeature_text f).
Proof.
  destruct f as [p r vs b|vs b|s|]; cbn [tfeature_ok tfeature_text].
  - intros (Hp & Hk & Hv & _) H. destruct (known_free p r Hk) as [_ K]. pose proof (proj2 (tfree_join vs Hv)) as J.
    apply in_app_or in H. destruct H as [H|H]; [destruct Hp as [<-|[<-|[<-|[]]]]; destruct H as [H|[]]; discriminate|].
    apply in_app_or in H. destruct H as [H|[H|H]]; [exact (K H)|discriminate|exact (J H)].
  - intros (Hv & _) [H|[H|H]]; [discriminate|discriminate|]. exact (proj2 (tfree_join vs Hv) H).
  - intros ([_ Hs] & _) [H|[H|H]]; [discriminate|discriminate|exact (Hs H)].
  - intros _ [].
Qed.
(** A single absent feature is an empty column, which stands for no features. *)
Lemma tsv_features_read fs : Forall tfeature_ok fs -> fs <> [TAbsent] ->
  tsv_features conv (join 59 (map tfeature_text fs)) = Ok (map tmeaning fs).
Proof.
  intros HF Hn. unfold tsv_features.
  destruct fs as [|f fs]; [reflexivity|]. destruct (join 59 (map tfeature_text (f :: fs))) as [|c l] eqn:E.
  { exfalso. destruct fs as [|g fs]; cbn in E; [|destruct (tfeature_text f); discriminate].
    destruct f as [p r vs b|vs b|s|]; cbn in E; try discriminate; [|congruence]. destruct p; [|discriminate]. destruct r; discriminate. }
  rewrite <- E, split_join by discriminate.
  replace (flat_map (split 59) (map tfeature_text (f :: fs))) with (map tfeature_text (f :: fs)); [now apply tsv_loop_read|].
  clear E Hn c l. induction HF as [|g l Hg _ IH]; [reflexivity|]. cbn [map flat_map]. rewrite (split_single 59) by (now apply tfeature_no_semicolon).
  cbn [app]. now rewrite <- IH.
Qed.

Definition blank_or (w : str) (wb : N) : Prop := (w = [] /\ wb = 0%N) \/ (w <> [] /\ pfloat w = Ok wb).
Definition int_column (w : str) (z : Z) : Prop := (w = [] /\ z = 0%Z) \/ w = show_int z.
Lemma blank_or_read w wb : blank_or w wb -> float_or_zero pfloat w = Ok wb.
Proof. intros [[-> ->]|[Hn H]]; [reflexivity|]. destruct w; [congruence|exact H]. Qed.
Lemma int_column_read w z : int_column w z -> int_or w 0 = Ok z.
Proof.
  intros [[-> ->]| ->]; [reflexivity|]. pose proof (parse_show z) as P. pose proof (show_nonnil z) as Hn.
  unfold int_or. destruct (show_int z); [congruence|exact P].
Qed.
Lemma show_free d z : d = 44%N \/ d = 9%N \/ d = 124%N -> ~ In d (show_int z).
Proof. intros Hd H. apply show_chars in H. unfold is_digit in H. destruct H as [H|H]; destruct Hd as [->|[->| ->]]; try discriminate; lia. Qed.
Lemma int_column_free d w z : d = 44%N \/ d = 9%N \/ d = 124%N -> int_column w z -> ~ In d w.
Proof. intros Hd [[-> _]| ->]; [intros []|now apply show_free]. Qed.
Lemma tsv_edge_read id d tw t w wb raw fs rest :
  int_column tw t -> blank_or w wb -> tsv_features conv raw = Ok fs -> ~ In 44%N w -> ~ In 44%N raw ->
  tsv_edge conv pfloat id (join 44 ([show_int d; tw; w; raw] ++ rest)) = Ok (Decoded id d t wb None None fs).
Proof.
  intros Ht Hw Hr F1 F2. unfold tsv_edge. rewrite split_join by discriminate. cbn [app flat_map].
  rewrite (split_single 44 (show_int d)) by (apply show_free; auto). rewrite (split_single 44 tw) by (eapply int_column_free; [auto|exact Ht]).
  rewrite (split_single 44 w F1), (split_single 44 raw F2). unfold column. cbn [app nth].
  destruct (Nat.eqb_spec (length (show_int d)) 0) as [E|_]; [exfalso; apply (show_nonnil d); now apply length_zero_iff_nil|].
  rewrite parse_show. cbn [bind]. rewrite (int_column_read tw t Ht). cbn [bind]. rewrite (blank_or_read w wb Hw). cbn [bind].
  rewrite Hr. reflexivity.
Qed.
Lemma tsv_node_read id tw t w wb raw fs ns out :
  int_column tw t -> blank_or w wb -> tsv_features conv raw = Ok fs -> ~ In 9%N w -> ~ In 9%N raw -> ~ In 9%N ns ->
  tsv_decode conv pfloat (join 9 [show_int id; tw; w; raw; ns]) = Ok out ->
  exists es, out = Decoded id (-1) t wb None None fs :: es /\ column (split 9 (join 9 [show_int id; tw; w; raw; ns])) 4 = ns.
Proof.
  intros Ht Hw Hr F1 F2 F3. unfold tsv_decode.
  assert (Es : split 9 (join 9 [show_int id; tw; w; raw; ns]) = [show_int id; tw; w; raw; ns]).
  { rewrite split_join by discriminate. cbn [flat_map]. rewrite (split_single 9 (show_int id)) by (apply show_free; auto).
    rewrite (split_single 9 tw) by (eapply int_column_free; [auto|exact Ht]).
    rewrite (split_single 9 w F1), (split_single 9 raw F2), (split_single 9 ns F3). reflexivity. }
  destruct (join 9 _) as [|c0 l0] eqn:El; [discriminate|]. rewrite Es. unfold column. cbn [nth].
  destruct (Nat.eqb_spec (length (show_int id)) 0) as [E|_]; [exfalso; apply (show_nonnil id); now apply length_zero_iff_nil|].
  rewrite parse_show. cbn [bind]. rewrite (int_column_read tw t Ht). cbn [bind]. rewrite (blank_or_read w wb Hw). cbn [bind].
  rewrite Hr. cbn [bind]. destruct ns as [|n0 ns].
  - intro H. injection H as <-. eexists. split; reflexivity.
  - destruct (mapM _ (split 124 _)); [|discriminate]. cbn [bind]. destruct (mapM _ (sort_by _ _)); [|discriminate]. cbn [bind].
    intro H. injection H as <-. eexists. split; reflexivity.
Qed.
(** The line is read whenever its neighbors are. *)
Lemma tsv_edges_order id d tw t w wb raw fs : int_column tw t -> tw <> [] -> ~ In 44%N w -> ~ In 44%N raw ->
  blank_or w wb -> tsv_features conv raw = Ok fs ->
  tsv_order (join 44 [show_int d; tw; w; raw]) = Ok (t, d) /\
  tsv_edge conv pfloat id (join 44 [show_int d; tw; w; raw]) = Ok (Decoded id d t wb None None fs).
Proof.
  intros Ht Hn F1 F2 Hw Hr. split; [|exact (tsv_edge_read id d tw t w wb raw fs [] Ht Hw Hr F1 F2)].
  unfold tsv_order. rewrite split_join by discriminate. cbn [flat_map]. rewrite (split_single 44 (show_int d)) by (apply show_free; auto).
  rewrite (split_single 44 tw) by (eapply int_column_free; [auto|exact Ht]). cbn [app].
  destruct Ht as [[-> _]| ->]; [congruence|]. rewrite parse_show. cbn [bind]. rewrite parse_show. reflexivity.
Qed.

(** A neighbor with a type column. *)
Record tneighbor := TN { tn_dst : Z; tn_typ : Z; tn_weight : str; tn_wb : N; tn_feats : list tfeature }.
Definition tn_raw (n : tneighbor) : str := join 59 (map tfeature_text (tn_feats n)).
Definition tn_text (n : tneighbor) : str := join 44 [show_int (tn_dst n); show_int (tn_typ n); tn_weight n; tn_raw n].
Definition tn_ok (n : tneighbor) : Prop :=
  blank_or (tn_weight n) (tn_wb n) /\ Forall tfeature_ok (tn_feats n) /\ tn_feats n <> [TAbsent] /\
  (forall d, In d [9; 44; 124]%N -> ~ In d (tn_weight n) /\ ~ In d (tn_raw n)).
Definition tn_edge (id : Z) (n : tneighbor) : decoded :=
  Decoded id (tn_dst n) (tn_typ n) (tn_wb n) None None (map tmeaning (tn_feats n)).
Lemma show_column z : int_column (show_int z) z.
Proof. now right. Qed.
Lemma tn_free n d : tn_ok n -> d = 9%N \/ d = 124%N -> ~ In d (tn_text n).
Proof.
  intros (_ & _ & _ & F) Hd H. unfold tn_text in H. cbn [join] in H.
  assert (Fd : In d [9; 44; 124]%N) by (destruct Hd as [->| ->]; cbn; auto). destruct (F d Fd) as [F1 F2].
  assert (S1 : forall z, ~ In d (show_int z)) by (intro z; apply show_free; destruct Hd as [->| ->]; auto).
  repeat (apply in_app_or in H; destruct H as [H|H]; [first [exact (S1 _ H)|exact (F1 H)]|]; destruct H as [H|H]; [destruct Hd; congruence|]).
  exact (F2 H).
Qed.
Lemma mapM_map_ok {A B C} (f : B -> res C) (g : A -> B) (h : A -> C) l : (forall a, In a l -> f (g a) = Ok (h a)) ->
  mapM f (map g l) = Ok (map h l).
Proof.
  induction l as [|a l IH]; intro H; [reflexivity|]. cbn [map mapM]. rewrite (H a) by now left. cbn [bind]. rewrite IH by (intros; apply H; now right).
  reflexivity.
Qed.
Lemma tsv_line_read id tw t w wb fs ns :
  int_column tw t -> blank_or w wb -> Forall tfeature_ok fs -> fs <> [TAbsent] ->
  ~ In 9%N w -> ~ In 9%N (join 59 (map tfeature_text fs)) -> Forall tn_ok ns ->
  exists es, tsv_decode conv pfloat (join 9 [show_int id; tw; w; join 59 (map tfeature_text fs); join 124 (map tn_text ns)]) =
    Ok (Decoded id (-1) t wb None None (map tmeaning fs) :: es) /\
    Permutation es (map (tn_edge id) ns) /\ StronglySorted tle (map (fun e => (x_typ e, x_dst e)) es).
Proof.
  intros Ht Hw HF Hn F1 F2 HN. set (raw := join 59 (map tfeature_text fs)) in *. set (nt := join 124 (map tn_text ns)).
  pose proof (tsv_features_read fs HF Hn) as Hr. fold raw in Hr. rewrite Forall_forall in HN.
  assert (F3 : ~ In 9%N nt).
  { unfold nt. clear -HN. induction ns as [|n ns IH]; [intros []|]. cbn [map join].
    assert (Hn : ~ In 9%N (tn_text n)) by (apply tn_free; [apply HN; now left|now left]).
    destruct (map tn_text ns) eqn:E; [exact Hn|]. intro H. apply in_app_or in H. destruct H as [H|[H|H]]; [exact (Hn H)|discriminate|].
    apply IH; [intros x Hx; apply HN; now right|exact H]. }
  assert (En : match nt with [] => [] | ns => split 124 ns end = map tn_text ns).
  { unfold nt. destruct ns as [|n ns]; [reflexivity|]. destruct (join 124 (map tn_text (n :: ns))) eqn:E.
    - exfalso. cbn [map join] in E. assert (T : tn_text n <> []).
      { unfold tn_text. apply join_nonnil, show_nonnil. }
      destruct (map tn_text ns); [exact (T E)|]. destruct (tn_text n); discriminate.
    - rewrite <- E, split_join by discriminate. clear -HN. revert HN. generalize (n :: ns). intros l HN. induction l as [|m l IH]; [reflexivity|].
      cbn [map flat_map]. rewrite (split_single 124) by (apply tn_free; [apply HN; now left|now right]). cbn [app]. f_equal.
      apply IH. intros x Hx. apply HN. now right. }
  assert (Eo : forall n, In n ns -> tsv_order (tn_text n) = Ok (tn_typ n, tn_dst n) /\ tsv_edge conv pfloat id (tn_text n) = Ok (tn_edge id n)).
  { intros n Hin. destruct (HN n Hin) as (N1 & N2 & N3 & N4). destruct (N4 44%N) as [G1 G2]; [cbn; auto|].
    apply tsv_edges_order; [apply show_column|apply show_nonnil|exact G1|exact G2|exact N1|now apply tsv_features_read]. }
  assert (Es : split 9 (join 9 [show_int id; tw; w; raw; nt]) = [show_int id; tw; w; raw; nt]).
  { rewrite split_join by discriminate. cbn [flat_map]. rewrite (split_single 9 (show_int id)) by (apply show_free; auto).
    rewrite (split_single 9 tw) by (eapply int_column_free; [auto|exact Ht]).
    rewrite (split_single 9 w F1), (split_single 9 raw F2), (split_single 9 nt F3). reflexivity. }
  assert (ED : exists es, tsv_decode conv pfloat (join 9 [show_int id; tw; w; raw; nt]) = Ok (Decoded id (-1) t wb None None (map tmeaning fs) :: es)).
  { unfold tsv_decode. destruct (join 9 _) as [|c0 l0] eqn:El; [exfalso; revert El; apply join_nonnil, show_nonnil|]. rewrite Es. unfold column. cbn [nth].
    destruct (Nat.eqb_spec (length (show_int id)) 0) as [E|_]; [exfalso; apply (show_nonnil id); now apply length_zero_iff_nil|].
    rewrite parse_show. cbn [bind]. rewrite (int_column_read tw t Ht). cbn [bind]. rewrite (blank_or_read w wb Hw). cbn [bind].
    rewrite Hr. cbn [bind]. destruct nt as [|c l]; [eexists; reflexivity|]. rewrite En.
    rewrite (mapM_map_ok _ tn_text (fun n => (tn_typ n, tn_dst n, tn_text n))) by (intros n Hin; rewrite (proj1 (Eo n Hin)); reflexivity).
    cbn [bind]. set (keyed := map (fun n => (tn_typ n, tn_dst n, tn_text n)) ns).
    pose proof (sort_by_perm (fun a b : Z * Z * str => pair_leb (fst a) (fst b)) keyed) as HP. symmetry in HP.
    destruct (mapM_perm (fun kn => tsv_edge conv pfloat id (snd kn)) _ _ HP (map (tn_edge id) ns)) as (es & E & _).
    - unfold keyed. apply mapM_map_ok. intros n Hin. exact (proj2 (Eo n Hin)).
    - rewrite E. eexists. reflexivity. }
  destruct ED as (es & ED). exists es. split; [exact ED|]. destruct (tsv_decoded _ _ _ ED) as (_ & _ & HS & es' & E' & P').
  rewrite Es in E'. unfold column in E'. cbn [nth x_src] in E'.
  replace (match nt with [] => [] | n0 :: l0 => split 124 (n0 :: l0) end) with (map tn_text ns) in E' by (rewrite <- En; now destruct nt).
  rewrite (mapM_map_ok _ tn_text (tn_edge id)) in E' by (intros n Hin; exact (proj2 (Eo n Hin))). injection E' as <-. auto.
Qed.
End TsvProofs.
