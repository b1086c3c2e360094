From Verif Require Import Base ReaderModel.
From Coq Require Import Permutation ZifyBool ZifyNat ZifyN.
Local Open Scope nat_scope.

(** *** Specification *)
(** The lines of a file that end with LF, and what is behind the last LF. *)
Fixpoint split (s : bytes) : list bytes * bytes :=
  match s with
  | [] => ([], [])
  | c :: t =>
      let (ls, r) := split t in
      if (c =? LF)%N then ([] :: ls, r) else match ls with [] => ([], c :: r) | l :: ls => ((c :: l) :: ls, r) end
  end.
(** A line without the CR of a CR LF. *)
Definition body (l : bytes) : bytes := match rev l with c :: t => if (c =? CR)%N then rev t else l | [] => [] end.
(** A line: not empty, valid UTF-8, no line break of Python except for a CR at the end. *)
Definition good_body (b : bytes) : Prop := b <> [] /\ decode b = Some b /\ splitlines b = [b].
Definition good (l : bytes) : Prop := exists b, good_body b /\ (l = b \/ l = b ++ [CR]).
Definition good_file (c : bytes) : Prop := Forall good (fst (split c)) /\ (snd (split c) = [] \/ good (snd (split c))).
(** The lines of a file; the last one need not end with LF. *)
Definition lines_of (c : bytes) : list bytes :=
  map body (fst (split c)) ++ match snd (split c) with [] => [] | r => [body r] end.

(** *** Splitting *)
Lemma split_app s1 s2 : split (s1 ++ s2) =
  match fst (split s2) with
  | [] => (fst (split s1), snd (split s1) ++ snd (split s2))
  | l :: ls => (fst (split s1) ++ (snd (split s1) ++ l) :: ls, snd (split s2))
  end.
Proof.
  induction s1 as [|c t IH]; cbn [app split fst snd].
  - destruct (split s2) as [[|l ls] r]; reflexivity.
  - rewrite IH. destruct (split t) as [ls1 r1], (split s2) as [ls2 r2]. cbn [fst snd].
    destruct (c =? LF)%N; destruct ls2 as [|l2 ls2], ls1 as [|l1 ls1]; reflexivity.
Qed.
Lemma split_none s : fst (split s) = [] -> snd (split s) = s.
Proof.
  induction s as [|c t IH]; [reflexivity|]. cbn [split]. destruct (split t) as [ls r]. cbn [fst snd] in *.
  destruct (c =? LF)%N; [discriminate|]. destruct ls; [|discriminate]. intros _. cbn. now rewrite IH.
Qed.
Lemma split_rest s : split (snd (split s)) = ([], snd (split s)).
Proof.
  induction s as [|c t IH]; [reflexivity|]. cbn [split]. destruct (split t) as [ls r]. cbn [snd] in IH.
  destruct (c =? LF)%N eqn:E; [assumption|]. destruct ls as [|l ls]; [|assumption]. cbn [snd split]. rewrite IH, E. reflexivity.
Qed.
Lemma split_LF t : split (LF :: t) = ([] :: fst (split t), snd (split t)).
Proof. cbn [split]. now destruct (split t). Qed.
Lemma split_line s t : fst (split s) = [] -> split (s ++ LF :: t) = (s :: fst (split t), snd (split t)).
Proof. intros H. rewrite split_app, split_LF, H. cbn [fst snd app]. now rewrite app_nil_r, split_none. Qed.

Lemma cut_none l : cut l = None -> split l = ([], l).
Proof.
  induction l as [|c t IH]; [reflexivity|]. cbn [cut split]. destruct (c =? LF)%N; [discriminate|].
  destruct (cut t) as [[a b]|]; [discriminate|]. intros _. now rewrite IH.
Qed.
Lemma cut_some l a b : cut l = Some (a, b) -> l = a ++ LF :: b /\ split a = ([], a).
Proof.
  revert a b; induction l as [|c t IH]; intros a b; [discriminate|]. cbn [cut]. destruct (N.eqb_spec c LF) as [->|D].
  - intros X. injection X as <- <-. auto.
  - destruct (cut t) as [[a' b']|]; [|discriminate]. intros X. injection X as <- <-. destruct (IH _ _ eq_refl) as (-> & S).
    split; [reflexivity|]. cbn [split]. rewrite S. apply N.eqb_neq in D. now rewrite D.
Qed.
Lemma split_rev l : fst (split l) = [] -> fst (split (rev l)) = [].
Proof.
  induction l as [|c t IH]; [reflexivity|]. cbn [split rev]. destruct (split t) as [ls r]. cbn [fst] in *.
  destruct (c =? LF)%N eqn:E; [discriminate|]. destruct ls; [|discriminate]. intros _. rewrite split_app. cbn [split]. rewrite E. cbn [fst]. auto.
Qed.
Lemma rcut_none l : rcut l = None -> split l = ([], l).
Proof.
  unfold rcut. destruct (cut (rev l)) as [[a b]|] eqn:C; [discriminate|]. intros _. apply cut_none in C.
  assert (fst (split l) = []) as F. { rewrite <- (rev_involutive l). apply split_rev. now rewrite C. }
  rewrite (surjective_pairing (split l)), F. now rewrite split_none.
Qed.
Lemma rcut_some l a b : rcut l = Some (a, b) -> l = a ++ LF :: b /\ split b = ([], b).
Proof.
  unfold rcut. destruct (cut (rev l)) as [[x y]|] eqn:C; [|discriminate]. intros X. injection X as <- <-.
  apply cut_some in C as (C & S). split.
  - rewrite <- (rev_involutive l), C, rev_app_distr. cbn [rev]. now rewrite <- app_assoc.
  - assert (fst (split (rev x)) = []) as F by (apply split_rev; now rewrite S).
    rewrite (surjective_pairing (split (rev x))), F. now rewrite split_none.
Qed.

(** *** Decoding *)
Lemma urun_app s a b : urun s (a ++ b) = match urun s a with Some s => urun s b | None => None end.
Proof. revert s; induction a as [|x a IH]; intros s; [reflexivity|]. cbn. destruct (ustep s x); auto. Qed.
Lemma decode_valid l : decode l = Some l <-> urun UStart l = Some UStart.
Proof. unfold decode. destruct (urun UStart l) as [[]|]; split; congruence. Qed.
Lemma decode_ascii a c b : (c <= 127)%N -> decode a = Some a -> decode b = Some b -> decode (a ++ c :: b) = Some (a ++ c :: b).
Proof.
  intros H A B. apply decode_valid in A, B. apply decode_valid. rewrite urun_app, A. cbn [urun ustep].
  destruct (N.leb_spec c 127); [assumption|lia].
Qed.

(** *** splitlines *)
Lemma splitlines_nil l : splitlines l = [] -> l = [].
Proof.
  destruct l as [|c t]; [reflexivity|]. cbn [splitlines]. destruct (c =? CR)%N; [destruct t as [|d t]; [|destruct (d =? LF)%N]; discriminate|].
  destruct (_ || _); [discriminate|]. destruct (c =? 194)%N; [destruct t as [|d t]; [discriminate|destruct (d =? 133)%N; [discriminate|]]|].
  1: unfold cons_line; destruct (splitlines (d :: t)); discriminate.
  destruct (c =? 226)%N.
  - destruct t as [|d [|e t]]; [discriminate| |]; [unfold cons_line; destruct (splitlines [d]); discriminate|].
    destruct (_ && _); [discriminate|]. unfold cons_line. destruct (splitlines (d :: e :: t)); discriminate.
  - unfold cons_line. destruct (splitlines t); discriminate.
Qed.
(** A line without breaks, character by character. *)
Lemma splitlines_cons c t : splitlines (c :: t) = [c :: t] ->
  (t = [] \/ splitlines t = [t]) /\ (c =? CR)%N = false /\ (between 10 12 c || between 28 30 c = false) /\
  (c = 194%N -> forall d t', t = d :: t' -> d <> 133%N) /\ (c = 226%N -> forall d e t', t = d :: e :: t' -> ((d =? 128)%N && between 168 169 e) = false).
Proof.
  intros H. cbn [splitlines] in H. destruct (c =? CR)%N eqn:Ec; [destruct t as [|d t]; [|destruct (d =? LF)%N]; discriminate|].
  destruct (between 10 12 c || between 28 30 c) eqn:Eb; [discriminate|].
  assert (CL : cons_line c (splitlines t) = [c :: t] -> t = [] \/ splitlines t = [t]).
  { unfold cons_line. destruct (splitlines t) as [|l ls] eqn:E; [left; now apply splitlines_nil|]. intros X. injection X as -> ->. now right. }
  destruct (N.eqb_spec c 194) as [->|D1].
  { destruct t as [|d t]; [repeat split; auto; intros; discriminate|]. destruct (N.eqb_spec d 133) as [->|D2]; [discriminate|].
    repeat split; auto; try (intros; discriminate). intros _ d' t' X. now injection X as <- <-. }
  destruct (N.eqb_spec c 226) as [->|D3].
  { destruct t as [|d [|e t]]; [repeat split; auto; intros; discriminate| |].
    - repeat split; auto; intros; discriminate.
    - destruct ((d =? 128)%N && between 168 169 e) eqn:B; [discriminate|]. repeat split; auto; try (intros; discriminate). intros _ d' e' t' X. now injection X as <- <- <-. }
  repeat split; auto; intros; contradiction.
Qed.
Lemma splitlines_step c t : (c =? CR)%N = false -> between 10 12 c || between 28 30 c = false ->
  (c = 194%N -> forall d t', t = d :: t' -> d <> 133%N) -> (c = 226%N -> forall d e t', t = d :: e :: t' -> ((d =? 128)%N && between 168 169 e) = false) ->
  splitlines (c :: t) = cons_line c (splitlines t).
Proof.
  intros A B C D. cbn [splitlines]. rewrite A, B. destruct (N.eqb_spec c 194) as [->|].
  { destruct t as [|d t]; [reflexivity|]. specialize (C eq_refl d t eq_refl). apply N.eqb_neq in C. now rewrite C. }
  destruct (N.eqb_spec c 226) as [->|]; [|reflexivity].
  destruct t as [|d [|e t]]; [reflexivity|reflexivity|]. now rewrite (D eq_refl d e t eq_refl).
Qed.
(** What follows is cut off when it begins with CR or LF. *)
Lemma splitlines_before b x t : splitlines b = [b] -> (x = LF \/ x = CR) -> splitlines (b ++ x :: t) = match splitlines (x :: t) with [] => [] | _ :: ls => b :: ls end.
Proof.
  intros H X. assert (Hx : exists ls, splitlines (x :: t) = [] :: ls).
  { destruct X as [-> | ->]; [eexists; reflexivity|]. cbn [splitlines]. cbn. destruct t as [|d t]; [eauto|]. destruct (d =? LF)%N; eauto. }
  destruct Hx as (ls & Hx). rewrite Hx. revert H. induction b as [|c b IH]; intros H; [discriminate|].
  apply splitlines_cons in H as (T & A & B & C & D). change ((c :: b) ++ x :: t) with (c :: (b ++ x :: t)). rewrite splitlines_step; auto.
  - destruct T as [->|T]; [cbn [app]; now rewrite Hx|]. now rewrite IH.
  - intros E d t' F. destruct b as [|d' b]; cbn in F; injection F as <- <-; [destruct X; subst; discriminate|]. eapply C; eauto.
  - intros E d e t' F. destruct b as [|d' [|e' b]]; cbn in F.
    + injection F as <- ->. destruct X; subst; reflexivity.
    + injection F as <- <- <-. destruct X; subst; now rewrite andb_false_r.
    + injection F as <- <- <-. eapply D; eauto.
Qed.
Lemma body_end b : splitlines b = [b] -> exists c t, rev b = c :: t /\ c <> CR /\ c <> LF.
Proof.
  intros H. induction b as [|c b IH]; [discriminate|]. apply splitlines_cons in H as (T & A & B & _ & _).
  assert (c <> CR /\ c <> LF) as N. { unfold between, CR, LF in *. lia. }
  destruct T as [->|T]; [exists c, []; now split|]. destruct (IH T) as (d & t & E & ND). exists d, (t ++ [c]). cbn [rev]. now rewrite E.
Qed.
Lemma body_start b : splitlines b = [b] -> exists c t, b = c :: t /\ c <> CR /\ c <> LF.
Proof.
  intros H. destruct b as [|c b]; [discriminate|]. apply splitlines_cons in H as (T & A & B & _ & _).
  exists c, b. split; [reflexivity|]. unfold between, CR, LF in *. lia.
Qed.

Section Good.
Variables (b l : bytes).
Hypothesis G : good_body b.
Hypothesis E : l = b \/ l = b ++ [CR].
Lemma good_body_of : body l = b.
Proof.
  destruct G as (N & D & S). destruct (body_end b S) as (c & t & R & C & _). unfold body. destruct E as [-> | ->].
  - rewrite R. apply N.eqb_neq in C. now rewrite C.
  - rewrite rev_app_distr. cbn [rev app]. cbn. now rewrite rev_involutive.
Qed.
Lemma good_decode : decode l = Some l.
Proof. destruct G as (N & D & S). destruct E as [-> | ->]; [assumption|]. apply decode_ascii; [unfold CR; lia|assumption|reflexivity]. Qed.
Lemma good_split : splitlines l = [b].
Proof. destruct G as (N & D & S). destruct E as [-> | ->]; [assumption|]. rewrite splitlines_before by auto. reflexivity. Qed.
Lemma good_split_LF t : splitlines (l ++ LF :: t) = b :: splitlines t.
Proof.
  destruct G as (N & D & S). destruct E as [-> | ->].
  - rewrite splitlines_before by auto. reflexivity.
  - rewrite <- app_assoc. cbn [app]. rewrite splitlines_before by auto. reflexivity.
Qed.
Lemma good_nonempty : l <> [].
Proof. destruct G as (N & _). destruct E as [-> | ->]; [assumption|]. now destruct b. Qed.
Lemma good_strip : strip l = b.
Proof.
  destruct G as (N & D & S). destruct (body_start b S) as (c & t & Eb & C1 & C2). destruct (body_end b S) as (d & u & Er & D1 & D2).
  assert (NE : forall x, x <> CR -> x <> LF -> is_end x = false) by (intros x A B; unfold is_end; apply N.eqb_neq in A, B; now rewrite A, B).
  unfold strip. assert (lstrip l = l) as ->.
  { destruct E as [-> | ->]; rewrite Eb; cbn [lstrip app]; now rewrite NE. }
  assert (lstrip (rev l) = rev b) as ->; [|apply rev_involutive].
  destruct E as [-> | ->]; [|rewrite rev_app_distr; cbn [rev app lstrip]; change (is_end CR) with true; cbv iota];
    rewrite Er; cbn [lstrip]; now rewrite NE.
Qed.
End Good.

(** *** Several lines *)
Fixpoint join (ls : list bytes) : bytes := match ls with [] => [] | [l] => l | l :: ls => l ++ LF :: join ls end.
Lemma join_split s : join (fst (split s) ++ [snd (split s)]) = s.
Proof.
  induction s as [|c t IH]; [reflexivity|]. cbn [split]. destruct (split t) as [ls r]. cbn [fst snd] in IH.
  destruct (N.eqb_spec c LF) as [->|D].
  - cbn [fst snd app]. destruct (ls ++ [r]) as [|x xs] eqn:X; [destruct ls; discriminate|]. rewrite <- X in *. cbn [join]. rewrite X in *. now rewrite IH.
  - destruct ls as [|l ls]; cbn [fst snd app] in *; [cbn in *; now rewrite IH|].
    destruct (ls ++ [r]) as [|x xs] eqn:X; [destruct ls; discriminate|]. cbn [join app] in *. now rewrite IH.
Qed.
Lemma join_good ls : ls <> [] -> Forall good ls -> decode (join ls) = Some (join ls) /\ splitlines (join ls) = map body ls.
Proof.
  induction ls as [|l ls IH]; intros N F; [congruence|]. inversion F as [|? ? (b & G & E) F']; subst. cbn [map]. rewrite (good_body_of b l G E).
  destruct ls as [|l2 ls]; [cbn [join map]; split; [eapply good_decode|eapply good_split]; eassumption|].
  destruct (IH ltac:(discriminate) F') as (D & S). change (join (l :: l2 :: ls)) with (l ++ LF :: join (l2 :: ls)). split.
  - apply decode_ascii; [unfold LF; lia|eapply good_decode; eassumption|assumption].
  - rewrite (good_split_LF b l G E), S. reflexivity.
Qed.

(** *** Blocks *)
Definition rep (b : block) (s : bytes) : Prop :=
  len b = length s /\
  match fst (split s) with
  | [] => prefix b = (match s with [] => None | _ => Some s end) /\ lines b = [] /\ suffix b = None
  | p :: mid => prefix b = Some p /\ lines b = map body mid /\ suffix b = Some (snd (split s))
  end.

Lemma worker_rep s : Forall good (tl (fst (split s))) -> rep (worker s) s.
Proof.
  intros F. unfold worker. destruct s as [|c t] eqn:Es; [now repeat split|]. rewrite <- Es in *. assert (NE : s <> []) by congruence. clear c t Es.
  destruct (cut s) as [[first after]|] eqn:C.
  - apply cut_some in C as (-> & Sf). assert (Ss : split (first ++ LF :: after) = (first :: fst (split after), snd (split after))) by (apply split_line; now rewrite Sf).
    rewrite Ss in F. cbn [fst tl] in F. destruct (rcut after) as [[mid last]|] eqn:Rc.
    + apply rcut_some in Rc as (-> & Sl). assert (Sa : split (mid ++ LF :: last) = (fst (split mid) ++ [snd (split mid)], last)).
      { rewrite split_app, split_LF, Sl. cbn [fst snd]. now rewrite app_nil_r. }
      rewrite Sa in F, Ss. cbn [fst snd] in F. destruct (join_good (fst (split mid) ++ [snd (split mid)]) ltac:(now destruct (fst (split mid))) F) as (D & L).
      rewrite join_split in D, L. rewrite D, L. unfold rep. rewrite Ss. cbn [fst snd len prefix lines suffix]. now repeat split.
    + apply rcut_none in Rc. unfold rep. rewrite Ss, Rc. cbn [fst snd len prefix lines suffix]. now repeat split.
  - apply cut_none in C. unfold rep. rewrite C. cbn [fst snd len prefix lines suffix]. repeat split. now destruct s.
Qed.

Lemma tl_app {A} (a b : list A) : a <> [] -> tl (a ++ b) = tl a ++ b.
Proof. now destruct a. Qed.
Lemma merge_rep h c s1 s2 : rep h s1 -> rep c s2 -> Forall good (tl (fst (split (s1 ++ s2)))) ->
  exists b, merge h c = Some b /\ rep b (s1 ++ s2).
Proof.
  intros (Lh & Rh) (Lc & Rc) F. unfold merge, rep. rewrite app_length, <- Lh, <- Lc. rewrite split_app in *.
  assert (s2 = [] \/ s2 <> []) as [->|N2] by (destruct s2; [now left|now right]).
  { cbn [split fst snd] in *. destruct Rc as (-> & _ & _). rewrite !app_nil_r in *. eexists. split; [reflexivity|]. cbn [len prefix lines suffix]. auto. }
  assert (M2 : match s2 with [] => None | _ => Some s2 end = Some s2) by (now destruct s2).
  destruct (fst (split s2)) as [|p2 mid2] eqn:S2.
  - rewrite M2 in Rc. destruct Rc as (-> & Lc2 & ->). rewrite (split_none s2 S2). destruct (fst (split s1)) as [|p1 mid1] eqn:S1; cbn [fst snd] in *.
    + destruct Rh as (-> & -> & ->). eexists. split; [reflexivity|]. cbn [len prefix lines suffix]. split; [reflexivity|]. split; [|auto].
      destruct s1 as [|y s1]; [cbn [app]; now rewrite M2|reflexivity].
    + destruct Rh as (-> & -> & ->). eexists. split; [reflexivity|]. cbn [len prefix lines suffix]. auto.
  - destruct Rc as (-> & -> & ->). destruct (fst (split s1)) as [|p1 mid1] eqn:S1; cbn [fst snd app tl] in *.
    + destruct Rh as (-> & -> & ->). eexists. split; [reflexivity|]. cbn [len prefix lines suffix app]. split; [reflexivity|]. split; [|auto].
      rewrite (split_none s1 S1). now destruct s1.
    + destruct Rh as (-> & -> & ->). apply Forall_app in F as (F1 & F2). inversion F2 as [|? ? (b & G & E) _]; subst.
      rewrite (good_decode b _ G E), (good_split b _ G E). eexists. split; [reflexivity|]. cbn [len prefix lines suffix].
      rewrite map_app. cbn [map]. rewrite (good_body_of b _ G E). auto.
Qed.
Lemma split_prefix s1 s2 : exists x, fst (split (s1 ++ s2)) = fst (split s1) ++ x.
Proof. rewrite split_app. destruct (fst (split s2)); cbn [fst]; [exists []; now rewrite app_nil_r|eauto]. Qed.
Lemma tl_incl {A} (l : list A) x : In x (tl l) -> In x l.
Proof. destruct l; cbn; auto. Qed.
Lemma good_prefix s1 s2 : Forall good (tl (fst (split (s1 ++ s2)))) -> Forall good (tl (fst (split s1))).
Proof.
  destruct (split_prefix s1 s2) as (x & ->). destruct (fst (split s1)) as [|p mid]; [constructor|]. cbn [app tl]. intros F. now apply Forall_app in F as (F & _).
Qed.
Lemma good_suffix s1 s2 : Forall good (tl (fst (split (s1 ++ s2)))) -> Forall good (tl (fst (split s2))).
Proof.
  rewrite split_app. destruct (fst (split s2)) as [|p mid]; [constructor|]. cbn [fst tl]. intros F.
  destruct (fst (split s1)); cbn [app tl] in F; [assumption|]. apply Forall_app in F as (_ & F). now inversion F.
Qed.
Lemma merge_all_rep h s ss : rep h s -> Forall good (tl (fst (split (s ++ concat ss)))) ->
  exists b, merge_all h (map worker ss) = Some b /\ rep b (s ++ concat ss).
Proof.
  revert h s; induction ss as [|s2 ss IH]; intros h s R F; cbn [map merge_all concat] in *.
  - rewrite app_nil_r. eauto.
  - rewrite app_assoc in F. destruct (merge_rep h (worker s2) s s2 R) as (b & -> & R').
    + apply worker_rep. eapply good_suffix with (s1 := s), good_prefix, F.
    + eapply good_prefix, F.
    + destruct (IH b (s ++ s2) R' F) as (b' & H & R''). rewrite <- app_assoc in R''. eauto.
Qed.

(** The ranges of the threads cover the block. *)
Lemma skipn_skipn' {A} (a b : nat) (l : list A) : skipn a (skipn b l) = skipn (a + b) l.
Proof. revert l; induction b as [|b IH]; intros l; [now rewrite Nat.add_0_r|]. rewrite Nat.add_succ_r. destruct l; [now rewrite !skipn_nil|]. apply IH. Qed.
Lemma read_app content o a b : read content o a ++ read content (o + a) b = read content o (a + b).
Proof.
  unfold read. rewrite Nat.add_comm, <- skipn_skipn'. generalize (skipn o content). intros l. revert l.
  induction a as [|a IH]; intros [|x l]; cbn [firstn skipn app Nat.add]; [reflexivity|reflexivity|now rewrite !firstn_nil|]. now rewrite IH.
Qed.
Lemma ranges_cover content threads offset length : threads > 0 ->
  concat (map (fun r => read content (fst r) (snd r)) (ranges threads offset length)) = read content offset length.
Proof.
  intros T. unfold ranges. set (sub := length / threads). rewrite map_app, map_map, concat_app. cbn [map concat fst snd]. rewrite app_nil_r.
  assert (C : forall k, concat (map (fun i => read content (offset + i * sub) sub) (seq 0 k)) = read content offset (k * sub)).
  { induction k as [|k IH]; [reflexivity|]. rewrite seq_S, map_app, concat_app, IH. cbn [map concat Nat.add]. rewrite app_nil_r, read_app. f_equal. lia. }
  rewrite C, read_app. f_equal. assert (sub * threads <= length) by (subst sub; rewrite Nat.mul_comm; apply Nat.mul_div_le; lia). nia.
Qed.

Lemma read_block_rep content threads offset length : threads > 0 -> Forall good (tl (fst (split (read content offset length)))) ->
  exists b, read_block content threads offset length = Some b /\ rep b (read content offset length).
Proof.
  intros T F. unfold read_block. destruct threads as [|n] eqn:En; [lia|]. rewrite <- En in *. clear En.
  rewrite <- (ranges_cover content threads offset length T) in *. rewrite <- (map_map (fun r => read content (fst r) (snd r)) worker).
  assert (ranges threads offset length <> []) as N by (unfold ranges; destruct (map _ (seq 0 (threads - 1))); discriminate).
  destruct (ranges threads offset length) as [|r rs]; [congruence|]. cbn [map concat] in *. apply merge_all_rep; [|assumption].
  apply worker_rep. eapply good_prefix, F.
Qed.

(** *** The lines that the items of the queue give *)
Fixpoint flow (rb : bytes) (q : list item) : option (list bytes) :=
  match q with
  | [] => None
  | IDone :: _ => match rb with [] => Some [] | _ => match decode rb with None => None | Some s => Some (match strip s with [] => [] | l => [l] end) end end
  | IBlock b :: q =>
      match prefix b, suffix b with
      | None, _ => None
      | Some p, None => flow (rb ++ p) q
      | Some p, Some s =>
          match decode (rb ++ p), flow s q with
          | Some t, Some ls => Some (splitlines t ++ lines b ++ ls)
          | _, _ => None
          end
      end
  end.

Lemma fill_flow batch q : forall buf rl rb ls, length buf < batch -> flow rb q = Some ls ->
  let all := buf ++ rl ++ ls in
  exists done st, fill batch buf rl rb q = Filled (firstn batch all) done st /\ ended st = false /\
    (done = true -> length all <= batch) /\
    (done = false -> batch <= length all /\ exists ls', flow (remain_bytes st) (outputs st) = Some ls' /\ remain_lines st ++ ls' = skipn batch all).
Proof.
  induction q as [|i q IH]; intros buf rl rb ls L H; [discriminate|]. cbn [fill].
  destruct (Nat.leb_spec batch (length buf)); [lia|].
  destruct ((0 <? length rl) && negb (length rl <? batch - length buf)) eqn:E.
  { assert (batch <= length buf + length rl) by lia. exists false. eexists. split; [f_equal|].
    - rewrite firstn_app, (firstn_all2 (n := batch) buf) by lia. f_equal. rewrite firstn_app.
      replace (batch - length buf - length rl) with 0 by lia. cbn. now rewrite app_nil_r.
    - cbn [ended remain_bytes outputs remain_lines]. split; [reflexivity|]. split; [discriminate|]. intros _. split; [rewrite !app_length; lia|].
      exists ls. split; [exact H|]. rewrite skipn_app, (skipn_all2 (n := batch) buf) by lia. cbn [app]. rewrite skipn_app.
      replace (batch - length buf - length rl) with 0 by lia. reflexivity. }
  assert (L2 : length (buf ++ rl) < batch) by (rewrite app_length; lia). rewrite (app_assoc buf rl ls).
  destruct i as [b|].
  - cbn [flow] in H. destruct (prefix b) as [p|]; [|discriminate]. destruct (suffix b) as [s|].
    + destruct (decode (rb ++ p)) as [t|]; [|discriminate]. destruct (flow s q) as [ls2|] eqn:Fl; [|discriminate]. injection H as <-.
      specialize (IH (buf ++ rl) (splitlines t ++ lines b) s ls2 L2 Fl). cbv zeta in IH. rewrite <- (app_assoc (splitlines t)) in IH. exact IH.
    + exact (IH (buf ++ rl) [] (rb ++ p) ls L2 H).
  - cbn [flow] in H. exists true. destruct rb as [|c rb].
    + injection H as <-. rewrite app_nil_r. eexists. rewrite firstn_all2 by lia. split; [reflexivity|]. cbn [ended]. split; [reflexivity|]. split; [lia|discriminate].
    + destruct (decode (c :: rb)) as [s|]; [|discriminate]. injection H as <-. destruct (strip s) as [|d l].
      * rewrite app_nil_r. eexists. rewrite firstn_all2 by lia. split; [reflexivity|]. cbn [ended]. split; [reflexivity|]. split; [lia|discriminate].
      * eexists. rewrite firstn_all2 by (rewrite app_length; cbn [length]; lia). split; [reflexivity|]. cbn [ended]. split; [reflexivity|]. split; [|discriminate]. intros _. rewrite app_length. cbn [length]. lia.
Qed.

(** The specification of a run: full batches, at most one short one at the end. *)
Definition batched (batch : nat) (all : list bytes) (full : list (list bytes)) (last : list bytes) : Prop :=
  all = concat full ++ last /\ Forall (fun b => length b = batch) full /\ length last < batch.
Definition given (drop_last : bool) (full : list (list bytes)) (last : list bytes) : list (list bytes) :=
  full ++ match last with [] => [] | _ => if drop_last then [] else [last] end.

Lemma batched_cons batch all full last : batch <= length all -> batched batch (skipn batch all) full last ->
  batched batch all (firstn batch all :: full) last.
Proof.
  intros L (A & F & S). split; [|split; [constructor; [apply firstn_length_le; lia|assumption]|assumption]].
  cbn [concat]. rewrite <- app_assoc, <- A. symmetry. apply firstn_skipn.
Qed.
Lemma batched_nil batch : batch > 0 -> batched batch [] [] [].
Proof. intros. split; [reflexivity|]. split; [constructor|]. cbn. lia. Qed.

Lemma iterate_flow batch drop_last : batch > 0 -> forall fuel st ls, ended st = false ->
  flow (remain_bytes st) (outputs st) = Some ls -> length (remain_lines st ++ ls) + 1 < fuel ->
  exists full last, batched batch (remain_lines st ++ ls) full last /\ iterate fuel batch drop_last st = (given drop_last full last, StopIteration).
Proof.
  intros B. induction fuel as [|fuel IH]; intros st ls E H L; [lia|]. cbn [iterate]. unfold next. rewrite E.
  destruct (fill_flow batch (outputs st) [] (remain_lines st) (remain_bytes st) ls ltac:(cbn; lia) H) as (done & s & -> & Es & D & C).
  cbn [app] in *. set (all := remain_lines st ++ ls) in *. rewrite firstn_length. destruct done.
  - specialize (D eq_refl). rewrite (firstn_all2 (n := batch) all) by lia. replace (Nat.min batch (length all)) with (length all) by lia. cbn [orb].
    assert (Stop : forall f x, f > 0 -> ended x = true -> iterate f batch drop_last x = ([], StopIteration)).
    { intros f x F X. destruct f; [lia|]. cbn [iterate]. unfold next. now rewrite X. }
    destruct (Nat.eqb_spec (length all) 0) as [Z|Z].
    + cbn [orb]. destruct all; [|discriminate]. exists [], []. split; [now apply batched_nil|reflexivity].
    + destruct (Nat.ltb_spec (length all) batch) as [Sh|Sh].
      * exists [], all. split; [repeat split; [constructor|assumption]|]. unfold given. destruct all as [|x y]; [cbn in Z; lia|].
        destruct drop_last; [reflexivity|]. cbn [orb andb]. rewrite Stop by (cbn [ended]; auto; lia). reflexivity.
      * rewrite andb_false_r. cbn [orb]. exists [all], []. split; [split; [cbn; now rewrite !app_nil_r|]; split; [constructor; [lia|constructor]|cbn; lia]|].
        rewrite Stop by (cbn [ended]; auto; lia). reflexivity.
  - destruct (C eq_refl) as (Ge & ls' & F' & R). replace (Nat.min batch (length all)) with batch by lia. rewrite Nat.eqb_refl. cbn [orb negb].
    destruct (Nat.eqb_spec batch 0); [lia|]. destruct (Nat.ltb_spec batch batch); [lia|]. rewrite andb_false_r. cbn [orb].
    edestruct (IH (Reader (remain_lines s) (remain_bytes s) (outputs s) false) ls' eq_refl F') as (full & last & Ba & ->).
    { cbn [remain_lines]. rewrite R, skipn_length. lia. }
    cbn [remain_lines] in Ba. rewrite R in Ba. exists (firstn batch all :: full), last. split; [now apply batched_cons|]. reflexivity.
Qed.

(** *** The items of a file *)
Lemma read_length content o n : length (read content o n) = Nat.min n (length content - o).
Proof. unfold read. now rewrite firstn_length, skipn_length. Qed.
Lemma split_cat s1 s2 : fst (split (s1 ++ s2)) = fst (split s1) ++ match fst (split s2) with [] => [] | l :: ls => (snd (split s1) ++ l) :: ls end /\
  snd (split (s1 ++ s2)) = match fst (split s2) with [] => snd (split s1) ++ snd (split s2) | _ => snd (split s2) end.
Proof. rewrite split_app. destruct (fst (split s2)); cbn [fst snd]; [now rewrite app_nil_r|auto]. Qed.

Lemma skipn_len {A} (a b : list A) : skipn (length a) (a ++ b) = b.
Proof. now rewrite skipn_app, skipn_all, Nat.sub_diag. Qed.
(** What is left of the lines of [c] behind [s]. *)
Definition to_come (c s : bytes) : list bytes := map body (skipn (length (fst (split s))) (fst (split c))).


(** What is left to read. *)
Definition rest (c : bytes) (o : nat) (total : option nat) : bytes := match total with None => skipn o c | Some t => read c o t end.
Lemma rest_read c o total n : read c o (to_read total n) = firstn (to_read total n) (rest c o total).
Proof.
  destruct total as [t|]; [|reflexivity]. unfold rest, read. rewrite firstn_firstn. f_equal. cbn [to_read]. lia.
Qed.
Lemma rest_next c o total n : rest c (o + length (read c o (to_read total n))) (after_read total n) = skipn (length (read c o (to_read total n))) (rest c o total).
Proof.
  set (r := to_read total n). rewrite read_length. destruct total as [t|]; cbn [after_read option_map rest]; [|now rewrite skipn_skipn', Nat.add_comm].
  fold r. assert (r <= t) by (subst r; cbn [to_read]; lia). clearbody r. unfold read. rewrite skipn_firstn_comm, skipn_skipn', (Nat.add_comm (Nat.min _ _)).
  destruct (Nat.le_gt_cases r (length c - o)).
  - f_equal. lia.
  - rewrite skipn_all2 by lia. now rewrite !firstn_nil.
Qed.

Lemma file_flow c threads n : threads > 0 -> n > 0 ->
  forall fuel o total s q ls, length (rest c o total) < fuel -> Forall good (fst (split (s ++ rest c o total))) ->
  flow (snd (split (s ++ rest c o total))) q = Some ls ->
  let '(r, ok, _) := file_items fuel c threads o total n in
  ok = true /\ flow (snd (split s)) (r ++ q) = Some (to_come (s ++ rest c o total) s ++ ls).
Proof.
  intros T N. induction fuel as [|fuel IH]; intros o total s0 q ls Hf G Hq; [lia|]. cbn [file_items].
  pose proof (rest_read c o total n) as Hr. pose proof (rest_next c o total n) as Hn. pose proof (firstn_length (to_read total n) (rest c o total)) as Ls. rewrite <- Hr in Ls.
  set (s := read c o (to_read total n)) in *. set (t := rest c o total) in *.
  assert (Ht : t = s ++ skipn (length s) t).
  { rewrite Hr, firstn_length. rewrite <- (firstn_skipn (to_read total n) t) at 1. f_equal. destruct (Nat.le_gt_cases (to_read total n) (length t)).
    - f_equal. lia.
    - rewrite !skipn_all2 by lia. reflexivity. }
  rewrite <- Hn in Ht. rewrite Ht, app_assoc in Hq, G. rewrite Ht. rewrite (app_assoc s0).
  assert (Gp : Forall good (fst (split (s0 ++ s)))).
  { destruct (split_prefix (s0 ++ s) (rest c (o + length s) (after_read total n))) as (x & X). rewrite X in G. now apply Forall_app in G as (G & _). }
  destruct (split_cat s0 s) as (Sf & Ss). rewrite Sf in Gp. apply Forall_app in Gp as (Gp & Gs).
  assert (Gt : Forall good (tl (fst (split s)))) by (destruct (fst (split s)); [constructor|now inversion Gs]).
  destruct (read_block_rep c threads o (to_read total n) T Gt) as (b & -> & Lb & Rb). fold s in Lb, Rb.
  destruct (Nat.eqb_spec (len b) 0) as [Z|Z].
  - split; [reflexivity|]. assert (s = []) as Es0 by (apply length_zero_iff_nil; lia).
    assert (Et : rest c (o + length s) (after_read total n) = []).
    { rewrite Hn. apply skipn_all2. rewrite Es0. cbn [length]. rewrite Es0 in Ls. cbn [length] in Ls.
      destruct total as [k|]; cbn [to_read] in Ls; [|lia]. assert (length t <= k) by (unfold t, rest; rewrite read_length; lia). lia. }
    rewrite Et, Es0 in *. rewrite !app_nil_r in *. cbn [app]. unfold to_come. rewrite skipn_all. exact Hq.
  - rewrite <- Lb in *. specialize (IH (o + len b) (after_read total n) (s0 ++ s) q ls).
    destruct (file_items fuel c threads (o + len b) (after_read total n) n) as [[r ok] tt]. set (t' := rest c (o + len b) (after_read total n)) in *.
    destruct IH as (-> & IH); [rewrite Hn, skipn_length; lia|assumption|assumption|].
    split; [reflexivity|]. cbn [app flow]. rewrite Ss in IH. unfold to_come in *. rewrite Sf in IH.
    destruct (fst (split s)) as [|l mid] eqn:Es.
    + destruct Rb as (Pb & Lib & Sb). assert (M : match s with [] => None | _ => Some s end = Some s) by (clear - Lb Z; clearbody s; destruct s; [cbn in Lb; lia|reflexivity]). rewrite M in Pb. rewrite Pb, Sb. rewrite (split_none s Es) in IH. rewrite app_nil_r in IH. exact IH.
    + destruct Rb as (Pb & Lib & Sb). rewrite Pb, Sb. rewrite IH. inversion Gs as [|? ? (x & Gx & Ex) Gm]; subst.
      rewrite (good_decode x _ Gx Ex), (good_split x _ Gx Ex), Lib. f_equal.
      assert (P : exists y, fst (split ((s0 ++ s) ++ t')) = fst (split s0) ++ ((snd (split s0) ++ l) :: mid) ++ y).
      { destruct (split_prefix (s0 ++ s) t') as (y & Y). exists y. rewrite Y, Sf. now rewrite <- app_assoc. }
      destruct P as (y & ->). rewrite (skipn_len (fst (split s0))). rewrite (app_assoc (fst (split s0))), skipn_len.
      cbn [app map]. rewrite (good_body_of x _ Gx Ex), map_app. now rewrite <- app_assoc.
Qed.

Lemma done_flow r : r = [] \/ good r -> flow r [IDone] = Some (match r with [] => [] | r => [body r] end).
Proof.
  intros R. cbn [flow]. destruct r as [|x r]; [reflexivity|]. destruct R as [R|(b & Gb & Eb)]; [discriminate|].
  rewrite (good_decode b _ Gb Eb), (good_strip b _ Gb Eb), (good_body_of b _ Gb Eb). f_equal. destruct Gb as (Nb & _). now destruct b.
Qed.
Lemma all_flow threads n files : threads > 0 -> n > 0 -> Forall good_file files ->
  flow [] (all_items threads n files) = Some (flat_map lines_of files).
Proof.
  intros T N. induction files as [|c files IH]; intros F; [reflexivity|]. inversion F as [|? ? (G & R) F']; subst. cbn [all_items flat_map].
  assert (Q : exists ls, flow (snd (split c)) (match files with [] => [IDone] | _ => IBlock separator :: all_items threads n files end) = Some ls /\
    ls = match snd (split c) with [] => [] | r => [body r] end ++ flat_map lines_of files).
  { destruct files as [|c2 files].
    - rewrite (done_flow _ R). eexists. split; [reflexivity|]. cbn [flat_map]. now destruct (snd (split c)).
    - cbn [flow separator prefix suffix lines]. rewrite app_nil_r, (IH F'). destruct R as [-> |(b & Gb & Eb)]; [eexists; split; reflexivity|].
      rewrite (good_decode b _ Gb Eb), (good_split b _ Gb Eb). eexists; split; [reflexivity|]. rewrite <- (good_body_of b _ Gb Eb). pose proof (good_nonempty b _ Gb Eb). now destruct (snd (split c)). }
  destruct Q as (ls & Q & Els). pose proof (file_flow c threads n T N (S (length c)) 0 None []) as H. cbn [rest skipn app] in H.
  destruct (file_items (S (length c)) c threads 0 None n) as [[r ok] tt]. specialize (H _ _ ltac:(lia) G Q). destruct H as (-> & H). cbn [split snd] in H. rewrite H, Els. unfold to_come, lines_of. cbn. now rewrite app_assoc.
Qed.
Lemma split_flow threads n c o total : threads > 0 -> n > 0 -> good_file (rest c o total) ->
  flow [] (fst (split_items threads n c o total)) = Some (lines_of (rest c o total)).
Proof.
  intros T N (G & R). unfold split_items. pose proof (file_flow c threads n T N (S (length c)) o total []) as H. cbn [app] in H.
  destruct (file_items (S (length c)) c threads o total n) as [[r ok] tt]. specialize (H [IDone] _ ltac:(unfold rest, read; destruct total; rewrite ?firstn_length, skipn_length; lia) G (done_flow _ R)).
  destruct H as (-> & H). cbn [fst]. cbn [split snd] in H. rewrite H. unfold lines_of, to_come. now destruct (snd (split (rest c o total))).
Qed.

(** *** Claim 29 *)
Lemma batched_unique batch all full last full' last' : batched batch all full last -> batched batch all full' last' -> full = full' /\ last = last'.
Proof.
  intros (E & Fu & La) (E' & Fu' & La'). rewrite E in E'. clear E.
  revert full' Fu' E'. induction full as [|b full IH]; intros [|b' full'] Fu' E'; cbn [concat app] in E'.
  - now subst.
  - inversion Fu'; subst. rewrite !app_length in La. lia.
  - inversion Fu; subst. rewrite !app_length in La'. lia.
  - inversion Fu as [|? ? Lb Fu2]; inversion Fu' as [|? ? Lb' Fu2']; subst. rewrite <- !app_assoc in E'. assert (b = b' /\ concat full ++ last = concat full' ++ last') as (-> & E2).
    { clear - E' Lb'. revert b' Lb' E'. induction b as [|x b IH]; intros [|x' b'] L E; try discriminate; [auto|]. cbn in E. injection E as -> E. injection L as L.
      destruct (IH b' L E) as (-> & ->). auto. }
    destruct (IH Fu2 full' Fu2' E2) as (-> & ->). auto.
Qed.
Lemma run_lemma batch drop_last st ls : batch > 0 -> ended st = false -> remain_lines st = [] -> flow (remain_bytes st) (outputs st) = Some ls ->
  exists full last, batched batch ls full last /\
    forall fuel, length ls + 1 < fuel -> iterate fuel batch drop_last st = (given drop_last full last, StopIteration).
Proof.
  intros B E R Fl. pose proof (iterate_flow batch drop_last B) as I. destruct (I (length ls + 2) st ls E Fl) as (full & last & Ba & It); [rewrite R; cbn; lia|].
  rewrite R in Ba. exists full, last. split; [exact Ba|]. intros fuel L. destruct (I fuel st ls E Fl) as (full' & last' & Ba' & It'); [rewrite R; exact L|].
  rewrite R in Ba'. rewrite It'. now destruct (batched_unique _ _ _ _ _ _ Ba Ba') as (-> & ->).
Qed.
Lemma lines_lemma threads n batch drop_last files : threads > 0 -> n > 0 -> batch > 0 -> Forall good_file files ->
  exists full last, batched batch (flat_map lines_of files) full last /\
    forall fuel, length (flat_map lines_of files) + 1 < fuel ->
    iterate fuel batch drop_last (start threads n files) = (given drop_last full last, StopIteration).
Proof. intros T N B F. apply run_lemma; auto. now apply all_flow. Qed.
Lemma same_lemma threads n threads' n' batch drop_last files : threads > 0 -> n > 0 -> threads' > 0 -> n' > 0 -> batch > 0 -> Forall good_file files ->
  forall fuel, length (flat_map lines_of files) + 1 < fuel ->
  iterate fuel batch drop_last (start threads n files) = iterate fuel batch drop_last (start threads' n' files).
Proof.
  intros T N T' N' B F fuel L. destruct (lines_lemma threads n batch drop_last files T N B F) as (a & b & H & X). rewrite (X fuel L).
  destruct (lines_lemma threads' n' batch drop_last files T' N' B F) as (a' & b' & H' & X'). rewrite (X' fuel L). now destruct (batched_unique _ _ _ _ _ _ H H') as (-> & ->).
Qed.
Lemma part_lemma threads n batch drop_last c o total : threads > 0 -> n > 0 -> batch > 0 ->
  let part := match total with None => skipn o c | Some t => firstn t (skipn o c) end in
  good_file part -> exists full last, batched batch (lines_of part) full last /\
    forall fuel, length (lines_of part) + 1 < fuel ->
    iterate fuel batch drop_last (fst (split_start threads n c o total)) = (given drop_last full last, StopIteration).
Proof.
  intros T N B part G. pose proof (split_flow threads n c o total T N) as H. change part with (rest c o total) in *. unfold split_start.
  destruct (split_items threads n c o total) as [q t]. cbn [fst] in *. apply run_lemma; auto.
Qed.

(** *** The files of the workers *)
Lemma flat_map_app2 {A B} (f g : A -> list B) l : Permutation (flat_map (fun x => f x ++ g x) l) (flat_map f l ++ flat_map g l).
Proof.
  induction l as [|x l IH]; [constructor|]. cbn [flat_map]. rewrite <- !app_assoc. apply Permutation_app_head. rewrite IH. rewrite !app_assoc. apply Permutation_app_tail, Permutation_app_comm.
Qed.
Lemma flat_map_swap {A B C} (f : A -> B -> list C) l m : Permutation (flat_map (fun x => flat_map (f x) m) l) (flat_map (fun y => flat_map (fun x => f x y) l) m).
Proof.
  induction l as [|x l IH]; cbn [flat_map]; [induction m; [constructor|assumption]|]. rewrite IH. symmetry. apply flat_map_app2.
Qed.
Definition opt {A} (o : option A) : list A := match o with Some a => [a] | None => [] end.
Lemma nth_all {A} (l : list A) m : length l <= m -> flat_map (fun j => opt (nth_error l j)) (seq 0 m) = l.
Proof.
  revert m; induction l as [|x l IH]; intros m L.
  - clear. generalize 0. induction m as [|m IH]; intros k; [reflexivity|]. cbn [seq flat_map]. rewrite IH. now destruct k.
  - destruct m as [|m]; [cbn in L; lia|]. cbn [seq flat_map nth_error opt app]. f_equal. rewrite <- seq_shift, flat_map_concat_map, map_map, <- flat_map_concat_map. cbn [nth_error]. apply IH. cbn in L; lia.
Qed.
Lemma strides {A} (g : nat -> list A) k n : flat_map (fun i => flat_map (fun w => g (w + i * k)) (seq 0 k)) (seq 0 n) = flat_map g (seq 0 (n * k)).
Proof.
  induction n as [|n IH]; [reflexivity|]. rewrite seq_S, flat_map_app, IH. cbn [flat_map Nat.add]. rewrite app_nil_r. replace (S n * k) with (n * k + k) by lia.
  rewrite seq_app, flat_map_app. f_equal. cbn [Nat.add]. generalize (n * k). intros m. clear. rewrite !flat_map_concat_map. f_equal.
  transitivity (map g (map (fun w => w + m) (seq 0 k))); [now rewrite map_map|]. f_equal. clear.
  assert (E : forall s, map (fun w => w + m) (seq s k) = seq (s + m) k) by (induction k as [|k IH]; intros s; [reflexivity|]; cbn [seq map]; f_equal; apply (IH (S s))).
  exact (E 0).
Qed.
Lemma files_lemma {A} (files : list A) workers : workers > 0 ->
  (length files < workers -> forall w, worker_files files w workers = None) /\
  (workers <= length files -> exists shares, map (fun w => worker_files files w workers) (seq 0 workers) = map Some shares /\ Permutation (concat shares) files).
Proof.
  intros W. unfold worker_files. destruct (Nat.ltb_spec (length files) workers) as [L|L].
  - split; [reflexivity|lia].
  - split; [lia|]. intros _. exists (map (fun w => flat_map (fun i => match nth_error files (w + i * workers) with Some f => [f] | None => [] end) (seq 0 (length files))) (seq 0 workers)).
    split; [now rewrite map_map|]. rewrite <- flat_map_concat_map. rewrite flat_map_swap.
    pose proof (strides (fun j => opt (nth_error files j)) workers (length files)) as S. unfold opt in S at 1. rewrite S, nth_all by nia. reflexivity.
Qed.

(** *** The sampler *)
Section Sampler.
Variable shuffle : nat -> list bytes -> list bytes.
Variable R : list bytes -> list bytes -> Prop.
Hypothesis R_refl : forall l, R l l.
Hypothesis R_trans : forall a b c, R a b -> R b c -> R a c.
Hypothesis R_head : forall a b c, R b c -> R (a ++ b) (a ++ c).
Hypothesis R_tail : forall a b c, R b c -> R (b ++ a) (c ++ a).
Hypothesis R_shuffle : forall n l, R (shuffle n l) l.
Hypothesis R_length : forall a b, R a b -> length a = length b.

Lemma load_lemma batch buffer drop_last : forall bs f it b added fuel, iterate f batch drop_last it = (bs, StopIteration) -> length bs < fuel ->
  exists taken left it' e a, load fuel batch buffer drop_last b it added = Loaded (b ++ concat taken) it' e a /\ bs = taken ++ left /\
    if e then left = [] else buffer <= length (b ++ concat taken) /\ exists f', iterate f' batch drop_last it' = (left, StopIteration).
Proof.
  induction bs as [|x bs IH]; intros f it b added fuel I L; (destruct fuel as [|fuel]; [cbn in L; lia|]); cbn [load];
    (destruct (Nat.leb_spec buffer (length b)) as [Le|Le];
      [exists []; eexists; exists it, false, added; cbn [concat app]; rewrite app_nil_r; split; [reflexivity|]; split; [reflexivity|]; split; [assumption|]; now exists f|]);
    (destruct f as [|f]; [discriminate|]); cbn [iterate] in I; destruct (next batch drop_last it) as [[c| | |] it'].
  all: try discriminate.
  - destruct (iterate f batch drop_last it'); discriminate.
  - exists [], [], it', true, added. cbn [concat]. rewrite app_nil_r. auto.
  - destruct (iterate f batch drop_last it') as [r a] eqn:It. injection I as -> -> ->.
    destruct (IH f it' (b ++ x) true fuel It ltac:(cbn in L; lia)) as (taken & left & it2 & e & a & Ld & -> & C). exists (x :: taken), left, it2, e, a. rewrite Ld. cbn [concat]. rewrite !app_assoc in *. auto.
Qed.

(** Batches with the last filled up. *)
Definition padded (batch : nat) (full : list (list bytes)) (short : list bytes) : list (list bytes) :=
  full ++ match short with [] => [] | _ => [short ++ repeat [] (batch - length short)] end.

Lemma sampler_run batch buffer_size drop_last fuel : batch > 0 -> forall k st bs f,
  (if end_ st then bs = [] else iterate f batch drop_last (iter st) = (bs, StopIteration) /\ buf st ++ concat bs <> []) ->
  length bs < fuel -> length (buf st ++ concat bs) < k ->
  exists full short, sampler_iterate shuffle fuel k batch buffer_size drop_last st = (padded batch full short, StopIteration) /\
    R (concat full ++ short) (buf st ++ concat bs) /\ Forall (fun b => length b = batch) full /\ length short < batch.
Proof.
  intros B. induction k as [|k IH]; intros st bs f C Lf Lk; [lia|]. cbn [sampler_iterate]. unfold sampler_next.
  destruct (end_ st && (length (buf st) =? 0)) eqn:Ee.
  { apply andb_prop in Ee as (E1 & E2). rewrite E1 in C. apply Nat.eqb_eq, length_zero_iff_nil in E2. subst bs. rewrite E2.
    exists [], []. cbn. repeat split; auto. }
  set (ld := if end_ st then _ else _).
  assert (P : exists taken left it' e a, ld = Loaded (buf st ++ concat taken) it' e a /\ bs = taken ++ left /\
    if e then left = [] else buffer_of batch buffer_size <= length (buf st ++ concat taken) /\ exists f', iterate f' batch drop_last it' = (left, StopIteration)).
  { subst ld. destruct (end_ st); [|destruct C as (C & _); now apply load_lemma with (f := f)].
    subst bs. exists [], [], (iter st), true, false. cbn. now rewrite app_nil_r. }
  assert (NE : buf st ++ concat bs <> []).
  { destruct (end_ st); [|tauto]. subst bs. cbn in *. rewrite app_nil_r. destruct (buf st); [discriminate|discriminate]. }
  clearbody ld. destruct P as (taken & left & it' & e & a & -> & -> & D). rewrite concat_app in *.
  set (b0 := buf st ++ concat taken) in *. set (b := if a then shuffle (calls st) b0 else b0).
  assert (Rb : R b b0) by (subst b; destruct a; auto). pose proof (R_length _ _ Rb) as Lb.
  assert (NB : length b0 > 0).
  { destruct e; [subst left|destruct D as (D & _); unfold buffer_of in D; destruct (Nat.leb_spec (3 * batch) buffer_size); lia].
    cbn [concat] in NE. rewrite app_nil_r in NE. fold b0 in NE. destruct b0; [congruence|cbn; lia]. }
  rewrite app_assoc in Lk. fold b0 in Lk. rewrite app_length in Lk.
  set (count := if batch <=? length b then batch else length b). assert (Hc : count = Nat.min batch (length b)) by (subst count; destruct (Nat.leb_spec batch (length b)); lia). clearbody count.
  assert (NX : if e then left = [] else (exists f', iterate f' batch drop_last it' = (left, StopIteration)) /\ skipn count b ++ concat left <> []).
  { destruct e; [assumption|]. destruct D as (D & I). split; [assumption|]. intros X. apply app_eq_nil in X as (X & _). apply (f_equal (@length bytes)) in X. rewrite skipn_length in X. cbn in X.
    unfold buffer_of in D; destruct (Nat.leb_spec (3 * batch) buffer_size); lia. }
  assert (NX2 : exists f', if e then left = [] else iterate f' batch drop_last it' = (left, StopIteration) /\ skipn count b ++ concat left <> []).
  { destruct e; [now exists 0|]. destruct NX as ((f' & I) & X). now exists f'. }
  destruct NX2 as (f' & NX2).
  destruct (IH (Sampler (skipn count b) it' e (S (calls st))) left f') as (full & short & -> & Rr & Fu & Sh).
  { cbn [end_ iter buf]. exact NX2. }
  { rewrite app_length in Lf. lia. }
  { cbn [buf]. rewrite app_length, skipn_length. lia. }
  cbn [buf] in Rr. rewrite (app_assoc (buf st)). fold b0.
  destruct (Nat.le_gt_cases batch (length b)) as [Le|Le].
  - exists (firstn count b :: full), short. split; [|split; [|split; [|assumption]]].
    + replace (batch - count) with 0 by lia. cbn [repeat]. rewrite app_nil_r. reflexivity.
    + cbn [concat]. rewrite <- app_assoc. eapply R_trans; [apply R_head, Rr|]. rewrite app_assoc, firstn_skipn. now apply R_tail.
    + constructor; [rewrite firstn_length; lia|assumption].
  - (* the last batch *)
    assert (e = true) as ->. { destruct e; [reflexivity|]. destruct D as (D & _). unfold buffer_of in D; destruct (Nat.leb_spec (3 * batch) buffer_size); lia. }
    subst left. rewrite (skipn_all2 (n := count) b) in Rr by lia. cbn [concat app] in Rr. apply R_length in Rr. rewrite app_length in Rr. cbn in Rr.
    assert (short = []) as -> by (apply length_zero_iff_nil; lia). assert (full = []) as ->.
    { destruct full as [|x full]; [reflexivity|]. inversion Fu; subst. cbn [concat] in Rr. rewrite app_length in Rr. lia. }
    rewrite (firstn_all2 (n := count) b) by lia. exists [], b. replace count with (length b) by lia. split; [|split; [|split; [constructor|assumption]]].
    + unfold padded. cbn [app]. destruct b; [cbn in Lb; lia|]. reflexivity.
    + cbn [concat app]. rewrite app_nil_r. assumption.
Qed.
End Sampler.

Lemma given_bound batch all full last drop_last : batch > 0 -> batched batch all full last -> length (given drop_last full last) <= length all.
Proof.
  intros B (E & F & L). rewrite E, app_length. unfold given. rewrite app_length.
  assert (length full <= length (concat full)). { clear - B F. induction full as [|b full IH]; [cbn; lia|]. inversion F; subst. specialize (IH H2). cbn [concat length]. rewrite app_length. lia. }
  destruct last; [cbn; lia|]. destruct drop_last; cbn [length]; lia.
Qed.
Lemma given_lines batch all full last drop_last : batched batch all full last -> length (concat (given drop_last full last)) <= length all.
Proof.
  intros (E & F & L). rewrite E, app_length. unfold given. rewrite concat_app, app_length. destruct last; [cbn; lia|]. destruct drop_last; cbn [concat]; rewrite ?app_nil_r; cbn; lia.
Qed.

Section Sampled.
Variable shuffle : nat -> list bytes -> list bytes.
Variable R : list bytes -> list bytes -> Prop.
Hypothesis R_refl : forall l, R l l.
Hypothesis R_trans : forall a b c, R a b -> R b c -> R a c.
Hypothesis R_head : forall a b c, R b c -> R (a ++ b) (a ++ c).
Hypothesis R_tail : forall a b c, R b c -> R (b ++ a) (c ++ a).
Hypothesis R_shuffle : forall n l, R (shuffle n l) l.
Hypothesis R_length : forall a b, R a b -> length a = length b.
Lemma sampled threads n batch buffer_size drop_last files whole last : threads > 0 -> n > 0 -> batch > 0 -> Forall good_file files ->
  batched batch (flat_map lines_of files) whole last -> given drop_last whole last <> [] ->
  exists full short, R (concat full ++ short) (concat (given drop_last whole last)) /\ Forall (fun b => length b = batch) full /\ length short < batch /\
    forall fuel k, length (flat_map lines_of files) < fuel -> length (flat_map lines_of files) < k ->
    exists full' short', R (concat full' ++ short') (concat (given drop_last whole last)) /\ Forall (fun b => length b = batch) full' /\ length short' < batch /\
    sampler_iterate shuffle fuel k batch buffer_size drop_last (Sampler [] (start threads n files) false 0) = (padded batch full' short', StopIteration).
Proof.
  intros T N B F Ba NE. destruct (lines_lemma threads n batch drop_last files T N B F) as (w & l & Ba' & It).
  destruct (batched_unique _ _ _ _ _ _ Ba Ba') as (<- & <-). specialize (It (length (flat_map lines_of files) + 2) ltac:(lia)).
  pose proof (given_bound batch _ _ _ drop_last B Ba) as Lb. pose proof (given_lines batch _ _ _ drop_last Ba) as Ll.
  assert (forall fuel k, length (flat_map lines_of files) < fuel -> length (flat_map lines_of files) < k ->
    exists full' short', R (concat full' ++ short') (concat (given drop_last whole last)) /\ Forall (fun b => length b = batch) full' /\ length short' < batch /\
    sampler_iterate shuffle fuel k batch buffer_size drop_last (Sampler [] (start threads n files) false 0) = (padded batch full' short', StopIteration)) as K.
  { intros fuel k L1 L2. edestruct (sampler_run shuffle R R_refl R_trans R_head R_tail R_shuffle R_length batch buffer_size drop_last fuel B k (Sampler [] (start threads n files) false 0) (given drop_last whole last)) as (full & short & H & P & Q1 & Q2).
    - cbn [end_ iter buf app]. split; [exact It|]. clear - NE B Ba. destruct Ba as (_ & Fu & _). unfold given in *. destruct whole as [|x whole].
      + cbn [app] in *. destruct last; [congruence|]. destruct drop_last; [congruence|discriminate].
      + inversion Fu; subst. destruct x; [cbn in B; lia|discriminate].
    - lia.
    - cbn [buf app]. lia.
    - exists full, short. auto. }
  destruct (K _ _ (Nat.lt_succ_diag_r _) (Nat.lt_succ_diag_r _)) as (f & s & H1 & H2 & H3 & _). exists f, s. auto.
Qed.
End Sampled.

Lemma sampler_order threads n batch buffer_size drop_last files whole last : threads > 0 -> n > 0 -> batch > 0 -> Forall good_file files ->
  batched batch (flat_map lines_of files) whole last -> given drop_last whole last <> [] ->
  forall fuel k, length (flat_map lines_of files) < fuel -> length (flat_map lines_of files) < k ->
  exists full short, batched batch (concat (given drop_last whole last)) full short /\
    sampler_iterate (fun _ l => l) fuel k batch buffer_size drop_last (Sampler [] (start threads n files) false 0) = (padded batch full short, StopIteration).
Proof.
  intros T N B F Ba NE fuel k L1 L2.
  destruct (sampled (fun _ l => l) eq ltac:(auto) ltac:(intros; congruence) ltac:(intros; congruence) ltac:(intros; congruence) ltac:(auto) ltac:(intros; congruence) threads n batch buffer_size drop_last files whole last T N B F Ba NE) as (_ & _ & _ & _ & _ & K).
  destruct (K fuel k L1 L2) as (full & short & E & Fu & Sh & I). exists full, short. split; [|exact I]. repeat split; auto.
Qed.
Lemma sampler_shuffled shuffle threads n batch buffer_size drop_last files whole last : (forall i l, Permutation (shuffle i l) l) -> threads > 0 -> n > 0 -> batch > 0 -> Forall good_file files ->
  batched batch (flat_map lines_of files) whole last -> given drop_last whole last <> [] ->
  forall fuel k, length (flat_map lines_of files) < fuel -> length (flat_map lines_of files) < k ->
  exists all full short, Permutation all (concat (given drop_last whole last)) /\ batched batch all full short /\
    sampler_iterate shuffle fuel k batch buffer_size drop_last (Sampler [] (start threads n files) false 0) = (padded batch full short, StopIteration).
Proof.
  intros P T N B F Ba NE fuel k L1 L2.
  destruct (sampled shuffle (@Permutation bytes) ltac:(reflexivity) ltac:(intros; etransitivity; eassumption) ltac:(intros; now apply Permutation_app_head) ltac:(intros; now apply Permutation_app_tail) P ltac:(intros; now apply Permutation_length) threads n batch buffer_size drop_last files whole last T N B F Ba NE) as (_ & _ & _ & _ & _ & K).
  destruct (K fuel k L1 L2) as (full & short & E & Fu & Sh & I). exists (concat full ++ short), full, short. repeat split; auto.
Qed.
