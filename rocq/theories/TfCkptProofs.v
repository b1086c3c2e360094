(** Proofs about the conversion of TensorFlow checkpoints: it does what the conversion of the
    HuggingFace checkpoint with the same content does. *)
From Verif Require Import Base FilesModel FilesProofs CkptModel CkptSpec CkptProofs HfModel HfSpec HfProofs TfCkptModel TfCkptSpec.
From Coq Require Import Ascii String Lia.
Import ListNotations.
Open Scope list_scope.

(** ** Names *)
Lemma split_slashes : forall p, p <> [] -> Forall (free "/") p -> split slash (slashes p) = p.
Proof.
  induction p as [|w p IH]; intros N F; [congruence|]. inversion_clear F. destruct p as [|w' p].
  - cbn [slashes]. now apply split_last.
  - change (slashes (w :: w' :: p)) with (w ++ slash :: slashes (w' :: p)). rewrite split_cons by assumption. rewrite IH by (assumption || discriminate). reflexivity.
Qed.
Lemma letters_app : forall s, s = fst (letters s) ++ snd (letters s) /\ forallb letter_char (fst (letters s)) = true.
Proof.
  induction s as [|c s [IH1 IH2]]; [split; reflexivity|]. cbn. destruct (letter_char c) eqn:E; cbn; [|split; reflexivity].
  rewrite E, IH2. split; [now rewrite <- IH1|reflexivity].
Qed.
Lemma letter_in c : letter_char c = true -> In c (str "abcdefghijklmnopqrstuvwxyzABCDEFGHIJKLMNOPQRSTUVWXYZ").
Proof.
  intros H. assert (D : existsb (Ascii.eqb c) (str "abcdefghijklmnopqrstuvwxyzABCDEFGHIJKLMNOPQRSTUVWXYZ") = true).
  { revert H. destruct c as [[] [] [] [] [] [] [] []]; vm_compute; congruence. }
  apply existsb_exists in D. destruct D as (x & I & E). apply Ascii.eqb_eq in E. now subst.
Qed.
Lemma digit_in c : digit_char c = true -> In c (str "0123456789").
Proof.
  intros H. assert (D : existsb (Ascii.eqb c) (str "0123456789") = true).
  { revert H. destruct c as [[] [] [] [] [] [] [] []]; vm_compute; congruence. }
  apply existsb_exists in D. destruct D as (x & I & E). apply Ascii.eqb_eq in E. now subst.
Qed.
Lemma scope_plain c : ~ numbered c -> scope c = (c, None).
Proof.
  intros N. unfold scope. destruct (letters_app c) as [E F]. destruct (letters c) as [[|x a] [|u [|y d]]]; cbn [fst snd] in *; try reflexivity.
  destruct (Ascii.eqb u "_" && forallb digit_char (y :: d)) eqn:B; [|reflexivity]. exfalso. apply N.
  apply andb_prop in B. destruct B as [B1 B2]. apply Ascii.eqb_eq in B1. subst u. exists (x :: a), (y :: d).
  split; [exact E|]. split; [discriminate|]. split; [discriminate|]. split; intros z I.
  - apply letter_in. now apply (proj1 (forallb_forall _ _) F).
  - apply digit_in. now apply (proj1 (forallb_forall _ _) B2).
Qed.
Lemma digit_of c : In c (str "0123456789") -> digit_char c = true.
Proof. intros I. cbn [str list_ascii_of_string In] in I. repeat (destruct I as [<-|I]; [reflexivity|]). destruct I. Qed.
Lemma letter_of c : In c (str "abcdefghijklmnopqrstuvwxyzABCDEFGHIJKLMNOPQRSTUVWXYZ") -> letter_char c = true.
Proof. intros I. cbn [str list_ascii_of_string In] in I. repeat (destruct I as [<-|I]; [reflexivity|]). destruct I. Qed.
Lemma letters_stop a u r : forallb letter_char a = true -> letter_char u = false -> letters (a ++ u :: r) = (a, u :: r).
Proof.
  induction a as [|x a IH]; intros F U; cbn; [now rewrite U|]. cbn in F. apply andb_prop in F. destruct F as [F1 F2]. rewrite F1, IH by assumption. reflexivity.
Qed.
Lemma scope_none c : snd (scope c) = None -> ~ numbered c.
Proof.
  intros S (a & d & -> & Na & Nd & A & D). unfold scope in S. rewrite letters_stop in S; [|apply forallb_forall; intros x I; apply letter_of, A, I|reflexivity].
  destruct a as [|x a]; [congruence|]. destruct d as [|y d]; [congruence|].
  assert (F : forallb digit_char (y :: d) = true) by (apply forallb_forall; intros z I; apply digit_of, D, I). rewrite F in S. discriminate S.
Qed.
Lemma scope_layer n : scope (str "layer_" ++ dec n) = (str "layer", Some (dec n)).
Proof.
  unfold scope. change (str "layer_" ++ dec n) with (str "layer" ++ "_"%char :: dec n). rewrite letters_stop by reflexivity.
  pose proof (dec_nonempty n). pose proof (dec_numeric n) as I. destruct (dec n) as [|x d] eqn:E; [congruence|].
  cbn [str list_ascii_of_string]. unfold isnumeric in I. rewrite I. reflexivity.
Qed.
Lemma free_b c w : forallb (fun x => negb (Ascii.eqb x c)) w = true -> free c w.
Proof. intros H I. rewrite forallb_forall in H. specialize (H _ I). rewrite Ascii.eqb_refl in H. discriminate H. Qed.
Lemma dec_no_slash n : free "/" (dec n).
Proof. intros I. apply dec_digit in I. discriminate I. Qed.
Lemma split_tf_layer n suf : split slash (tf_layer n suf) = str "bert" :: str "encoder" :: (str "layer_" ++ dec n) :: split slash suf.
Proof.
  unfold tf_layer. change (str "bert/encoder/layer_" ++ dec n ++ "/"%char :: suf)
    with (str "bert" ++ slash :: (str "encoder" ++ slash :: (str "layer_" ++ dec n ++ slash :: suf))).
  rewrite (split_cons slash (str "bert")) by (apply free_b; reflexivity).
  rewrite (split_cons slash (str "encoder")) by (apply free_b; reflexivity).
  rewrite app_assoc. rewrite (split_cons slash (str "layer_" ++ dec n)); [reflexivity|].
  intros I. apply in_app_or in I. destruct I as [I|I]; [revert I; apply free_b; reflexivity | exact (dec_no_slash n I)].
Qed.
Lemma contains_tf_layer : forall P n suf, P <> [] -> no_digits P = true ->
  contains P (tf_layer n suf) = contains P (str "bert/encoder/layer_") || contains P ("/"%char :: suf).
Proof.
  intros P n suf NP HD. apply eq_true_iff_eq. rewrite orb_true_iff, !contains_spec. unfold tf_layer.
  apply inside_digits; [exact NP | | apply dec_nonempty | apply dec_digit].
  intros c I. unfold no_digits in HD. rewrite forallb_forall in HD. specialize (HD c I). destruct (digit_char c); [discriminate HD | reflexivity].
Qed.
Lemma later_tf_layer : forall P n suf, P <> [] -> no_digits P = true -> contains P (str "bert/encoder/layer_") = false ->
  hd "b"%char P <> "b"%char -> later P (tf_layer n suf) = contains P ("/"%char :: suf).
Proof.
  intros P n suf NP HD HC HB. pose proof (contains_tf_layer P n suf NP HD) as C. rewrite HC in C. cbn [orb] in C. rewrite <- C.
  unfold later, contains. destruct (find P (tf_layer n suf)) as [[|i]|] eqn:F; try reflexivity. exfalso.
  destruct (find_some _ _ _ F) as (a & b & E & La & _). destruct a; [|discriminate La]. cbn [List.app] in E.
  destruct P as [|c P]; [congruence|]. cbn in HB. cbn in E. injection E as E _. congruence.
Qed.
Lemma classify_tf_layer : forall n suf, classify tf_rules (tf_layer n suf) = classify_suffix tf_rules ("/"%char :: suf).
Proof.
  intros n suf.
  assert (A : contains (str "attention") (tf_layer n suf) = contains (str "attention") ("/"%char :: suf)).
  { rewrite contains_tf_layer by (discriminate || reflexivity). reflexivity. }
  assert (R : forall l, Forall (fun r => let P := fst (fst r) in P <> [] /\ no_digits P = true /\ contains P (str "bert/encoder/layer_") = false /\ hd "b"%char P <> "b"%char) l ->
    classify l (tf_layer n suf) = classify_suffix l ("/"%char :: suf)).
  { induction l as [|[[p na] t] l IH]; intros F; [reflexivity|]. inversion_clear F as [|? ? H F']. destruct H as (H1 & H2 & H3 & H4). cbn in H1, H2, H3, H4.
    cbn [classify classify_suffix]. rewrite later_tf_layer, A, IH by assumption. reflexivity. }
  apply R. unfold tf_rules. repeat constructor; cbn; discriminate.
Qed.
Lemma nm_eqb_no a b : a <> b -> nm_eqb a b = false.
Proof. apply nm_eqb_false. Qed.
Lemma rename_in c : In c (map fst renaming) -> rename c = str "weight" \/ rename c = str "bias" \/ rename c = str "classifier".
Proof. intros I. cbn [renaming map fst In] in I. repeat (destruct I as [<-|I]; [vm_compute; tauto|]). destruct I. Qed.
Lemma rename_out c : ~ In c (map fst renaming) -> rename c = c.
Proof.
  intros N. unfold rename. destruct (List.find _ renaming) as [e|] eqn:F; [|reflexivity].
  exfalso. apply List.find_some in F. destruct F as [I E]. apply nm_eqb_spec in E. subst. apply N. now apply in_map.
Qed.
Lemma ends_table u : ends_embeddings (table u) = true.
Proof.
  unfold ends_embeddings, table. rewrite app_length. change (List.length (str "_embeddings")) with 11.
  replace (List.length u + 11 - 11) with (List.length u) by lia. rewrite skipn_app, Nat.sub_diag, skipn_all2 by lia. apply nm_eqb_refl.
Qed.
Lemma ends_not c : (forall u, c <> table u) -> ends_embeddings c = false.
Proof.
  intros N. unfold ends_embeddings. apply nm_eqb_no. intros E. apply (N (firstn (List.length c - 11) c)). unfold table. rewrite <- E. symmetry. apply firstn_skipn.
Qed.
Lemma ends_layer n : ends_embeddings (str "layer_" ++ dec n) = false.
Proof.
  apply ends_not. intros u E. apply (f_equal (@rev ascii)) in E. unfold table in E. rewrite !rev_app_distr in E. cbn [str list_ascii_of_string rev List.app] in E.
  pose proof (dec_nonempty n) as D. destruct (rev (dec n)) as [|x r] eqn:R.
  - apply (f_equal (@rev ascii)) in R. rewrite rev_involutive in R. cbn in R. congruence.
  - cbn in E. injection E as E _. assert (I : In x (dec n)) by (apply in_rev; rewrite R; left; reflexivity). apply dec_digit in I. subst x. discriminate I.
Qed.
Lemma optim_spec p : existsb (fun n => existsb (nm_eqb n) skipped) p = true <-> exists c, In c p /\ In c optimizer.
Proof.
  rewrite existsb_exists. split; intros (c & I & J); exists c; (split; [exact I|]).
  - apply existsb_exists in J. destruct J as (x & J & E). apply nm_eqb_spec in E. now subst.
  - apply existsb_exists. exists c. split; [exact J|apply nm_eqb_refl].
Qed.
Lemma kernel_spec p : existsb (nm_eqb (str "kernel")) p = true <-> In (str "kernel") p.
Proof.
  rewrite existsb_exists. split.
  - intros (x & I & E). apply nm_eqb_spec in E. now subst.
  - intros I. exists (str "kernel"). split; [exact I|apply nm_eqb_refl].
Qed.
Lemma not_true b : b <> true -> b = false. Proof. destruct b; congruence. Qed.

(** ** One variable *)
Section P.
Context {X : Type}.
Variable zero : nat -> X.
Variable transpose : arr X -> arr X.
Notation model := (model X).

Lemma step_plain (m : model) full c cs ptr l : contains (str "bert/pooler/dense") full && nm_eqb c (str "dense") = false -> scope c = (c, None) ->
  (In c (map fst renaming) -> has m (ptr ++ [rename c]) = true) ->
  walk_tf m full (c :: cs) ptr l = if has m (ptr ++ [rename c]) then walk_tf m full cs (ptr ++ [rename c]) c else Ok (Skip, c).
Proof.
  intros P S H. cbn [walk_tf]. rewrite S.
  destruct (in_dec (list_eq_dec ascii_dec) c (map fst renaming)) as [I|N].
  - specialize (H I). rewrite H. unfold must, attr. cbn [renaming map fst In] in I.
    repeat (destruct I as [<-|I]; [vm_compute (rename _) in H |- *; cbn [nm_eqb]; repeat (change (nm_eqb ?a ?b) with false); cbn; rewrite H; reflexivity|]). destruct I.
  - rewrite (rename_out c N). assert (K : forall x, In x (map fst renaming) -> nm_eqb c x = false) by (intros x I; apply nm_eqb_no; intros ->; contradiction).
    rewrite !K by (cbn [renaming map fst In]; tauto). rewrite P. cbn [orb bind]. destruct (has m (ptr ++ [c])); reflexivity.
Qed.

Lemma last_cons' (c d : nm) cs : last (c :: cs) d = last cs c.
Proof. revert c d. induction cs as [|x cs IH]; intros c d; [reflexivity|]. change (last (c :: x :: cs) d) with (last (x :: cs) d). rewrite IH. symmetry. apply IH. Qed.
Lemma walk_tf_plain (m : model) full : contains (str "bert/pooler/dense") full = false -> forall comps ptr l, Forall (fun c => scope c = (c, None)) comps ->
  (forall pre c post, comps = pre ++ c :: post -> In c (map fst renaming) -> has m (ptr ++ map rename pre) = true -> has m (ptr ++ map rename pre ++ [rename c]) = true) ->
  has m ptr = true ->
  (has m (ptr ++ map rename comps) = true -> walk_tf m full comps ptr l = Ok (At (ptr ++ map rename comps), last comps l)) /\
  (has m (ptr ++ map rename comps) = false -> exists l', walk_tf m full comps ptr l = Ok (Skip, l')).
Proof.
  intros P. induction comps as [|c cs IH]; intros ptr l F A H.
  - cbn [map]. rewrite app_nil_r. split; [reflexivity|congruence].
  - inversion_clear F as [|? ? Sc F']. rewrite step_plain; [|rewrite P; reflexivity|exact Sc|].
    2:{ intros I. apply (A [] c cs eq_refl I). cbn. now rewrite app_nil_r. }
    assert (E : ptr ++ map rename (c :: cs) = (ptr ++ [rename c]) ++ map rename cs) by (cbn [map]; rewrite <- app_assoc; reflexivity).
    rewrite E. destruct (has m (ptr ++ [rename c])) eqn:Hc.
    + destruct (IH (ptr ++ [rename c]) c F') as [I1 I2]; [|exact Hc|].
      { intros pre d post -> I J. specialize (A (c :: pre) d post eq_refl I). cbn [map List.app] in A. rewrite <- !app_assoc in *. cbn [List.app] in *. apply A. exact J. }
      rewrite last_cons'. split; assumption.
    + split; [|eauto]. intros Q. apply has_prefix in Q. congruence.
Qed.
Lemma pad_same diff f f' (a : arr X) : contains (str "embeddings/word_embeddings") f = contains (str "embeddings.word_embeddings") f' ->
  pad_tf zero diff f a = pad zero diff f' a.
Proof. intros E. unfold pad_tf, pad. now rewrite E. Qed.
Lemma store_same diff f f' (m : model) q k p a : contains (str "embeddings/word_embeddings") f = contains (str "embeddings.word_embeddings") f' ->
  store_tf zero diff f m q k p a = store zero diff f' m q k p a.
Proof.
  intros E. unfold store_tf, store.
  set (q' := match k with Some k0 => put q k0 a | None => q end). clearbody q'.
  destruct (q' QW) as [x|], (q' KW) as [y|], (q' VW) as [z|], (q' QB) as [x'|], (q' KB) as [y'|], (q' VB) as [z'|];
    repeat (match goal with |- bind ?r _ = bind ?r _ => destruct r; cbn [bind]; [|reflexivity] end || (rewrite (pad_same diff f f') by exact E) || (destruct k; cbn [bind])); reflexivity.
Qed.
Lemma contains_no P s : ~ inside P s -> contains P s = false.
Proof. intros N. apply not_true. rewrite contains_spec. exact N. Qed.
Lemma has_nil (m : model) : m <> [] -> has m [] = true.
Proof. destruct m; [congruence|reflexivity]. Qed.

Lemma many_hf diff (s : model * held) es : many zero diff s (file es) = match es with [] => Ok s | e :: es' => do s' <- HfModel.one zero diff s (name_of e, arr_of e) ;; many zero diff s' (file es') end.
Proof. destruct es; reflexivity. Qed.

(** Components outside the layers. *)
Lemma outside_facts p : outside p -> p <> [] -> split slash (slashes p) = p /\ existsb (fun n => existsb (nm_eqb n) skipped) p = false /\
  contains (str "bert/pooler/dense") (slashes p) = false /\ Forall (fun c => scope c = (c, None)) p.
Proof.
  intros [F P] N. split; [|split; [|split]].
  - apply split_slashes; [exact N|]. eapply Forall_impl; [|exact F]. now intros c [H _].
  - apply not_true. rewrite optim_spec. intros (c & I & J). rewrite Forall_forall in F. destruct (F c I) as (_ & H & _). contradiction.
  - now apply contains_no.
  - eapply Forall_impl; [|exact F]. intros c (_ & _ & H). now apply scope_plain.
Qed.
Lemma asked_walk (m : model) full p : m <> [] -> contains (str "bert/pooler/dense") full = false -> Forall (fun c => scope c = (c, None)) p -> asked m p ->
  (has m (map rename p) = true -> walk_tf m full p [] [] = Ok (At (map rename p), last p [])) /\
  (has m (map rename p) = false -> exists l', walk_tf m full p [] [] = Ok (Skip, l')).
Proof.
  intros N C F A. apply (walk_tf_plain m full C p [] [] F); [|now apply has_nil].
  intros pre c post E I J. cbn [List.app] in *. rewrite has_spec in *. exact (A pre c post E I J).
Qed.
Lemma last_end (p : path) c d : last (p ++ [c]) d = c.
Proof. induction p as [|x p IH]; [reflexivity|]. destruct p; [reflexivity|exact IH]. Qed.
Lemma hf_other diff (s : model * held) p a : proper (@Other X p a) ->
  HfModel.one zero diff s (dots p, a) = if has (fst s) p then store zero diff (dots p) (fst s) (snd s) None p a else Ok s.
Proof.
  intros (N & F & L & P & _). unfold HfModel.one. cbn [fst snd]. rewrite split_dots by assumption. rewrite walk_plain by (assumption || now apply contains_no).
  cbn [List.app bind]. destruct (has (fst s) p); [reflexivity|]. destruct p; [congruence|reflexivity].
Qed.
Lemma tf_plain diff (s : model * held) p a : fst s <> [] -> p <> [] -> outside p -> asked (fst s) p -> 
  one_tf zero transpose diff s (slashes p, a) =
    if has (fst s) (map rename p) then finish zero transpose diff (slashes p) (last p []) p s None (map rename p) a else Ok s.
Proof.
  intros M N O A. destruct (outside_facts p O N) as (E1 & E2 & E3 & E4). unfold one_tf. cbn [fst snd]. rewrite E1, E2.
  destruct (asked_walk (fst s) (slashes p) p M E3 E4 A) as [W1 W2]. destruct (has (fst s) (map rename p)).
  - rewrite (W1 eq_refl). reflexivity.
  - destruct (W2 eq_refl) as (l' & W). rewrite W. reflexivity.
Qed.
Lemma has_app_false (m : model) p q : has m p = false -> has m (p ++ q) = false.
Proof. intros H. apply not_true. intros J. apply has_prefix in J. congruence. Qed.

(** Layers. *)
Definition arrived (m : model) (n : nat) (t : target) : res walked :=
  if has m [str "bert"] then if has m [str "bert"; str "encoder"] then if has m [str "bert"; str "encoder"; str "layer"] then
    if has m [str "bert"; str "encoder"; str "layer"; dec n] then
      match t with
      | ToKey k => Ok (Held k [str "bert"; str "encoder"; str "layer"; dec n])
      | ToAttr a => if has m (layer_path n a) then Ok (At (layer_path n a)) else Fail EIndex
      end
    else Fail EIndex else Ok Skip else Ok Skip else Ok Skip.
Lemma walk_one (m : model) full c cs ptr : contains (str "bert.pooler.dense") full = false -> nm_eqb c (str "layer") = false ->
  walk m full (c :: cs) ptr false = if has m (ptr ++ [c]) then walk m full cs (ptr ++ [c]) false else Ok Skip.
Proof. intros C L. cbn [walk]. rewrite C. cbn [andb]. destruct (has m (ptr ++ [c])); cbn [bind]; [|reflexivity]. rewrite L, andb_false_r. reflexivity. Qed.
Lemma walk_hf_layer (m : model) n full t suf : contains (str "bert.pooler.dense") full = false -> classify rules full = Ok t ->
  walk m full (str "bert" :: str "encoder" :: str "layer" :: dec n :: suf) [] false = arrived m n t.
Proof.
  intros C T. unfold arrived, layer_path. rewrite !walk_one by (assumption || reflexivity). cbn [List.app].
  destruct (has m [str "bert"]); [|reflexivity]. destruct (has m [str "bert"; str "encoder"]); [|reflexivity].
  assert (E : forall cs, walk m full (str "layer" :: cs) [str "bert"; str "encoder"] false =
    if has m [str "bert"; str "encoder"; str "layer"] then walk m full cs [str "bert"; str "encoder"; str "layer"] true else Ok Skip).
  { intros cs. cbn [walk]. rewrite C. cbn [andb List.app]. destruct (has m [str "bert"; str "encoder"; str "layer"]); reflexivity. }
  rewrite E. destruct (has m [str "bert"; str "encoder"; str "layer"]); [|reflexivity].
  cbn [walk]. rewrite C. cbn [andb bind]. rewrite dec_neq by (exists "l"%char; split; [left; reflexivity|reflexivity]). rewrite dec_numeric, canon_dec, T. cbn [andb List.app bind].
  destruct (has m [str "bert"; str "encoder"; str "layer"; dec n]); [|reflexivity]. destruct t; reflexivity.
Qed.
Lemma walk_tf_layer (m : model) n full t suf : contains (str "bert/pooler/dense") full = false -> classify tf_rules full = Ok t ->
  exists l, walk_tf m full (str "bert" :: str "encoder" :: (str "layer_" ++ dec n) :: suf) [] [] =
    do w <- arrived m n t ;; Ok (w, match w with Skip => l | _ => str "layer_" ++ dec n end).
Proof.
  intros C T. unfold arrived, layer_path.
  rewrite step_plain; [|rewrite C; reflexivity|reflexivity|intros I; exfalso; cbn [renaming map fst In] in I; repeat (destruct I as [I|I]; [discriminate I|]); exact I].
  change (rename (str "bert")) with (str "bert"). cbn [List.app]. destruct (has m [str "bert"]); [|exists (str "bert"); reflexivity].
  rewrite step_plain; [|rewrite C; reflexivity|reflexivity|intros I; exfalso; cbn [renaming map fst In] in I; repeat (destruct I as [I|I]; [discriminate I|]); exact I].
  change (rename (str "encoder")) with (str "encoder"). cbn [List.app]. destruct (has m [str "bert"; str "encoder"]); [|exists (str "encoder"); reflexivity].
  cbn [walk_tf]. rewrite scope_layer, C. repeat change (nm_eqb (str "layer") (str "kernel")) with false. 
  change (nm_eqb (str "layer") (str "gamma")) with false. change (nm_eqb (str "layer") (str "output_bias")) with false. change (nm_eqb (str "layer") (str "beta")) with false.
  change (nm_eqb (str "layer") (str "output_weights")) with false. change (nm_eqb (str "layer") (str "squad")) with false. change (nm_eqb (str "layer") (str "layer")) with true.
  cbn [orb andb bind List.app]. exists (str "layer_" ++ dec n).
  destruct (has m [str "bert"; str "encoder"; str "layer"]); [|reflexivity]. rewrite canon_dec, T. unfold attr. cbn [List.app].
  destruct (has m [str "bert"; str "encoder"; str "layer"; dec n]); [|reflexivity]. cbn [bind List.app]. destruct t as [k|a]; [reflexivity|].
  change ([str "bert"; str "encoder"; str "layer"; dec n] ++ [a]) with [str "bert"; str "encoder"; str "layer"; dec n; a].
  destruct (has m [str "bert"; str "encoder"; str "layer"; dec n; a]); reflexivity.
Qed.
Lemma layer_no n w : (exists c w', w = c :: w' /\ c <> "l"%char) -> nm_eqb w (str "layer_" ++ dec n) = false.
Proof. intros (c & w' & -> & N). apply nm_eqb_no. intros E. cbn in E. injection E as E _. contradiction. Qed.
Lemma layer_same diff (s : model * held) n sT sH t (k : bool) a :
  classify_suffix tf_rules ("/"%char :: sT) = Ok t -> contains (str "bert/pooler/dense") ("/"%char :: sT) = false -> contains (str "embeddings/word_embeddings") ("/"%char :: sT) = false ->
  existsb (fun n => existsb (nm_eqb n) skipped) (split slash sT) = false -> existsb (nm_eqb (str "kernel")) (split slash sT) = k ->
  classify_suffix rules ("."%char :: sH) = Ok t -> contains (str "bert.pooler.dense") ("."%char :: sH) = false -> contains (str "embeddings.word_embeddings") ("."%char :: sH) = false ->
  one_tf zero transpose diff s (tf_layer n sT, a) = HfModel.one zero diff s (layer_name n sH, if k then transpose a else a).
Proof.
  intros T1 T2 T3 T4 T5 H1 H2 H3. unfold one_tf, HfModel.one. cbn [fst snd]. rewrite split_tf_layer, split_layer.
  rewrite (walk_hf_layer _ n _ t) by (now rewrite classify_layer || now apply layer_no_pool).
  destruct (walk_tf_layer (fst s) n (tf_layer n sT) t (split slash sT)) as (l & ->); [rewrite contains_tf_layer by (discriminate || reflexivity); now rewrite T2 | now rewrite classify_tf_layer|].
  assert (O : existsb (fun n => existsb (nm_eqb n) skipped) (str "bert" :: str "encoder" :: (str "layer_" ++ dec n) :: split slash sT) = false).
  { cbn [existsb]. rewrite T4. change (existsb (nm_eqb (str "bert")) skipped) with false. change (existsb (nm_eqb (str "encoder")) skipped) with false.
    cbn [orb]. rewrite orb_false_r. apply not_true. intros E. apply existsb_exists in E. destruct E as (x & I & E). apply nm_eqb_spec in E. subst x.
    cbn [skipped In] in I. repeat (destruct I as [I|I]; [discriminate I|]). exact I. }
  assert (K : existsb (nm_eqb (str "kernel")) (str "bert" :: str "encoder" :: (str "layer_" ++ dec n) :: split slash sT) = k).
  { cbn [existsb]. rewrite T5. change (nm_eqb (str "kernel") (str "bert")) with false. change (nm_eqb (str "kernel") (str "encoder")) with false.
    rewrite layer_no by (eexists _, _; split; [reflexivity|discriminate]). reflexivity. }
  assert (E : contains (str "embeddings/word_embeddings") (tf_layer n sT) = contains (str "embeddings.word_embeddings") (layer_name n sH)).
  { rewrite contains_tf_layer, contains_layer by (discriminate || reflexivity). rewrite T3, H3. reflexivity. }
  rewrite O. destruct (arrived (fst s) n t) as [[|p|key p]|e]; cbn [bind fst snd]; try reflexivity; unfold finish; rewrite ends_layer, K; now apply store_same.
Qed.
Lemma slot_tf sT h t k : In (sT, h, t, k) layer_slots -> In (h, t) slots /\
  classify_suffix tf_rules ("/"%char :: sT) = Ok (ToAttr t) /\ contains (str "bert/pooler/dense") ("/"%char :: sT) = false /\ contains (str "embeddings/word_embeddings") ("/"%char :: sT) = false /\
  existsb (fun n => existsb (nm_eqb n) skipped) (split slash sT) = false /\ existsb (nm_eqb (str "kernel")) (split slash sT) = k.
Proof.
  intros I. cbn [layer_slots In] in I. repeat (destruct I as [I|I]; [injection I as <- <- <- <-; split; [cbn [slots In]; tauto | vm_compute; repeat split; reflexivity]|]). destruct I.
Qed.
Lemma part_tf l b : let sT := str "attention/self/" ++ word l ++ "/"%char :: tf_leaf b in
  classify_suffix tf_rules ("/"%char :: sT) = Ok (ToKey (key_of l b)) /\ contains (str "bert/pooler/dense") ("/"%char :: sT) = false /\ contains (str "embeddings/word_embeddings") ("/"%char :: sT) = false /\
  existsb (fun n => existsb (nm_eqb n) skipped) (split slash sT) = false /\ existsb (nm_eqb (str "kernel")) (split slash sT) = negb b.
Proof. destruct l, b; vm_compute; repeat split; reflexivity. Qed.
Lemma pool_tf (m : model) b : has m (pool_path (leaf b)) = true ->
  walk_tf m (str "bert/pooler/dense/" ++ tf_leaf b) [str "bert"; str "pooler"; str "dense"; tf_leaf b] [] [] = Ok (At (pool_path (leaf b)), tf_leaf b).
Proof.
  intros H. unfold pool_path in *. pose proof (has_prefix m [str "bert"] _ H) as H1. pose proof (has_prefix m [str "bert"; str "pooler"] _ H) as H2.
  pose proof (has_prefix m [str "bert"; str "pooler"; str "dense_act"] _ H) as H3.
  rewrite step_plain; [|apply andb_false_r|reflexivity|intros I; exact H1]. change (rename (str "bert")) with (str "bert"). cbn [List.app]. rewrite H1.
  rewrite step_plain; [|apply andb_false_r|reflexivity|intros I; exact H2]. change (rename (str "pooler")) with (str "pooler"). cbn [List.app]. rewrite H2.
  assert (C : contains (str "bert/pooler/dense") (str "bert/pooler/dense/" ++ tf_leaf b) = true) by (destruct b; reflexivity).
  set (full := str "bert/pooler/dense/" ++ tf_leaf b) in *. clearbody full.
  assert (E : walk_tf m full (str "dense" :: [tf_leaf b]) [str "bert"; str "pooler"] (str "pooler") = walk_tf m full [tf_leaf b] [str "bert"; str "pooler"; str "dense_act"] (str "dense")).
  { cbn [walk_tf]. change (scope (str "dense")) with (str "dense", @None nm). cbv iota. rewrite C.
    repeat match goal with |- context [nm_eqb (str "dense") ?y] => let v := eval vm_compute in (nm_eqb (str "dense") y) in change (nm_eqb (str "dense") y) with v end.
    cbn [orb andb]. unfold must, attr. cbn [List.app]. rewrite H3. reflexivity. }
  rewrite E. assert (Rn : rename (tf_leaf b) = leaf b) by (destruct b; reflexivity).
  rewrite step_plain; rewrite ?Rn; [|destruct b; apply andb_false_r|destruct b; reflexivity|intros I; exact H]. cbn [List.app]. rewrite H. reflexivity.
Qed.

Lemma one_same diff (s : model * held) v : fst s <> [] -> sensible (fst s) v -> Forall proper (hf transpose v) ->
  one_tf zero transpose diff s (tf_name v, tf_arr v) = many zero diff s (file (hf transpose v)).
Proof.
  intros M S PR. destruct v as [p a|a|p u a|p a|p c a|b a|n tf h t k a|n l b a]; cbn [tf_name tf_arr hf] in *.
  - (* optimizer *)
    destruct S as [F (c & I & J)]. unfold one_tf. cbn [fst]. rewrite split_slashes; [|intros ->; destruct I|exact F].
    rewrite (proj2 (optim_spec p)) by eauto. reflexivity.
  - (* words *)
    inversion_clear PR as [|? ? P _]. cbn [file map name_of arr_of many]. rewrite hf_other by exact P.
    change (str "bert/embeddings/word_embeddings") with (slashes [str "bert"; str "embeddings"; str "word_embeddings"]).
    unfold one_tf. cbn [fst snd]. rewrite split_slashes; [|discriminate|repeat constructor; apply free_b; reflexivity].
    change (existsb _ _) with false. cbv iota.
    destruct (walk_tf_plain (fst s) (slashes [str "bert"; str "embeddings"; str "word_embeddings"]) eq_refl [str "bert"; str "embeddings"; str "word_embeddings"] [] []) as [W1 W2].
    + repeat constructor.
    + intros pre c post E I _. exfalso. assert (J : In c [str "bert"; str "embeddings"; str "word_embeddings"]) by (rewrite E; apply in_or_app; right; left; reflexivity).
      cbn [In] in J. cbn [renaming map fst In] in I. repeat (destruct J as [<-|J]; [repeat (destruct I as [I|I]; [discriminate I|]); exact I|]). destruct J.
    + now apply has_nil.
    + change (map rename [str "bert"; str "embeddings"; str "word_embeddings"]) with [str "bert"; str "embeddings"; str "word_embeddings"] in *. cbn [List.app] in W1, W2.
      destruct (has (fst s) [str "bert"; str "embeddings"; str "word_embeddings"]) eqn:H.
      * rewrite (W1 eq_refl). cbn [bind fst snd]. unfold finish. change (ends_embeddings _) with true. cbv iota. unfold attr. cbn [List.app].
        rewrite has_spec in H. apply S in H. rewrite <- has_spec in H. rewrite H. cbn [bind].
        rewrite (store_same diff _ (dots [str "bert"; str "embeddings"; str "word_embeddings"; str "weight"])) by reflexivity.
        destruct (store _ _ _ _ _ _ _ _); reflexivity.
      * destruct (W2 eq_refl) as (l' & ->). cbn [bind fst].
        rewrite (has_app_false _ _ [str "weight"] H : has (fst s) [str "bert"; str "embeddings"; str "word_embeddings"; str "weight"] = false). reflexivity.
  - (* table *)
    destruct S as (O & [W1 W2] & A & B). inversion_clear PR as [|? ? P _]. cbn [file map name_of arr_of many]. rewrite hf_other by exact P.
    assert (Nn : p ++ [table u] <> []) by (intros E; apply app_eq_nil in E; destruct E; discriminate).
    rewrite tf_plain by assumption. rewrite last_end.
    assert (Rt : rename (table u) = table u).
    { apply rename_out. intros I. cbn [renaming map fst In] in I. unfold table in I.
      repeat (destruct I as [I|I]; [apply (f_equal (@rev ascii)) in I; rewrite rev_app_distr in I; vm_compute in I; discriminate I|]). exact I. }
    rewrite map_app. cbn [map]. rewrite Rt. unfold finish. rewrite ends_table.
    destruct (has (fst s) (map rename p ++ [table u])) eqn:H.
    + unfold attr. rewrite <- app_assoc. cbn [List.app]. rewrite has_spec in H. apply B in H. rewrite <- has_spec in H. rewrite H. cbn [bind].
      rewrite (store_same diff _ (dots (map rename p ++ [table u; str "weight"]))) by (rewrite !contains_no by assumption; reflexivity).
      destruct (store _ _ _ _ _ _ _ _); reflexivity.
    + replace (map rename p ++ [table u; str "weight"]) with ((map rename p ++ [table u]) ++ [str "weight"]) by (rewrite <- app_assoc; reflexivity).
      rewrite has_app_false by exact H. reflexivity.
  - (* kernel *)
    destruct S as (O & [W1 W2] & A). inversion_clear PR as [|? ? P _]. cbn [file map name_of arr_of many]. rewrite hf_other by exact P.
    assert (Nn : p ++ [str "kernel"] <> []) by (intros E; apply app_eq_nil in E; destruct E; discriminate).
    rewrite tf_plain by assumption. rewrite last_end. rewrite map_app. cbn [map]. change (rename (str "kernel")) with (str "weight"). unfold finish.
    change (ends_embeddings (str "kernel")) with false. cbv iota. rewrite (proj2 (kernel_spec _)) by (apply in_or_app; right; left; reflexivity).
    destruct (has (fst s) (map rename p ++ [str "weight"])) eqn:H; [|reflexivity].
    rewrite (store_same diff _ (dots (map rename p ++ [str "weight"]))) by (rewrite !contains_no by assumption; reflexivity).
    destruct (store _ _ _ _ _ _ _ _); reflexivity.
  - (* plain *)
    destruct S as (O & [W1 W2] & A & K & T). inversion_clear PR as [|? ? P _]. cbn [file map name_of arr_of many]. rewrite hf_other by exact P.
    assert (Nn : p ++ [c] <> []) by (intros E; apply app_eq_nil in E; destruct E; discriminate).
    rewrite tf_plain by assumption. rewrite last_end. rewrite map_app. cbn [map]. unfold finish. rewrite (ends_not c T).
    assert (Kb : existsb (nm_eqb (str "kernel")) (p ++ [c]) = false) by (apply not_true; rewrite kernel_spec; exact K). rewrite Kb.
    destruct (has (fst s) (map rename p ++ [rename c])) eqn:H; [|reflexivity].
    rewrite (store_same diff _ (dots (map rename p ++ [rename c]))) by (rewrite !contains_no by assumption; reflexivity).
    destruct (store _ _ _ _ _ _ _ _); reflexivity.
  - (* pooler *)
    inversion_clear PR as [|? ? P _]. destruct P as (P1 & P2 & P3 & P4). cbn [sensible] in S; rewrite <- has_spec in S. cbn [file map name_of arr_of many].
    unfold one_tf, HfModel.one. cbn [fst snd].
    assert (E1 : split slash (str "bert/pooler/dense/" ++ tf_leaf b) = [str "bert"; str "pooler"; str "dense"; tf_leaf b]) by (destruct b; reflexivity).
    assert (E2 : split dotted (str "bert.pooler.dense." ++ leaf b) = [str "bert"; str "pooler"; str "dense"; leaf b]) by (destruct b; reflexivity).
    rewrite E1, E2. assert (E3 : existsb (fun n => existsb (nm_eqb n) skipped) [str "bert"; str "pooler"; str "dense"; tf_leaf b] = false) by (destruct b; reflexivity).
    rewrite E3, pool_tf by exact S. rewrite walk_pool by (assumption || (destruct b; reflexivity)). cbn [bind fst snd]. unfold finish.
    assert (E4 : ends_embeddings (tf_leaf b) = false) by (destruct b; reflexivity).
    assert (E5 : existsb (nm_eqb (str "kernel")) [str "bert"; str "pooler"; str "dense"; tf_leaf b] = negb b) by (destruct b; reflexivity).
    rewrite E4, E5. rewrite (store_same diff _ (str "bert.pooler.dense." ++ leaf b)) by (destruct b; reflexivity).
    destruct b; cbn [negb]; destruct (store _ _ _ _ _ _ _ _); reflexivity.
  - (* copied *)
    destruct (slot_tf tf h t k S) as (I & T1 & T2 & T3 & T4 & T5). destruct (slot_class h t I) as (H1 & H2 & H3).
    cbn [file map name_of arr_of many]. rewrite (layer_same diff s n tf h (ToAttr t) k) by assumption. destruct (HfModel.one _ _ _ _); reflexivity.
  - (* part *)
    destruct (part_tf l b) as (T1 & T2 & T3 & T4 & T5). destruct (part_class l b) as (H1 & H2 & H3).
    cbn [file map name_of arr_of many]. rewrite (layer_same diff s n _ (str "attention.self." ++ word l ++ "."%char :: leaf b) (ToKey (key_of l b)) (negb b)) by assumption.
    destruct b; cbn [negb]; destruct (HfModel.one _ _ _ _); reflexivity.
Qed.

(** ** The whole checkpoint *)
Lemma set_data_fst : forall (m m' : model) p a, set_data p a m = Ok m' -> map fst m' = map fst m.
Proof.
  induction m as [|e m IH]; intros m' p a E; cbn [set_data] in E; [discriminate|]. destruct (path_eqb p (fst e)).
  - destruct (_ && _); [|discriminate]. injection E as <-. reflexivity.
  - destruct (set_data p a m) as [m2|] eqn:E2; [|discriminate]. cbn [bind] in E. injection E as <-. cbn [map]. f_equal. now apply (IH _ p a).
Qed.
Lemma store_fst diff full (m : model) q k p a s' : store zero diff full m q k p a = Ok s' -> map fst (fst s') = map fst m.
Proof.
  unfold store. set (q' := match k with Some k0 => put q k0 a | None => q end). clearbody q'.
  assert (G : forall (r : res (arr X)) (f : arr X -> res (arr X)) (pp : res path) g,
    (do a <- r ;; do p <- pp ;; do a <- f a ;; do m <- set_data p a m ;; Ok (m, g)) = Ok s' -> map fst (fst s') = map fst m).
  { intros r f pp g E. destruct r; [|discriminate]. cbn [bind] in E. destruct pp; [|discriminate]. cbn [bind] in E. destruct (f a0); [|discriminate]. cbn [bind] in E.
    destruct (set_data a1 a2 m) eqn:D; [|discriminate]. cbn [bind] in E. injection E as <-. now apply set_data_fst in D. }
  assert (L : match k with Some _ => Ok (m, q') | None => do a <- pad zero diff full a ;; do m <- set_data p a m ;; Ok (m, q') end = Ok s' -> map fst (fst s') = map fst m).
  { destruct k; intros E; [injection E as <-; reflexivity|]. destruct (pad _ _ _ _); [|discriminate]. cbn [bind] in E. destruct (set_data p a0 m) eqn:D; [|discriminate].
    cbn [bind] in E. injection E as <-. now apply set_data_fst in D. }
  destruct (q' QW), (q' KW), (q' VW), (q' QB), (q' KB), (q' VB); intros E; exact (L E) || exact (G _ _ _ _ E).
Qed.
Lemma one_fst diff (s s' : model * held) e : HfModel.one zero diff s e = Ok s' -> map fst (fst s') = map fst (fst s).
Proof.
  unfold HfModel.one. destruct (walk _ _ _ _ _) as [[|p|k p]|]; cbn [bind]; [intros E; injection E as <-; reflexivity|apply store_fst|apply store_fst|discriminate].
Qed.
Lemma many_fst diff es : forall s s' : model * held, many zero diff s es = Ok s' -> map fst (fst s') = map fst (fst s).
Proof.
  induction es as [|e es IH]; intros s s' E; cbn [many] in E; [injection E as <-; reflexivity|].
  destruct (HfModel.one zero diff s e) as [s1|] eqn:D; [|discriminate]. cbn [bind] in E. rewrite (IH _ _ E). now apply one_fst in D.
Qed.
Lemma store_tf_fst diff full (m : model) q k p a s' : store_tf zero diff full m q k p a = Ok s' -> map fst (fst s') = map fst m.
Proof.
  rewrite (store_same diff full (if contains (str "embeddings/word_embeddings") full then str "embeddings.word_embeddings" else [])); [apply store_fst|].
  destruct (contains (str "embeddings/word_embeddings") full); reflexivity.
Qed.
Lemma many_tf_fst diff es : forall s s' : model * held, many_tf zero transpose diff s es = Ok s' -> map fst (fst s') = map fst (fst s).
Proof.
  induction es as [|e es IH]; intros s s' E; cbn [many_tf] in E; [injection E as <-; reflexivity|].
  destruct (one_tf zero transpose diff s e) as [s1|] eqn:D; [|discriminate]. cbn [bind] in E. rewrite (IH _ _ E). clear IH E. unfold one_tf in D.
  destruct (existsb _ _); [injection D as <-; reflexivity|]. destruct (walk_tf _ _ _ _ _) as [[w l]|]; [|discriminate]. cbn [bind fst snd] in D.
  assert (F : forall k p, finish zero transpose diff (fst e) l (split slash (fst e)) s k p (snd e) = Ok s1 -> map fst (fst s1) = map fst (fst s)).
  { intros k p. unfold finish. destruct (ends_embeddings l); [|apply store_tf_fst]. destruct (attr _ _ _); [apply store_tf_fst|discriminate]. }
  destruct w; [injection D as <-; reflexivity|exact (F _ _ D)|exact (F _ _ D)].
Qed.
Lemma tf_fst k diff (m : model) ckpt m' : convert_tf zero transpose k diff m ckpt = Ok m' -> map fst m' = map fst m.
Proof.
  unfold convert_tf. destruct k; [|discriminate]. destruct (many_tf _ _ _ _ _) as [s|] eqn:E; [|discriminate]. cbn [bind]. intros D. injection D as <-. now apply many_tf_fst in E.
Qed.
Lemma many_app diff a b : forall s : model * held, many zero diff s (a ++ b) = do s' <- many zero diff s a ;; many zero diff s' b.
Proof.
  induction a as [|e a IH]; intros s; cbn [many List.app bind]; [reflexivity|]. destruct (HfModel.one zero diff s e); cbn [bind]; [apply IH|reflexivity].
Qed.
Lemma asked_fst (m m' : model) p : map fst m = map fst m' -> asked m p -> asked m' p.
Proof. intros E A pre c post D I J. apply (exists_below_fst m m' _ E). apply (A pre c post D I). now apply (exists_below_fst m m' _ E). Qed.
Lemma sensible_fst (m m' : model) v : map fst m = map fst m' -> sensible m v -> sensible m' v.
Proof.
  intros E. destruct v; cbn [sensible]; rewrite ?(exists_below_fst m m' _ E); try tauto.
  - intros (A & B & C & D). split; [exact A|]. split; [exact B|]. split; [now apply (asked_fst m)|exact D].
  - intros (A & B & C). split; [exact A|]. split; [exact B|now apply (asked_fst m)].
  - intros (A & B & C & D). split; [exact A|]. split; [exact B|]. split; [now apply (asked_fst m)|exact D].
Qed.
Lemma many_same diff vs : forall s : model * held, fst s <> [] -> Forall (sensible (fst s)) vs -> Forall proper (entries transpose vs) ->
  many_tf zero transpose diff s (tf_file vs) = many zero diff s (file (entries transpose vs)).
Proof.
  induction vs as [|v vs IH]; intros s M S PR; [reflexivity|]. inversion_clear S as [|? ? S1 S2].
  unfold entries in PR. cbn [flat_map] in PR. apply Forall_app in PR. destruct PR as [P1 P2].
  change (entries transpose (v :: vs)) with (hf transpose v ++ entries transpose vs). unfold file. rewrite map_app. fold (file (hf transpose v)). fold (file (entries transpose vs)).
  rewrite many_app. cbn [tf_file map many_tf]. fold (tf_file vs). rewrite one_same by assumption.
  destruct (many zero diff s (file (hf transpose v))) as [s1|] eqn:D; [|reflexivity]. cbn [bind]. apply many_fst in D. apply IH; [| |exact P2].
  - intros Z. rewrite Z in D. destruct (fst s); [congruence|discriminate D].
  - eapply Forall_impl; [|exact S2]. intros x. now apply sensible_fst.
Qed.
Lemma tf_same diff m vs : m <> [] -> Forall (sensible m) vs -> Forall proper (entries transpose vs) ->
  convert_tf zero transpose true diff m (tf_file vs) = convert zero true diff m (file (entries transpose vs)).
Proof. intros M S P. unfold convert_tf, convert, kernel. rewrite many_same by assumption. reflexivity. Qed.
Lemma tf_ok diff (m : model) vs : let es := entries transpose vs in m <> [] -> Forall (sensible m) vs ->
  NoDup (map fst m) -> Forall proper es -> NoDup (map name_of es) ->
  grouped (parts false es) -> grouped (parts true es) ->
  (forall p a, In (Other p a) es -> exists_below m p -> exists b, padded zero diff (dots p) a b) ->
  (forall p b, wants zero diff m es p b -> fits m p b) ->
  exists m', convert_tf zero transpose true diff m (tf_file vs) = Ok m' /\ outcome zero diff m es m'.
Proof. intros es M S N P D G1 G2 W F. rewrite tf_same by assumption. now apply kernel_ok. Qed.
End P.
