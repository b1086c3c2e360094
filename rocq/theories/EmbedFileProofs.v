From Coq Require Import Permutation Lia ZifyBool ZifyNat ZifyN.
From Verif Require Import Base SetupModel DecoderModel DecoderProofs ArgsProofs EmbedFileModel EmbedFileSpec.
Local Open Scope Z_scope.

Lemma lines_of_line body rest : ~ In 10%N body -> lines_of (body ++ 10%N :: rest) = (body ++ [10%N]) :: lines_of rest.
Proof.
  induction body as [|c body IH]; intro H; [reflexivity|]. cbn [app lines_of]. replace (c =? 10)%N with false by (cbn in H; lia).
  rewrite IH; [reflexivity|]. intro Hi. apply H. now right.
Qed.
Lemma lines_of_concat ls : Forall (fun l => exists b, l = b ++ [10%N] /\ ~ In 10%N b) ls -> lines_of (concat ls) = ls.
Proof.
  induction 1 as [|l ls (b & -> & Hb) _ IH]; [reflexivity|]. cbn [concat]. rewrite <- app_assoc. cbn [app].
  rewrite (lines_of_line b _ Hb), IH. reflexivity.
Qed.
Lemma lines_back s : concat (lines_of s) = s.
Proof.
  induction s as [|c s IH]; [reflexivity|]. cbn [lines_of]. destruct (c =? 10)%N; [cbn [concat app]; now rewrite IH|].
  destruct (lines_of s) as [|l ls]; cbn [concat app] in *; now rewrite IH.
Qed.

Lemma show_sep c z : (c = 9 \/ c = 10 \/ c = 32)%N -> ~ In c (show_int z).
Proof. intro H. apply show_no; lia. Qed.

Lemma show_plain z c : In c (show_int z) -> blank c = false.
Proof. intro H. apply show_chars in H. destruct H as [->|H]; [reflexivity|now apply digit_not_blank]. Qed.
Lemma strip_nl s : s <> [] -> (forall c, In c s -> blank c = false) -> strip (s ++ [10%N]) = strip s.
Proof.
  intros HN H. rewrite (strip_id s H). unfold strip. destruct s as [|c s]; [congruence|]. cbn [app lstrip]. rewrite (H c) by (now left).
  change (c :: s ++ [10%N]) with ((c :: s) ++ [10%N]). rewrite rev_app_distr. cbn [rev app lstrip]. replace (blank 10) with true by reflexivity.
  change (rev s ++ [c]) with (rev (c :: s)). rewrite lstrip_id; [apply rev_involutive|]. intros d Hd. apply H. now apply in_rev.
Qed.
Lemma parse_show_nl z : parse_int (show_int z ++ [10%N]) = Ok z.
Proof.
  rewrite <- (parse_show z). unfold parse_int. rewrite strip_nl; [reflexivity|apply show_nonnil|apply show_plain].
Qed.
Lemma mod_neg num n : - Z.of_nat num <= n -> n < 0 -> n mod Z.of_nat num = Z.of_nat num + n.
Proof. intros. symmetry. apply (Z.mod_unique n (Z.of_nat num) (-1)); lia. Qed.
Lemma add_nonneg num n : - Z.of_nat num <= n -> 0 <= Z.of_nat num + n.
Proof. lia. Qed.
Lemma add_lt num n : - Z.of_nat num <= n -> n < 0 -> (Z.to_nat (Z.of_nat num + n) < num)%nat.
Proof. lia. Qed.
Lemma to_nat_lt num n : 0 <= n -> n < Z.of_nat num -> (Z.to_nat n < num)%nat.
Proof. lia. Qed.

Lemma out_left num n : ~ - Z.of_nat num <= n < Z.of_nat num -> (0 <=? n) && (n <? Z.of_nat num) = false.
Proof. lia. Qed.
Lemma out_right num n : ~ - Z.of_nat num <= n < Z.of_nat num -> (- Z.of_nat num <=? n) && (n <? 0) = false.
Proof. lia. Qed.

Section Embed.
Context {F G : Type}.
Variable fmt : F -> str.
Variable pfloat : str -> res G.
Variable zero : G.
Variable rnd : F -> G.
Hypothesis Htext : forall x c, In c (fmt x) -> (c <> 9 /\ c <> 10 /\ c <> 32)%N.
Hypothesis Hread : forall x, pfloat (fmt x) = Ok (rnd x).
Hypothesis Hlast : forall x, pfloat (fmt x ++ [10%N]) = Ok (rnd x).

Lemma no_char c x : (c = 9 \/ c = 10 \/ c = 32)%N -> ~ In c (fmt x).
Proof using Htext. intros H Hi. apply Htext in Hi. tauto. Qed.
Lemma row_no c e : (c = 9 \/ c = 10)%N -> ~ In c (join 32 (map fmt e)).
Proof using Htext.
  intros H Hi. apply in_join in Hi. destruct Hi as [Hi|(w & Hw & Hi)]; [destruct H; subst; discriminate|].
  apply in_map_iff in Hw. destruct Hw as (x & <- & _). revert Hi. apply no_char. tauto.
Qed.
Lemma line_end n e : exists b, line_of fmt n e = b ++ [10%N] /\ ~ In 10%N b.
Proof using Htext.
  exists (show_int n ++ 9%N :: join 32 (map fmt e)). unfold line_of. rewrite <- app_assoc. split; [reflexivity|].
  intro H. apply in_app_or in H. destruct H as [H|[H|H]]; [revert H; apply show_sep; tauto|discriminate|]. revert H. apply row_no. tauto.
Qed.
Lemma floats_read e : e <> [] -> mapM pfloat (split 32 (join 32 (map fmt e) ++ [10%N])) = Ok (map rnd e).
Proof using Htext Hread Hlast.
  induction e as [|x e IH]; [congruence|]. intros _. cbn [map join]. destruct e as [|y e].
  - cbn [map]. rewrite split_single.
    + cbn [mapM]. rewrite Hlast. reflexivity.
    + intro H. apply in_app_or in H. destruct H as [H|[H|[]]]; [revert H; apply no_char; tauto|discriminate].
  - cbn [map] in *. rewrite <- app_assoc. cbn [app]. rewrite split_app, (split_single 32 (fmt x)) by (apply no_char; tauto).
    cbn [app mapM]. rewrite Hread, IH by discriminate. reflexivity.
Qed.
Lemma line_read dim n e : length e = dim -> (0 < dim)%nat -> read_line pfloat dim (line_of fmt n e) = Ok (n, map rnd e).
Proof using Htext Hread Hlast.
  intros H Hd. unfold read_line, line_of. rewrite split_app, (split_single 9 (show_int n)) by (apply show_sep; tauto).
  rewrite (split_single 9 (_ ++ _)).
  2:{ intro Hi. apply in_app_or in Hi. destruct Hi as [Hi|[Hi|[]]]; [revert Hi; apply row_no; tauto|discriminate]. }
  cbn [app]. rewrite parse_show. cbn [bind]. rewrite floats_read by (intros ->; cbn in H; lia). cbn [bind].
  rewrite map_length, H, Nat.eqb_refl. reflexivity.
Qed.

Lemma replace_length {A} (l : list A) k x : length (replace l k x) = length l.
Proof. clear. revert k. induction l as [|y l IH]; intros [|k]; cbn; auto. Qed.
Lemma replace_nth {A} (l : list A) k j x d : (k < length l)%nat -> nth j (replace l k x) d = if Nat.eqb j k then x else nth j l d.
Proof.
  clear. revert k j. induction l as [|y l IH]; intros k j H; [cbn in H; lia|]. destruct k as [|k], j as [|j]; cbn [replace nth Nat.eqb]; try reflexivity.
  apply IH. cbn in H. lia.
Qed.

Definition lines_recs (l : list (Z * list F)) : list str := map (fun r => line_of fmt (fst r) (snd r)) l.
Definition good (num dim : nat) (r : Z * list F) : Prop := 0 <= fst r < Z.of_nat num /\ length (snd r) = dim.
Definition row_of (t : list (list G)) (l : list (Z * list F)) (i : nat) : list G :=
  match last_of (Z.of_nat i) l with Some e => map rnd e | None => nth i t [] end.
Lemma read_recs dim l t : (0 < dim)%nat -> Forall (good (length t) dim) l ->
  exists t', read_lines pfloat dim (lines_recs l) t = Ok t' /\ length t' = length t /\
    forall i, (i < length t)%nat -> nth i t' [] = row_of t l i.
Proof using Htext Hread Hlast.
  intro Hd. revert t. induction l as [|[n e] l IH]; intros t H.
  - exists t. repeat split; reflexivity.
  - inversion H as [|? ? [Hn He] Hl]; subst. cbn [fst snd] in *.
    destruct (IH (replace t (Z.to_nat n) (map rnd e))) as (t' & E & L & R); [now rewrite replace_length|].
    rewrite replace_length in L, R. exists t'. cbn [lines_recs map read_lines fst snd]. rewrite line_read by auto. cbn [bind fst snd]. unfold set_row.
    replace ((0 <=? n) && (n <? Z.of_nat (length t))) with true by lia. cbn [bind]. split; [exact E|]. split; [exact L|].
    intros i Hi. rewrite R by exact Hi. unfold row_of. cbn [last_of]. destruct (last_of (Z.of_nat i) l); [reflexivity|].
    rewrite replace_nth by lia. destruct (Nat.eqb i (Z.to_nat n)) eqn:Q, (n =? Z.of_nat i) eqn:Q'; try reflexivity; lia.
Qed.

Lemma last_app {A} n (a b : list (Z * A)) : last_of n (a ++ b) = match last_of n b with Some x => Some x | None => last_of n a end.
Proof.
  clear. induction a as [|[m e] a IH]; cbn [app last_of]; [now destruct (last_of n b)|]. rewrite IH. now destruct (last_of n b).
Qed.

Lemma write_records invalid bs : Forall (fun b => length (snd b) = length (fst b)) bs ->
  write_file fmt invalid bs = Ok (concat (lines_recs (records invalid bs))).
Proof using Type.
  intro H. unfold write_file. enough (E : exists ls, mapM (fun '(n, e) => node_embedding_to_string fmt invalid n e) bs = Ok ls /\ concat ls = lines_recs (records invalid bs)).
  { destruct E as (ls & -> & E). cbn [bind]. now rewrite E. }
  induction H as [|[ns es] bs H _ (ls & E1 & E2)]; [exists []; split; reflexivity|].
  cbn [fst snd] in H. exists (map (fun '(n, e) => line_of fmt n e) (filter (fun '(n, e) => negb (n =? invalid)) (combine ns es)) :: ls).
  split.
  - cbn [mapM]. unfold node_embedding_to_string at 1. rewrite H, Nat.eqb_refl. cbn [bind]. rewrite E1. reflexivity.
  - cbn [concat]. rewrite E2. unfold records, lines_recs. cbn [flat_map fst snd]. rewrite filter_app, map_app. f_equal.
    generalize (combine ns es). intro l. induction l as [|[n e] l IHl]; [reflexivity|]. cbn [filter fst]. destruct (negb (n =? invalid)); cbn [map fst snd]; now rewrite IHl.
Qed.
Lemma lines_recs_ends l : Forall (fun s => exists b, s = b ++ [10%N] /\ ~ In 10%N b) (lines_recs l).
Proof using Htext. apply Forall_forall. intros s Hs. apply in_map_iff in Hs. destruct Hs as (r & <- & _). apply line_end. Qed.

Lemma read_all dim (fl : list (list (Z * list F))) : forall t, (0 < dim)%nat -> Forall (good (length t) dim) (concat fl) ->
  exists t', read_files pfloat dim (map (fun l => concat (lines_recs l)) fl) t = Ok t' /\ length t' = length t /\
    forall i, (i < length t)%nat -> nth i t' [] = row_of t (concat fl) i.
Proof using Htext Hread Hlast.
  induction fl as [|l fl IH]; intros t Hd H.
  - exists t. repeat split; reflexivity.
  - cbn [concat] in H. apply Forall_app in H. destruct H as [H1 H2].
    destruct (read_recs dim l t Hd H1) as (t1 & E1 & L1 & R1). destruct (IH t1 Hd) as (t2 & E2 & L2 & R2); [now rewrite L1|].
    exists t2. cbn [map read_files]. rewrite lines_of_concat by apply lines_recs_ends. rewrite E1. cbn [bind].
    split; [exact E2|]. split; [congruence|]. intros i Hi. rewrite R2 by congruence. unfold row_of at 1. cbn [concat].
    unfold row_of. rewrite last_app. destruct (last_of (Z.of_nat i) (concat fl)); [reflexivity|]. rewrite R1 by exact Hi. reflexivity.
Qed.

Definition batch_ok (num dim : nat) (invalid : Z) (b : list Z * list (list F)) : Prop :=
  length (snd b) = length (fst b) /\ Forall (fun e => length e = dim) (snd b) /\
  Forall (fun n => n = invalid \/ 0 <= n < Z.of_nat num) (fst b).
Lemma records_good num dim invalid bs : Forall (batch_ok num dim invalid) bs -> Forall (good num dim) (records invalid bs).
Proof using Type.
  intro H. apply Forall_forall. intros [n e] Hr. unfold records in Hr. apply filter_In in Hr. cbn [fst] in Hr. destruct Hr as [Hr Hn].
  apply in_flat_map in Hr. destruct Hr as ([ns es] & Hb & Hc). rewrite Forall_forall in H. destruct (H _ Hb) as (_ & He & Hk). cbn [fst snd] in *.
  rewrite Forall_forall in He, Hk. split; cbn [fst snd].
  - destruct (Hk n) as [->|Hg]; [now apply in_combine_l in Hc|clear Htext Hread Hlast; lia|exact Hg].
  - apply He. now apply in_combine_r in Hc.
Qed.
Lemma load_written num dim invalid files : (0 < dim)%nat -> Forall (Forall (batch_ok num dim invalid)) files ->
  exists texts, mapM (write_file fmt invalid) files = Ok texts /\
  exists t, load_embeddings pfloat zero num dim texts = Ok t /\ length t = num /\
    forall i, (i < num)%nat -> nth i t [] = match last_of (Z.of_nat i) (flat_map (records invalid) files) with
                                             | Some e => map rnd e | None => repeat zero dim end.
Proof using Htext Hread Hlast.
  intros Hd H. exists (map (fun bs => concat (lines_recs (records invalid bs))) files). split.
  - induction H as [|bs files Hb _ IH]; [reflexivity|]. cbn [mapM map]. rewrite write_records.
    + cbn [bind]. rewrite IH. reflexivity.
    + eapply Forall_impl; [|exact Hb]. intros b Hbb. apply Hbb.
  - unfold load_embeddings. destruct (read_all dim (map (records invalid) files) (repeat (repeat zero dim) num) Hd) as (t & E & L & R).
    + rewrite repeat_length, <- flat_map_concat_map. apply Forall_forall. intros r Hr. apply in_flat_map in Hr. destruct Hr as (bs & Hbs & Hr).
      rewrite Forall_forall in H. pose proof (records_good num dim invalid bs (H _ Hbs)) as Hg. rewrite Forall_forall in Hg. now apply Hg.
    + rewrite repeat_length in *. exists t. rewrite map_map in E. split; [exact E|]. split; [exact L|]. intros i Hi. rewrite R by exact Hi.
      unfold row_of. rewrite <- flat_map_concat_map. destruct (last_of (Z.of_nat i) _); [reflexivity|].
      rewrite (nth_indep _ [] (repeat zero dim)) by (now rewrite repeat_length). apply nth_repeat.
Qed.

Lemma last_in {A} n (l : list (Z * A)) x : last_of n l = Some x -> In (n, x) l.
Proof.
  clear. revert x. induction l as [|[m e] l IH]; [discriminate|]. cbn [last_of]. intros x. destruct (last_of n l) as [y|].
  - intros [= <-]. right. now apply IH.
  - destruct (m =? n) eqn:Q; [|discriminate]. intros [= <-]. left. f_equal. lia.
Qed.
Lemma last_none {A} n (l : list (Z * A)) : last_of n l = None -> forall x, ~ In (n, x) l.
Proof.
  clear. induction l as [|[m e] l IH]; [intros _ x []|]. cbn [last_of]. destruct (last_of n l) as [y|]; [discriminate|].
  destruct (m =? n) eqn:Q; [discriminate|]. intros _ x [H|H]; [injection H as -> ->; lia|]. now apply (IH eq_refl x).
Qed.
Lemma last_any {A} n (a b : list (Z * A)) : Permutation a b -> consistent a -> last_of n a = last_of n b.
Proof.
  clear. intros HP HC. destruct (last_of n a) as [x|] eqn:Ea, (last_of n b) as [y|] eqn:Eb; try reflexivity.
  - f_equal. apply (HC n); [now apply last_in|]. apply (Permutation_in _ (Permutation_sym HP)). now apply last_in.
  - destruct (last_none _ _ Eb x). apply (Permutation_in _ HP). now apply last_in.
  - destruct (last_none _ _ Ea y). apply (Permutation_in _ (Permutation_sym HP)). now apply last_in.
Qed.
Lemma load_any_order num dim invalid files files' : (0 < dim)%nat -> Forall (Forall (batch_ok num dim invalid)) files ->
  Permutation files files' -> consistent (flat_map (records invalid) files) ->
  exists texts texts' t, mapM (write_file fmt invalid) files = Ok texts /\ mapM (write_file fmt invalid) files' = Ok texts' /\
    load_embeddings pfloat zero num dim texts = Ok t /\ load_embeddings pfloat zero num dim texts' = Ok t.
Proof using Htext Hread Hlast.
  intros Hd H HP HC. destruct (load_written num dim invalid files Hd H) as (texts & E & t & Et & Lt & Rt).
  assert (H' : Forall (Forall (batch_ok num dim invalid)) files') by (rewrite Forall_forall in *; intros x Hx; apply H, (Permutation_in _ (Permutation_sym HP) Hx)).
  destruct (load_written num dim invalid files' Hd H') as (texts' & E' & t' & Et' & Lt' & Rt').
  exists texts, texts', t. repeat split; try assumption. rewrite Et'. f_equal. apply (nth_ext _ _ [] []); [congruence|].
  intros i Hi. rewrite Lt' in Hi. rewrite Rt, Rt' by exact Hi. rewrite (last_any _ (flat_map (records invalid) files) (flat_map (records invalid) files')); [reflexivity| |exact HC].
  now apply Permutation_flat_map.
Qed.

Lemma one_line num dim n e invalid : (0 < dim)%nat -> length e = dim -> n <> invalid ->
  exists s, write_file fmt invalid [([n], [e])] = Ok s /\
    (- Z.of_nat num <= n < Z.of_nat num ->
      exists t, load_embeddings pfloat zero num dim [s] = Ok t /\ length t = num /\
        forall i, (i < num)%nat -> nth i t [] = if (n mod Z.of_nat num =? Z.of_nat i) then map rnd e else repeat zero dim) /\
    (~ - Z.of_nat num <= n < Z.of_nat num -> load_embeddings pfloat zero num dim [s] = Fail EIndex).
Proof using Htext Hread Hlast.
  intros Hd He Hn. exists (concat (lines_recs [(n, e)])). split.
  - rewrite write_records by (constructor; [reflexivity|constructor]). unfold records. cbn [flat_map fst snd combine app filter].
    destruct (n =? invalid) eqn:Q; [apply Z.eqb_eq in Q; contradiction|reflexivity].
  - unfold load_embeddings. cbn [read_files]. rewrite lines_of_concat by apply lines_recs_ends.
    cbn [lines_recs map read_lines fst snd]. rewrite line_read by assumption. cbn [bind fst snd]. unfold set_row. rewrite repeat_length.
    assert (HR : forall k, (k < num)%nat -> let t := replace (repeat (repeat zero dim) num) k (map rnd e) in
      length t = num /\ forall i, (i < num)%nat -> nth i t [] = if (Z.of_nat k =? Z.of_nat i) then map rnd e else repeat zero dim).
    { intros k Hk t. unfold t. rewrite replace_length, repeat_length. split; [reflexivity|]. intros i Hi. rewrite replace_nth by (now rewrite repeat_length).
      rewrite (nth_indep _ [] (repeat zero dim)) by (now rewrite repeat_length). rewrite nth_repeat.
      destruct (Nat.eqb_spec i k) as [->|Hk']; [now rewrite Z.eqb_refl|]. destruct (Z.eqb_spec (Z.of_nat k) (Z.of_nat i)) as [Hz|]; [|reflexivity].
      apply Nat2Z.inj in Hz. congruence. }
    split.
    + intros [H1 H2]. destruct (Z.leb_spec 0 n) as [H3|H3].
      * destruct (Z.ltb_spec n (Z.of_nat num)) as [_|H4]; [|destruct (Zlt_not_le _ _ H2 H4)]. cbn [andb bind]. eexists. split; [reflexivity|].
        rewrite Z.mod_small by (split; assumption). pose proof (HR _ (to_nat_lt num n H3 H2)) as P. rewrite Z2Nat.id in P by exact H3. exact P.
      * cbn [andb]. destruct (Z.leb_spec (- Z.of_nat num) n) as [_|H4]; [|destruct (Zlt_not_le _ _ H4 H1)].
        destruct (Z.ltb_spec n 0) as [_|H4]; [|destruct (Zlt_not_le _ _ H3 H4)]. cbn [andb bind]. eexists. split; [reflexivity|].
        rewrite (mod_neg num n H1 H3). pose proof (HR _ (add_lt num n H1 H3)) as P. rewrite Z2Nat.id in P by (now apply add_nonneg). exact P.
    + intro H. rewrite (out_left num n H), (out_right num n H). reflexivity.
Qed.
Lemma no_tab n num dim : load_embeddings pfloat zero num dim [show_int n ++ [10%N]] = Fail EIndex.
Proof using Type.
  unfold load_embeddings. cbn [read_files]. rewrite (lines_of_line (show_int n) []) by (apply show_sep; tauto).
  cbn [lines_of read_lines]. unfold read_line. rewrite split_single.
  - rewrite parse_show_nl. reflexivity.
  - intro H. apply in_app_or in H. destruct H as [H|[H|[]]]; [revert H; apply show_sep; tauto|discriminate].
Qed.

(** The torch writer. *)
Lemma torch_write ids emb : length emb = length ids ->
  torch_lines fmt ids emb = Ok (map (fun r => torch_line fmt (fst r) (snd r)) (combine ids emb)).
Proof using Type.
  revert emb. induction ids as [|n ids IH]; intros [|e emb] H; cbn in H; try discriminate; [reflexivity|]. cbn [torch_lines combine map].
  rewrite IH by (injection H as H; exact H). reflexivity.
Qed.
Lemma torch_lines_back ids emb s : length emb = length ids -> output_embedding fmt (IBatch [ids]) emb = Ok s ->
  map (split 32) (lines_of s) = map (fun r => show_int (fst r) :: split 32 (join 32 (map fmt (snd r)) ++ [10%N])) (combine ids emb).
Proof using Htext.
  intros H E. unfold output_embedding in E. cbn [squeezed bind] in E. rewrite torch_write in E by exact H. cbn [bind] in E. injection E as <-.
  rewrite lines_of_concat.
  - rewrite map_map. apply map_ext. intros [n e]. unfold torch_line. cbn [fst snd]. rewrite split_app, split_single by (apply show_sep; tauto). reflexivity.
  - apply Forall_forall. intros l Hl. apply in_map_iff in Hl. destruct Hl as ([n e] & <- & _). unfold torch_line. cbn [fst snd].
    exists (show_int n ++ 32%N :: join 32 (map fmt e)). rewrite <- app_assoc. split; [reflexivity|].
    intro Hi. apply in_app_or in Hi. destruct Hi as [Hi|[Hi|Hi]]; [revert Hi; apply show_sep; tauto|discriminate|]. revert Hi. apply row_no. tauto.
Qed.
Lemma torch_values ids emb s : length emb = length ids -> ~ In [] emb -> output_embedding fmt (IBatch [ids]) emb = Ok s ->
  mapM (fun l => match split 32 l with n :: fs => do z <- parse_int n ;; do e <- mapM pfloat fs ;; Ok (z, e) | [] => Fail EIndex end) (lines_of s)
  = Ok (combine ids (map (map rnd) emb)).
Proof using Htext Hread Hlast.
  intros H HN E. pose proof (torch_lines_back ids emb s H E) as B. revert B HN. generalize (lines_of s). clear E. revert emb H.
  induction ids as [|n ids IH]; intros [|e emb] H ls B HN; cbn in H; try discriminate; cbn [combine map] in *.
  - destruct ls; [reflexivity|discriminate].
  - destruct ls as [|l ls]; [discriminate|]. injection B as B1 B2. cbn [mapM]. rewrite B1. cbn [fst snd]. rewrite parse_show. cbn [bind].
    rewrite floats_read by (intros ->; apply HN; now left). cbn [bind]. rewrite (IH emb); [reflexivity|congruence|exact B2|]. intro Hi. apply HN. now right.
Qed.
End Embed.
