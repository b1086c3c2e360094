(** Cora and Citeseer: from the files to the records of the converter. *)
From Coq Require Import Permutation Sorting.Sorted.
From Verif Require Import Base SetupModel SetupProofs MetaModel DecoderModel DecoderProofs RawModel RawSpec RawTextProofs RawProofs RawBuildProofs.
From Verif Require ReaderModel.
Import ListNotations.

Lemma map_seq_nth {A} (d : A) l : map (fun i => nth i l d) (seq 0 (List.length l)) = l.
Proof.
  apply nth_ext with (d := d) (d' := d); [now rewrite map_length, seq_length|]. intros n H. rewrite map_length, seq_length in H.
  rewrite nth_indep with (d' := nth 0 l d) by (now rewrite map_length, seq_length).
  rewrite (map_nth (fun i => nth i l d)), seq_nth by exact H. reflexivity.
Qed.
Lemma mapM_in {A B} (f : A -> res B) l bs : mapM f l = Ok bs -> Forall2 (fun a b => f a = Ok b) l bs.
Proof.
  revert bs. induction l as [|a l IH]; intros bs H; cbn [mapM] in H; [injection H as <-; constructor|].
  destruct (f a) as [b|] eqn:E; [|discriminate]. cbn [bind] in H. destruct (mapM f l) as [t|]; [|discriminate]. injection H as <-. constructor; auto.
Qed.
Lemma mapM_out {A B} (f : A -> res B) l : (forall a, In a l -> exists b, f a = Ok b) -> exists bs, mapM f l = Ok bs.
Proof.
  induction l as [|a l IH]; intros H; [now exists []|]. destruct (H a) as (b & E); [now left|]. destruct IH as (bs & E'); [intros; apply H; now right|].
  cbn [mapM]. rewrite E. cbn [bind]. rewrite E'. now exists (b :: bs).
Qed.

Lemma float_key_ok : key_ok 44 float32_text.
Proof. split; [discriminate|]. split; [reflexivity|]. unfold word. cbn. intuition discriminate. Qed.
Lemma number_word s : number_text s -> word 44 s.
Proof. intros [_ H] X. rewrite Forall_forall in H. specialize (H _ X). lia. Qed.
Lemma number_printable s : number_text s -> printable s.
Proof. intros [_ H]. eapply Forall_impl; [|exact H]. cbv beta. intros c Hc. lia. Qed.
Lemma show_number z : number_text (show_int z).
Proof.
  split; [apply show_nonnil|]. apply Forall_forall. intros c H. apply show_chars in H. unfold is_digit in H. lia.
Qed.

Lemma block_printable id typ fs out : Forall (fun f => match f with UArray k vs _ => printable k /\ Forall printable vs | _ => False end) fs ->
  Forall printable (block_lines id typ fs out) /\ Forall (fun l => l <> []) (block_lines id typ fs out).
Proof.
  intros H.
  assert (P1 : printable one_text) by (repeat constructor; lia).
  assert (A : Forall printable (all_columns 44 47 92 [] [] fs)).
  { induction H as [|f fs Hf H IH]; [constructor|]. cbn [all_columns tl]. apply Forall_app. split; [|exact IH].
    destruct f as [|?|k vs b|]; try contradiction. destruct Hf as [Hk Hv]. unfold columns. cbn [hd given key_of lens_of map join data_of app].
    constructor; [exact Hk|]. constructor; [apply show_printable|exact Hv]. }
  assert (N : printable (node_ln id typ fs)).
  { unfold node_ln, node_line. cbn [no_defaults d_type d_weight given time_columns d_feature_types d_feature_lens app].
    apply printable_join. repeat (constructor; [first [apply show_printable|exact P1]|]). exact A. }
  assert (E : forall e, printable (edge_ln id e)).
  { intros e. unfold edge_ln, edge_line. cbn [no_defaults d_type d_weight given time_columns d_feature_types d_feature_lens app all_columns].
    apply printable_join. repeat (constructor; [first [apply show_printable|exact P1]|]). constructor. }
  split; unfold block_lines; constructor; auto.
  - apply Forall_forall. intros l Hl. apply in_map_iff in Hl. destruct Hl as (e & <- & _). apply E.
  - unfold node_ln, node_line. apply join_nonnil, show_nonnil.
  - apply Forall_forall. intros l Hl. apply in_map_iff in Hl. destruct Hl as (e & <- & _). unfold edge_ln, edge_line. apply join_nonnil, show_nonnil.
Qed.

Section Graph.
Context {F : Type}.
Variable pfl : str -> res F.
Variable show : F -> str.
Variable conv : str -> list str -> res (list N).
Variable pfloat : str -> res N.
Variable one : N.
Variable bits : list F -> list N.
Variable label_bits : Z -> list N.
Hypothesis Hone : pfloat one_text = Ok one.
Hypothesis Hshow : forall x, number_text (show x).
Hypothesis Hbits : forall xs, xs <> [] -> conv float32_text (map show xs) = Ok (bits xs).
Hypothesis Hlabel : forall n, conv float32_text [show_int n] = Ok (label_bits n).
Definition node_feats (xs : list F) (l : Z) : list ufeature :=
  [UArray float32_text (map show xs) (bits xs); UArray float32_text [show_int l] (label_bits l)].
Lemma node_text_line id t xs l tr te s : node_text show id t xs l tr te = Ok s ->
  xs <> [] /\ s = text_of (block_lines id (if t then 0 else 1) (node_feats xs l) (out_of tr te)).
Proof.
  unfold node_text. destruct xs as [|x xs]; [discriminate|]. intros H. injection H as <-. split; [discriminate|].
  rewrite block_text. f_equal. unfold node_ln, node_line, node_feats.
  cbn [no_defaults d_type d_weight given time_columns d_feature_types d_feature_lens app all_columns tl].
  rewrite !array_columns, map_length, app_nil_r. reflexivity.
Qed.
Lemma feats_ok xs l : xs <> [] -> Forall (feature_ok conv 44 92) (node_feats xs l).
Proof.
  intros Hx. constructor; [|constructor; [|constructor]]; cbn [feature_ok].
  - split; [exact float_key_ok|]. split; [destruct xs; [congruence|discriminate]|]. split; [|split; [now apply Hbits|discriminate]].
    apply Forall_forall. intros w Hw. apply in_map_iff in Hw. destruct Hw as (x & <- & _). apply number_word, Hshow.
  - split; [exact float_key_ok|]. split; [discriminate|]. split; [|split; [apply Hlabel|discriminate]].
    constructor; [|constructor]. apply number_word, show_number.
Qed.
Lemma feats_printable xs l : Forall (fun f => match f with UArray k vs _ => printable k /\ Forall printable vs | _ => False end) (node_feats xs l).
Proof.
  assert (P : printable float32_text) by (repeat constructor; lia).
  constructor; [|constructor; [|constructor]]; (split; [exact P|]).
  - apply Forall_forall. intros w Hw. apply in_map_iff in Hw. destruct Hw as (x & <- & _). apply number_printable, Hshow.
  - constructor; [apply show_printable|constructor].
Qed.

Lemma node_file_flat want n (ts : list bool) : List.length ts = n ->
  node_file want (combine (ids n) ts) =
  flat_map (fun i => show_int (id_of i) ++ [newline]) (filter (fun i => Bool.eqb (nth i ts false) want) (seq 0 n)).
Proof using Type.
  intros HL. unfold ids. assert (G : forall n k, List.length ts = n -> node_file want (combine (map id_of (seq k n)) ts) =
    flat_map (fun i => show_int (id_of i) ++ [newline]) (filter (fun i => Bool.eqb (nth (i - k) ts false) want) (seq k n))).
  { clear. induction ts as [|t ts IH]; intros n k HL; destruct n as [|n]; try discriminate; [reflexivity|].
    cbn [seq map combine node_file flat_map fst snd filter]. rewrite Nat.sub_diag. change (nth 0 (t :: ts) false) with t.
    assert (E : filter (fun i => Bool.eqb (nth (i - k) (t :: ts) false) want) (seq (S k) n) =
                filter (fun i => Bool.eqb (nth (i - S k) ts false) want) (seq (S k) n)).
    { apply filter_ext_in. intros i Hi. apply in_seq in Hi. replace (i - k) with (S (i - S k)) by lia. reflexivity. }
    rewrite E. change (flat_map _ (combine (map id_of (seq (S k) n)) ts)) with (node_file want (combine (map id_of (seq (S k) n)) ts)).
    rewrite (IH n (S k)) by (cbn in HL; lia). destruct (Bool.eqb t want); reflexivity. }
  rewrite (G n 0 HL). f_equal. apply filter_ext. intros i. now rewrite Nat.sub_0_r.
Qed.
Lemma some_train n (ts : list bool) : List.length ts = n -> (existsb snd (combine (ids n) ts) = true <-> In true ts).
Proof using Type.
  intros HL. rewrite existsb_exists. split.
  - intros ([z t] & H & E). cbn in E. subst. now apply in_combine_r in H.
  - intros H. apply In_nth_error in H. destruct H as (i & E). exists (id_of i, true). split; [|reflexivity].
    assert (L : i < n) by (rewrite <- HL; apply nth_error_Some; congruence).
    apply nth_error_In with (n := i). clear - E L HL. unfold ids.
    assert (G : forall n k i, List.length ts = n -> nth_error ts i = Some true -> nth_error (combine (map id_of (seq k n)) ts) i = Some (id_of (k + i), true)).
    { clear. induction ts as [|t ts IH]; intros n k i HL E; [destruct i; discriminate|]. destruct n as [|n]; [discriminate|]. cbn [seq map combine].
      destruct i as [|i]; cbn [nth_error] in *; [injection E as ->; now rewrite Nat.add_0_r|]. rewrite (IH n (S k) i) by (auto; cbn in HL; lia). f_equal. f_equal. f_equal. lia. }
    now rewrite (G n 0 i HL E).
Qed.

Variable shuffle : list bool -> list bool.
Hypothesis Hs : forall l, Permutation (shuffle l) l.
Lemma nodes_at (rs : list (@row F)) i r : nth_error rs i = Some r ->
  nth i (nodes (state rs)) (0%Z, ([], 0%Z)) = (id_of i, (snd r, label_no rs r)).
Proof using Type.
  intros H. assert (L : i < List.length rs) by (apply nth_error_Some; congruence). unfold state. cbn [nodes].
  rewrite combine_nth by (now rewrite ids_length, map_length). f_equal.
  - apply nth_error_nth. now apply ids_nth.
  - apply nth_error_nth. exact (map_nth_error _ i rs H).
Qed.
Lemma nodes_length (rs : list (@row F)) : List.length (nodes (state rs)) = List.length rs.
Proof using Type. unfold state. cbn [nodes]. rewrite combine_length, ids_length, map_length. apply Nat.min_id. Qed.
Lemma nodes_ids (rs : list (@row F)) : map fst (nodes (state rs)) = ids (List.length rs).
Proof using Type.
  unfold state. cbn [nodes]. assert (G : forall A B (a : list A) (b : list B), List.length a = List.length b -> map fst (combine a b) = a).
  { clear. induction a as [|x a IH]; intros [|y b] H; try discriminate; [reflexivity|]. cbn in *. rewrite IH by lia. reflexivity. }
  apply G. now rewrite ids_length, map_length.
Qed.

Lemma build_inv fdim strict random count content cites d : build pfl show shuffle fdim strict random count content cites = Ok d ->
  exists (rs : list (@row F)) (ts : list bool) (out : nat -> list (Z * Z)),
    let n := List.length rs in
    Forall2 (reads pfl fdim) content rs /\ NoDup (map rname rs) /\ List.length ts = n /\ (0 <= count <= Z.of_nat n)%Z /\
    ts = (if random then shuffle (flags (Z.to_nat count) n) else flags (Z.to_nat count) n) /\ In true ts /\
    (forall want : bool, (if want then train_file d else test_file d) =
      flat_map (fun i => show_int (id_of i) ++ [newline]) (filter (fun i => Bool.eqb (nth i ts false) want) (seq 0 n))) /\
    (forall i, StronglySorted before (out i)) /\
    (forall i t b, In (t, b) (out i) <-> exists j line, b = id_of j /\ In line cites /\ joins (map rname rs) line i j /\ t = if tr ts i && tr ts j then 0%Z else 1%Z) /\
    exists node : nat -> decoded,
      (forall i r, nth_error rs i = Some r -> node i = Decoded (id_of i) (-1) (if tr ts i then 0 else 1) one None None [FArray (bits (snd r)); FArray (label_bits (label_no rs r))]) /\
      converts_to conv pfloat (graph_csv d)
        (flat_map (fun i => node i :: map (fun e => Decoded (id_of i) (snd e) (fst e) one None None []) (out i)) (seq 0 n)).
Proof.
  unfold build. intros H. rewrite nothing_state in H. destruct (load_papers pfl fdim content (state [])) as [s|] eqn:E1; [|discriminate]. cbn [bind] in H.
  apply load_papers_inv in E1; [|constructor]. destruct E1 as (rs & R & HN & ->). cbn [app] in *. rewrite nodes_ids in H.
  set (n := List.length rs) in *.
  destruct (select shuffle count random (ids n)) as [types0|] eqn:E2; [|discriminate]. cbn [bind] in H.
  apply (select_inv shuffle Hs) in E2. destruct E2 as (ts & -> & HL & HC & HT).
  assert (EP : papers (state rs) = ps (map rname rs)) by (unfold state, ps; cbn [papers]; now rewrite map_length).
  assert (ET : combine (ids n) ts = types (map rname rs) ts) by (unfold types; now rewrite map_length).
  rewrite EP, ET in H. assert (HL' : List.length ts = List.length (map rname rs)) by (now rewrite map_length).
  destruct (load_cites strict _ _ cites ([], [])) as [adj|] eqn:E3; [|discriminate]. cbn [bind] in H.
  apply (load_cites_inv _ _ HN HL') in E3. destruct E3 as (A1 & A2 & A3 & A4). cbn [fst snd] in *.
  specialize (A3 (NoDup_nil _)). specialize (A4 (NoDup_nil _)).
  destruct (mapM _ (nodes (state rs))) as [bl|] eqn:E4; [|discriminate]. cbn [bind] in H.
  rewrite <- ET in H. destruct (existsb snd (combine (ids n) ts)) eqn:E5; [|discriminate]. injection H as <-. cbn [graph_csv train_file test_file].
  apply (some_train n ts HL) in E5.
  set (out := fun i => out_of (neighbors_of (id_of i) (fst adj)) (neighbors_of (id_of i) (snd adj))).
  set (el := fun i => nth i (nodes (state rs)) (0%Z, ([], 0%Z))).
  set (blk := fun i => Block (id_of i) (if tr ts i then 0 else 1)%Z (node_feats (fst (snd (el i))) (snd (snd (el i)))) (out i)).
  assert (EL : forall i, i < n -> exists r, nth_error rs i = Some r /\ el i = (id_of i, (snd r, label_no rs r))).
  { intros i Hi. destruct (nth_error rs i) as [r|] eqn:E; [|apply nth_error_None in E; unfold n in Hi; lia]. exists r. split; [reflexivity|]. now apply nodes_at. }
  exists rs, ts, out. cbv zeta. split; [exact R|]. split; [exact HN|]. split; [exact HL|]. split; [exact HC|]. split; [exact HT|]. split; [exact E5|].
  split; [intros want; destruct want; now apply node_file_flat|].
  split; [intros i; apply out_sorted; now apply neighbors_nodup|].
  split.
  { intros i t b. unfold out. rewrite in_out, !neighbors_in, A1, A2. split.
    - intros [[-> [[]|(i' & j & line & E & Hl & J & T)]]|[-> [[]|(i' & j & line & E & Hl & J & T)]]]; injection E as E -> ;
        assert (i' = i) by (unfold id_of in E; lia); subst i'; exists j, line; rewrite T; auto.
    - intros (j & line & -> & Hl & J & ->). destruct (tr ts i && tr ts j) eqn:T.
      + left. split; [reflexivity|]. right. exists i, j, line. auto.
      + right. split; [reflexivity|]. right. exists i, j, line. auto. }
  assert (BL : forall l bl, (forall i, In i l -> i < n) ->
    mapM (fun nd : Z * (list F * Z) => do t <- or_raise (zlookup (fst nd) (types (map rname rs) ts)) ;;
      node_text show (fst nd) t (fst (snd nd)) (snd (snd nd)) (neighbors_of (fst nd) (fst adj)) (neighbors_of (fst nd) (snd adj))) (map el l) = Ok bl ->
    List.concat bl = text_of (flat_map lines_of_block (map blk l)) /\ Forall (fun i => fst (snd (el i)) <> []) l).
  { induction l as [|i l IH]; intros bl0 HI HM; cbn [map mapM] in HM; [injection HM as <-; now split|].
    destruct (EL i) as (r & Hr & Ei); [apply HI; now left|].
    rewrite Ei in HM. cbn [fst snd] in HM. rewrite (types_lookup _ ts HL' i) in HM by (rewrite map_length; apply HI; now left). cbn [or_raise bind] in HM.
    destruct (node_text _ _ _ _ _ _ _) as [tx|] eqn:ENT; [|discriminate]. cbn [bind] in HM. apply node_text_line in ENT. destruct ENT as [NX ->].
    match type of HM with (do bs <- ?m ;; _) = _ => destruct m as [bs|] eqn:EM; [|discriminate] end. cbn [bind] in HM. injection HM as <-.
    destruct (IH bs) as [EM1 EM2]; [intros; apply HI; now right|reflexivity|]. cbn [List.concat flat_map map]. rewrite text_of_app, EM1. split.
    - f_equal. unfold blk, lines_of_block. cbn [b_id b_type b_feats b_out]. unfold out. rewrite Ei. reflexivity.
    - constructor; [|exact EM2]. rewrite Ei. exact NX. }
  assert (NS : nodes (state rs) = map el (seq 0 n)).
  { unfold el, n. rewrite <- (nodes_length rs). symmetry. apply map_seq_nth. }
  rewrite NS in E4. apply BL in E4; [|intros i Hi; apply in_seq in Hi; lia]. destruct E4 as [G1 G2].
  exists (fun i => node_rec one (id_of i) (if tr ts i then 0 else 1) (b_feats (blk i))).
  split.
  { intros i r Hr. unfold node_rec. f_equal. unfold blk. cbn [b_feats]. unfold el. rewrite (nodes_at rs i r Hr). reflexivity. }
  intros threads m batch P1 P2 P3.
  assert (PR : Forall printable (flat_map lines_of_block (map blk (seq 0 n))) /\ Forall (fun l => l <> []) (flat_map lines_of_block (map blk (seq 0 n)))).
  { generalize (seq 0 n) as l0. intros l0. induction l0 as [|i l [I1 I2]]; [split; constructor|]. cbn [map flat_map].
    destruct (block_printable (id_of i) (if tr ts i then 0 else 1)%Z _ (out i) (feats_printable (fst (snd (el i))) (snd (snd (el i))))) as [Q1 Q2].
    split; apply Forall_app; now split. }
  destruct PR as [PR1 PR2].
  destruct (reader_lines _ threads m batch PR1 PR2 P1 P2 P3) as (enough & RL). exists enough. intros fuel Hf. destruct (RL fuel Hf) as (batches & RL1 & RL2).
  destruct (blocks_decoded conv pfloat one Hone (map blk (seq 0 n))) as (rss & D1 & D2).
  { apply Forall_forall. intros b Hb. apply in_map_iff in Hb. destruct Hb as (i & <- & Hi). unfold block_ok, blk. cbn [b_feats b_out].
    split; [apply feats_ok; rewrite Forall_forall in G2; now apply G2|]. unfold out. apply out_types. }
  exists batches, rss. rewrite G1. split; [exact RL1|]. rewrite RL2. split; [exact D1|]. rewrite D2.
  fold n. generalize (seq 0 n) as l0. intros l0. induction l0 as [|i l IH]; [reflexivity|]. cbn [map flat_map]. rewrite IH. reflexivity.
Qed.

Lemma build_ok fdim strict random count content cites (rs : list (@row F)) : 0 < fdim ->
  Forall2 (reads pfl fdim) content rs -> NoDup (map rname rs) -> (1 <= count <= Z.of_nat (List.length rs))%Z ->
  Forall (fun l => exists p q rest, spaced l (p :: q :: rest) /\ (strict = true -> In p (map rname rs) /\ In q (map rname rs))) cites ->
  exists d, build pfl show shuffle fdim strict random count content cites = Ok d.
Proof using Hs.
  clear dependent conv. clear dependent pfloat. clear dependent label_bits. clear dependent bits.
  intros Hf R HN HC HCi. unfold build. rewrite nothing_state, (load_papers_ok pfl fdim content rs R []) by exact HN. cbn [app bind].
  rewrite nodes_ids. destruct (select_ok shuffle Hs count random (List.length rs)) as (types0 & ES); [lia|]. rewrite ES. cbn [bind].
  apply (select_inv shuffle Hs) in ES. destruct ES as (ts & -> & HL & _ & HT).
  assert (EP : papers (state rs) = ps (map rname rs)) by (unfold state, ps; cbn [papers]; now rewrite map_length).
  assert (ET : combine (ids (List.length rs)) ts = types (map rname rs) ts) by (unfold types; now rewrite map_length).
  assert (HL' : List.length ts = List.length (map rname rs)) by (now rewrite map_length).
  rewrite EP, ET. destruct (load_cites_ok _ ts HN HL' strict cites HCi ([], [])) as (adj & EA). rewrite EA. cbn [bind].
  match goal with |- context [mapM ?f ?l] => destruct (mapM_out f l) as (bl & EM) end.
  { intros nd Hn. apply In_nth with (d := (0%Z, ([], 0%Z))) in Hn. destruct Hn as (i & Hi & <-). rewrite nodes_length in Hi.
    destruct (nth_error rs i) as [r|] eqn:Er; [|apply nth_error_None in Er; lia].
    rewrite (nodes_at rs i r Er). cbn [fst snd]. rewrite (types_lookup _ ts HL' i) by (now rewrite map_length). cbn [or_raise bind]. unfold node_text.
    destruct (snd r) as [|x xs] eqn:Ex; [|eauto]. exfalso.
    assert (RR : exists line, reads pfl fdim line r).
    { clear - R Er. revert i Er. induction R as [|l r0 ls rs H R IH]; intros i Er; [destruct i; discriminate|]. destruct i as [|i]; [injection Er as ->; eauto|eauto]. }
    destruct RR as (line & (_ & L1) & L2). apply mapM_in in L2. rewrite Ex in L2. inversion L2 as [E0|]. rewrite <- E0 in L1. cbn in L1. lia. }
  rewrite EM. cbn [bind]. rewrite <- ET.
  replace (existsb snd (combine (ids (List.length rs)) ts)) with true; [eauto|]. symmetry. apply (some_train _ ts HL).
  assert (IF : In true (flags (Z.to_nat count) (List.length rs))).
  { unfold flags. apply in_or_app. left. destruct (Z.to_nat count) eqn:E; [lia|]. now left. }
  rewrite HT. destruct random; [|exact IF]. exact (Permutation_in _ (Permutation_sym (Hs _)) IF).
Qed.
End Graph.

(** ** In terms of the papers *)
Lemma connects_joins (ps : list paper) line i j : joins (map name ps) line i j <-> connects ps line i j.
Proof.
  unfold joins, connects. split; intros (p & q & rest & S & H); exists p, q, rest; (split; [exact S|]).
  - now rewrite !nth_error_map in H.
  - now rewrite !nth_error_map.
Qed.
Lemma flags_split shuffle (Hs : forall l, Permutation (shuffle l) l) random count n : (0 <= count <= Z.of_nat n)%Z ->
  split_ok random count (if random then shuffle (flags (Z.to_nat count) n) else flags (Z.to_nat count) n).
Proof.
  intros H. unfold split_ok.
  assert (F : forall b k, filter (fun x : bool => x) (repeat b k) = if b then repeat b k else []).
  { intros b k. induction k as [|k IH]; [now destruct b|]. destruct b; cbn [repeat filter]; rewrite IH; reflexivity. }
  assert (L : Z.of_nat (List.length (filter (fun b : bool => b) (flags (Z.to_nat count) n))) = count).
  { unfold flags. rewrite filter_app, !F, app_nil_r, repeat_length. lia. }
  assert (P : forall a b : list bool, Permutation a b -> List.length (filter (fun x => x) a) = List.length (filter (fun x => x) b)).
  { induction 1 as [|x a b H0 IH|x y a|a b c H0 IH H1 IH']; [reflexivity| | |congruence]; cbn [filter].
    - destruct x; cbn [List.length]; now rewrite ?IH.
    - destruct x, y; reflexivity. }
  split; [destruct random; [rewrite (P _ _ (Hs _))|]; exact L|]. intros ->. intros i Hi. unfold flags in *.
  rewrite app_length, !repeat_length in Hi. unfold id_of. destruct (lt_dec i (Z.to_nat count)) as [D|D].
  - rewrite app_nth1 by (now rewrite repeat_length). rewrite nth_indep with (d' := true) by (now rewrite repeat_length). rewrite nth_repeat. split; [lia|reflexivity].
  - rewrite app_nth2, repeat_length by (rewrite repeat_length; lia). rewrite nth_repeat. split; [discriminate|lia].
Qed.
Lemma text_map {A} (f : A -> str) l : flat_map (fun i => f i ++ [newline]) l = file_of (map f l).
Proof. unfold file_of. induction l as [|x l IH]; [reflexivity|]. cbn [flat_map map]. now rewrite IH. Qed.

Lemma graph_lemma {F} (pfl : str -> res F) show conv pfloat one bits label_bits shuffle :
  pfloat one_text = Ok one -> (forall x, number_text (show x)) ->
  (forall xs, xs <> [] -> conv float32_text (map show xs) = Ok (bits xs)) ->
  (forall n, conv float32_text [show_int n] = Ok (label_bits n)) ->
  (forall l, Permutation (shuffle l) l) ->
  forall fdim strict random count content cites d,
  build pfl show shuffle fdim strict random count content cites = Ok d ->
  exists ps train (node : nat -> decoded) (out : nat -> list (Z * Z)),
    let n := List.length ps in
    Forall2 (describes fdim) content ps /\ NoDup (map name ps) /\ List.length train = n /\ split_ok random count train /\
    (forall i p, nth_error ps i = Some p -> exists xs k, mapM pfl (feats p) = Ok xs /\
       nth_error (firsts (map label ps)) k = Some (label p) /\
       node i = Decoded (id_of i) (-1) (if nth i train false then 0 else 1) one None None [FArray (bits xs); FArray (label_bits (Z.of_nat k))]) /\
    (forall i, StronglySorted before (out i)) /\
    (forall i t b, In (t, b) (out i) <-> exists j line, b = id_of j /\ In line cites /\ connects ps line i j /\
       t = if nth i train false && nth j train false then 0%Z else 1%Z) /\
    converts_to conv pfloat (graph_csv d)
      (flat_map (fun i => node i :: map (fun e => Decoded (id_of i) (snd e) (fst e) one None None []) (out i)) (seq 0 n)) /\
    train_file d = file_of (map (fun i => show_int (id_of i)) (filter (fun i => nth i train false) (seq 0 n))) /\
    test_file d = file_of (map (fun i => show_int (id_of i)) (filter (fun i => negb (nth i train false)) (seq 0 n))).
Proof.
  intros H1 H2 H3 H4 H5 fdim strict random count content cites d H.
  destruct (build_inv pfl show conv pfloat one bits label_bits H1 H2 H3 H4 shuffle H5 _ _ _ _ _ _ _ H) as (rs & ts & out & I1 & I2 & I3 & I4 & I5 & I6 & I7 & I8 & I9 & node & I10 & I11).
  exists (map fst rs), ts, node, out. cbv zeta. rewrite map_length.
  assert (ENM : map name (map fst rs) = map rname rs) by (rewrite map_map; reflexivity).
  assert (ELB : map label (map fst rs) = map rlabel rs) by (rewrite map_map; reflexivity).
  split; [|split; [now rewrite ENM|split; [exact I3|split; [rewrite I5; now apply flags_split|]]]].
  { clear - I1. induction I1 as [|l r ls rs [H _] HR IH]; constructor; auto. }
  split.
  { intros i p Hp. rewrite nth_error_map in Hp. change (option_map (@fst paper (list F)) (@nth_error (@row F) rs i) = Some p) in Hp. destruct (nth_error rs i) as [r|] eqn:Er; [|discriminate]. injection Hp as <-.
    assert (RR : exists line, reads pfl fdim line r).
    { clear - I1 Er. revert i Er. induction I1 as [|l r0 ls rs H R IH]; intros i Er; [destruct i; discriminate|]. destruct i as [|i]; [injection Er as ->; eauto|eauto]. }
    destruct RR as (line & _ & RM). exists (snd r), (index (rlabel r) (firsts (map rlabel rs))). split; [exact RM|]. rewrite ELB. split.
    - change (label (fst r)) with (rlabel r). apply index_nth. apply firsts_in. exact (in_map rlabel rs r (nth_error_In _ _ Er)).
    - rewrite (I10 i r Er). reflexivity. }
  split; [exact I8|]. split.
  { intros i t b. rewrite I9. split; intros (j & line & E & Hl & J & T); exists j, line; (split; [exact E|split; [exact Hl|split; [|exact T]]]).
    - apply connects_joins. now rewrite ENM.
    - apply connects_joins in J. now rewrite ENM in J. }
  split; [exact I11|]. rewrite <- !text_map. split; [rewrite (I7 true)|rewrite (I7 false)]; f_equal; apply filter_ext; intros i; now destruct (nth i ts false).
Qed.
Lemma builds_lemma {F} (pfl : str -> res F) show shuffle fdim strict random count content cites ps xss :
  (forall l, Permutation (shuffle l) l) -> 0 < fdim -> Forall2 (describes fdim) content ps -> NoDup (map name ps) ->
  mapM (fun p => mapM pfl (feats p)) ps = Ok xss -> (1 <= count <= Z.of_nat (List.length ps))%Z ->
  Forall (fun l => exists p q rest, spaced l (p :: q :: rest) /\ (strict = true -> In p (map name ps) /\ In q (map name ps))) cites ->
  exists d, build pfl show shuffle fdim strict random count content cites = Ok d.
Proof.
  intros Hs Hf HD HN HM HC HCi. apply mapM_in in HM.
  assert (R : Forall2 (reads pfl fdim) content (combine ps xss) /\ map fst (combine ps xss) = ps).
  { clear HN HC HCi. revert xss HM. induction HD as [|l p ls ps H HD IH]; intros xss HM; inversion HM; subst; [split; [constructor|reflexivity]|].
    destruct (IH _ H4) as [I1 I2]. cbn [combine map]. split; [constructor; [split; assumption|exact I1]|]. cbn [fst]. now rewrite I2. }
  destruct R as [R1 R2]. assert (EN : map rname (combine ps xss) = map name ps) by (rewrite <- R2 at 2; rewrite map_map; reflexivity).
  assert (LE : List.length (combine ps xss) = List.length ps) by (rewrite <- R2 at 2; now rewrite map_length).
  eapply (build_ok pfl show shuffle Hs fdim strict random count content cites (combine ps xss) Hf R1).
  - change (@rname F) with (fun r : @row F => rname r) in *. rewrite EN. exact HN.
  - rewrite <- LE in HC. exact HC.
  - eapply Forall_impl; [|exact HCi]. cbv beta. intros l (p & q & rest & S & J). exists p, q, rest. split; [exact S|]. intros X.
    destruct (J X) as [J1 J2]. rewrite <- EN in J1, J2. now split.
Qed.
