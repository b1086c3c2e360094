(** Texts of graphs: lines, their reading and decoding. *)
From Coq Require Import Permutation Sorting.Sorted DecimalZ Decimal.
From Verif Require Import Base SetupModel SetupProofs MetaModel DecoderModel DecoderProofs RawModel RawSpec.
From Verif Require ReaderModel ReaderProofs.
Import ListNotations.

Definition no_defaults : defaults := Defaults None None [] [].
Definition node_ln (id typ : Z) (fs : list ufeature) : str := node_line 44 47 92 no_defaults false None None id typ one_text 0 0 fs.
Definition edge_ln (id : Z) (e : Z * Z) : str := edge_line 44 47 92 no_defaults false None None id (fst e) (snd e) one_text 0 0 [].
Definition block_lines (id typ : Z) (fs : list ufeature) (out : list (Z * Z)) : list str :=
  node_ln id typ fs :: map (edge_ln id) out.
Definition text_of (ls : list str) : str := flat_map (fun l => l ++ [newline]) ls.
Lemma text_of_app a b : text_of (a ++ b) = text_of a ++ text_of b.
Proof. apply flat_map_app. Qed.

Section Decode.
Variable conv : str -> list str -> res (list N).
Variable pfloat : str -> res N.
Variable one : N.
Hypothesis Hone : pfloat one_text = Ok one.
Definition node_rec (id typ : Z) (fs : list ufeature) : decoded := Decoded id (-1) typ one None None (map meaning fs).
Definition edge_rec (id : Z) (e : Z * Z) : decoded := Decoded id (snd e) (fst e) one None None [].

Lemma plain44 : plain 44. Proof. split; [discriminate|]. unfold is_digit. lia. Qed.
Lemma plain47 : plain 47. Proof. split; [discriminate|]. unfold is_digit. lia. Qed.
Lemma word_one : word 44 one_text.
Proof. unfold word, one_text. cbn. intuition discriminate. Qed.
Lemma no_comma_binary : ~ In 44%N binary_key.
Proof. cbn. intuition discriminate. Qed.
Lemma defaults_none fs : defaults_ok [] [] fs.
Proof. induction fs as [|f fs IH]; cbn; auto. Qed.

Lemma node_decoded id typ fs : Forall (feature_ok conv 44 92) fs ->
  plain_decoder conv pfloat (node_ln id typ fs) = Ok [node_rec id typ fs].
Proof.
  intros H. unfold plain_decoder, node_ln, no_defaults. cbv zeta.
  rewrite (node_line_decoded conv pfloat 44 47 92) with (wb := one);
    [reflexivity|discriminate|discriminate|exact plain44|exact plain47|reflexivity|exact no_comma_binary|exact H|apply defaults_none|exact I| |exact I|exact I].
  split; [exact I|]. split; [exact word_one|]. intros _. exact Hone.
Qed.
Lemma edge_decoded id e : fst e <> (-1)%Z -> plain_decoder conv pfloat (edge_ln id e) = Ok [edge_rec id e].
Proof.
  intros H. unfold plain_decoder, edge_ln, no_defaults. cbv zeta.
  rewrite (edge_line_decoded conv pfloat 44 47 92) with (wb := one);
    [reflexivity|discriminate|discriminate|exact plain44|exact plain47|reflexivity|exact no_comma_binary|apply Forall_nil|apply defaults_none|exact I| |exact I|exact I|exact H].
  split; [exact I|]. split; [exact word_one|]. intros _. exact Hone.
Qed.
Lemma mapM_app {A B} (f : A -> res B) a b : mapM f (a ++ b) = do x <- mapM f a ;; do y <- mapM f b ;; Ok (x ++ y).
Proof.
  induction a as [|x a IH]; cbn [app mapM bind]; [destruct (mapM f b); reflexivity|].
  destruct (f x); cbn [bind]; [|reflexivity]. rewrite IH. destruct (mapM f a); cbn [bind]; [|reflexivity].
  destruct (mapM f b); reflexivity.
Qed.
Lemma block_decoded id typ fs out : Forall (feature_ok conv 44 92) fs -> Forall (fun e => fst e <> (-1)%Z) out ->
  mapM (plain_decoder conv pfloat) (block_lines id typ fs out) = Ok ([node_rec id typ fs] :: map (fun e => [edge_rec id e]) out).
Proof.
  intros H1 H2. unfold block_lines. cbn [mapM]. rewrite (node_decoded id typ fs H1). cbn [bind].
  assert (E : mapM (plain_decoder conv pfloat) (map (edge_ln id) out) = Ok (map (fun e => [edge_rec id e]) out)).
  { clear H1. induction H2 as [|e out He H2 IH]; [reflexivity|]. cbn [map mapM]. rewrite (edge_decoded id e He). cbn [bind]. now rewrite IH. }
  now rewrite E.
Qed.
Lemma concat_single {A B} (f : A -> B) l : List.concat (map (fun x => [f x]) l) = map f l.
Proof. induction l as [|x l IH]; [reflexivity|]. cbn. now rewrite IH. Qed.

(** All blocks of a file. *)
Record block := Block { b_id : Z; b_type : Z; b_feats : list ufeature; b_out : list (Z * Z) }.
Definition lines_of_block (b : block) : list str := block_lines (b_id b) (b_type b) (b_feats b) (b_out b).
Definition records_of_block (b : block) : list decoded :=
  node_rec (b_id b) (b_type b) (b_feats b) :: map (edge_rec (b_id b)) (b_out b).
Definition block_ok (b : block) : Prop := Forall (feature_ok conv 44 92) (b_feats b) /\ Forall (fun e => fst e <> (-1)%Z) (b_out b).
Lemma blocks_decoded bs : Forall block_ok bs ->
  exists rss, mapM (plain_decoder conv pfloat) (flat_map lines_of_block bs) = Ok rss /\ List.concat rss = flat_map records_of_block bs.
Proof.
  induction 1 as [|b bs (H1 & H2) H IH]; [exists []; now split|]. destruct IH as (rss & E1 & E2). cbn [flat_map].
  rewrite mapM_app. unfold lines_of_block at 1. rewrite (block_decoded _ _ _ _ H1 H2). cbn [bind]. rewrite E1. cbn [bind].
  eexists. split; [reflexivity|]. rewrite concat_app, E2. cbn [List.concat app]. rewrite concat_single. reflexivity.
Qed.
End Decode.
Arguments Block b_id b_type b_feats b_out : assert.

(** *** Reading *)
Definition printable (s : str) : Prop := Forall (fun c => (33 <= c <= 126)%N) s.
Lemma printable_app a b : printable a -> printable b -> printable (a ++ b).
Proof. intros A B. apply Forall_app. now split. Qed.
Lemma printable_join l : Forall printable l -> printable (join 44 l).
Proof.
  induction 1 as [|w l Hw H IH]; [constructor|]. cbn [join]. destruct l as [|x l]; [exact Hw|].
  apply printable_app; [exact Hw|]. constructor; [lia|exact IH].
Qed.
Lemma digits_printable u : printable (digits u).
Proof. induction u; cbn [digits]; constructor; try assumption; lia. Qed.
Lemma show_printable z : printable (show_int z).
Proof. unfold show_int. destruct (Z.to_int z); [apply digits_printable|]. constructor; [lia|apply digits_printable]. Qed.
Lemma decode_printable s : printable s -> ReaderModel.decode s = Some s.
Proof.
  intros H. unfold ReaderModel.decode. assert (E : ReaderModel.urun ReaderModel.UStart s = Some ReaderModel.UStart).
  { induction H as [|c s Hc H IH]; [reflexivity|]. cbn [ReaderModel.urun ReaderModel.ustep]. replace (c <=? 127)%N with true by lia. exact IH. }
  now rewrite E.
Qed.
Lemma splitlines_printable s : printable s -> s <> [] -> ReaderModel.splitlines s = [s].
Proof.
  induction 1 as [|c s Hc H IH]; [congruence|]. intros _. cbn [ReaderModel.splitlines]. unfold ReaderModel.CR, ReaderModel.between.
  replace (c =? 13)%N with false by lia. replace (((10 <=? c) && (c <=? 12)) || ((28 <=? c) && (c <=? 30)))%N with false by lia.
  replace (c =? 194)%N with false by lia. replace (c =? 226)%N with false by lia.
  destruct s as [|d s]; [reflexivity|]. rewrite IH by discriminate. reflexivity.
Qed.
Lemma split_text ls : Forall printable ls -> ReaderProofs.split (text_of ls) = (ls, []).
Proof.
  induction 1 as [|l ls Hl H IH]; [reflexivity|]. cbn [text_of flat_map]. fold (text_of ls). rewrite <- app_assoc. cbn [app].
  induction Hl as [|c l Hc Hl IHl]; cbn [app ReaderProofs.split].
  - rewrite IH. reflexivity.
  - rewrite IHl. unfold ReaderModel.LF. replace (c =? 10)%N with false by lia. reflexivity.
Qed.
Lemma body_printable l : printable l -> ReaderProofs.body l = l.
Proof.
  intros H. unfold ReaderProofs.body. destruct (rev l) as [|c t] eqn:E.
  - apply (f_equal (@rev N)) in E. rewrite rev_involutive in E. now subst.
  - assert (X : In c l) by (apply in_rev; rewrite E; now left). unfold printable in H. rewrite Forall_forall in H. specialize (H c X).
    unfold ReaderModel.CR. replace (c =? 13)%N with false by lia. reflexivity.
Qed.
Lemma reader_lines ls threads n batch : Forall printable ls -> Forall (fun l => l <> []) ls -> threads > 0 -> n > 0 -> batch > 0 ->
  exists enough, forall fuel, enough < fuel ->
  exists batches, ReaderModel.iterate fuel batch false (ReaderModel.start threads n [text_of ls]) = (batches, ReaderModel.StopIteration) /\
    List.concat batches = ls.
Proof.
  intros HP HN T N B.
  assert (G : ReaderProofs.good_file (text_of ls)).
  { split; rewrite (split_text ls HP); [|now left]. cbn [fst]. rewrite Forall_forall in *. intros l Hl. exists l.
    split; [|now left]. split; [now apply HN|]. split; [now apply decode_printable, HP|]. apply splitlines_printable; auto. }
  assert (E : flat_map ReaderProofs.lines_of [text_of ls] = ls).
  { cbn [flat_map]. rewrite app_nil_r. unfold ReaderProofs.lines_of. rewrite (split_text ls HP). cbn [fst snd]. rewrite app_nil_r.
    rewrite <- (map_id ls) at 2. apply map_ext_in. intros l Hl. apply body_printable. rewrite Forall_forall in HP. now apply HP. }
  destruct (ReaderProofs.lines_lemma threads n batch false [text_of ls] T N B) as (full & last & (B1 & _ & B3) & R); [constructor; [exact G|constructor]|].
  rewrite E in *. exists (List.length ls + 1). intros fuel L. exists (ReaderProofs.given false full last). split; [now apply R|].
  unfold ReaderProofs.given. rewrite B1, concat_app. destruct last as [|x last]; cbn [List.concat]; now rewrite ?app_nil_r.
Qed.

(** *** The functions of the model write such lines *)
Lemma edge_text_line id t nb : edge_text id (show_int t) nb = edge_ln id (t, nb) ++ [newline].
Proof. unfold edge_text, edge_ln, edge_line. cbn [no_defaults d_type d_weight given time_columns all_columns d_feature_types d_feature_lens app fst snd]. reflexivity. Qed.
Lemma edges_text id t l : flat_map (edge_text id (show_int t)) l = text_of (map (edge_ln id) (map (pair t) l)).
Proof. induction l as [|b l IH]; [reflexivity|]. cbn [flat_map map text_of]. fold (text_of (map (edge_ln id) (map (pair t) l))). now rewrite edge_text_line, IH. Qed.
Definition out_of (tr te : list Z) : list (Z * Z) := map (pair 0%Z) (sort_by Z.leb tr) ++ map (pair 1%Z) (sort_by Z.leb te).
Lemma block_text id typ fs tr te : text_of (block_lines id typ fs (out_of tr te)) =
  node_ln id typ fs ++ [newline] ++ flat_map (edge_text id zero_text) (sort_by Z.leb tr) ++ flat_map (edge_text id single) (sort_by Z.leb te).
Proof.
  change zero_text with (show_int 0). change single with (show_int 1). rewrite !edges_text. unfold block_lines, out_of.
  change (node_ln id typ fs :: ?x) with ([node_ln id typ fs] ++ x). rewrite text_of_app, map_app, text_of_app. cbn [text_of flat_map].
  rewrite app_nil_r, <- !app_assoc. reflexivity.
Qed.
Lemma array_columns key vs b : columns 44 47 92 [] [] (UArray key vs b) = key :: show_int (Z.of_nat (List.length vs)) :: vs.
Proof. reflexivity. Qed.
