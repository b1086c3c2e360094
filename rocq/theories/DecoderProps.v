(** C43, C44, C61 and C62: what the text decoders hand to the writer. *)
From Coq Require Import Permutation Sorting.Sorted String Ascii.
From Verif Require Import Base WriterModel LoaderModel GraphModel GraphSpec LoaderProofs AnswerProofs Float32 Demo SetupModel SetupProps
  DecoderModel DecoderProofs.
Import ListNotations.

(** ** C43: escapes in edge lists *)

(** Full statement: every text.  [holdable]: neither the text nor any part of it before a
    delimiter ends in an odd number of escapes.  The text is one field, what follows is not
    shifted. *)
Theorem C43_text_partial :
  forall (conv : str -> list str -> res (list N)) delim esc s tail, delim <> esc -> holdable delim esc s ->
  get_feature conv delim esc binary_key [1%Z] (split delim (escape delim esc s ++ delim :: tail)) = Ok (FText s, split delim tail) /\
  get_feature conv delim esc binary_key [1%Z] (split delim (escape delim esc s)) = Ok (FText s, []).
Proof. exact text_field_any. Qed.
Print Assumptions C43_text_partial.

(** No line whatsoever is read as another text. *)
Theorem C43_only_holdable :
  forall (conv : str -> list str -> res (list N)) delim esc line s rest, delim <> esc ->
  get_feature conv delim esc binary_key [1%Z] (split delim line) = Ok (FText s, rest) -> holdable delim esc s.
Proof. exact text_field_only. Qed.
Print Assumptions C43_only_holdable.

(** With escapes escaped as well fields are never shifted, but the escapes stay doubled. *)
Theorem C43_doubled :
  forall (conv : str -> list str -> res (list N)) delim esc s tail, delim <> esc ->
  get_feature conv delim esc binary_key [1%Z] (split delim (escape delim esc (double esc s) ++ delim :: tail)) =
    Ok (FText (double esc s), split delim tail).
Proof. intros conv delim esc s tail H. apply (text_field_any conv); [exact H|now apply double_holdable]. Qed.
Print Assumptions C43_doubled.

Definition no_conv (k : str) (l : list str) : res (list N) := Fail EFatal.
Theorem C43_escape_refuted :
  exists delim esc s, delim <> esc /\
    (forall (conv : str -> list str -> res (list N)) line rest, get_feature conv delim esc binary_key [1%Z] (split delim line) <> Ok (FText s, rest)) /\
    get_feature no_conv delim esc binary_key [1%Z] (split delim (escape delim esc (double esc s))) = Ok (FText (double esc s), []) /\
    double esc s <> s.
Proof.
  exists 44%N, 92%N, (text "a\"). split; [discriminate|]. split; [|split; [reflexivity|discriminate]].
  intros conv line rest H. apply C43_only_holdable in H; [|discriminate]. destruct H as [H _]. discriminate.
Qed.
Print Assumptions C43_escape_refuted.

(** Whole lines, whichever columns the decoder has defaults for.  Hypotheses of the
    [_partial]: texts are [holdable]; delimiters are not part of numbers or names; a default
    agrees with the value, a type other than -1 where it comes second. *)
Theorem C43_node_line_partial :
  forall conv pfloat delim ldelim esc dn de temporal dc dr id typ w wb c r fs,
  delim <> esc -> delim <> ldelim -> plain delim -> plain ldelim ->
  List.length (d_feature_lens dn) = List.length (d_feature_types dn) -> ~ In delim binary_key -> Forall (feature_ok conv delim esc) fs ->
  defaults_ok (d_feature_types dn) (d_feature_lens dn) fs ->
  agrees (d_type dn) typ -> weight_ok pfloat delim (d_weight dn) w wb -> agrees dc c -> agrees dr r ->
  decode_line conv pfloat delim ldelim esc dn de temporal dc dr (node_line delim ldelim esc dn temporal dc dr id typ w c r fs) =
  Ok [Decoded id (-1) typ wb (times_of temporal dc c) (times_of temporal dr r) (List.map meaning fs)].
Proof. intros; now apply node_line_decoded. Qed.
Print Assumptions C43_node_line_partial.
Theorem C43_edge_line_partial :
  forall conv pfloat delim ldelim esc dn de temporal dc dr src typ dst w wb c r fs,
  delim <> esc -> delim <> ldelim -> plain delim -> plain ldelim ->
  List.length (d_feature_lens de) = List.length (d_feature_types de) -> ~ In delim binary_key -> Forall (feature_ok conv delim esc) fs ->
  defaults_ok (d_feature_types de) (d_feature_lens de) fs ->
  agrees (d_type de) typ -> weight_ok pfloat delim (d_weight de) w wb -> agrees dc c -> agrees dr r ->
  match d_type de with None => typ | Some _ => dst end <> (-1)%Z ->
  decode_line conv pfloat delim ldelim esc dn de temporal dc dr (edge_line delim ldelim esc de temporal dc dr src typ dst w c r fs) =
  Ok [Decoded src dst typ wb (times_of temporal dc c) (times_of temporal dr r) (List.map meaning fs)].
Proof. intros; now apply edge_line_decoded. Qed.
Print Assumptions C43_edge_line_partial.

(** A conversion for the examples: the numbers themselves. *)
Definition nums (k : str) (l : list str) : res (list N) :=
  mapM (fun w => do z <- parse_int w ;; Ok (Z.to_N z)) l.
Definition num (w : str) : res N := do z <- parse_int w ;; Ok (Z.to_N z).
Definition no_defaults : defaults := Defaults None None [] [].
Example C43_case :
  text "7,-1,2,5,10,-1,binary,1,a\,b\\\,,int32,2,3,4,float,2/1,0,6,8,9,uint8,0" =
    node_line 44 47 92 no_defaults true None None 7 2 (text "5") 10 (-1)
      [UText (text "a,b\\,"); UArray (text "int32") [text "3"; text "4"] [3; 4]%N;
       USparse (text "float") 1 [text "0"; text "6"] [text "8"; text "9"] [0; 6]%N [8; 9]%N; UNone (text "uint8")] /\
  decode_line nums num 44 47 92 no_defaults no_defaults true None None
    (text "7,-1,2,5,10,-1,binary,1,a\,b\\\,,int32,2,3,4,float,2/1,0,6,8,9,uint8,0") =
  Ok [Decoded 7 (-1) 2 5 (Some 10%Z) (Some (-1)%Z)
        [FText (text "a,b\\,"); FArray [3; 4]%N; FSparse 1 [0; 6]%N [8; 9]%N; FNone]].
Proof. split; vm_compute; reflexivity. Qed.
Definition edge_defaults := Defaults (Some 3%Z) None [Some binary_key; None; Some (text "int32")] [Some [1%Z]; Some [2%Z]; None].
Example C43_edge_case :
  text "7,8,5,20,a\,b,float,6,7,1,4,uint8,0" = edge_line 44 47 92 edge_defaults true (Some 9%Z) None 7 3 8 (text "5") 9 20
    [UText (text "a,b"); UArray (text "float") [text "6"; text "7"] [6; 7]%N; UArray (text "int32") [text "4"] [4]%N; UNone (text "uint8")] /\
  decode_line nums num 44 47 92 no_defaults edge_defaults true (Some 9%Z) None (text "7,8,5,20,a\,b,float,6,7,1,4,uint8,0") =
  Ok [Decoded 7 8 3 5 (Some 9%Z) (Some 20%Z) [FText (text "a,b"); FArray [6; 7]%N; FArray [4]%N; FNone]].
Proof. split; vm_compute; reflexivity. Qed.

(** An edge without a default type whose type is -1 is read as a node: the type column comes
    second. *)
Example C43_minus_one : decode_line nums num 44 47 92 no_defaults no_defaults false None None (text "7,-1,8,5") =
  Ok [Decoded 7 (-1) 8 5 None None []].
Proof. vm_compute. reflexivity. Qed.

(** ** C44: order of JSON edges *)

(** The node, then every edge once. *)
Theorem C44_all_once :
  forall j, exists n es, json_decode j = n :: es /\ rsrc n = jn_id j /\ rdst n = (-1)%Z /\
    Permutation (map (fun e => (rsrc e, rdst e, rtyp e, rweight e, rfeats e)) es)
      (map (fun e => (je_src e, je_dst e, je_typ e, je_weight e, pull_features (je_feats e))) (jn_edges j)) /\
    StronglySorted (fun a b => (rtyp a <= rtyp b)%Z) es.
Proof.
  intro j. eexists _, _. split; [reflexivity|]. split; [reflexivity|]. split; [reflexivity|].
  split; [|exact (json_types j)]. rewrite map_map. cbn. now apply Permutation_map, sort_by_perm.
Qed.
Print Assumptions C44_all_once.

(** Full statement: without [timed] (every edge has both times).  [record_le] is the order of
    the statement on what is handed to the writer: type, creation, removal (never last),
    destination. *)
Theorem C44_sorted_partial : forall j, Forall timed (jn_edges j) -> StronglySorted record_le (tl (json_decode j)).
Proof. exact json_sorted. Qed.
Print Assumptions C44_sorted_partial.

(** The writer's assertions hold unless an edge is outside the life of its node. *)
Theorem C44_accepted :
  forall wval temporal j s,
  Forall (within_node j) (jn_edges j) -> Forall (fun e => je_dst e <> -1)%Z (jn_edges j) ->
  add_batch wval temporal (json_decode j) s <> Fail EAssert.
Proof. exact json_accepted. Qed.
Print Assumptions C44_accepted.

Definition jdemo := JN 1 0 one None None []
  [JE 1 5 1 one (Some 3) (Some 9) []; JE 1 4 0 one (Some 3) (Some (-1)) []; JE 1 3 0 one (Some 3) (Some 7) [];
   JE 1 2 0 one (Some 3) (Some (-1)) []; JE 1 9 0 one (Some 1) (Some (-1)) []]%Z.
Example C44_case : map rdst (json_decode jdemo) = [-1; 9; 3; 2; 4; 5]%Z /\ Forall timed (jn_edges jdemo) /\ Forall (within_node jdemo) (jn_edges jdemo).
Proof.
  split; [vm_compute; reflexivity|]. split; repeat constructor; cbn; try discriminate; try lia.
Qed.

(** An edge without removal time is sorted as removed at 0 although it lives as long as its
    node: the order is wrong and the loaded graph counts an edge that it does not return. *)
Definition junsorted := JN 1 0 one None (Some 10%Z) []
  [JE 1 2 0 one (Some 0) None []; JE 1 3 0 one (Some 0) (Some 2) []]%Z.
Theorem C44_defaults_refuted :
  exists j t, let g := load_of (Some 10%Z) [[json_decode j]] in
    ~ StronglySorted record_le (tl (json_decode j)) /\
    converted f32_add wv (Some 10%Z) [[json_decode j]] g /\
    neighbor_counts g [jn_id j] [0%Z] (Some [t]) = Ok [2] /\
    (do x <- neighbors f32_sub g [jn_id j] [0%Z] (Some [t]) ;; Ok (snd x)) = Ok [1].
Proof.
  exists junsorted, 3%Z. cbv zeta. split; [|split; [apply load_of_converted; vm_compute; reflexivity|split; vm_compute; reflexivity]].
  intro H. apply StronglySorted_inv in H. destruct H as [_ H]. apply Forall_inv in H. vm_compute in H.
  destruct H as [H|[_ [H|[_ [[H _]|[H _]]]]]]; try discriminate H; now apply H.
Qed.
Print Assumptions C44_defaults_refuted.

(** ** C61: features are placed at their index *)
Theorem C61_features :
  forall {A} (dicts : list (list (nat * A))) i, nth i (pull_features dicts) None = last_for i (List.concat dicts).
Proof. intros. apply pull_features_nth. Qed.
Print Assumptions C61_features.
Theorem C61_length :
  forall {A} (dicts : list (list (nat * A))),
  List.length (pull_features dicts) = list_max (List.map (fun kv => S (fst kv)) (List.concat dicts)).
Proof. intros. apply pull_features_length. Qed.
Print Assumptions C61_length.
Example C61_case : pull_features [[(4, 40); (1, 10)]; [(2, 20); (1, 11)]] = [None; Some 11; Some 20; None; Some 40].
Proof. reflexivity. Qed.

(** ** C62: TSV lines *)

(** Full statement: for every line of the documented format.  Proved for the lines that are
    read at all. *)
Theorem C62_edges_partial :
  forall conv pfloat line x es, tsv_decode conv pfloat line = Ok (x :: es) ->
  x_dst x = (-1)%Z /\ Forall (fun e => x_src e = x_src x) es /\
  StronglySorted tle (List.map (fun e => (x_typ e, x_dst e)) es) /\
  exists es', mapM (tsv_edge conv pfloat (x_src x))
                (match column (split 9 line) 4 with [] => [] | ns => split 124 ns end) = Ok es' /\ Permutation es es'.
Proof. exact tsv_decoded. Qed.
Print Assumptions C62_edges_partial.

(** Lines whose neighbors have a type column of their own, features of the types that are
    known, absent values and columns allowed. *)
Theorem C62_line_partial :
  forall conv pfloat id tw t w wb fs ns,
  int_column tw t -> blank_or pfloat w wb -> Forall (tfeature_ok conv) fs -> fs <> [TAbsent] ->
  ~ In 9%N w -> ~ In 9%N (join 59 (List.map tfeature_text fs)) -> Forall (tn_ok conv pfloat) ns ->
  exists es, tsv_decode conv pfloat (join 9 [show_int id; tw; w; join 59 (List.map tfeature_text fs); join 124 (List.map tn_text ns)]) =
    Ok (Decoded id (-1) t wb None None (List.map tmeaning fs) :: es) /\
    Permutation es (List.map (tn_edge id) ns) /\ StronglySorted tle (List.map (fun e => (x_typ e, x_dst e)) es).
Proof. exact tsv_line_read. Qed.
Print Assumptions C62_line_partial.

Definition tab : string := String (ascii_of_nat 9) EmptyString.
Definition tsv_line (a b c d e : string) : str := text (a ++ tab ++ b ++ tab ++ c ++ tab ++ d ++ tab ++ e).
Example C62_case :
  tsv_decode nums num (tsv_line "1" "0" "5" "i32:7 8;b:xyz;;u8:3" "4,1,2|3,1,6,f:9|9,0,1") =
  Ok [Decoded 1 (-1) 0 5 None None [FArray [7; 8]%N; FText (text "xyz"); FNone; FArray [3]%N];
      Decoded 1 9 0 1 None None []; Decoded 1 3 1 6 None None [FArray [9]%N]; Decoded 1 4 1 2 None None []].
Proof. vm_compute. reflexivity. Qed.

Example C62_line_case :
  tsv_line "1" "0" "5" "i32:7 8;b:xyz;;u8:3" "4,1,2,|3,1,6,f:9|9,0,1," =
  join 9 [show_int 1; show_int 0; text "5";
    join 59 (List.map tfeature_text [TNumber (text "i") (text "32") [text "7"; text "8"] [7; 8]%N; TText (text "xyz"); TAbsent;
                                     TNumber (text "u") (text "8") [text "3"] [3]%N]);
    join 124 (List.map tn_text [TN 4 1 (text "2") 2 []; TN 3 1 (text "6") 6 [TNumber (text "f") [] [text "9"] [9]%N]; TN 9 0 (text "1") 1 []])].
Proof. vm_compute. reflexivity. Qed.

(** The documented feature "i:1 2 3" is a KeyError whatever else is on the line. *)
Theorem C62_int_refuted : forall conv pfloat, tsv_decode conv pfloat (tsv_line "1" "0" "" "i:1 2 3" "") = Fail EIndex.
Proof. intros. reflexivity. Qed.
Print Assumptions C62_int_refuted.

(** The documented neighbor "2,0,3,1,f:5 6" has five columns: the label is read as the
    features, and the features are ignored. *)
Theorem C62_label_refuted :
  forall conv, tsv_decode conv num (tsv_line "1" "0" "" "" "2,0,3,1,f:5 6") =
    Ok [Decoded 1 (-1) 0 0 None None []; Decoded 1 2 0 3 None None [FNone]].
Proof. intros. vm_compute. reflexivity. Qed.
Print Assumptions C62_label_refuted.

(** A neighbor without a type column is an IndexError although a missing type is 0. *)
Theorem C62_no_type_refuted : forall conv pfloat,
  tsv_decode conv pfloat (tsv_line "1" "0" "" "" "2") = Fail EIndex /\
  tsv_edge conv pfloat 1 (text "2") = Ok (Decoded 1 2 0 0 None None []).
Proof. intros. split; vm_compute; reflexivity. Qed.
Print Assumptions C62_no_type_refuted.

(** An unknown type letter is taken for the type of the feature before. *)
Theorem C62_letter_refuted :
  tsv_decode nums num (tsv_line "1" "0" "" "i32:7;x:8" "") = Ok [Decoded 1 (-1) 0 0 None None [FArray [7]%N; FArray [8]%N]].
Proof. vm_compute. reflexivity. Qed.
Print Assumptions C62_letter_refuted.
