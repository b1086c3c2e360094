(** C82: text features become the tokens of the text.  See properties.jsonl. *)
From Coq Require Import QArith String.
From Verif Require Import Base Dist AttSpec TextModel TextSpec TextProofs TextEmbedProofs.
Local Open Scope list_scope.
Local Open Scope nat_scope.

(** Every text has words, and they are found. *)
Theorem C82_words : forall lower text,
  exists ws, separated (filter keep (lower text)) ws /\ words_of lower text = match ws with [] => [[]] | _ => ws end.
Proof. intros lower text. destruct (separated_exists (filter keep (lower text))) as (ws & H). exists ws. split; [exact H|now apply words_ok]. Qed.
Print Assumptions C82_words.

(** Cell (i, j) is the number of the j-th three letters of word i. *)
Theorem C82_triletter : forall lower lines sl nl text ws,
  separated (filter keep (lower text)) ws ->
  List.length (fst (triletter lower lines sl nl text)) = sl * nl /\
  List.length (snd (triletter lower lines sl nl text)) = sl /\
  (forall i j, i < sl -> j < nl -> cell_of lines ws i j (nth (i * nl + j) (fst (triletter lower lines sl nl text)) 0)) /\
  (forall i, i < sl -> nth i (snd (triletter lower lines sl nl text)) 0 = if i <? count_words ws then 1 else 0).
Proof. exact triletter_ok. Qed.
Print Assumptions C82_triletter.

Theorem C82_bert : forall encode sl text,
  List.length (fst (std_bert encode sl text)) = sl /\ List.length (snd (std_bert encode sl text)) = sl /\
  forall i, i < sl ->
    nth i (fst (std_bert encode sl text)) 0 = nth i (encode text) 0 /\
    nth i (snd (std_bert encode sl text)) 0 = if i <? List.length (encode text) then 1 else 0.
Proof. exact std_bert_ok. Qed.
Print Assumptions C82_bert.

(** A feature of [n] bytes gives the tokens of its text exactly if no character is cut. *)
Theorem C82_sentence_partial : forall tok text n, is_text text ->
  (boundary text n -> sentence tok (padded n text) = Ok (tok (strip blank (firstn n text)))) /\
  (~ boundary text n -> sentence tok (padded n text) = Fail EFatal).
Proof.
  intros tok text n H. split; [now apply sentence_padded|]. intros B.
  destruct (nth_error text n) as [c|] eqn:E; [|exfalso; apply B; intros c Hc; congruence].
  destruct (N.le_gt_cases 128 c) as [L|L]; [destruct (N.le_gt_cases c 191) as [R|R]|].
  - now apply (sentence_cut tok text n c).
  - exfalso. apply B. intros d Hd [_ X]. rewrite E in Hd. injection Hd as <-. now apply N.lt_nge in R.
  - exfalso. apply B. intros d Hd [X _]. rewrite E in Hd. injection Hd as <-. now apply N.lt_nge in L.
Qed.
Print Assumptions C82_sentence_partial.
Theorem C82_ascii : forall tok text n, ascii text -> sentence tok (padded n text) = Ok (tok (strip blank (firstn n text))).
Proof. intros tok text n H. apply sentence_padded; [now apply ascii_text|now apply ascii_boundary]. Qed.
Print Assumptions C82_ascii.

(** Contexts: every array of texts is replaced, nothing else is changed; it fails only for arrays
    that are not texts. *)
Theorem C82_context : forall tok a b,
  (forall s, List.length (fst (tok s)) = a /\ List.length (snd (tok s)) = b) ->
  forall c, well_formed c ->
  ((exists c', transform tok 0 UInt8 c = Ok c') <-> (forall path s d, at_path c path = Some (Bytes s d) -> texts s d)) /\
  (forall c', transform tok 0 UInt8 c = Ok c' -> forall path x, at_path c path = Some x -> tokenized tok a b x (at_path c' path)).
Proof. intros tok a b U c W. split; [now apply (tokenize_total tok a b)|now apply tokenize_result]. Qed.
Print Assumptions C82_context.

(** Tokens stored as features are the tokens of the texts stored as features. *)
Theorem C82_offline_partial : forall tok cfg n ts,
  (forall s, List.length (fst (tok s)) = (if is_triletter cfg then max_seq_len cfg * max_letters cfg else max_seq_len cfg) /\
             List.length (snd (tok s)) = max_seq_len cfg) ->
  0 < max_seq_len cfg -> 0 < n -> ts <> [] ->
  Forall (fun s => is_text s /\ List.length s <= n /\ strip blank s = s) ts ->
  exists dim, feature_dim Int64 cfg = Ok dim /\
    transform tok (max_seq_len cfg) Int64
      (Ints [List.length ts; dim] (List.concat (map (fun s => fst (tok s) ++ snd (tok s)) ts))) =
    transform tok (max_seq_len cfg) UInt8 (Bytes [List.length ts; n] (List.concat (map (padded n) ts))) /\
    exists c, transform tok (max_seq_len cfg) UInt8 (Bytes [List.length ts; n] (List.concat (map (padded n) ts))) = Ok c.
Proof.
  intros tok cfg n ts U Hs Hn Ht F. set (a := if is_triletter cfg then max_seq_len cfg * max_letters cfg else max_seq_len cfg) in *.
  exists (a + max_seq_len cfg). split; [unfold feature_dim, a; destruct (is_triletter cfg); f_equal; lia|].
  assert (M : map (firstn n) ts = ts).
  { clear - F. induction F as [|s ts (_ & L & _) F IH]; [reflexivity|]. cbn [map]. rewrite IH, firstn_all2 by exact L. reflexivity. }
  pose proof (extract_stored tok a (max_seq_len cfg) U Hs ts) as E.
  pose proof (tokenize_written tok a (max_seq_len cfg) U Hs n ts Ht Hn) as T. rewrite M in T.
  unfold stored in E. unfold written in T. cbn [transform]. rewrite E, T; [split; [reflexivity|eexists; reflexivity]|].
  eapply Forall_impl; [|exact F]. intros s (H1 & H2 & H3). split; [exact H1|]. rewrite firstn_all2 by exact H2. split; [|exact H3].
  intros c Hc. exfalso. assert (n < List.length s) by (apply nth_error_Some; congruence). lia.
Qed.
Print Assumptions C82_offline_partial.

(** A stored matrix of any width. *)
Theorem C82_stored_matrix : forall tok sl w (rows : list (list nat)), Forall (fun r => List.length r = w) rows ->
  transform tok sl Int64 (Ints [List.length rows; w] (List.concat rows)) =
  (if w <? sl then Fail EAssert
   else let k := match sl with 0 => 0 | S _ => w - sl end in
     Ok (Dict [(encoder_seq, Ints [List.length rows; k] (List.concat (map (firstn k) rows)));
               (encoder_mask, Ints [List.length rows; w - k] (List.concat (map (skipn k) rows)))])).
Proof. intros tok sl w rows F. exact (extract_matrix sl w rows F). Qed.
Print Assumptions C82_stored_matrix.
Example C82_stored_matrix_example : forall tok,
  transform tok 0 Int64 (Ints [2; 2] [5; 6; 7; 8]) = Ok (Dict [(encoder_seq, Ints [2; 0] []); (encoder_mask, Ints [2; 2] [5; 6; 7; 8])]) /\
  transform tok 3 Int64 (Ints [2; 2] [5; 6; 7; 8]) = Fail EAssert.
Proof. intros tok. split; vm_compute; reflexivity. Qed.

(** Embedding of a word: the sum of the vectors of its letters, and of its position. *)
Theorem C82_embedding : forall lower lines hidden nl sl table positions text ws,
  0 < nl -> separated (filter keep (lower text)) ws ->
  List.length lines < List.length table -> sl < List.length positions ->
  Forall (fun r => List.length r = hidden) table -> Forall (fun r => List.length r = hidden) positions ->
  (forall k, (cell table 0 k == 0)%Q) ->
  exists rows, embed hidden nl table positions (fst (triletter lower lines sl nl text)) = Ok rows /\ List.length rows = sl /\
    forall i k, i < sl -> k < hidden ->
      match nth_error (match ws with [] => [[35%N]] | _ => ws end) i with
      | Some w => exists id : nat -> nat, (forall j, j < Nat.min (List.length w) nl -> vocab_id lines (trigram w j) (id j)) /\
          (nth k (nth i rows []) 0 == qsum (fun j => cell table (id j) k) (seq 0 (Nat.min (List.length w) nl)) + cell positions (i + 1) k)%Q
      | None => (nth k (nth i rows []) 0 == cell positions (i + 1) k)%Q
      end.
Proof. exact embed_text. Qed.
Print Assumptions C82_embedding.

(** The pooler is a weighted mean over the tokens; without tokens, over the padding. *)
Theorem C82_pooler_partial : forall ex, good_exp ex -> forall inv m w hidden terms mask,
  List.length terms = List.length mask -> Forall (fun x => x = 0 \/ x = 1) mask -> In 1 mask ->
  (forall t, In t terms -> (- m <= w t <= m)%Q) -> (2 * m + 1000 <= inv)%Q ->
  exists v, pool ex inv w hidden terms mask = Ok v /\ forall k, k < hidden ->
    attends ex (filter (fun i => nth i mask 0 =? 1) (seq 0 (List.length terms))) (fun i => w (nth i terms []))
      (fun i => nth k (nth i terms []) 0%Q) (nth k v 0%Q).
Proof. intros ex G inv m w hidden terms mask H1 H2 H3 H4 H5. now apply (pool_ok ex G inv m). Qed.
Print Assumptions C82_pooler_partial.

(** ** Examples *)
Definition codes (s : string) : list N := map Ascii.N_of_ascii (list_ascii_of_string s).
Definition low (c : N) : N := if ((65 <=? c) && (c <=? 90))%N then (c + 32)%N else c.
Definition ascii_lower : list N -> list N := map low.
Definition NL : string := String (Ascii.ascii_of_nat 10) "".
Definition file : list (list N) := map codes ["#he" ++ NL; "hel" ++ NL; "ell" ++ NL; "wor" ++ NL; "###" ++ NL; NL; "#wo" ++ NL; "hel" ++ NL]%string.
(** "Hello, World": the line of "hel" is the last one, "orl" and "rld" are not known. *)
Example C82_hello :
  triletter ascii_lower file 3 4 (codes "  Hello,   World!") = ([1; 8; 3; 0; 7; 4; 0; 0; 0; 0; 0; 0], [1; 1; 0]) /\
  separated (filter keep (ascii_lower (codes "  Hello,   World!"))) [codes "hello"; codes "world"].
Proof.
  split; [vm_compute; reflexivity|].
  apply (sep_word (codes "  ") (codes "hello") (codes "   world")); [repeat constructor|discriminate|repeat (constructor; [discriminate|]); constructor|right; eexists; reflexivity|].
  apply (sep_word (codes "   ") (codes "world") []); [repeat constructor|discriminate|repeat (constructor; [discriminate|]); constructor|now left|].
  apply sep_end. constructor.
Qed.
Example C82_empty : triletter ascii_lower file 2 2 (codes "?!") = ([5; 0; 0; 0], [1; 0]).
Proof. vm_compute. reflexivity. Qed.
Definition tok32 := triletter ascii_lower file 3 2.
Example C82_nested :
  transform tok32 0 UInt8 (Dict [("inputs"%string, Ints [2] [5; 6]); ("encoder"%string, Dict [("feat"%string, Bytes [1; 2; 5] (codes "hello" ++ codes "a" ++ [0; 0; 0; 0]%N))])]) =
  Ok (Dict [("inputs"%string, Ints [2] [5; 6]);
            ("encoder"%string, Dict [("feat"%string, Dict [(encoder_seq, Ints [1; 2; 6] [1; 8; 0; 0; 0; 0; 0; 0; 0; 0; 0; 0]); (encoder_mask, Ints [1; 2; 3] [1; 0; 0; 1; 0; 0])])])]).
Proof. vm_compute. reflexivity. Qed.
Example C82_stored :
  transform tok32 3 Int64 (Ints [1; 9] [1; 8; 7; 4; 0; 0; 1; 1; 0]) =
  transform tok32 3 UInt8 (Bytes [1; 12] (codes "hello world" ++ [0]%N)).
Proof. vm_compute. reflexivity. Qed.

(** ** What does not hold *)
(** A feature that ends within a character: decode raises, the batch is lost. *)
Theorem C82_cut_refuted : exists text n, is_text text /\ List.length text = n + 1 /\ forall tok, sentence tok (padded n text) = Fail EFatal.
Proof. exists (codes "caf" ++ [195; 169]%N), 4. split; [reflexivity|]. split; reflexivity. Qed.
Print Assumptions C82_cut_refuted.
(** With int64 features every array of integers counts as tokens: node ids raise, a matrix of labels
    is cut in two. *)
Theorem C82_ids_refuted : exists c d,
  at_path c ["inputs"%string] = Some (Ints [4] [10; 11; 12; 13]) /\ (forall tok, transform tok 3 Int64 c = Fail EIndex) /\
  at_path d ["label"%string] = Some (Ints [1; 4] [0; 0; 1; 0]) /\
  forall tok, transform tok 3 Int64 d = Ok (Dict [("label"%string, Dict [(encoder_seq, Ints [1; 1] [0]); (encoder_mask, Ints [1; 3] [0; 1; 0])])]).
Proof.
  exists (Dict [("inputs"%string, Ints [4] [10; 11; 12; 13])]), (Dict [("label"%string, Ints [1; 4] [0; 0; 1; 0])]).
  split; [reflexivity|]. split; [reflexivity|]. split; [reflexivity|]. intros tok. vm_compute. reflexivity.
Qed.
Print Assumptions C82_ids_refuted.
(** Stored tokens of more than two dimensions, texts of one dimension. *)
Theorem C82_dimensions_refuted : exists c d,
  (forall tok, transform tok 1 Int64 c = Fail EFatal /\ transform tok 1 UInt8 d = Fail EIndex) /\
  c = Ints [2; 3; 2] (repeat 0 12) /\ d = Bytes [5] (codes "hello").
Proof. exists (Ints [2; 3; 2] (repeat 0 12)), (Bytes [5] (codes "hello")). split; [intros tok; vm_compute; now split|now split]. Qed.
Print Assumptions C82_dimensions_refuted.
(** Words on both sides of a tab, a line end or a hyphen become one word. *)
Theorem C82_tab_refuted : exists text, words_of ascii_lower text = [codes "graphsage"] /\ nth_error text 5 = Some 9%N.
Proof. exists (codes "graph" ++ [9%N] ++ codes "sage"). split; vm_compute; reflexivity. Qed.
Print Assumptions C82_tab_refuted.
(** A text without BERT tokens: all positions are padding, and the pooler takes their mean. *)
Theorem C82_no_tokens_refuted : exists encode sl, forall ex, good_exp ex -> forall inv w hidden terms, List.length terms = sl ->
  exists v, snd (std_bert encode sl []) = [0; 0] /\ pool ex inv w hidden terms (snd (std_bert encode sl [])) = Ok v /\
  forall k, k < hidden -> attends ex [0; 1] (fun i => w (nth i terms []) + (0 - 1) * inv)%Q (fun i => nth k (nth i terms []) 0%Q) (nth k v 0%Q).
Proof.
  exists (fun _ => []), 2. intros ex G inv w hidden terms L.
  destruct (pool_all ex G inv w hidden terms [0; 0]) as (v & E & A); [exact L|intros ->; discriminate|].
  exists v. split; [reflexivity|]. split; [exact E|]. intros k Hk. specialize (A k Hk). rewrite L in A.
  refine (AttProofs.attends_ext ex G _ _ _ _ _ _ _ _ _ _ A); [|reflexivity|reflexivity].
  intros j [<-|[<-|[]]]; reflexivity.
Qed.
Print Assumptions C82_no_tokens_refuted.
