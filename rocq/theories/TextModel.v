(** Text features: src/python/deepgnn/pytorch/encoding/twinbert/tokenization.py,
    pytorch/encoding/feature_encoder.py (TwinBERTFeatureEncoder), twinbert/embedding.py and
    twinbert/pooler.py.

    A Python str is identified with its UTF-8 encoding, as in ReaderModel.v.  Bytes of characters
    beyond ASCII are above 127, so a regular expression over ASCII characters acts on bytes.
    str.lower is the argument [lower], BertTokenizer.encode the argument [encode].  The lines of the
    vocabulary are given with their line ends.  numpy arrays are a shape and the flat data. *)
From Coq Require Import QArith String.
From Verif Require Import Base Dist AliasModel AttModel.
From Verif Require ReaderModel.
Local Open Scope list_scope.
Local Open Scope nat_scope.

Definition SPACE : N := 32%N.
Definition HASH : N := 35%N.

(** ** Strings *)
Fixpoint lstrip (p : N -> bool) (l : list N) : list N :=
  match l with [] => [] | c :: t => if p c then lstrip p t else l end.
Definition strip (p : N -> bool) (l : list N) : list N := rev (lstrip p (rev (lstrip p l))).
(** feature_encoder.py 140: strip("\0 \t\n"). *)
Definition blank (c : N) : bool := (c =? 0)%N || (c =? 32)%N || (c =? 9)%N || (c =? 10)%N.
(** tokenization.py 32: strip("\r\n"). *)
Definition line_end (c : N) : bool := (c =? 13)%N || (c =? 10)%N.
(** tokenization.py 24: what "[^a-zA-Z0-9 ]" does not match. *)
Definition valid (c : N) : bool :=
  ReaderModel.between 97 122 c || ReaderModel.between 65 90 c || ReaderModel.between 48 57 c || (c =? SPACE)%N.
Definition is_space (c : N) : bool := (c =? SPACE)%N.
(** 25 and 41: every run of two or more spaces becomes one space. *)
Fixpoint squeeze (l : list N) : list N :=
  match l with
  | [] => []
  | c :: t => if is_space c && match t with d :: _ => is_space d | [] => false end then squeeze t else c :: squeeze t
  end.
(** str.split(" ") *)
Fixpoint split_space (l : list N) : list (list N) :=
  match l with
  | [] => [[]]
  | c :: t => if is_space c then [] :: split_space t else ReaderModel.cons_line c (split_space t)
  end.
Definition beq (a b : list N) : bool := if list_eq_dec N.eq_dec a b then true else false.

Section Tokenizers.
Variable lower : list N -> list N.

(** ** TriLetterTokenizer *)
(** 28-36 _init_lg3_dict: the dictionary, the newest entry first. *)
Fixpoint vocab_from (i : nat) (lines : list (list N)) (d : list (list N * nat)) : list (list N * nat) :=
  match lines with
  | [] => d
  | l :: t =>
      let token := strip line_end l in
      vocab_from (S i) t (match token with [] => d | _ => (token, i + 1) :: d end)
  end.
Definition vocab (lines : list (list N)) : list (list N * nat) := vocab_from 0 lines [].
Definition lookup (d : list (list N * nat)) (s : list N) : option nat :=
  match find (fun e => beq (fst e) s) d with Some e => Some (snd e) | None => None end.

(** 46-60 _from_words_to_id_sequence *)
Definition framed (w : list N) : list N := [HASH] ++ (match w with [] => [HASH] | _ => w end) ++ [HASH].
Definition one_letter (d : list (list N * nat)) (nl i : nat) (word : list N) (seq : list nat) (j : nat) : list nat :=
  match lookup d (firstn 3 (skipn j word)) with Some n => set_nth seq (i * nl + j) n | None => seq end.
Definition one_word (d : list (list N * nat)) (nl : nat) (words : list (list N)) (st : list nat * list nat) (i : nat)
    : list nat * list nat :=
  let word := framed (nth i words []) in
  let n := Nat.min (List.length word - 2) nl in
  (fold_left (one_letter d nl i word) (seq 0 n) (fst st), set_nth (snd st) i 1).
Definition from_words (d : list (list N * nat)) (words : list (list N)) (sl nl : nat) : list nat * list nat :=
  fold_left (one_word d nl words) (seq 0 (Nat.min (List.length words) sl)) (repeat 0 (sl * nl), repeat 0 sl).

(** 38-44 extract_from_sentence *)
Definition words_of (text : list N) : list (list N) :=
  split_space (strip is_space (squeeze (filter valid (lower text)))).
Definition triletter (lines : list (list N)) (sl nl : nat) (text : list N) : list nat * list nat :=
  from_words (vocab lines) (words_of text) sl nl.

(** ** StdBertTokenizer 9-16; [encode] is BertTokenizer.encode without special tokens. *)
Variable encode : list N -> list nat.
Definition std_bert (sl : nat) (text : list N) : list nat * list nat :=
  let ret := encode text in
  let n := Nat.min sl (List.length ret) in
  (firstn n ret ++ skipn n (repeat 0 sl), repeat 1 n ++ skipn n (repeat 0 sl)).
End Tokenizers.

(** ** TwinBERTFeatureEncoder *)
(** Values of a context: dictionaries, arrays of bytes (uint8, int8), arrays of integers (uint64,
    int64) and all others. *)
Inductive ctx :=
| Dict (l : list (string * ctx))
| Bytes (shape : list nat) (data : list N)
| Ints (shape : list nat) (data : list nat)
| Other (id : nat).
Definition encoder_seq : string := "encoder_seq".
Definition encoder_mask : string := "encoder_mask".
Definition prod (l : list nat) : nat := fold_left Nat.mul l 1.
(** shape[:-1] and shape[-1] *)
Fixpoint unsnoc (l : list nat) : option (list nat * nat) :=
  match l with
  | [] => None
  | [x] => Some ([], x)
  | x :: t => match unsnoc t with Some (a, b) => Some (x :: a, b) | None => None end
  end.
(** np.reshape: the number of elements must agree. *)
Definition reshape (shape : list nat) (data : list nat) : res ctx :=
  if prod shape =? List.length data then Ok (Ints shape data) else Fail EFatal.
(** np.asarray of a list of lists: the shape after the first dimension and the flat data. *)
Definition as_array (rows : list (list nat)) : res (list nat * list nat) :=
  match rows with
  | [] => Ok ([], [])
  | r :: _ => if forallb (fun x => List.length x =? List.length r) rows then Ok ([List.length r], List.concat rows) else Fail EFatal
  end.

Section Encoder.
(** _tokenize_single_sentence *)
Variable tok : list N -> list nat * list nat.

(** 134-142: bytes to text and tokens. *)
Definition sentence (row : list N) : res (list nat * list nat) :=
  match ReaderModel.decode row with Some s => Ok (tok (strip blank s)) | None => Fail EFatal end.
(** 126-159 *)
Definition tokenize_array (shape : list nat) (data : list N) : res ctx :=
  match unsnoc shape with
  | None => Fail EIndex
  | Some ([], _) => Fail EIndex
  | Some (pre, n) =>
      do rows <- (if n =? 0 then Ok (repeat (tok []) (prod pre)) else mapM sentence (chunks n (List.length data / n) data)) ;;
      do s <- as_array (map fst rows) ;;
      do m <- as_array (map snd rows) ;;
      do seq <- reshape (pre ++ fst s) (snd s) ;;
      do msk <- reshape (pre ++ fst m) (snd m) ;;
      Ok (Dict [(encoder_seq, seq); (encoder_mask, msk)])
  end.
(** 115-159 *)
Fixpoint tokenize (c : ctx) : res ctx :=
  match c with
  | Dict l =>
      do l' <- (fix go (l : list (string * ctx)) : res (list (string * ctx)) :=
                  match l with
                  | [] => Ok []
                  | (k, x) :: t => do y <- tokenize x ;; do r <- go t ;; Ok ((k, y) :: r)
                  end) l ;;
      Ok (Dict l')
  | Bytes shape data => tokenize_array shape data
  | x => Ok x
  end.

(** 161-182: data[:, :-max_seq_len] and data[:, -max_seq_len:] cut the second dimension; for a
    matrix that is the last one. *)
Variable sl : nat.
Definition cut_rows (sl w : nat) (rows : list (list nat)) : list (list nat) * list (list nat) :=
  if sl =? 0 then (map (fun _ => []) rows, rows)
  else (map (firstn (w - sl)) rows, map (skipn (w - sl)) rows).
Definition extract_array (shape : list nat) (data : list nat) : res ctx :=
  match unsnoc shape with
  | None => Fail EIndex
  | Some (pre, n) =>
      if n <? sl then Fail EAssert
      else
        match shape with
        | rows :: w :: rest =>
            let '(a, b) := cut_rows (sl * prod rest) (w * prod rest) (chunks (w * prod rest) rows data) in
            let keep := if sl =? 0 then 0 else w - sl in
            do seq <- reshape (pre ++ keep :: rest) (List.concat a) ;;
            do msk <- reshape (pre ++ (if sl =? 0 then w else Nat.min sl w) :: rest) (List.concat b) ;;
            Ok (Dict [(encoder_seq, seq); (encoder_mask, msk)])
        | _ => Fail EIndex
        end
  end.
Fixpoint extract (c : ctx) : res ctx :=
  match c with
  | Dict l =>
      do l' <- (fix go (l : list (string * ctx)) : res (list (string * ctx)) :=
                  match l with
                  | [] => Ok []
                  | (k, x) :: t => do y <- extract x ;; do r <- go t ;; Ok ((k, y) :: r)
                  end) l ;;
      Ok (Dict l')
  | Ints shape data => extract_array shape data
  | x => Ok x
  end.

(** 184-193 transform *)
Inductive ftype := UInt8 | Int64 | Float32.
Definition transform (t : ftype) (c : ctx) : res ctx :=
  match t with UInt8 => tokenize c | Int64 => extract c | Float32 => Fail EFatal end.
End Encoder.

(** 96-107 get_feature_dim *)
Record config := Cfg { max_seq_len : nat; max_sent_chars : nat; is_triletter : bool; max_letters : nat }.
Definition feature_dim (t : ftype) (c : config) : res nat :=
  match t with
  | UInt8 => Ok (max_sent_chars c)
  | Int64 => Ok (if is_triletter c then max_seq_len c * (max_letters c + 1) else max_seq_len c * 2)
  | Float32 => Fail EFatal
  end.

(** ** TriletterEmbeddings.forward (embedding.py 19-42) for one row of the batch; the tables are
    lists of vectors of [hidden] numbers. *)
Definition vadd (a b : list Q) : list Q := zip_with Qplus a b.
Definition vsum (hidden : nat) (l : list (list Q)) : list Q := fold_left vadd l (repeat 0%Q hidden).
Definition embed (hidden nl : nat) (table positions : list (list Q)) (ids : list nat) : res (list (list Q)) :=
  if nl =? 0 then Fail EFatal
  else
    let sl := List.length ids / nl in
    do pos <- mapM (fun i => item positions (i + 1)) (seq 0 sl) ;;
    do e <- mapM (item table) ids ;;
    if sl * nl =? List.length ids
    then Ok (zip_with vadd (map (vsum hidden) (chunks nl sl e)) pos)
    else Fail EFatal.

(** ** WeightPooler.forward (pooler.py 16-22) for one row; [w] is nn.Linear(hidden, 1), [inv] is one
    over weight_factor. *)
Definition pool (ex : Q -> Q) (inv : Q) (w : list Q -> Q) (hidden : nat) (terms : list (list Q)) (mask : list nat) : res (list Q) :=
  if List.length terms =? List.length mask then
    Ok (weighted hidden (combine terms (softmax ex (zip_with (fun t m => (w t + (qnat m - 1) * inv)%Q) terms mask))))
  else Fail EFatal.
