(** Decoders of the text formats: /repo/src/python/deepgnn/graph_engine/snark/decoders.py
    (EdgeListDecoder 188-296, JsonDecoder._pull_features 356-386 and decode 388-437,
    TsvDecoder 465-556).  Text is a list of code points; delimiters and the escape are single
    characters.  numpy's conversion of texts to numbers ([conv]) and float() ([pfloat]) are
    arguments; int() accepts an optional minus sign and decimal digits between blanks
    (underscores and plus signs are left out).  json.loads and csv.reader are not modelled: a
    JSON line is the parsed record, a TSV line has no quote characters. *)
From Coq Require Import Decimal DecimalZ DecimalPos.
From Verif Require Import Base WriterModel SetupModel.

(** str.split(d) and d.join *)
Fixpoint split (d : N) (s : str) : list str :=
  match s with
  | [] => [[]]
  | c :: s' =>
      if (c =? d)%N then [] :: split d s'
      else match split d s' with [] => [[c]] | w :: ws => (c :: w) :: ws end
  end.
Fixpoint join (d : N) (l : list str) : str :=
  match l with
  | [] => []
  | w :: l' => match l' with [] => w | _ => w ++ d :: join d l' end
  end.

(** str.strip() *)
Definition blank (c : N) : bool := ((c =? 32) || ((9 <=? c) && (c <=? 13)))%N.
Fixpoint lstrip (s : str) : str := match s with c :: s' => if blank c then lstrip s' else s | [] => [] end.
Definition strip (s : str) : str := rev (lstrip (rev (lstrip s))).

(** int() and its inverse. *)
Fixpoint digits (u : uint) : str :=
  match u with
  | Nil => []
  | D0 u => 48%N :: digits u | D1 u => 49%N :: digits u | D2 u => 50%N :: digits u
  | D3 u => 51%N :: digits u | D4 u => 52%N :: digits u | D5 u => 53%N :: digits u
  | D6 u => 54%N :: digits u | D7 u => 55%N :: digits u | D8 u => 56%N :: digits u
  | D9 u => 57%N :: digits u
  end.
Fixpoint undigits (s : str) : option uint :=
  match s with
  | [] => Some Nil
  | c :: s' =>
      match undigits s' with
      | None => None
      | Some u =>
          match c with
          | 48%N => Some (D0 u) | 49%N => Some (D1 u) | 50%N => Some (D2 u) | 51%N => Some (D3 u)
          | 52%N => Some (D4 u) | 53%N => Some (D5 u) | 54%N => Some (D6 u) | 55%N => Some (D7 u)
          | 56%N => Some (D8 u) | 57%N => Some (D9 u) | _ => None
          end
      end
  end.
Definition show_int (z : Z) : str :=
  match Z.to_int z with Pos u => digits u | Neg u => 45%N :: digits u end.
Definition parse_int (s : str) : res Z :=
  match strip s with
  | [] => Fail EFatal
  | 45%N :: s' =>
      match s' with
      | [] => Fail EFatal
      | _ => match undigits s' with Some u => Ok (Z.of_int (Neg u)) | None => Fail EFatal end
      end
  | s' => match undigits s' with Some u => Ok (Z.of_int (Pos u)) | None => Fail EFatal end
  end.

(** A decoded feature: absent, text, array, or coordinates (their second dimension, 0 for
    flat) with values. *)
Inductive feature :=
| FNone
| FText (s : str)
| FArray (bytes : list N)
| FSparse (dim : nat) (coords values : list N).

(** ** EdgeListDecoder *)
Section EdgeList.
Variable conv : str -> list str -> res (list N).
Variable pfloat : str -> res N.
Variables delim ldelim esc : N.

(** output.replace(esc + esc, "") *)
Fixpoint strip_pairs (s : str) : str :=
  match s with
  | a :: r =>
      match r with
      | b :: t => if (a =? esc)%N && (b =? esc)%N then strip_pairs t else a :: strip_pairs r
      | [] => s
      end
  | [] => []
  end.
(** _str_get(..., -1) == escape *)
Definition ends_escaped (s : str) : bool :=
  match rev (strip_pairs s) with c :: _ => (c =? esc)%N | [] => false end.
(** The while loop of _get_feature 211-220; [data] is the rest of the iterator. *)
Fixpoint join_text (output : str) (data : list str) : str * list str :=
  if ends_escaped output then
    match data with
    | [] => (removelast output, [])
    | w :: data' => join_text (removelast output ++ delim :: w) data'
    end
  else (output, data).

(** np.fromiter(data, count): ValueError when the iterator is too short.  Negative lengths
    are not modelled. *)
Definition take (n : nat) (data : list str) : res (list str * list str) :=
  if length data <? n then Fail EFatal else Ok (firstn n data, skipn n data).

Definition binary_key : str := [98; 105; 110; 97; 114; 121]%N.
Definition int64_key : str := [105; 110; 116; 54; 52]%N.
Definition get_feature (key : str) (len : list Z) (data : list str) : res (feature * list str) :=
  if existsb (fun z => z <? 0)%Z len then Fail EFatal else
  match len with
  | [] => Fail EIndex
  | n :: rest =>
      if (n =? 0)%Z then Ok (FNone, data)
      else match rest with
      | [dim] =>
          do c <- take (Z.to_nat n * Nat.max (Z.to_nat dim) 1) data ;;
          do cs <- conv int64_key (fst c) ;;
          do v <- take (Z.to_nat n) (snd c) ;;
          do vs <- conv key (fst v) ;;
          Ok (FSparse (Z.to_nat dim) cs vs, snd v)
      | _ :: _ => Fail EFatal
      | [] =>
          if (n =? 1)%Z && str_eqb key binary_key then
            match data with
            | [] => Fail EFatal
            | w :: data' => let r := join_text w data' in Ok (FText (fst r), snd r)
            end
          else
            do v <- take (Z.to_nat n) data ;;
            do vs <- conv key (fst v) ;;
            Ok (FArray vs, snd v)
      end
  end.

(** Defaults for nodes or for edges. *)
Record defaults := Defaults
  { d_type : option Z; d_weight : option N; d_feature_types : list (option str); d_feature_lens : list (option (list Z)) }.
Definition next_int (data : list str) : res (Z * list str) :=
  match data with [] => Fail EFatal | w :: data' => do z <- parse_int w ;; Ok (z, data') end.
Definition or_next {A} (o : option A) (next : list str -> res (A * list str)) (data : list str) : res (A * list str) :=
  match o with Some a => Ok (a, data) | None => next data end.
Definition next_float (data : list str) : res (N * list str) :=
  match data with [] => Fail EFatal | w :: data' => do z <- pfloat w ;; Ok (z, data') end.
Definition next_len (data : list str) : res (list Z * list str) :=
  match data with [] => Fail EFatal | w :: data' => do z <- mapM parse_int (split ldelim w) ;; Ok (z, data') end.

(** The loop over features 274-294; [None] as key: the iterator is exhausted or the key empty. *)
Definition next_key (data : list str) : option (str * list str) :=
  match data with
  | [] => None
  | w :: data' => match strip w with [] => None | k => Some (k, data') end
  end.
Fixpoint features_loop (fuel : nat) (d : defaults) (features : list feature) (data : list str) : res (list feature) :=
  match fuel with
  | O => Fail EFuel
  | S fuel' =>
      let n := length features in
      do def <- (if n <? length (d_feature_types d)
                 then match nth_error (d_feature_types d) n, nth_error (d_feature_lens d) n with
                      | Some k, Some l => Ok (k, l)
                      | _, _ => Fail EIndex
                      end
                 else Ok (None, None)) ;;
      match (match fst def with Some k => Some (k, data) | None => next_key data end) with
      | None => Ok features
      | Some (key, data1) =>
          do l <- or_next (snd def) next_len data1 ;;
          do f <- get_feature key (fst l) (snd l) ;;
          features_loop fuel' d (features ++ [fst f]) (snd f)
      end
  end.

Record decoded := Decoded
  { x_src : Z; x_dst : Z; x_typ : Z; x_weight : N; x_created : option Z; x_removed : option Z; x_feats : list feature }.

(** decode 231-296.  The generator yields nothing for an empty line. *)
Definition decode_line (nodes edges : defaults) (temporal : bool) (created removed : option Z) (line : str)
  : res (list decoded) :=
  match line with
  | [] => Ok []
  | _ =>
      let data := split delim line in
      do s <- next_int data ;;
      do d <- next_int (snd s) ;;
      do td <- (if (fst d =? -1)%Z
                then do t <- or_next (d_type nodes) next_int (snd d) ;; Ok (fst t, fst d, snd t)
                else match d_type edges with
                     | Some t => Ok (t, fst d, snd d)
                     | None => do e <- next_int (snd d) ;; Ok (fst d, fst e, snd e)
                     end) ;;
      let '(typ, dst, data1) := td in
      let def := if (fst d =? -1)%Z then nodes else edges in
      do w <- or_next (d_weight def) next_float data1 ;;
      do c <- (if temporal then do x <- or_next created next_int (snd w) ;; Ok (Some (fst x), snd x) else Ok (created, snd w)) ;;
      do r <- (if temporal then do x <- or_next removed next_int (snd c) ;; Ok (Some (fst x), snd x) else Ok (removed, snd c)) ;;
      do fs <- features_loop (S (length (snd r) + length (d_feature_types def))) def [] (snd r) ;;
      Ok [Decoded (fst s) dst typ (fst w) (fst c) (fst r) fs]
  end.
End EdgeList.

(** ** JsonDecoder *)
Fixpoint insert_by {A} (leb : A -> A -> bool) (x : A) (l : list A) : list A :=
  match l with [] => [x] | y :: l' => if leb x y then x :: l else y :: insert_by leb x l' end.
(** sorted(l, key=...): stable. *)
Definition sort_by {A} (leb : A -> A -> bool) (l : list A) : list A := fold_right (insert_by leb) [] l.

(** _pull_features 356-386: [dicts] are the values of the feature keys in order, each a
    dictionary from index to an already converted value. *)
Definition set_nth {A} (l : list A) (i : nat) (x : A) : list A := firstn i l ++ x :: skipn (S i) l.
Definition put_feature {A} (l : list (option A)) (i : nat) (v : A) : list (option A) :=
  set_nth (l ++ repeat None (S i - length l)) i (Some v).
Definition pull_features {A} (dicts : list (list (nat * A))) : list (option A) :=
  fold_left (fun l kv => put_feature l (fst kv) (snd kv)) (concat dicts) [].

Record jedge := JE
  { je_src : Z; je_dst : Z; je_typ : Z; je_weight : N; je_created : option Z; je_removed : option Z; je_feats : list (list (nat * list N)) }.
Record jnode := JN
  { jn_id : Z; jn_typ : Z; jn_weight : N; jn_created : option Z; jn_removed : option Z; jn_feats : list (list (nat * list N)); jn_edges : list jedge }.

Definition or_default {A} (o : option A) (d : A) : A := match o with Some x => x | None => d end.
(** Comparison of the key tuples of sort_edges 411-424; [None] is float("inf"). *)
Definition removed_key (r : option Z) : option Z :=
  match r with Some z => if (z =? -1)%Z then None else Some z | None => Some 0%Z end.
Definition inf_leb (a b : option Z) : bool :=
  match a, b with _, None => true | None, Some _ => false | Some x, Some y => (x <=? y)%Z end.
Definition inf_eqb (a b : option Z) : bool :=
  match a, b with None, None => true | Some x, Some y => (x =? y)%Z | _, _ => false end.
Definition edge_leb (a b : jedge) : bool :=
  if negb (je_typ a =? je_typ b)%Z then (je_typ a <=? je_typ b)%Z
  else if negb (or_default (je_created a) 0 =? or_default (je_created b) 0)%Z
       then (or_default (je_created a) 0 <=? or_default (je_created b) 0)%Z
  else if negb (inf_eqb (removed_key (je_removed a)) (removed_key (je_removed b)))
       then inf_leb (removed_key (je_removed a)) (removed_key (je_removed b))
  else (je_dst a <=? je_dst b)%Z.
(** decode 388-437 *)
Definition json_edge (nc nr : Z) (e : jedge) : record :=
  Rec (je_src e) (je_dst e) (je_typ e) (je_weight e) (Some (or_default (je_created e) nc)) (Some (or_default (je_removed e) nr))
      (pull_features (je_feats e)).
Definition json_decode (j : jnode) : list record :=
  let nc := or_default (jn_created j) 0%Z in
  let nr := or_default (jn_removed j) (-1)%Z in
  Rec (jn_id j) (-1) (jn_typ j) (jn_weight j) (Some nc) (Some nr) (pull_features (jn_feats j)) ::
  map (json_edge nc nr) (sort_by edge_leb (jn_edges j)).

(** ** TsvDecoder *)
Section Tsv.
Variable conv : str -> list str -> res (list N).
Variable pfloat : str -> res N.
(** Decoder.convert_map 18-30: the dtype of "int" + rest etc., [None] is a KeyError. *)
Definition known (prefix rest : str) : bool :=
  existsb (str_eqb rest)
    (if str_eqb prefix [102]%N then [[]; [54; 52]; [51; 50]; [49; 54]] else [[54; 52]; [51; 50]; [49; 54]; [56]])%N.
Inductive tkey := KNumber (prefix rest : str) | KDouble | KBinary.
(** _parse_feature_string 469-497; [prev] is the variable key, which keeps its value when no
    branch matches and is unbound at first. *)
Definition tsv_key (prev : option tkey) (w : str) : option tkey :=
  match w with
  | 105%N :: rest => Some (KNumber [105]%N rest)
  | 117%N :: rest => Some (KNumber [117]%N rest)
  | 102%N :: rest => Some (KNumber [102]%N rest)
  | 100%N :: _ => Some KDouble
  | 98%N :: _ => Some KBinary
  | _ => prev
  end.
Definition tsv_value (k : tkey) (v : str) : res feature :=
  match k with
  | KBinary => Ok (FText v)
  | KDouble => do b <- conv [100]%N (split 32 v) ;; Ok (FArray b)
  | KNumber p r => if known p r then do b <- conv (p ++ r) (split 32 v) ;; Ok (FArray b) else Fail EIndex
  end.
Fixpoint tsv_features_loop (prev : option tkey) (l : list str) : res (list feature) :=
  match l with
  | [] => Ok []
  | f :: l' =>
      match split 58 f with
      | [k; v] =>
          match k, v with
          | _ :: _, _ :: _ =>
              match tsv_key prev k with
              | None => Fail EFatal
              | Some key =>
                  do x <- tsv_value key v ;;
                  do xs <- tsv_features_loop (Some key) l' ;;
                  Ok (x :: xs)
              end
          | _, _ => do xs <- tsv_features_loop prev l' ;; Ok (FNone :: xs)
          end
      | _ => do xs <- tsv_features_loop prev l' ;; Ok (FNone :: xs)
      end
  end.
Definition tsv_features (raw : str) : res (list feature) :=
  match raw with [] => Ok [] | _ => tsv_features_loop None (split 59 raw) end.

Definition column (cols : list str) (i : nat) : str := nth i cols [].
Definition int_or (s : str) (d : Z) : res Z := match s with [] => Ok d | _ => parse_int s end.
Definition float_or_zero (s : str) : res N := match s with [] => Ok 0%N | _ => pfloat s end.
(** order 529-531 *)
Definition tsv_order (n : str) : res (Z * Z) :=
  match split 44 n with
  | a :: b :: _ => do t <- parse_int b ;; do d <- parse_int a ;; Ok (t, d)
  | _ => Fail EIndex
  end.
Definition pair_leb (a b : Z * Z) : bool := ((fst a <? fst b) || ((fst a =? fst b) && (snd a <=? snd b)))%Z.
(** the loop over neighbors 533-547 *)
Definition tsv_edge (id : Z) (n : str) : res decoded :=
  let cols := split 44 n in
  if length (column cols 0) =? 0 then Fail EAssert else
  do d <- parse_int (column cols 0) ;;
  do t <- int_or (column cols 1) 0 ;;
  do w <- float_or_zero (column cols 2) ;;
  do fs <- tsv_features (column cols 3) ;;
  Ok (Decoded id d t w None None fs).
Definition tsv_decode (line : str) : res (list decoded) :=
  match line with
  | [] => Fail EAssert
  | _ =>
      let cols := split 9 line in
      if length (column cols 0) =? 0 then Fail EAssert else
      do id <- parse_int (column cols 0) ;;
      do t <- int_or (column cols 1) 0 ;;
      do w <- float_or_zero (column cols 2) ;;
      do fs <- tsv_features (column cols 3) ;;
      let node := Decoded id (-1) t w None None fs in
      match column cols 4 with
      | [] => Ok [node]
      | ns =>
          do keyed <- mapM (fun n => do k <- tsv_order n ;; Ok (k, n)) (split 124 ns) ;;
          do es <- mapM (fun kn => tsv_edge id (snd kn)) (sort_by (fun a b => pair_leb (fst a) (fst b)) keyed) ;;
          Ok (node :: es)
      end
  end.
End Tsv.
