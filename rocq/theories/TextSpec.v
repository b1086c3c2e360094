(** What the tokens of a text are. *)
From Coq Require Import QArith String.
From Verif Require Import Base Dist TextModel.
From Verif Require ReaderModel.
Local Open Scope list_scope.
Local Open Scope nat_scope.

(** ** Words: runs of letters and digits between spaces; all other characters are left out. *)
Definition keep (c : N) : bool :=
  ((48 <=? c) && (c <=? 57) || (65 <=? c) && (c <=? 90) || (97 <=? c) && (c <=? 122) || (c =? 32))%N.
Definition spaces (l : list N) : Prop := Forall (fun c => c = 32%N) l.
Inductive separated : list N -> list (list N) -> Prop :=
| sep_end l : spaces l -> separated l []
| sep_word a w rest ws :
    spaces a -> w <> [] -> Forall (fun c => c <> 32%N) w ->
    (rest = [] \/ exists t, rest = 32%N :: t) -> separated rest ws -> separated (a ++ w ++ rest) (w :: ws).

(** ** Letters of a word with their neighbors; # stands for the ends of the word. *)
Definition trigram (w : list N) (j : nat) : list N :=
  [ if j =? 0 then 35%N else nth (j - 1) w 35%N; nth j w 35%N; nth (S j) w 35%N ].

(** ** Vocabulary: the number of the last line with the token, 0 if there is none. *)
Definition ends_line (c : N) : Prop := c = 10%N \/ c = 13%N.
Definition line_is (l tok : list N) : Prop :=
  exists a b, l = a ++ tok ++ b /\ Forall ends_line a /\ Forall ends_line b.
Definition vocab_id (lines : list (list N)) (tok : list N) (n : nat) : Prop :=
  let at_line i := exists l, nth_error lines i = Some l /\ line_is l tok in
  n = 0 /\ (forall i, ~ at_line i) \/ (0 < n)%nat /\ at_line (n - 1) /\ forall i, n <= i -> ~ at_line i.

(** ** Cells of the answer.  A text without words counts as the word #. *)
Definition cell_of (lines : list (list N)) (ws : list (list N)) (i j n : nat) : Prop :=
  match nth_error (match ws with [] => [[35%N]] | _ => ws end) i with
  | Some w => if j <? List.length w then vocab_id lines (trigram w j) n else n = 0
  | None => n = 0
  end.
Definition count_words (ws : list (list N)) : nat := match ws with [] => 1 | _ => List.length ws end.

(** ** Features: text in [n] bytes, cut off or filled with zeros. *)
Definition padded (n : nat) (v : list N) : list N := firstn n v ++ repeat 0%N (n - List.length v).
(** The cut does not go through a character. *)
Definition boundary (text : list N) (n : nat) : Prop :=
  forall c, nth_error text n = Some c -> ~ (128 <= c <= 191)%N.
Definition is_text (l : list N) : Prop := ReaderModel.decode l = Some l.
Definition ascii (l : list N) : Prop := Forall (fun c => (c <= 127)%N) l.

(** ** Contexts *)
Fixpoint at_path (c : ctx) (path : list string) {struct path} : option ctx :=
  match path with
  | [] => Some c
  | k :: p =>
      match c with
      | Dict l => match find (fun e => String.eqb (fst e) k) l with Some e => at_path (snd e) p | None => None end
      | _ => None
      end
  end.
(** Keys are unique, arrays have the size of their shape. *)
Fixpoint well_formed (c : ctx) : Prop :=
  match c with
  | Dict l => NoDup (map fst l) /\ (fix go (l : list (string * ctx)) : Prop := match l with [] => True | e :: t => well_formed (snd e) /\ go t end) l
  | Bytes shape data => List.length data = prod shape
  | Ints shape data => List.length data = prod shape
  | Other _ => True
  end.
(** Row [r] of an array whose last dimension is [n]. *)
Definition row {A} (n r : nat) (data : list A) : list A := slice data (r * n) n.
(** An array of texts: at least two dimensions, UTF-8. *)
Definition texts (shape : list nat) (data : list N) : Prop :=
  exists pre n, shape = pre ++ [n] /\ pre <> [] /\ forall r, r < prod pre -> is_text (row n r data).
(** Matrices of tokens in place of the texts. *)
Definition tokens_at (tok : list N -> list nat * list nat) (a b : nat) (shape : list nat) (data : list N) (c : ctx) : Prop :=
  exists pre n s m,
    shape = pre ++ [n] /\
    c = Dict [("encoder_seq"%string, Ints (pre ++ if prod pre =? 0 then [] else [a]) s);
              ("encoder_mask"%string, Ints (pre ++ if prod pre =? 0 then [] else [b]) m)] /\
    List.length s = prod pre * a /\ List.length m = prod pre * b /\
    forall r, r < prod pre -> (row a r s, row b r m) = tok (strip blank (row n r data)).
Definition tokenized (tok : list N -> list nat * list nat) (a b : nat) (x : ctx) (y : option ctx) : Prop :=
  match x with
  | Dict l => exists l', y = Some (Dict l') /\ map fst l' = map fst l
  | Bytes shape data => exists c, y = Some c /\ tokens_at tok a b shape data c
  | _ => y = Some x
  end.
