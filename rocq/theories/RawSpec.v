(** What the datasets built from downloaded files should contain. *)
From Coq Require Import Sorting.Sorted.
From Verif Require Import Base SetupModel DecoderModel.
From Verif Require ReaderModel.

(** Words of a line: runs of characters that are not blank. *)
Inductive spaced : str -> list str -> Prop :=
| sp_none s : Forall (fun c => blank c = true) s -> spaced s []
| sp_word s w rest ws : Forall (fun c => blank c = true) s -> w <> [] -> Forall (fun c => blank c = false) w ->
    (rest = [] \/ exists c t, rest = c :: t /\ blank c = true) -> spaced rest ws -> spaced (s ++ w ++ rest) (w :: ws).

(** A line of the content file: name, features, label. *)
Record paper := Paper { name : str; feats : list str; label : str }.
Definition describes (fdim : nat) (line : str) (p : paper) : Prop :=
  spaced line (name p :: feats p ++ [label p]) /\ List.length (feats p) = fdim.
(** Numbers of the labels: the distinct ones in the order of their first appearance. *)
Fixpoint firsts (l : list str) : list str :=
  match l with [] => [] | x :: t => x :: filter (fun y => negb (str_eqb x y)) (firsts t) end.
(** A line of the cites file connects two papers, whichever comes first. *)
Definition connects (ps : list paper) (line : str) (i j : nat) : Prop :=
  exists p q rest, spaced line (p :: q :: rest) /\
    ((option_map name (nth_error ps i) = Some p /\ option_map name (nth_error ps j) = Some q) \/
     (option_map name (nth_error ps i) = Some q /\ option_map name (nth_error ps j) = Some p)).

(** Order of the edges of a node: type, destination; no edge twice. *)
Definition before (a b : Z * Z) : Prop := (fst a < fst b \/ fst a = fst b /\ snd a < snd b)%Z.
Definition not_after (a b : Z * Z) : Prop := (fst a < fst b \/ fst a = fst b /\ snd a <= snd b)%Z.

Definition id_of (i : nat) : Z := Z.of_nat (S i).

Section Conversion.
Variable conv : str -> list str -> res (list N).
Variable pfloat : str -> res N.
Definition plain_decoder (line : str) : res (list decoded) :=
  let none := Defaults None None [] [] in decode_line conv pfloat 44 47 92 none none false None None line.
(** The lines that TextFileIterator delivers, for any number of threads, size of blocks and of
    batches, are decoded to the records. *)
Definition converts_to (csv : str) (rs : list decoded) : Prop :=
  forall threads n batch, threads > 0 -> n > 0 -> batch > 0 ->
  exists enough, forall fuel, enough < fuel ->
  exists batches rss, ReaderModel.iterate fuel batch false (ReaderModel.start threads n [csv]) = (batches, ReaderModel.StopIteration) /\
    mapM plain_decoder (List.concat batches) = Ok rss /\ List.concat rss = rs.
(** The same for a file with empty lines, which a reader may or may not deliver. *)
Definition converts_up_to_blank (csv : str) (rs : list decoded) : Prop :=
  forall lines, filter (fun l => negb (str_eqb l [])) lines = filter (fun l => negb (str_eqb l [])) (split 10 csv) ->
  exists rss, mapM plain_decoder lines = Ok rss /\ List.concat rss = rs.
End Conversion.

(** Texts of numbers: printable ASCII without commas. *)
Definition number_text (s : str) : Prop := s <> [] /\ Forall (fun c => (33 <= c <= 126 /\ c <> 44)%N) s.

(** A text file. *)
Definition file_of (ls : list str) : str := flat_map (fun l => l ++ [10%N]) ls.
(** [count] of the papers are for training, the first ones unless the choice is random. *)
Definition split_ok (random : bool) (count : Z) (train : list bool) : Prop :=
  Z.of_nat (List.length (filter (fun b => b) train)) = count /\
  (random = false -> forall i, i < List.length train -> (nth i train false = true <-> (id_of i <= count)%Z)).

(** ** PPI and Reddit *)
(** Links between two nodes, loops once. *)
Definition links_between (links : list (nat * nat)) (a b : nat) : nat :=
  List.length (filter (fun e => ((fst e =? a) && (snd e =? b)) || ((fst e =? b) && (snd e =? a))) links).
(** Occurrences of an edge. *)
Definition times (e : Z * Z) (l : list (Z * Z)) : nat :=
  List.length (filter (fun x => (fst x =? fst e) && (snd x =? snd e))%Z l).
(** Types of nodes: test before validation. *)
Definition typed {K} (test val : K -> bool) (k : K) (t : nat) : Prop :=
  (t = 2 /\ test k = true) \/ (t = 1 /\ test k = false /\ val k = true) \/ (t = 0 /\ test k = false /\ val k = false).
(** Numbers of the training nodes. *)
Definition in_train (ns : list (nat * nat)) (i : nat) : bool := existsb (fun n => (fst n =? i) && (snd n =? 0)) ns.
