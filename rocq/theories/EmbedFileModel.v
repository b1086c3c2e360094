(** Files of embeddings.
    /repo/src/python/deepgnn/tf/common/utils.py: node_embedding_to_string (110-134) and
    load_embeddings (144-158); the loops that write the files: tf2_trainer.py 406-446
    (model.predict with [steps]) and trainer.py 253-290 (the session runs to the end of the data).
    /repo/src/python/deepgnn/pytorch/modeling/base_model.py: output_embedding (68-90).
    Text is a list of code points.  Formatting a float with six digits ([fmt]), str() of a float
    and float() ([pfloat]) are arguments; np.zeros is a table of [zero].  Files are texts in the
    order glob returns them.  Not modelled: the names of the files, universal newlines (texts
    have line feeds only), the asserts about the number of dimensions (given by the types). *)
From Verif Require Import Base SetupModel DecoderModel.
Local Open Scope Z_scope.

Section Embed.
Context {F G : Type}.
Variable fmt : F -> str.
Variable pfloat : str -> res G.
Variable zero : G.

(** A line: "{0}\t{1}\n" (129-133). *)
Definition line_of (n : Z) (e : list F) : str := show_int n ++ 9%N :: join 32 (map fmt e) ++ [10%N].
(** node_embedding_to_string: rows of valid nodes, as many rows as nodes (123-134). *)
Definition node_embedding_to_string (invalid : Z) (nodes : list Z) (emb : list (list F)) : res (list str) :=
  if Nat.eqb (length emb) (length nodes)
  then Ok (map (fun '(n, e) => line_of n e) (filter (fun '(n, e) => negb (n =? invalid)) (combine nodes emb)))
  else Fail EAssert.

(** The file of a worker: the lines of all batches. *)
Definition batch := (list Z * list (list F))%type.
Definition write_file (invalid : Z) (bs : list batch) : res str :=
  do ls <- mapM (fun '(n, e) => node_embedding_to_string invalid n e) bs ;; Ok (concat (concat ls)).
(** tf2_trainer: model.predict stops after [steps] batches, trainer.py does not look at it. *)
Definition tf2_inference (invalid : Z) (steps : option nat) (bs : list batch) : res str :=
  write_file invalid (match steps with None => bs | Some k => firstn k bs end).
Definition tf1_inference (invalid : Z) (steps : option nat) (bs : list batch) : res str := write_file invalid bs.

(** "for line in open(fname)": pieces that end with a line feed, and a last one that does not. *)
Fixpoint lines_of (s : str) : list str :=
  match s with
  | [] => []
  | c :: s' =>
      if (c =? 10)%N then [c] :: lines_of s'
      else match lines_of s' with [] => [[c]] | l :: ls => (c :: l) :: ls end
  end.

(** col = line.split("\t"); int(col[0]); floats of col[1]; the assert on the width (151-156). *)
Definition read_line (dim : nat) (line : str) : res (Z * list G) :=
  match split 9 line with
  | c0 :: cols =>
      do n <- parse_int c0 ;;
      match cols with
      | c1 :: _ =>
          do e <- mapM pfloat (split 32 c1) ;;
          if Nat.eqb (length e) dim then Ok (n, e) else Fail EAssert
      | [] => Fail EIndex
      end
  | [] => Fail EIndex
  end.

Fixpoint replace {A} (l : list A) (k : nat) (x : A) : list A :=
  match l, k with
  | [], _ => []
  | _ :: l', O => x :: l'
  | y :: l', S k' => y :: replace l' k' x
  end.
(** res[nid] = emb (157): numpy counts negative indices from the end. *)
Definition set_row (t : list (list G)) (n : Z) (e : list G) : res (list (list G)) :=
  let m := Z.of_nat (length t) in
  if (0 <=? n) && (n <? m) then Ok (replace t (Z.to_nat n) e)
  else if (- m <=? n) && (n <? 0) then Ok (replace t (Z.to_nat (m + n)) e)
  else Fail EIndex.
Fixpoint read_lines (dim : nat) (ls : list str) (t : list (list G)) : res (list (list G)) :=
  match ls with
  | [] => Ok t
  | l :: ls' => do r <- read_line dim l ;; do t' <- set_row t (fst r) (snd r) ;; read_lines dim ls' t'
  end.
Fixpoint read_files (dim : nat) (fs : list str) (t : list (list G)) : res (list (list G)) :=
  match fs with
  | [] => Ok t
  | f :: fs' => do t' <- read_lines dim (lines_of f) t ;; read_files dim fs' t'
  end.
Definition load_embeddings (num dim : nat) (fs : list str) : res (list (list G)) :=
  read_files dim fs (repeat (repeat zero dim) num).

(** base_model.py output_embedding 68-90.  The inputs of a batch are a vector of node ids, or a
    batch of vectors; squeeze(0) drops the first dimension if it is 1.  A context that is neither
    a dict nor a tensor raises TypeError. *)
Inductive inputs := IVec (l : list Z) | IBatch (l : list (list Z)) | IOther.
Definition squeezed (i : inputs) : res (option (list Z)) :=
  match i with
  | IVec [x] => Ok None                 (* a scalar: indexing it raises IndexError *)
  | IVec l => Ok (Some l)
  | IBatch [l] => Ok (Some l)
  | IBatch _ => Fail EFatal             (* rows of ids are printed as arrays: not modelled *)
  | IOther => Fail EAssert
  end.
Definition torch_line (n : Z) (e : list F) : str := show_int n ++ 32%N :: join 32 (map fmt e) ++ [10%N].
Fixpoint torch_lines (ids : list Z) (emb : list (list F)) : res (list str) :=
  match emb with
  | [] => Ok []
  | e :: emb' =>
      match ids with
      | [] => Fail EIndex
      | n :: ids' => do r <- torch_lines ids' emb' ;; Ok (torch_line n e :: r)
      end
  end.
Definition output_embedding (i : inputs) (emb : list (list F)) : res str :=
  do s <- squeezed i ;;
  do ls <- torch_lines (match s with Some l => l | None => [] end) emb ;;
  Ok (concat ls).
End Embed.
