(** Layers of TensorFlow models: deepgnn/tf/layers/base.py.

    Names of layers and variables are modelled in graph mode, where get_variable raises for a name
    that exists (variable scopes do not reuse variables).  Values are any type; [dot] is what a
    row times a column gives, in whatever order it is summed.  A tensor is its shape and its flat
    values.  None is an exception.  Not modelled: initialisers, partitioners, print_model_variables,
    names of scopes around layers. *)
From Coq Require Import Ascii String List Arith ZArith Bool.
From Verif Require Import Base FilesModel.
Import ListNotations.
Open Scope list_scope.

(** ** Names *)

(** str.lower on ASCII. *)
Definition lower_char (c : ascii) : ascii :=
  let n := nat_of_ascii c in
  if (65 <=? n) && (n <=? 90) then ascii_of_nat (n + 32) else c.
Definition lower (s : nm) : nm := map lower_char s.

(** _LAYER_UIDS, 24-29. *)
Definition uids : Type := list (nm * nat).
Fixpoint uid (c : uids) (k : nm) : nat :=
  match c with
  | [] => 0
  | (k', n) :: t => if nm_eqb k' k then n else uid t k
  end.
Definition next_uid (c : uids) (k : nm) : nat * uids :=
  let n := S (uid c k) in (n, (k, n) :: c).

(** Layer.__init__, 35-45: [cls] is the name of the class. *)
Definition layer_name (c : uids) (cls : nm) (name : option nm) : nm * uids :=
  match name with
  | Some n => (n, c)
  | None =>
      let k := lower cls in
      let '(n, c') := next_uid c k in
      (k ++ "_"%char :: dec n, c')
  end.
(** Layers made one after another by one process. *)
Fixpoint layer_names (c : uids) (l : list (nm * option nm)) : list nm * uids :=
  match l with
  | [] => ([], c)
  | (cls, name) :: t =>
      let '(n, c1) := layer_name c cls name in
      let '(ns, c2) := layer_names c1 t in (n :: ns, c2)
  end.

(** ** Variables *)

Section Calls.
(** Name of every layer and the variables its build makes: kernel and bias, or embeddings. *)
Variable name : nat -> nm.
Variable vars : nat -> list nm.

Definition var_name (l : nat) (v : nm) : nm := name l ++ "/"%char :: v.
(** get_variable for a new variable. *)
Definition get_variable (g : list nm) (n : nm) : option (list nm) :=
  if existsb (nm_eqb n) g then None else Some (g ++ [n]).
Fixpoint build (l : nat) (vs : list nm) (g : list nm) : option (list nm) :=
  match vs with
  | [] => Some g
  | v :: t => match get_variable g (var_name l v) with None => None | Some g' => build l t g' end
  end.
(** __call__, 55-65: [built] are the layers that are built. *)
Definition call_layer (l : nat) (st : list nat * list nm) : option (list nat * list nm) :=
  let '(built, g) := st in
  if existsb (Nat.eqb l) built then Some st
  else match build l (vars l) g with None => None | Some g' => Some (built ++ [l], g') end.
Fixpoint calls (ls : list nat) (st : list nat * list nm) : option (list nat * list nm) :=
  match ls with
  | [] => Some st
  | l :: t => match call_layer l st with None => None | Some st' => calls t st' end
  end.
End Calls.

(** ** Dense *)

Section Values.
Context {V : Type}.
Variable dot : list V -> list V -> V.
Variable add : V -> V -> V.
Variable act : V -> V.
Variable dflt : V.

Definition prod (s : list nat) : nat := fold_right Nat.mul 1 s.
(** [r] rows of width [w]. *)
Fixpoint rows (r w : nat) (data : list V) : list (list V) :=
  match r with
  | O => []
  | S r' => firstn w data :: rows r' w (skipn w data)
  end.
(** tf.matmul of [r] rows; [kernel] is the list of the columns. *)
Definition matmul (r w : nat) (data : list V) (kernel : list (list V)) : list V :=
  concat (map (fun row => map (dot row) kernel) (rows r w data)).
(** tf.nn.bias_add: along the last axis. *)
Definition bias_add (r dim : nat) (data bias : list V) : list V :=
  concat (map (fun row => map (fun p => add (fst p) (snd p)) (combine row bias)) (rows r dim data)).

(** Dense.call, 131-142: tensordot above rank 2, matmul otherwise; matmul raises for vectors and
    scalars, both raise when the last axis is not the height [w] of the kernel. *)
Definition dense (w : nat) (kernel : list (list V)) (bias : option (list V)) (activation : bool)
    (shape : list nat) (data : list V) : option (list nat * list V) :=
  let rank := length shape in
  let dim := length kernel in
  if negb (last shape 0 =? w) then None
  else
    let outputs :=
      if 2 <? rank then Some (removelast shape ++ [dim], matmul (prod (removelast shape)) w data kernel)
      else match shape with
           | [r; _] => Some ([r; dim], matmul r w data kernel)
           | _ => None
           end in
    match outputs with
    | None => None
    | Some (s, o) =>
        let o := match bias with Some b => bias_add (prod (removelast s)) dim o b | None => o end in
        let o := if activation then map act o else o in
        Some (s, o)
    end.

(** ** Embedding *)

(** tf.reshape to a shape where -1 is inferred. *)
Definition known (t : list (option nat)) : list nat :=
  fold_right (fun d l => match d with Some n => n :: l | None => l end) [] t.
Definition unknown (t : list (option nat)) : nat :=
  length (filter (fun d => match d with None => true | _ => false end) t).
Definition infer (n : nat) (t : list (option nat)) : option (list nat) :=
  let p := prod (known t) in
  match unknown t with
  | 0 => if p =? n then Some (known t) else None
  | 1 =>
      if p =? 0 then None
      else if negb (n mod p =? 0) then None
      else Some (map (fun d => match d with Some x => x | None => n / p end) t)
  | _ => None
  end.

(** Embedding.call, 172-180: [table] has max_id + 1 rows of [dim]; [static] is the shape known when
    the graph is made, its unknown axes become -1. *)
Definition embedding_call (table : list (list V)) (dim : nat) (static : list (option nat)) (ids : list nat)
    : option (list nat * list V) :=
  if existsb (fun i => length table <=? i) ids then None
  else
    let out := concat (map (fun i => nth i table []) ids) in
    match infer (length out) (static ++ [Some dim]) with
    | None => None
    | Some s => Some (s, out)
    end.

(** Embedding.build, 160-169: number of rows. *)
Definition table_rows (max_id : nat) : nat := max_id + 1.

(** SparseEmbedding.call, 202-209: embedding_lookup_sparse of entries (row, id) ordered by rows;
    segments run up to the last row with an entry, those without entries are zeros. *)
Definition sparse_rows (entries : list (nat * nat)) : nat :=
  match entries with [] => 0 | _ => S (last (map fst entries) 0) end.
Definition sparse_embedding (comb : list (list V) -> list V) (table : list (list V)) (dim : nat)
    (entries : list (nat * nat)) : option (list (list V)) :=
  if existsb (fun e => length table <=? snd e) entries then None
  else Some (map (fun r =>
         match filter (fun e => fst e =? r) entries with
         | [] => repeat dflt dim
         | es => comb (map (fun e => nth (snd e) table []) es)
         end) (seq 0 (sparse_rows entries))).
End Values.
