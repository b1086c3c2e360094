(** C110: layers of TensorFlow models have names of their own, make their variables once and
    compute the same for every rank. *)
From Coq Require Import Ascii String List Arith Bool.
From Verif Require Import Base FilesModel TfLayerModel TfLayerSpec TfLayerProofs.
Import ListNotations.
Open Scope list_scope.

(** ** Names *)
Theorem C110_names_distinct_partial : forall cls c,
  NoDup (fst (layer_names c (map (fun k => (k, None)) cls))).
Proof. exact auto_distinct. Qed.
Theorem C110_names_first : forall cls c, NoDup (map lower cls) ->
  (forall x, In x cls -> uid c (lower x) = 0) ->
  fst (layer_names c (map (fun k => (k, None)) cls)) = map (fun x => lower x ++ str "_1") cls.
Proof. exact auto_number. Qed.
Theorem C110_names_explicit : forall l c i n k, nth_error l i = Some (k, Some n) ->
  nth_error (fst (layer_names c l)) i = Some n.
Proof. exact explicit_kept. Qed.
Theorem C110_lower : forall c,
  match find (fun p => Ascii.eqb (fst p) c) (combine upper_letters lower_letters) with
  | Some (_, d) => lower [c] = [d]
  | None => lower [c] = [c]
  end.
Proof. exact lower_ok. Qed.
Example ex_names : fst (layer_names [] [(str "Dense", None); (str "GCN", None); (str "dense", None); (str "Dense", Some (str "out"))])
  = [str "dense_1"; str "gcn_1"; str "dense_2"; str "out"].
Proof. vm_compute. reflexivity. Qed.
(** A name given by hand may be one that is given automatically. *)
Theorem C110_names_refuted : exists l, ~ NoDup (fst (layer_names [] l)).
Proof.
  exists [(str "Dense", Some (str "dense_1")); (str "Dense", None)]. vm_compute.
  intros H. inversion H as [|? ? N _]. apply N. left; reflexivity.
Qed.
(** The same model made twice by one process has other names: its checkpoint is not found. *)
Theorem C110_twice_refuted : exists l, let '(a, c) := layer_names [] l in fst (layer_names c l) <> a.
Proof. exists [(str "Dense", None)]. vm_compute. discriminate. Qed.

(** ** Variables *)
Theorem C110_variables_once : forall name vars ls,
  (forall a b, In a ls -> In b ls -> name a = name b -> a = b) ->
  (forall l, In l ls -> plain_vars (vars l)) ->
  exists built g, calls name vars ls ([], []) = Some (built, g)
  /\ NoDup built /\ (forall l, In l built <-> In l ls) /\ NoDup g
  /\ forall n, In n g <-> exists l v, In l ls /\ In v (vars l) /\ n = name l ++ "/"%char :: v.
Proof. exact calls_once. Qed.
Theorem C110_variables_clash : forall name vars a b v, a <> b -> name a = name b ->
  In v (vars a) -> In v (vars b) -> forall t, calls name vars (a :: b :: t) ([], []) = None.
Proof. exact calls_clash. Qed.
Example ex_calls : calls (fun l => if l =? 0 then str "a" else str "b") (fun _ => [str "kernel"; str "bias"]) [1; 0; 1] ([], [])
  = Some ([1; 0], [str "b/kernel"; str "b/bias"; str "a/kernel"; str "a/bias"]).
Proof. vm_compute. reflexivity. Qed.

(** ** Dense *)
Theorem C110_dense : forall (V : Type) dot add act (dflt : V) w kernel b a shape data,
  2 <= length shape -> last shape 0 = w ->
  match b with Some b => length b = length kernel | None => True end ->
  let r := size (removelast shape) in
  exists o, dense dot add act w kernel b a shape data = Some (removelast shape ++ [length kernel], o)
  /\ length o = r * length kernel
  /\ forall i j, i < r -> j < length kernel ->
     nth (i * length kernel + j) o dflt =
     let x := dot (slice i w data) (nth j kernel []) in
     let x := match b with Some b => add x (nth j b dflt) | None => x end in
     if a then act x else x.
Proof. exact @dense_spec. Qed.
Theorem C110_dense_rejects : forall (V : Type) dot add act w (kernel : list (list V)) b a shape data,
  dense dot add act w kernel b a shape data = None <-> length shape < 2 \/ last shape 0 <> w.
Proof. exact @dense_rejects. Qed.
Definition dot_nat (a b : list nat) : nat := list_sum (map (fun p => fst p * snd p) (combine a b)).
Example ex_dense : dense dot_nat Nat.add (fun x => 2 * x) 2 [[1; 0]; [0; 1]; [1; 1]] (Some [10; 20; 30]) true [2; 1; 2] [1; 2; 3; 4]
  = Some ([2; 1; 3], [22; 44; 66; 26; 48; 74]).
Proof. reflexivity. Qed.
(** A vector of the right width is not accepted. *)
Theorem C110_dense_vector_refuted : exists w, dense dot_nat Nat.add S w [[1; 2; 3]] None false [w] [1; 2; 3] = None /\ w = 3.
Proof. exists 3. split; reflexivity. Qed.

(** ** Embedding *)
Theorem C110_embedding_partial : forall (V : Type) (table : list (list V)) dim static shape ids,
  Forall (fun r => length r = dim) table -> Forall (fun i => i < length table) ids ->
  agrees static shape -> length ids = size shape -> unknown_axes static <= 1 ->
  0 < dim -> (forall d, In (Some d) static -> 0 < d) ->
  embedding_call table dim static ids = Some (shape ++ [dim], concat (map (fun i => nth i table []) ids)).
Proof. exact @embedding_ok. Qed.
Theorem C110_embedding_unknown : forall (V : Type) (table : list (list V)) dim static ids,
  2 <= unknown_axes static -> embedding_call table dim static ids = None.
Proof. exact @embedding_unknown. Qed.
Theorem C110_embedding_range : forall (V : Type) (table : list (list V)) dim static ids r,
  embedding_call table dim static ids = Some r -> forall i, In i ids -> i < length table.
Proof. exact @embedding_range. Qed.
Theorem C110_max_id : forall max i, i < table_rows max <-> i <= max.
Proof. exact max_id_ok. Qed.
Example ex_embedding : embedding_call [[0; 1]; [10; 11]; [20; 21]] 2 [None; Some 2] [2; 0; 1; 2]
  = Some ([2; 2; 2], [20; 21; 0; 1; 10; 11; 20; 21]).
Proof. reflexivity. Qed.
(** Two axes unknown when the graph is made: the reshape fails for all inputs. *)
Theorem C110_embedding_refuted : exists static shape ids, agrees static shape /\ length ids = size shape /\
  embedding_call [[0; 1]; [10; 11]] 2 static ids = None.
Proof.
  exists [None; None], [1; 2], [0; 1]. split; [|split; reflexivity].
  constructor; [left; reflexivity|]. constructor; [left; reflexivity|constructor].
Qed.
(** An axis of size 0 next to an unknown axis. *)
Theorem C110_embedding_empty_refuted : exists static shape, agrees static shape /\ size shape = 0 /\
  embedding_call [[0; 1]; [10; 11]] 2 static [] = None.
Proof.
  exists [None; Some 0], [3; 0]. split; [|split; reflexivity].
  constructor; [left; reflexivity|]. constructor; [right; reflexivity|constructor].
Qed.

(** ** Sparse embedding *)
Theorem C110_sparse_length_partial : forall (V : Type) (dflt : V) comb table dim entries o n,
  sparse_embedding dflt comb table dim entries = Some o ->
  ordered entries -> (forall e, In e entries -> fst e < S n) ->
  (length o = S n <-> exists e, In e entries /\ fst e = n).
Proof. exact @sparse_length. Qed.
Theorem C110_sparse_row : forall (V : Type) (dflt : V) comb table dim entries o r,
  sparse_embedding dflt comb table dim entries = Some o -> r < length o -> ids_of r entries <> [] ->
  nth r o [] = comb (map (fun i => nth i table []) (ids_of r entries)).
Proof. exact @sparse_row. Qed.
Theorem C110_sparse_empty_row : forall (V : Type) (dflt : V) comb table dim entries o r,
  sparse_embedding dflt comb table dim entries = Some o -> r < length o -> ids_of r entries = [] ->
  nth r o [] = repeat dflt dim.
Proof. exact @sparse_empty_row. Qed.
Theorem C110_sparse_covers : forall (V : Type) (dflt : V) comb table dim entries o e,
  sparse_embedding dflt comb table dim entries = Some o -> ordered entries -> In e entries -> fst e < length o.
Proof. exact @sparse_covers. Qed.
Theorem C110_sparse_range : forall (V : Type) (dflt : V) comb table dim entries,
  sparse_embedding dflt comb table dim entries = None <-> exists e, In e entries /\ length table <= snd e.
Proof. exact @sparse_range. Qed.
Example ex_sparse : sparse_embedding 0 (fun l => [list_sum (concat l)]) [[1]; [2]; [4]] 1 [(0, 1); (0, 2); (2, 0)] = Some [[6]; [0]; [1]].
Proof. reflexivity. Qed.
(** Nodes without ids at the end of a batch get no row: 3 nodes, 2 rows. *)
Theorem C110_sparse_refuted : exists entries o, ordered entries /\ (forall e, In e entries -> fst e < 3) /\
  sparse_embedding 0 (fun l => [list_sum (concat l)]) [[1]; [2]] 1 entries = Some o /\ length o <> 3.
Proof.
  exists [(0, 1); (1, 0)], [[2]; [1]]. split; [|split; [|split; [reflexivity|discriminate]]].
  - repeat constructor.
  - intros e [<-|[<-|[]]]; simpl; auto.
Qed.

Print Assumptions C110_names_distinct_partial.
Print Assumptions C110_names_first.
Print Assumptions C110_names_explicit.
Print Assumptions C110_names_refuted.
Print Assumptions C110_twice_refuted.
Print Assumptions C110_variables_once.
Print Assumptions C110_variables_clash.
Print Assumptions C110_dense.
Print Assumptions C110_dense_rejects.
Print Assumptions C110_dense_vector_refuted.
Print Assumptions C110_embedding_partial.
Print Assumptions C110_embedding_unknown.
Print Assumptions C110_embedding_range.
Print Assumptions C110_max_id.
Print Assumptions C110_embedding_refuted.
Print Assumptions C110_embedding_empty_refuted.
Print Assumptions C110_sparse_length_partial.
Print Assumptions C110_sparse_row.
Print Assumptions C110_sparse_empty_row.
Print Assumptions C110_sparse_covers.
Print Assumptions C110_sparse_range.
Print Assumptions C110_sparse_refuted.
Print Assumptions C110_lower.
