(** C96: a graph for PyTorch Geometric. *)
From Verif Require Import Base WriterModel LoaderModel GraphModel GraphSpec GraphProofs AnswerProofs Float32 Demo PygModel PygSpec PygProofs.
From Coq Require Import QArith.
Local Open Scope Z_scope.

(** The pairs handed over are the edges of the type from the nodes asked for, in order, if all ids
    have at most 24 significant bits. *)
Theorem C96_edges_partial : forall fadd fsub wval wm parts g (t : Z) (nodes : list Z),
  converted fadd wval wm parts g -> guarded fadd fsub [t] parts -> Forall short nodes -> Forall (fun p => short (snd p)) (pairs parts t nodes) ->
  edge_index fsub g nodes t = Ok (map fst (pairs parts t nodes), map snd (pairs parts t nodes)).
Proof. exact edge_index_right. Qed.
Print Assumptions C96_edges_partial.
Theorem C96_pairs : forall parts t nodes a b, In (a, b) (pairs parts t nodes) <-> In a nodes /\ exists e, In e (flat_map edges_of parts) /\ e_src e = a /\ e_dst e = b /\ e_typ e = t.
Proof. exact pairs_in. Qed.
Print Assumptions C96_pairs.
(** Those are the only ids that arrive as they are; the others are off by at most one part in 2^24. *)
Theorem C96_ids_iff : forall x : Z, f32_of_int x = x <-> short x.
Proof. exact f32_iff. Qed.
Print Assumptions C96_ids_iff.
Theorem C96_ids_error : forall x : Z, Z.abs (f32_of_int x - x) * 2 ^ 24 <= Z.abs x.
Proof. exact f32_error. Qed.
Print Assumptions C96_ids_error.
Theorem C96_ids_small : forall x : Z, Z.abs x <= 2 ^ 24 -> f32_of_int x = x.
Proof. exact f32_small. Qed.
Print Assumptions C96_ids_small.
(** The loss of an epoch is the mean over all predictions, whatever the sizes of batches. *)
Theorem C96_loss : forall losses : list (list Q), Forall (fun l => l <> []) losses -> (train_loss (map (fun l => (mean l, length l)) losses) == overall losses)%Q.
Proof. exact train_right. Qed.
Print Assumptions C96_loss.
(** A score is full exactly if every prediction has the sign of its label. *)
Theorem C96_hits : forall b : list (Q * bool), (hits b <= length b)%nat /\ (hits b = length b <-> Forall (fun x => snd x = true <-> (0 < fst x)%Q) b).
Proof. exact hits_all. Qed.
Print Assumptions C96_hits.

(** Ids go through binary32 (pyg_interface.py 70-74): a neighbor becomes another node, which may be
    one of the graph. *)
Definition far_graph := [ [ [nd 1 0 []; ed 1 16777217 0 one []; nd 16777216 0 []; nd 16777217 0 []] ] ].
Theorem C96_ids_refuted : exists parts g nodes t,
  converted f32_add wv None parts g /\ guarded f32_add f32_sub [t] parts /\
  edge_index f32_sub g nodes t = Ok ([1], [16777216]) /\ ~ In (1, 16777216) (pairs parts t nodes).
Proof.
  exists far_graph, (load_of None far_graph), [1], 0. split; [|split; [|split]].
  - apply load_of_converted. vm_compute. reflexivity.
  - apply guardb_ok. vm_compute. reflexivity.
  - vm_compute. reflexivity.
  - assert (E : pairs far_graph 0 [1] = [(1, 16777217)]) by (vm_compute; reflexivity). rewrite E. intros [H|[]]. discriminate.
Qed.
Print Assumptions C96_ids_refuted.
(** Edges from nodes that are not listed are missing (57-60, 62-75): the graph of the test nodes has
    no edges of their neighbors. *)
Definition chain_graph := [ [ [nd 1 0 []; ed 1 2 0 one []; nd 2 0 []; ed 2 3 0 one []] ] ].
Theorem C96_second_hop_refuted : exists parts g nodes t a b s, converted f32_add wv None parts g /\ edge_index f32_sub g nodes t = Ok (s, [a]) /\ In (a, b) (pairs parts t [a]) /\ ~ In a s.
Proof.
  exists chain_graph, (load_of None chain_graph), [1], 0, 2, 3, [1]. split; [|split; [|split]].
  - apply load_of_converted. vm_compute. reflexivity.
  - vm_compute. reflexivity.
  - assert (E : pairs chain_graph 0 [2] = [(2, 3)]) by (vm_compute; reflexivity). rewrite E. now left.
  - intros [H|[]]. discriminate.
Qed.
Print Assumptions C96_second_hop_refuted.
(** The score of the test is that of the first batch of training (125-135, 158-175). *)
Theorem C96_test_refuted : exists loader test1 test2, test1 <> test2 /\ test_score loader test1 = test_score loader test2 /\
  exists more, test_score (loader ++ more) test1 = test_score loader test1 /\ more <> [].
Proof. exists [[(1%Q, true)]], [], [[((-1)%Q, true)]]. split; [discriminate|]. split; [reflexivity|]. exists [[((-1)%Q, true)]]. split; [reflexivity|discriminate]. Qed.
Print Assumptions C96_test_refuted.
(** Several nodes keep their dimension. *)
Theorem C96_shape : forall n, n <> 1%nat -> tensor_shape n true = [n; 121%nat] /\ tensor_shape n false = [n].
Proof. intros n H. unfold tensor_shape. cbn [filter]. apply Nat.eqb_neq in H. now rewrite H. Qed.
Print Assumptions C96_shape.
(** Features of one node have one dimension less than those of several (36). *)
Theorem C96_squeeze_refuted : tensor_shape 1 true <> [1%nat; 121%nat] /\ length (tensor_shape 1 true) <> length (tensor_shape 2 true).
Proof. split; discriminate. Qed.
Print Assumptions C96_squeeze_refuted.

(** Nodes 9 and 0 of the demo graph of C01, edges of type 1 and 2. *)
Example C96_case : converted f32_add wv None demo demo_graph /\ guarded f32_add f32_sub [2] demo /\
  edge_index f32_sub demo_graph [9; 5; 77] 2 = Ok ([9; 9], [5; 6]) /\ pairs demo 2 [9; 5; 77] = [(9, 5); (9, 6)].
Proof. split; [exact demo_converted|]. split; [apply guardb_ok; vm_compute; reflexivity|]. split; vm_compute; reflexivity. Qed.
Example C96_ids_case : map f32_of_int [16777215; 16777217; 16777218; 16777219; -33554434; 33554435] = [16777215; 16777216; 16777218; 16777220; -33554432; 33554436].
Proof. reflexivity. Qed.
