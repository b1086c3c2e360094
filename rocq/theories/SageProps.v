(** C74: GraphSAGE encoders. *)
From Verif Require Import Base SageModel SageSpec SageProofs.

(** One encoder: the embedding of every node of the batch is that of the node and its own sampled
    neighbors, whatever the batch, with nodes and neighbors repeated or not. *)
Theorem C74_one_layer : forall elem draw (feat : Z -> row elem) enc mean dim nbrs l nodes c,
  answers nbrs draw -> nodes <> [] ->
  exists out, embed elem draw feat enc mean dim [l] nodes c = Ok out /\
    Forall2 (fun v e => exists S, nbrs (l_type l) v S /\ length S = l_sample l /\
      e = sage1 (fun v => enc (feat v)) mean (l_comb l) S v) nodes out.
Proof. intros elem draw feat enc mean dim nbrs l nodes c H1 H2. exact (one_layer draw feat enc mean dim nbrs H1 l nodes c H2). Qed.
Print Assumptions C74_one_layer.

(** Two encoders that sample the same number of neighbors: the neighbors of a neighbor are its own,
    and the same wherever the neighbor occurs in the batch. *)
Theorem C74_two_layers_partial : forall elem draw (feat : Z -> row elem) enc mean dim nbrs l2 l1 nodes c,
  answers nbrs draw -> 0 < dim -> (forall v, length (feat v) = dim) ->
  nodes <> [] -> 0 < l_sample l2 -> l_sample l1 = l_sample l2 ->
  exists out T, embed elem draw feat enc mean dim [l2; l1] nodes c = Ok out /\
    Forall2 (fun v e => exists S, nbrs (l_type l2) v S /\ length S = l_sample l2 /\
      (forall u, In u S -> nbrs (l_type l1) u (T u) /\ length (T u) = l_sample l1) /\
      e = sage2 (fun v => enc (feat v)) mean (l_comb l2) (l_comb l1) S T v) nodes out.
Proof.
  intros elem draw feat enc mean dim nbrs l2 l1 nodes c H1 H2 H3 H4 H5 H6.
  exact (two_layers draw feat enc mean dim nbrs H1 H2 H3 l2 l1 nodes c H4 H5 H6).
Qed.
Print Assumptions C74_two_layers_partial.

(** If a node always has the same neighbors, its embedding does not depend on the batch. *)
Theorem C74_batches_partial : forall elem (pick : Z -> Z -> nat -> list Z) (feat : Z -> row elem) enc mean dim l2 l1 nodes c,
  0 < dim -> (forall v, length (feat v) = dim) -> (forall t v k, length (pick t v k) = k) ->
  nodes <> [] -> 0 < l_sample l2 -> l_sample l1 = l_sample l2 ->
  embed elem (fun _ t ns k => map (fun v => pick t v k) ns) feat enc mean dim [l2; l1] nodes c =
  Ok (map (fun v => sage2 (fun v => enc (feat v)) mean (l_comb l2) (l_comb l1) (pick (l_type l2) v (l_sample l2))
                      (fun u => pick (l_type l1) u (l_sample l1)) v) nodes).
Proof. exact @batches. Qed.
Print Assumptions C74_batches_partial.

(** More than two encoders cannot be stacked. *)
Theorem C74_depth_refuted : forall elem draw (feat : Z -> row elem) enc mean dim a b d ls nodes c,
  exists e, embed elem draw feat enc mean dim (a :: b :: d :: ls) nodes c = Fail e.
Proof. exact @three_layers. Qed.
Print Assumptions C74_depth_refuted.

(** ** Examples *)
(** Elements are numbers; node v has features [v; -v] and the neighbors v+1, v+2, ...; the mean is
    the sum; a layer subtracts ten times (or a hundred times) the neighbors. *)
Local Open Scope Z_scope.
Definition ex_draw (_ : nat) (_ : Z) (nodes : list Z) (k : nat) : list (list Z) :=
  map (fun v => map (fun i => v + 1 + Z.of_nat i) (seq 0 k)) nodes.
Definition ex_feat (v : Z) : row Z := [v; - v].
Definition ex_mean (rs : list (row Z)) : row Z :=
  fold_right (fun r a => map (fun p => fst p + snd p) (combine r a)) [0; 0] rs.
Definition ex_layer (k : nat) (w : Z) : layer Z :=
  Layer k 0 (fun a b => map (fun p => fst p + w * snd p) (combine a b)).
Definition ex_embed (layers : list (layer Z)) (nodes : list Z) : res (list (row Z)) :=
  embed Z ex_draw ex_feat (fun r => r) ex_mean 2 layers nodes 0.

Example C74_one : ex_embed [ex_layer 2 10] [5; 1; 5] = Ok [[135; -135]; [51; -51]; [135; -135]].
Proof. vm_compute. reflexivity. Qed.
Example C74_two : ex_embed [ex_layer 2 100; ex_layer 2 10] [5; 1; 5] =
  Ok [[33435; -33435]; [16551; -16551]; [33435; -33435]].
Proof. vm_compute. reflexivity. Qed.
Example C74_two_spec :
  sage2 ex_feat ex_mean (l_comb (ex_layer 2 100)) (l_comb (ex_layer 2 10)) [6; 7] (fun u => [u + 1; u + 2]) 5 = [33435; -33435].
Proof. vm_compute. reflexivity. Qed.

(** ** What is false of the code *)
(** Encoders that sample different numbers: an exception, or neighbors of other nodes. *)
Theorem C74_samples_refuted :
  ex_embed [ex_layer 2 100; ex_layer 3 10] [5; 6] = Fail EAssert /\
  ex_embed [ex_layer 2 100; ex_layer 1 10] [5] = Fail EIndex /\
  ex_embed [ex_layer 2 100; ex_layer 4 10] [5] <>
  Ok [sage2 ex_feat ex_mean (l_comb (ex_layer 2 100)) (l_comb (ex_layer 4 10)) [6; 7]
        (fun u => [u + 1; u + 2; u + 3; u + 4]) 5] /\
  ex_embed [ex_layer 2 100; ex_layer 4 10] [5] =
  Ok [l_comb (ex_layer 2 100) (sage1 ex_feat ex_mean (l_comb (ex_layer 4 10)) [6; 7] 5)
       (ex_mean [sage1 ex_feat ex_mean (l_comb (ex_layer 4 10)) [7; 8] 6;
                 sage1 ex_feat ex_mean (l_comb (ex_layer 4 10)) [9; 10] 7])].
Proof. vm_compute. refine (conj _ (conj _ (conj _ _))); congruence. Qed.
Print Assumptions C74_samples_refuted.

(** An empty batch raises. *)
Theorem C74_empty_refuted : ex_embed [ex_layer 2 10] [] = Fail EAssert.
Proof. vm_compute. reflexivity. Qed.
Print Assumptions C74_empty_refuted.
