(** C78: GraphSAGE in TensorFlow. *)
From Verif Require Import Base TfSageModel TfSageSpec TfSageProofs.

(** For any number of layers the output for the inputs are the embeddings of trees of sampled nodes:
    one tree for every input, with the input as root, whose nodes at hop h have the neighbors, as
    many as layer L - h - 1 asks for, that the graph returned for them.  The embeddings come in the
    order of the inputs, and the nodes returned with them are the inputs. *)
Theorem C78_embeds : forall elem (feat : Z -> list elem) aggs ns layer_dims in_dim cat ok,
  (forall v, length (feat v) = in_dim) -> 0 < in_dim ->
  Forall (fun n => 0 < n) ns -> Forall (fun n => 0 < n) layer_dims ->
  length aggs = length ns -> length layer_dims = length ns ->
  (forall l x y, l < length ns -> length (agg_at aggs l x y) = width in_dim layer_dims cat (S l)) ->
  forall draw inputs, answers ok draw ->
  exists ts, map root ts = inputs /\ Forall (sampled ok (hops_of ns)) ts /\
    sage elem aggs ns layer_dims in_dim cat draw feat inputs = Ok (map (embed feat (agg_at aggs) (length ns)) ts, inputs).
Proof. exact @sage_embeds. Qed.
Print Assumptions C78_embeds.

(** ** Example
    Two layers, three neighbors in the first and two in the second; features are one number, the
    aggregators concatenate the node and the sum of its neighbors, and the last is cut to width two. *)
Definition fe (v : Z) : list Z := [(10 * v)%Z].
Definition sums (rows : list (list Z)) (k : nat) : Z := fold_right Z.add 0%Z (map (fun r => nth k r 0%Z) rows).
Definition agg0 (x : list Z) (y : list (list Z)) : list Z := [nth 0 x 0%Z; sums y 0].
Definition agg1 (x : list Z) (y : list (list Z)) : list Z := [nth 1 x 0%Z; sums y 0 + sums y 1]%Z.
Definition dr (k t : nat) (nodes : list Z) (c : nat) : list (list Z) :=
  map (fun v => map (fun i => (v + Z.of_nat i + 1)%Z) (seq 0 c)) nodes.
Example C78_answers : answers (fun _ v l => forall u, In u l -> (v < u)%Z) dr.
Proof.
  intros k t nodes c. unfold dr. induction nodes as [|v nodes IH]; constructor; [|exact IH].
  rewrite map_length, seq_length. split; [reflexivity|]. intros u H. apply in_map_iff in H. destruct H as (i & <- & _). lia.
Qed.
Example C78_example :
  sage Z [agg0; agg1] [3; 2] [1; 1] 1 true dr fe [7; 1]%Z = Ok ([[170; 800]; [50; 320]]%Z, [7; 1]%Z) /\
  (let t x := Node x [Node (x + 1) []; Node (x + 2) []; Node (x + 3) []] in
   let t7 := Node 7 [t 8; t 9]%Z in embed fe (agg_at [agg0; agg1]) 1 t7 = [70; 170]%Z /\
   embed fe (agg_at [agg0; agg1]) 1 (t 8%Z) = [80; 300]%Z).
Proof. vm_compute. auto. Qed.
