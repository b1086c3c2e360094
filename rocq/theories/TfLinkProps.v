(** C97: GraphSAGE in TensorFlow for link prediction and without labels. *)
From Coq Require Import QArith.
From Verif Require Import Base Dist TfSageModel TfSageSpec TfSageProofs MetricModel MetricSpec TfLinkModel TfLinkSpec TfLinkProofs.
Local Open Scope Z_scope.

(** Full statement: every node has its own trained row; the prediction for an edge is the sigmoid of
    the inner product of the embeddings of its ends, the loss is the mean of the cross entropies with
    the labels, and evaluation and inference use the same embeddings; without labels every node is
    drawn to one of its neighbors and away from the negatives.  Shown for ids with a row in the
    table; what is missing is refuted below. *)

(** Trees of sampled nodes hang from the two ends of every edge, in the order of the edges. *)
Theorem C97_link_partial : forall norm sce sg c src_aggs dst_aggs table ok,
  fits (c_ns c) (c_in c) (c_dims c) (c_cat c) src_aggs -> fits (c_ns c) (c_in c) (c_dims c) (c_cat c) dst_aggs ->
  (forall x, length (norm x) = length x) -> Forall (fun r => length r = c_in c) table -> table <> [] -> in_table ok (length table) ->
  forall draw_src draw_dst label edges, answers ok draw_src -> answers ok draw_dst ->
  (forall s d t, In (s, d, t) edges -> s < Z.of_nat (length table) /\ d < Z.of_nat (length table)) ->
  (forall e, In e edges -> exists y, label e = [y]) -> edges <> [] ->
  let emb aggs t := norm (embed (node_row (c_in c) table) (agg_at aggs) (length (c_ns c)) t) in
  exists ts td zs loss,
    map root ts = map (fun e => fst (fst e)) edges /\ map root td = map (fun e => snd (fst e)) edges /\
    Forall (sampled ok (hops_of (c_ns c))) ts /\ Forall (sampled ok (hops_of (c_ns c))) td /\
    zs = map (fun p => inner (width (c_in c) (c_dims c) (c_cat c) (length (c_ns c))) (emb src_aggs (fst p)) (emb dst_aggs (snd p))) (combine ts td) /\
    link_call norm sce sg c src_aggs dst_aggs table (link_query draw_src draw_dst label (c_ns c) edges) = Ok (map sg zs, loss) /\
    is_mean loss (map (fun p => sce (fst p) (hd 0%Q (label (snd p)))) (combine zs edges)).
Proof.
  intros norm sce sg c sa da table ok Fs Fd Hn Ht Hne Hi ds dd label edges As Ad R Y N emb.
  destruct (link_right norm sce sg c sa da table ok Fs Fd Hn Ht Hne Hi ds dd label edges As Ad R) as (ts & td & R1 & R2 & S1 & S2 & G).
  cbv zeta in G. fold (emb sa) in G. fold (emb da) in G.
  set (zs := map (fun p => inner (width (c_in c) (c_dims c) (c_cat c) (length (c_ns c))) (emb sa (fst p)) (emb da (snd p))) (combine ts td)).
  assert (Ly : length (concat (map label edges)) = length edges).
  { apply concat_ones. intros e H. destruct (Y e H) as [y ->]. reflexivity. }
  assert (Lz : length zs = length edges).
  { unfold zs. rewrite map_length, combine_length. apply (f_equal (@length Z)) in R1, R2. rewrite !map_length in R1, R2. lia. }
  exists ts, td, zs, (qavg (map (fun p => sce (fst p) (snd p)) (combine zs (concat (map label edges))))). do 5 (split; [assumption || reflexivity|]). split.
  - rewrite G. change (length (map _ (combine ts td))) with (length zs). rewrite Lz, Ly, Nat.eqb_refl. reflexivity.
  - replace (combine zs (concat (map label edges))) with (map (fun p => (fst p, hd 0%Q (label (snd p)))) (combine zs edges)).
    + rewrite map_map. cbn [fst snd]. apply qavg_mean. intros E. apply map_eq_nil in E.
      apply (f_equal (@length _)) in E. rewrite combine_length, Lz, Nat.min_id in E. destruct edges; [congruence|discriminate].
    + clear -Y. clearbody zs. revert zs. induction edges as [|e edges IH]; intros [|z zs]; try reflexivity.
      cbn [map combine concat fst snd]. destruct (Y e (or_introl eq_refl)) as [y E]. rewrite E. cbn [hd app combine]. f_equal. apply IH. intros x H. apply Y. now right.
Qed.
Print Assumptions C97_link_partial.
(** Labels of another size than one number for every edge stop training. *)
Theorem C97_labels : forall norm sce sg c src_aggs dst_aggs table ok,
  fits (c_ns c) (c_in c) (c_dims c) (c_cat c) src_aggs -> fits (c_ns c) (c_in c) (c_dims c) (c_cat c) dst_aggs ->
  (forall x, length (norm x) = length x) -> Forall (fun r => length r = c_in c) table -> table <> [] -> in_table ok (length table) ->
  forall draw_src draw_dst label edges, answers ok draw_src -> answers ok draw_dst ->
  (forall s d t, In (s, d, t) edges -> s < Z.of_nat (length table) /\ d < Z.of_nat (length table)) ->
  ((exists r, link_call norm sce sg c src_aggs dst_aggs table (link_query draw_src draw_dst label (c_ns c) edges) = Ok r) <->
   length (concat (map label edges)) = length edges).
Proof.
  intros norm sce sg c sa da table ok Fs Fd Hn Ht Hne Hi ds dd label edges As Ad R.
  destruct (link_right norm sce sg c sa da table ok Fs Fd Hn Ht Hne Hi ds dd label edges As Ad R) as (ts & td & R1 & R2 & _ & _ & G).
  cbv zeta in G. rewrite G. clear G. apply (f_equal (@length Z)) in R1, R2. rewrite !map_length in R1, R2.
  rewrite map_length, combine_length, R1, R2, Nat.min_id. destruct (Nat.eqb_spec (length edges) (length (concat (map label edges)))).
  - split; [auto|eexists; reflexivity].
  - split; [intros [r H]; discriminate|congruence].
Qed.
Print Assumptions C97_labels.
(** Inference gives the ids asked for with the embeddings that training uses for the same end. *)
Theorem C97_inference : forall norm c src_aggs dst_aggs table ok,
  fits (c_ns c) (c_in c) (c_dims c) (c_cat c) src_aggs -> fits (c_ns c) (c_in c) (c_dims c) (c_cat c) dst_aggs ->
  Forall (fun r => length r = c_in c) table -> table <> [] -> in_table ok (length table) ->
  forall r draw inputs, answers ok draw -> Forall (fun v => v < Z.of_nat (length table)) inputs ->
  exists ts, map root ts = inputs /\ Forall (sampled ok (hops_of (c_ns c))) ts /\
    link_inference norm c src_aggs dst_aggs table r (inference_query draw (c_ns c) inputs)
    = Ok (inputs, map (fun t => norm (embed (node_row (c_in c) table) (agg_at (match r with Src => src_aggs | Dst => dst_aggs end)) (length (c_ns c)) t)) ts).
Proof. intros. now apply inference_right. Qed.
Print Assumptions C97_inference.
(** Evaluation needs that no end is set, inference needs that one is. *)
Theorem C97_steps : forall norm sce sg c src_aggs dst_aggs table inputs,
  (forall r, exists e, test_step norm sce sg c src_aggs dst_aggs table (Some r) inputs = Fail e) /\
  (exists e, predict_step norm sce sg c src_aggs dst_aggs table None inputs = Fail e) /\
  (forall p l, link_call norm sce sg c src_aggs dst_aggs table inputs = Ok (p, l) ->
     test_step norm sce sg c src_aggs dst_aggs table None inputs = Ok l) /\
  (forall r o, link_inference norm c src_aggs dst_aggs table r inputs = Ok o ->
     predict_step norm sce sg c src_aggs dst_aggs table (Some r) inputs = Ok o).
Proof.
  intros. unfold test_step, predict_step, link_step. split; [|split; [|split]].
  - intros r. destruct (link_inference _ _ _ _ _ _ _) as [o|e]; cbn [bind]; eexists; reflexivity.
  - destruct (link_call _ _ _ _ _ _ _ _) as [o|e]; cbn [bind]; eexists; reflexivity.
  - intros p l ->. reflexivity.
  - intros r [i e] ->. reflexivity.
Qed.
Print Assumptions C97_steps.
(** Row v for node v, for all nodes with a row; a greater id stops the program. *)
Theorem C97_rows : forall d table nodes, table <> [] ->
  (Forall (fun v => v < Z.of_nat (length table)) nodes -> identity table nodes = Ok (map (node_row d table) nodes)) /\
  (forall v, In v nodes -> Z.of_nat (length table) <= v -> identity table nodes = Fail EIndex).
Proof. intros d table nodes N. split; [now apply identity_right|apply identity_fails]. Qed.
Print Assumptions C97_rows.

(** Without labels, with features of the graph and with trained rows: the loss and the mean
    reciprocal rank of the trees of sources, positives and negatives. *)
Theorem C97_unsup_partial : forall norm sce ord c aggs weight feat ok,
  fits (c_ns c) (c_in c) (c_dims c) (c_cat c) aggs -> (forall x, length (norm x) = length x) ->
  (forall v, length (feat v) = c_in c) -> descending ord ->
  forall draw pos neg seeds, answers ok draw ->
  seeds <> [] -> length pos = length seeds -> Forall (fun l => length l = 1%nat) pos ->
  let emb t := norm (embed feat (agg_at aggs) (length (c_ns c)) t) in
  let score a b := inner (width (c_in c) (c_dims c) (c_cat c) (length (c_ns c))) (emb a) (emb b) in
  exists ts tp tn,
    map root ts = seeds /\ map root tp = concat pos /\ map root tn = neg /\
    Forall (sampled ok (hops_of (c_ns c))) (ts ++ tp ++ tn) /\ length tp = length ts /\
    exists loss mrr rs,
      unsup_call norm sce ord c aggs weight None (unsup_query draw pos neg (Some feat) (c_ns c) seeds)
      = Ok (seeds, map emb ts, loss, mrr) /\
      (loss * inject_Z (Z.of_nat (length ts)) ==
       qsum (fun p => sce (score (fst p) (snd p)) 1 + weight * qsum (fun n => sce (score (fst p) n) 0) tn) (combine ts tp))%Q /\
      is_mrr mrr rs /\ Forall2 (fun p r => ranked (map (fun n => score (fst p) n) tn ++ [score (fst p) (snd p)]) (length tn) r) (combine ts tp) rs.
Proof. intros norm sce ord c aggs w feat ok F Hn Hf Ho draw pos neg seeds A N L1 F1. exact (unsup_right norm sce ord c aggs w feat ok F Hn Hf Ho None draw pos neg seeds A I N L1 F1). Qed.
Print Assumptions C97_unsup_partial.
Theorem C97_unsup_rows_partial : forall norm sce ord c aggs weight table ok,
  fits (c_ns c) (c_in c) (c_dims c) (c_cat c) aggs -> (forall x, length (norm x) = length x) -> descending ord ->
  Forall (fun r => length r = c_in c) table -> table <> [] -> in_table ok (length table) ->
  forall draw pos neg seeds, answers ok draw -> Forall (fun v => v < Z.of_nat (length table)) (seeds ++ concat pos ++ neg) ->
  seeds <> [] -> length pos = length seeds -> Forall (fun l => length l = 1%nat) pos ->
  let emb t := norm (embed (node_row (c_in c) table) (agg_at aggs) (length (c_ns c)) t) in
  let score a b := inner (width (c_in c) (c_dims c) (c_cat c) (length (c_ns c))) (emb a) (emb b) in
  exists ts tp tn,
    map root ts = seeds /\ map root tp = concat pos /\ map root tn = neg /\
    Forall (sampled ok (hops_of (c_ns c))) (ts ++ tp ++ tn) /\ length tp = length ts /\
    exists loss mrr rs,
      unsup_call norm sce ord c aggs weight (Some table) (unsup_query draw pos neg None (c_ns c) seeds)
      = Ok (seeds, map emb ts, loss, mrr) /\
      (loss * inject_Z (Z.of_nat (length ts)) ==
       qsum (fun p => sce (score (fst p) (snd p)) 1 + weight * qsum (fun n => sce (score (fst p) n) 0) tn) (combine ts tp))%Q /\
      is_mrr mrr rs /\ Forall2 (fun p r => ranked (map (fun n => score (fst p) n) tn ++ [score (fst p) (snd p)]) (length tn) r) (combine ts tp) rs.
Proof. exact unsup_identity. Qed.
Print Assumptions C97_unsup_rows_partial.

(** Refuted: with a row for every one of [n] nodes and one for missing nodes, a node with id [n] (ids
    that start at 1) has the row of the missing nodes, whatever is trained. *)
Theorem C97_shared_refuted : forall (table : list (list Q)) n, length table = S n ->
  identity table [Z.of_nat n] = identity table [-1].
Proof.
  intros table n L. unfold identity. cbn [map mapM]. rewrite L. destruct (Z.leb_spec 0 (Z.of_nat n)); [|lia].
  replace (Z.of_nat (S n) - 1) with (Z.of_nat n) by lia. reflexivity.
Qed.
Print Assumptions C97_shared_refuted.
(** Refuted: the default shape of the embeddings, an empty list, stops the constructor; None does not. *)
Theorem C97_default_refuted : init_max_id (Some []) = Fail EIndex /\ init_max_id None = Ok None.
Proof. split; reflexivity. Qed.
Print Assumptions C97_default_refuted.

(** ** Examples
    One layer with two neighbors, embeddings of three nodes and of missing ones, ends that add their
    neighbors with different factors. *)
Definition add2 (k : Q) (x : list Q) (y : list (list Q)) : list Q := [Qred (nth 0 x 0 + k * qsum (fun r => nth 0 r 0) y)]%Q.
Definition ring (k t : nat) (nodes : list Z) (c : nat) : list (list Z) :=
  map (fun v => map (fun i => if v =? 2 then -1 else Z.modulo (v + Z.of_nat i + 1) 3) (seq 0 c)) nodes.
Definition cf : conf := Conf [2%nat] 1 [1%nat] false.
Definition tb : list (list Q) := [[1]; [10]; [100]; [7]]%Q.
Example C97_case :
  link_call (fun x => x) (fun z y => (z - y)%Q) (fun z => (z + 1)%Q) cf [add2 1] [add2 2] tb
    (link_query ring ring (fun e => [inject_Z (snd e)]) [2%nat] [(0, 2, 5); (1, 0, 3)])
  = Ok ([14209; 24532]%Q, 38731 # 2) /\
  link_inference (fun x => x) cf [add2 1] [add2 2] tb Dst (inference_query ring [2%nat] [2; 0; -1]) = Ok ([2; 0; -1], [[128]; [221]; [29]]%Q).
Proof. split; vm_compute; reflexivity. Qed.
Example C97_case_answers : answers (fun _ _ l => forall u, In u l -> u < 4) ring /\ in_table (fun _ _ l => forall u, In u l -> u < 4) (length tb).
Proof.
  split; [|intros t v l u H I; exact (H u I)]. intros k t nodes c. unfold ring. induction nodes as [|v nodes IH]; constructor; [|exact IH].
  rewrite map_length, seq_length. split; [reflexivity|]. intros u H. apply in_map_iff in H. destruct H as (i & <- & _).
  destruct (v =? 2); [lia|]. pose proof (Z.mod_pos_bound (v + Z.of_nat i + 1) 3). lia.
Qed.
Example C97_case_fits : fits (c_ns cf) (c_in cf) (c_dims cf) (c_cat cf) [add2 1].
Proof. repeat (split; [cbn; auto|]). intros [|l] x y H; [reflexivity|cbn in H; lia]. Qed.
(** A sort for the example. *)
Fixpoint put (s : list Q) (i : nat) (l : list nat) : list nat :=
  match l with [] => [i] | j :: t => if Qle_bool (nth j s 0%Q) (nth i s 0%Q) then i :: l else j :: put s i t end.
Definition sorted (s : list Q) : list nat := fold_right (put s) [] (seq 0 (length s)).
Example C97_unsup_case :
  unsup_call (fun x => x) (fun z y => (z - y)%Q) sorted cf [add2 1] 2 (Some tb) (unsup_query ring [[1]; [-1]] [0; 1; 2] None [2%nat] [0; 2])
  = Ok ([0; 2], [[111]; [114]]%Q, 165571 # 2, 8 # 32).
Proof. vm_compute. reflexivity. Qed.
(** Refuted: a node without neighbors is drawn to the row of the missing nodes: a greater row there
    makes its loss smaller (58-64 with default -1, 184-185). *)
Theorem C97_isolated_refuted : exists seeds pos neg t1 t2 l1 l2 e1 e2 m1 m2,
  pos = [[-1]] /\ firstn 3 t1 = firstn 3 t2 /\
  unsup_call (fun x => x) (fun z y => (1 - z)%Q) sorted (Conf [] 1 [] false) [] 1 (Some t1) (unsup_query ring pos neg None [] seeds) = Ok (seeds, e1, l1, m1) /\
  unsup_call (fun x => x) (fun z y => (1 - z)%Q) sorted (Conf [] 1 [] false) [] 1 (Some t2) (unsup_query ring pos neg None [] seeds) = Ok (seeds, e2, l2, m2) /\
  (l2 < l1)%Q.
Proof.
  exists [0], [[-1]], [1], tb, [[1]; [10]; [100]; [8]]%Q. do 6 eexists. split; [reflexivity|]. split; [reflexivity|].
  split; [vm_compute; reflexivity|]. split; [vm_compute; reflexivity|]. reflexivity.
Qed.
Print Assumptions C97_isolated_refuted.
