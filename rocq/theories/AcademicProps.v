(** C98: the graph in memory and the tasks that evaluate HetGNN. *)
From Coq Require Import QArith.
From Verif Require Import Base AcademicModel AcademicSpec AcademicProofs.
Local Open Scope Z_scope.

(** Full statement: sampled neighbors and features are those of the data for every node; a pass over
    the file visits every node; the files of train and test label 1 exactly the collaborations and 0
    only pairs that never collaborate; scores use all features and are defined for all predictions.
    What holds is below; what is missing is refuted after it. *)

(** Ids of a type below a million keep type and id. *)
Theorem C98_ids : forall t1 t2 id1 id2, 0 <= id1 < base -> 0 <= id2 < base ->
  map_node_id (t1, id1) = map_node_id (t2, id2) -> t1 = t2 /\ id1 = id2.
Proof. intros t1 t2 id1 id2 H1 H2 E. pose proof (code_type t1 id1 H1). pose proof (code_type t2 id2 H2). pose proof (code_id t1 id1 H1). pose proof (code_id t2 id2 H2). rewrite E in *. lia. Qed.
Print Assumptions C98_ids.

(** Sampled neighbors are neighbors, each the one that was picked, with its type. *)
Theorem C98_neighbors_partial : forall sizes feats adjs g t n f adj id l pick count,
  build sizes feats adjs = Ok g -> nth_error sizes t = Some n -> nth_error feats t = Some f -> nth_error adjs t = Some adj ->
  nth_error adj id = Some l -> Z.of_nat id < base -> (forall x, In x l -> 0 <= snd x < base) -> (forall k m, 0 < m -> pick k m < m)%nat ->
  sample_one pick g (map_node_id (t, Z.of_nat id)) count =
  Ok (match l with
      | [] => (repeat (-1) count, repeat (-1) count, O)
      | x :: _ => (map (fun k => map_node_id (nth (pick k (length l)) l x)) (seq 0 count),
                   map (fun k => Z.of_nat (fst (nth (pick k (length l)) l x))) (seq 0 count), count)
      end).
Proof. exact neighbors_right. Qed.
Print Assumptions C98_neighbors_partial.
Theorem C98_build : forall sizes feats adjs, length feats = length sizes -> length adjs = length sizes ->
  ((exists g, build sizes feats adjs = Ok g) <-> Forall2 (fun n adj => length adj <= n)%nat sizes adjs) /\
  (build sizes feats adjs = Fail EIndex <-> ~ Forall2 (fun n adj => length adj <= n)%nat sizes adjs).
Proof.
  intros sizes feats adjs Lf La. pose proof (build_ok sizes feats adjs Lf La) as B. split; [exact B|]. rewrite <- B. destruct (build_fail sizes feats adjs) as [->|[g ->]].
  - split; [intros _ [g E]; discriminate|reflexivity].
  - split; [discriminate|intros N; exfalso; apply N; eauto].
Qed.
Print Assumptions C98_build.
(** Features of known nodes are their rows, of unknown ones zeros, but of the first unknown one an error. *)
Theorem C98_features_partial : forall sizes feats adjs g t n f adj id dim,
  build sizes feats adjs = Ok g -> nth_error sizes t = Some n -> nth_error feats t = Some f -> nth_error adjs t = Some adj ->
  0 <= id < base ->
  feature_one g dim (map_node_id (t, id)) =
  (if id <? Z.of_nat (length f) then match nth (Z.to_nat id) f None with Some row => Ok row | None => Fail EUB end
   else if id =? Z.of_nat (length f) then Fail EIndex else Ok (repeat 0 dim)).
Proof. exact features_right. Qed.
Print Assumptions C98_features_partial.
(** Ids drawn by type are those of the first 2000 authors, 2000 papers and 10 venues. *)
Theorem C98_ranges : forall t x, (t < 3)%nat ->
  let r := nth t type_ranges (0, 0) in
  (fst r <= x < snd r <-> exists id, x = map_node_id (t, id) /\ 0 <= id < nth t [2000; 2000; 10] 0).
Proof.
  intros t x Ht. unfold type_ranges, map_node_id, base. destruct t as [|[|[|t]]]; [| | |lia]; cbn [nth fst snd]; (split; [intros H; eexists (x - _); split; [|split]; cycle 1; [| |cbn; apply Z.eq_sym, Z.sub_add]; cbn; lia|intros (id & -> & H); cbn; lia]).
Qed.
Print Assumptions C98_ranges.
(** A missing node has zeros and no neighbors. *)
Theorem C98_missing : forall g dim pick count,
  feature_one g dim (-1) = Ok (repeat 0 dim) /\ sample_one pick g (-1) count = Ok (repeat (-1) count, repeat (-1) count, O).
Proof. intros. split; reflexivity. Qed.
Print Assumptions C98_missing.

(** A pass over the file visits all nodes but the last, in order, in batches of at most [b]. *)
Theorem C98_loader_partial : forall A (nodes : list A) b fuel, (0 < b)%nat -> nodes <> [] -> (length nodes < fuel)%nat ->
  ~ (exists q, length nodes = q * b + 1)%nat ->
  exists bs K, load_all fuel nodes b 0 = Ok (bs, K) /\ concat bs = firstn (length nodes - 1) nodes /\
    Forall (fun l => l <> [] /\ length l <= b)%nat bs /\ load_all 1 nodes b K = Ok ([], K).
Proof.
  intros A nodes b fuel Hb Hn Hf Q. destruct (load_right nodes b fuel 0 Hb) as [[C _]|(_ & bs & K & E & HK & C & F)]; [destruct nodes; [congruence|cbn; lia]|lia|contradiction|].
  exists bs, K. do 3 (split; [assumption|]). cbn [load_all]. unfold load_next. apply Nat.leb_le in HK. rewrite HK. reflexivity.
Qed.
Print Assumptions C98_loader_partial.
(** With one node more than full batches the pass ends with an error. *)
Theorem C98_loader_refuted : forall A (nodes : list A) b fuel, (0 < b)%nat -> nodes <> [] -> (length nodes < fuel)%nat ->
  (exists q, length nodes = q * b + 1)%nat -> load_all fuel nodes b 0 = Fail EIndex.
Proof.
  intros A nodes b fuel Hb Hn Hf Q. destruct (load_right nodes b fuel 0 Hb) as [[_ E]|(N & _)]; [destruct nodes; [congruence|cbn; lia]|lia|exact E|contradiction].
Qed.
Print Assumptions C98_loader_refuted.

(** Collaborators of an author in the train papers, and new ones in the test papers. *)
Theorem C98_collaborations : forall n train test,
  (forall p a, In p train -> In a p -> (a < n)%nat) -> (forall p a, In p test -> In a p -> (a < n)%nat) ->
  exists tr te, collaborations n train test = Ok (tr, te) /\ length tr = n /\ length te = n /\
    (forall i, NoDup (nth i tr [])) /\ (forall i, NoDup (nth i te [])) /\
    (forall i x, In x (nth i tr []) <-> together train i x) /\ (forall i x, In x (nth i te []) <-> new_pair train test i x).
Proof. exact collab_right. Qed.
Print Assumptions C98_collaborations.
(** An author beyond their number is an error. *)
Theorem C98_outside : forall n train test a b, together (train ++ test) a b -> (n <= a)%nat -> collaborations n train test = Fail EIndex.
Proof. exact collab_outside. Qed.
Print Assumptions C98_outside.
(** Lines of the train file: 1 for collaborations, all of them, 0 for pairs without papers in train. *)
Theorem C98_train_lines : forall n train test tr te fuel draw ls,
  (forall p a, In p train -> In a p -> (a < n)%nat) -> (forall p a, In p test -> In a p -> (a < n)%nat) ->
  collaborations n train test = Ok (tr, te) -> train_lines fuel draw tr = Ok ls ->
  (forall i x, In (i, x, 1%nat) ls <-> together train i x) /\ (forall i x, In (i, x, O) ls -> ~ together train i x) /\
  (forall i x y, In (i, x, y) ls -> y = O \/ y = 1%nat).
Proof.
  intros n train test tr te fuel draw ls H1 H2 E L. destruct (collab_right n train test H1 H2) as (tr' & te' & E' & _ & _ & _ & _ & T & _).
  rewrite E in E'. injection E' as <- <-. destruct (lines_right _ _ _ _ _ L) as [A B]. split; [|split].
  - intros i x. rewrite <- T. split; [|apply B]. intros H. destruct (A _ _ _ H) as [[_ G]|[D _]]; [exact G|discriminate].
  - intros i x H. rewrite <- T. destruct (A _ _ _ H) as [[D _]|(_ & G & _)]; [discriminate|]. intros I. apply mem_in in I. congruence.
  - intros i x y H. destruct (A _ _ _ H) as [[-> _]|[-> _]]; auto.
Qed.
Print Assumptions C98_train_lines.
(** Lines of the test file: 1 for new collaborations, all of them, 0 for pairs without papers in
    train that are no new collaborations. *)
Theorem C98_test_lines : forall n train test tr te fuel draw ls,
  (forall p a, In p train -> In a p -> (a < n)%nat) -> (forall p a, In p test -> In a p -> (a < n)%nat) ->
  collaborations n train test = Ok (tr, te) -> test_lines fuel draw tr te = Ok ls ->
  (forall i x, In (i, x, 1%nat) ls <-> new_pair train test i x) /\
  (forall i x, In (i, x, O) ls -> ~ together train i x /\ ~ new_pair train test i x) /\
  (forall i x y, In (i, x, y) ls -> y = O \/ y = 1%nat).
Proof.
  intros n train test tr te fuel draw ls H1 H2 E L. destruct (collab_right n train test H1 H2) as (tr' & te' & E' & _ & _ & _ & _ & T & N).
  rewrite E in E'. injection E' as <- <-. destruct (lines_right _ _ _ _ _ L) as [A B]. split; [|split].
  - intros i x. rewrite <- N. split; [|apply B]. intros H. destruct (A _ _ _ H) as [[_ G]|[D _]]; [exact G|discriminate].
  - intros i x H. rewrite <- T, <- N. destruct (A _ _ _ H) as [[D _]|(_ & G & _)]; [discriminate|]. apply orb_false_iff in G. destruct G as [G _]. apply orb_false_iff in G. destruct G as [G1 G2].
    split; intros I; apply mem_in in I; congruence.
  - intros i x y H. destruct (A _ _ _ H) as [[-> _]|[-> _]]; auto.
Qed.
Print Assumptions C98_test_lines.
(** As many 0 as 1. *)
Theorem C98_balanced : forall fuel draw bad lists ls, lines_of fuel draw bad lists = Ok ls ->
  length (filter (fun l => snd l =? 1)%nat ls) = length (filter (fun l => snd l =? 0)%nat ls) /\ length ls = (2 * length (concat lists))%nat.
Proof. exact balanced_right. Qed.
Print Assumptions C98_balanced.
(** The files are written when every author has a draw that is allowed; otherwise drawing never ends. *)
Theorem C98_draws : forall bad draws, (forall fuel k j, (j < fuel)%nat -> bad (draws (k + j)%nat) = false -> exists v, reject fuel draws k bad = Ok v) /\
  ((forall j, bad (draws j) = true) -> forall fuel k, reject fuel draws k bad = Fail EFuel).
Proof. intros bad draws. split; [intros fuel k j; apply reject_finds|intros H fuel; now apply reject_never]. Qed.
Print Assumptions C98_draws.

(** The venue of an author: the first with most papers. *)
Theorem C98_venue : forall v_n p_v papers, (0 < v_n)%nat ->
  let cnt v := occurs v (map (fun p => nth p p_v O) papers) in
  let m := a_max_v v_n p_v papers in
  (m < v_n)%nat /\ (forall v, (v < v_n)%nat -> (cnt v <= cnt m)%nat) /\ (forall v, (v < m)%nat -> (cnt v < cnt m)%nat).
Proof. exact venue_right. Qed.
Print Assumptions C98_venue.

(** An author belongs to the area of the venue, if it has one. *)
Definition class_no (a : area) : nat := match a with Vision => 0 | Language => 1 | Mining => 2 | Databases => 3 end%nat.
Theorem C98_class : forall v, match class_of v with Some c => exists a, c = class_no a /\ In v (venues a) | None => forall a, ~ In v (venues a) end.
Proof.
  intros v. unfold class_of, mem. cbn [existsb].
  do 18 (destruct v as [|v]; [cbn; first [exists Vision; now cbn; auto 6 | exists Language; now cbn; auto 6 | exists Mining; now cbn; auto 6 | exists Databases; now cbn; auto 6 | intros [| | |]; cbn; lia] |]).
  cbn. intros [| | |]; cbn; lia.
Qed.
Print Assumptions C98_class.

(** F1, defined when some positive is predicted right. *)
Theorem C98_f1_partial : forall l, 0 < tally true true l -> exists v, f1 l = Ok v /\ (v == f1_score l)%Q.
Proof. intros l. exact (proj1 (f1_right l)). Qed.
Print Assumptions C98_f1_partial.
Theorem C98_f1_refuted : forall l, tally true true l = 0 -> f1 l = Fail EAssert.
Proof. intros l. exact (proj2 (f1_right l)). Qed.
Print Assumptions C98_f1_refuted.

(** ** Examples *)
(** Author 0 writes papers 0 and 1, paper 0 has author 0 and venue 0. *)
Definition adjs0 : list (list (list (nat * Z))) := [[[(1%nat, 0); (1%nat, 1)]; []]; [[(0%nat, 0); (2%nat, 0)]; [(0%nat, 0)]]; [[(1%nat, 0)]]].
Definition feats0 : list (list (option (list Z))) := [[Some [1]; Some [2]]; [Some [3]; Some [4]]; [Some [5]]].
Definition graph0 : list side := match build [2; 2; 1]%nat feats0 adjs0 with Ok g => g | Fail _ => [] end.
Example C98_case : build [2; 2; 1]%nat feats0 adjs0 = Ok graph0 /\
  sample_one (fun k m => Nat.modulo (S k) m) graph0 2000000 3 = Ok ([3000000; 1000000; 3000000], [2; 0; 2], 3%nat) /\
  feature_one graph0 1 2000001 = Ok [4].
Proof. repeat split; vm_compute; reflexivity. Qed.
Example C98_case_loader : load_all 9 [1; 2; 3; 4; 5; 6]%nat 4 0 = Ok ([[1; 2; 3; 4]; [5]]%nat, 2%nat) /\ ~ (exists q, 6 = q * 4 + 1)%nat.
Proof. split; [reflexivity|]. intros [q E]. lia. Qed.
(** Train papers 0-1, 1-2 and 0-3, test papers 0-2 and 0-1: new are 0-2 and 2-0. *)
Example C98_case_papers : collaborations 4 [[0; 1]; [1; 2]; [0; 3]]%nat [[0; 2]; [0; 1]]%nat = Ok ([[1; 3]; [0; 2]; [1]; [0]]%nat, [[2]; []; [0]; []]%nat) /\
  test_lines 9 (fun _ _ k => Nat.modulo k 4) [[1; 3]; [0; 2]; [1]; [0]]%nat [[2]; []; [0]; []]%nat = Ok [(0, 2, 1); (0, 0, 0); (2, 0, 1); (2, 2, 0)]%nat.
Proof. split; vm_compute; reflexivity. Qed.
Example C98_case_venue : a_max_v 3 [2; 1; 1; 2; 0]%nat [0; 1; 2; 3; 4]%nat = 1%nat.
Proof. reflexivity. Qed.
Example C98_case_f1 : exists v, f1 [(true, true); (true, false); (false, true); (true, true)] = Ok v /\ (v == 2 # 3)%Q.
Proof. eexists. split; vm_compute; reflexivity. Qed.

(** ** What does not hold *)
(** graph.py 77-83: a million nodes of a type run into the next type. *)
Theorem C98_ids_refuted : map_node_id (0%nat, 1000000) = map_node_id (1%nat, 0).
Proof. reflexivity. Qed.
Print Assumptions C98_ids_refuted.
(** graph.py 148: the first id after the rows is not zeros but an error. *)
Theorem C98_features_refuted : feature_one graph0 1 1000002 = Fail EIndex /\ feature_one graph0 1 1000003 = Ok [0].
Proof. split; vm_compute; reflexivity. Qed.
Print Assumptions C98_features_refuted.
(** graph.py 32-36: sampled ids come from fixed ranges, beyond the nodes of this graph, and below the
    18 venues of the data: venues 10 to 17 are never drawn. *)
Theorem C98_ranges_refuted :
  (exists x, fst (nth 0 type_ranges (0, 0)) <= x < snd (nth 0 type_ranges (0, 0)) /\ sample_one (fun _ _ => O) graph0 x 1 = Fail EIndex) /\
  (forall v, 10 <= v < 18 -> ~ (fst (nth 2 type_ranges (0, 0)) <= map_node_id (2%nat, v) < snd (nth 2 type_ranges (0, 0)))).
Proof.
  split; [exists 1000005; split; [vm_compute; split; congruence|vm_compute; reflexivity]|]. intros v H. unfold type_ranges, map_node_id, base. cbn [nth fst snd]. lia.
Qed.
Print Assumptions C98_ranges_refuted.
(** graph.py 96-99, 143: an id without a type is read as one of the last type, by an index of -1. *)
Theorem C98_untyped_refuted : forall g s pick dim count id, 0 <= id < base ->
  sample_one pick (g ++ [s]) id count = sample_one pick (g ++ [s]) (map_node_id (length g, id)) count /\
  feature_one (g ++ [s]) dim id = feature_one (g ++ [s]) dim (map_node_id (length g, id)).
Proof. exact untyped_right. Qed.
Print Assumptions C98_untyped_refuted.
(** graph.py 50-58: without a list of neighbors the interval of a node is uninitialised memory. *)
Theorem C98_interval_refuted : exists g, build [2]%nat [[Some [1]; Some [2]]] [[[(0%nat, 1)]]] = Ok g /\ sample_one (fun _ _ => O) g 1000001 1 = Fail EUB.
Proof. eexists. split; [vm_compute; reflexivity|]. vm_compute. reflexivity. Qed.
Print Assumptions C98_interval_refuted.
(** graph.py 208-211: the last node of the file is never in a batch. *)
Theorem C98_last_refuted : exists bs K, load_all 9 [1; 2; 3; 4]%nat 2 0 = Ok (bs, K) /\ ~ In 4%nat (concat bs).
Proof. exists [[1; 2]; [3]]%nat, 2%nat. split; [reflexivity|]. cbn [concat app In]. intros H. repeat destruct H as [H|H]; try discriminate H. exact H. Qed.
Print Assumptions C98_last_refuted.
(** main.py 270-276: the train file labels 0 a pair that the test file labels 1, and an author with
    themselves. *)
Theorem C98_leak_refuted : exists tr te l1 l2 draw1 draw2, collaborations 4 [[0; 1]; [1; 2]; [0; 3]]%nat [[0; 2]]%nat = Ok (tr, te) /\
  train_lines 9 draw1 tr = Ok l1 /\ test_lines 9 draw2 tr te = Ok l2 /\ In (0, 2, 0)%nat l1 /\ In (0, 2, 1)%nat l2 /\ In (3, 3, 0)%nat l1.
Proof.
  exists [[1; 3]; [0; 2]; [1]; [0]]%nat, [[2]; []; [0]; []]%nat. eexists _, _. exists (fun i _ k => Nat.modulo (k + (if (i =? 3)%nat then 3 else 2)) 4), (fun _ _ k => Nat.modulo k 4).
  split; [vm_compute; reflexivity|]. split; [vm_compute; reflexivity|]. split; [vm_compute; reflexivity|]. cbn [In]. tauto.
Qed.
Print Assumptions C98_leak_refuted.
(** main.py 279-290: an author who is new to nobody but whose pairs are test papers of authors without
    collaborators is labelled 0 although they collaborate in the test papers. *)
Theorem C98_test_refuted : exists train test tr te draw ls, collaborations 5 train test = Ok (tr, te) /\ test_lines 9 draw tr te = Ok ls /\
  In (0, 4, 0)%nat ls /\ together test 0 4.
Proof.
  exists [[0; 1]; [1; 2]]%nat, [[0; 2]; [0; 4]]%nat. eexists _, _. exists (fun _ _ k => Nat.modulo (k + 4) 5). eexists.
  split; [vm_compute; reflexivity|]. split; [vm_compute; reflexivity|]. split; [cbn [In]; tauto|].
  exists [0; 4]%nat, 0%nat, 1%nat. cbn [In]. split; [tauto|]. split; [discriminate|]. split; reflexivity.
Qed.
Print Assumptions C98_test_refuted.
(** main.py 272-274: an author who collaborates with everybody (and is listed twice on a paper) leaves
    nothing to draw: the loop never ends. *)
Theorem C98_ends_refuted : exists train tr te, collaborations 2 train [] = Ok (tr, te) /\
  forall fuel draw, (forall i j k, draw i j k < 2)%nat -> train_lines fuel draw tr = Fail EFuel.
Proof.
  exists [[0; 0; 1]]%nat, [[0; 1]; [0]]%nat, [[]; []]. split; [vm_compute; reflexivity|]. intros fuel draw H.
  unfold train_lines, lines_of. cbn [length seq mapM nth]. rewrite reject_never; [reflexivity|].
  intros j. specialize (H 0%nat 0%nat j). destruct (draw 0%nat 0%nat j) as [|[|?]]; [reflexivity|reflexivity|lia].
Qed.
Print Assumptions C98_ends_refuted.
(** evaluation.py 28, 40, 60, 74: the last feature of every row is left out. *)
Theorem C98_columns_refuted : forall A (a b : A) feats x, feature_columns 2 (a :: b :: feats ++ [x]) = feats.
Proof.
  intros. unfold feature_columns. cbn [length]. rewrite app_length. cbn [length].
  replace (S (S (length feats + 1)) - 1)%nat with (S (S (length feats))) by lia. cbn [firstn skipn]. rewrite firstn_app, Nat.sub_diag. cbn [firstn]. rewrite app_nil_r. apply firstn_all.
Qed.
Print Assumptions C98_columns_refuted.
(** main.py 387: a paper without a venue counts for venue 0. *)
Theorem C98_venue_refuted : exists p_v, a_max_v 2 p_v [0; 1; 2]%nat = 0%nat /\ p_v = [1; 0; 0]%nat.
Proof. exists [1; 0; 0]%nat. split; reflexivity. Qed.
Print Assumptions C98_venue_refuted.
