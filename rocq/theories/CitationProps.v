(** C86: rows, masks and node types of the citation datasets. *)
From Coq Require Import Permutation.
From Verif Require Import Base CitationModel CitationSpec CitationProofs CitationSplitProofs.
From Coq Require Import ZifyBool ZifyNat.

(** Every test row is placed at the number of its node.  Full statement: whatever the numbers
    of the test nodes; here the smallest of them follows the known nodes and, except for
    Citeseer, there are no gaps. *)
Theorem C86_placed_partial :
  forall (A : Type) (zero : A) (citeseer : bool) reorder allx tx,
    (if citeseer then test_numbers (length allx) (length tx) reorder else dense (length allx) (length tx) reorder) ->
    exists out, arrange zero citeseer reorder allx tx = Ok out /\ placed zero reorder allx tx out.
Proof. intros A zero [|] reorder allx tx H; [now apply citeseer_placed|now apply cora_placed]. Qed.
Print Assumptions C86_placed_partial.
Example C86_placed_case :
  test_numbers 2 3 [5; 2; 3] /\ arrange 0 true [5; 2; 3] [10; 11] [20; 21; 22] = Ok [10; 11; 21; 22; 0; 20] /\
  dense 2 3 [4; 2; 3] /\ arrange 0 false [4; 2; 3] [10; 11] [20; 21; 22] = Ok [10; 11; 21; 22; 20].
Proof.
  split; [|split; [reflexivity|split; [|reflexivity]]].
  - split; [repeat (constructor; [cbn; lia|]); constructor|]. split; [reflexivity|]. split; [cbn; tauto|]. cbn. lia.
  - unfold dense. cbn. apply (perm_trans (l' := [2; 4; 3])); [apply perm_swap|]. apply perm_skip, perm_swap.
Qed.

(** Without the correction for Citeseer a gap in the numbers raises, and with it numbers that
    start after a gap do. *)
Theorem C86_gap_refuted :
  exists reorder allx tx, test_numbers (length allx) (length tx) reorder /\ arrange 0 false reorder allx tx = Fail EIndex.
Proof.
  exists [1; 3], [10], [20; 21]. split; [|reflexivity]. split; [repeat (constructor; [cbn; lia|]); constructor|]. split; [reflexivity|].
  split; [cbn; tauto|]. cbn. lia.
Qed.
Print Assumptions C86_gap_refuted.
Theorem C86_first_refuted :
  exists reorder allx tx, NoDup reorder /\ length reorder = length tx /\ (forall i, In i reorder -> length allx <= i) /\
    arrange 0 true reorder allx tx = Fail EIndex.
Proof. exists [2], [10], [20]. split; [repeat constructor; cbn; tauto|]. split; [reflexivity|]. split; [cbn; lia|reflexivity]. Qed.
Print Assumptions C86_first_refuted.

(** The public masks: the first [ny] nodes, the 500 after them, the test nodes.  Full
    statement: for any number of nodes. *)
Theorem C86_masks_partial :
  forall ny reorder n, ny + 500 <= n -> (forall i, In i reorder -> i < n) ->
    exists train val test, public_masks ny reorder n = Ok (train, val, test) /\
      marks n train (fun i => i < ny) /\ marks n val (fun i => ny <= i < ny + 500) /\ marks n test (fun i => In i reorder).
Proof. exact public_lemma. Qed.
Print Assumptions C86_masks_partial.
(** A smaller dataset always raises. *)
Theorem C86_small_refuted :
  forall ny reorder n, ny <= n < ny + 500 -> public_masks ny reorder n = Fail EIndex.
Proof. intros ny reorder n H. apply public_fails; lia. Qed.
Print Assumptions C86_small_refuted.
Example C86_masks_case :
  match public_masks 3 [510; 508] 512 with
  | Ok (a, b, c) => nonzero 0 a = [0; 1; 2] /\ nonzero 0 b = seq 3 500 /\ nonzero 0 c = [508; 510]
  | Fail _ => False
  end /\ public_masks 3 [7; 9] 12 = Fail EIndex.
Proof. vm_compute. repeat split; reflexivity. Qed.

(** A random split, whatever permutations are drawn: no node in two sets, twenty nodes of each
    class (all of a smaller one) for training, sizes as asked for as far as nodes remain. *)
Theorem C86_random_split :
  forall perm labels classes num_val num_test per_class,
    (forall k l, Permutation (perm k l) l) -> 0 < classes ->
    exists train val test, random_split perm labels classes per_class num_val num_test = Ok (train, val, test) /\
      length train = length labels /\ length val = length labels /\ length test = length labels /\
      disjoint train val /\ disjoint train test /\ disjoint val test /\
      (forall cl, of_class labels train cl = if cl <? classes then Nat.min 20 (count_occ Nat.eq_dec labels cl) else 0) /\
      marked val = Nat.min num_val (length labels - marked train) /\
      marked test = Nat.min num_test (length labels - marked train - num_val).
Proof. intros perm labels classes num_val num_test per_class Hp Hc. now apply split_lemma. Qed.
Print Assumptions C86_random_split.
Definition many : list nat := repeat 0 23 ++ [1; 1] ++ repeat 7 3.
Example C86_random_split_case :
  (forall k l, Permutation ((fun _ : nat => @rev nat) k l) l) /\
  match random_split (fun _ => @rev nat) many 2 20 4 9 with
  | Ok (a, b, c) => nonzero 0 a = seq 3 22 /\ nonzero 0 b = [2; 25; 26; 27] /\ nonzero 0 c = [0; 1]
  | Fail _ => False
  end.
Proof. split; [intros _ l; apply Permutation_sym, Permutation_rev|]. vm_compute. repeat split; reflexivity. Qed.

(** The number of training nodes that is asked for has no effect. *)
Theorem C86_per_class_refuted :
  exists labels, of_class labels (repeat true 6) 0 = 6 /\
    forall per_class, match random_split (fun _ l => l) labels 1 per_class 0 0 with
                      | Ok (train, _, _) => train = repeat true 6
                      | Fail _ => False
                      end.
Proof. exists (repeat 0 6). split; [reflexivity|]. intro p. vm_compute. reflexivity. Qed.
Print Assumptions C86_per_class_refuted.

(** Node types: the first mask that holds the node. *)
Theorem C86_types :
  forall train val test, length val = length train -> length test = length train ->
    exists ts, node_types train val test = Ok ts /\ length ts = length train /\
      (forall i, nth_error ts i = Some Train <-> in_mask train i) /\
      (forall i, nth_error ts i = Some Val <-> in_mask val i /\ ~ in_mask train i) /\
      (forall i, nth_error ts i = Some Test <-> in_mask test i /\ ~ in_mask train i /\ ~ in_mask val i).
Proof. exact types_lemma. Qed.
Print Assumptions C86_types.
(** train.nodes and test.nodes hold each node of the type once. *)
Theorem C86_files :
  forall ts,
    NoDup (node_file is_train 0 ts) /\ (forall i, In i (node_file is_train 0 ts) <-> nth_error ts i = Some Train) /\
    NoDup (node_file is_test 0 ts) /\ (forall i, In i (node_file is_test 0 ts) <-> nth_error ts i = Some Test).
Proof. exact files_lemma. Qed.
Print Assumptions C86_files.
Definition masks3 := ([true; false; false; false; true], [false; true; false; false; true], [false; false; true; false; true]).
Example C86_types_case :
  node_types (fst (fst masks3)) (snd (fst masks3)) (snd masks3) = Ok [Train; Val; Test; Other; Train] /\
  node_file is_train 0 [Train; Val; Test; Other; Train] = [0; 4] /\ node_file is_test 0 [Train; Val; Test; Other; Train] = [2] /\
  node_types [false; false] [true] [] = Fail EIndex.
Proof. repeat split; reflexivity. Qed.

(** Public masks may mark a node twice: a test node among the 500 after the training nodes is
    then a validation node and in no file. *)
Theorem C86_overlap_refuted :
  exists ny reorder n train val test ts,
    public_masks ny reorder n = Ok (train, val, test) /\ node_types train val test = Ok ts /\
    in_mask test 5 /\ node_file is_test 0 ts = [].
Proof.
  exists 2, [5], 502. eexists _, _, _, _. split; [vm_compute; reflexivity|]. split; [vm_compute; reflexivity|]. split; vm_compute; reflexivity.
Qed.
Print Assumptions C86_overlap_refuted.

(** The split that is asked for does not reach the graph. *)
Theorem C86_split_refuted : forall (G : Type) (archive : G), build_graph archive RandomSplit = build_graph archive Public.
Proof. reflexivity. Qed.
Print Assumptions C86_split_refuted.
