(** C75: forest fire sampling. *)
From Verif Require Import Base ForestModel ForestSpec ForestProofs.

(** The result is a part of the graph without lonely nodes, with sample_size nodes or one more. *)
Theorem C75_sample_partial : forall g size i ds s,
  graph_ok g -> forest_fire g size i ds = Some s ->
  part_of s g /\ size <= length (g_nodes s) <= S size /\ (size = 0 -> g_nodes s = []).
Proof. intros g size i ds s H1 H2. exact (result g size H1 i ds s H2). Qed.
Print Assumptions C75_sample_partial.

(** A fire burns out after a bounded number of turns. *)
Theorem C75_burns_out : forall g size st ds st',
  graph_ok g -> reached g size st -> forallb (fun d => negb (is_start d)) ds = true -> steps g size st ds = Some st' ->
  length ds <= length (q st) + length (g_nodes g) * (2 * length (g_edges g) + 1).
Proof. intros g size st ds st' H1 H2 H3 H4. exact (burns_out g size H1 st ds st' H2 H3 H4). Qed.
Print Assumptions C75_burns_out.

(** If enough nodes have edges the loop can end, whatever was drawn before. *)
Theorem C75_can_finish_partial : forall g size st,
  graph_ok g -> reached g size st -> size <= length (touching g) ->
  exists ds st', steps g size st ds = Some st' /\ finished size st' = true.
Proof. intros g size st H1 H2 H3. exact (can_finish g size H1 st H2 H3). Qed.
Print Assumptions C75_can_finish_partial.

(** Otherwise it never ends. *)
Theorem C75_endless_refuted : forall g size st,
  graph_ok g -> length (touching g) < size -> reached g size st -> finished size st = false.
Proof. intros g size st H1 H2 H3. exact (never g size H1 st H2 H3). Qed.
Print Assumptions C75_endless_refuted.

(** average_clustering raises for every graph and all random numbers. *)
Theorem C75_clustering_refuted : forall g picks, exists e, average_clustering g picks = Fail e.
Proof. exact clustering_fails. Qed.
Print Assumptions C75_clustering_refuted.

(** ** Examples *)
(** 0 -> 1 -> 2 -> 0, 2 -> 3, and 4 without edges. *)
Definition ex : digraph := Digraph [0; 1; 2; 3; 4] [(0, 1); (1, 2); (2, 0); (2, 3)].
Example C75_ex_ok : graph_ok ex.
Proof.
  unfold graph_ok. refine (conj _ (conj _ _)).
  - repeat (constructor; [cbn; intuition discriminate|]). constructor.
  - repeat (constructor; [cbn; intuition discriminate|]). constructor.
  - cbn. intros u v H. repeat (destruct H as [H|H]; [injection H as <- <-; auto 10|]). destruct H.
Qed.
Example C75_fire : forest_fire ex 4 4 [Burn 3 1 [] []; Start 1; Burn 2 1 [0] [0]; Burn 1 9 [0] [0]; Burn 2 1 [1; 0] [0]] =
  Some (Digraph [1; 2; 0; 3] [(1, 2); (0, 1); (2, 0); (2, 3)]).
Proof. vm_compute. reflexivity. Qed.
Example C75_illegal : forest_fire ex 4 0 [Burn 3 1 [0; 0] [0]] = None.
Proof. vm_compute. reflexivity. Qed.

(** ** What is false of the code *)
(** The sample can have one node more than asked for. *)
Theorem C75_size_refuted :
  forest_fire ex 1 0 [Burn 1 1 [0] [0]] = Some (Digraph [0; 1] [(0, 1)]) /\
  exists g i ds s, graph_ok g /\ forest_fire g 3 i ds = Some s /\ length (g_nodes s) = 4.
Proof.
  refine (conj eq_refl _). exists (Digraph [0; 1; 2; 3] [(0, 1); (2, 3)]), 0, [Burn 1 1 [0] []; Burn 1 1 [] [0]; Pop; Start 2; Burn 1 1 [0] []].
  eexists. split; [|split; [vm_compute; reflexivity|reflexivity]].
  unfold graph_ok. refine (conj _ (conj _ _)).
  - repeat (constructor; [cbn; intuition discriminate|]). constructor.
  - repeat (constructor; [cbn; intuition discriminate|]). constructor.
  - cbn. intros u v H. repeat (destruct H as [H|H]; [injection H as <- <-; auto 10|]). destruct H.
Qed.
Print Assumptions C75_size_refuted.

(** Asked for all five nodes of the example, the loop never ends. *)
Theorem C75_all_nodes_refuted : forall st, reached ex 5 st -> finished 5 st = false.
Proof. intros st H. exact (C75_endless_refuted ex 5 st C75_ex_ok ltac:(vm_compute; lia) H). Qed.
Print Assumptions C75_all_nodes_refuted.

(** A graph without nodes raises, even if no node is asked for. *)
Theorem C75_empty_refuted : forall i ds, forest_fire (Digraph [] []) 0 i ds = None.
Proof. intros [|i] ds; reflexivity. Qed.
Print Assumptions C75_empty_refuted.
