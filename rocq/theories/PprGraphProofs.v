(** Personalised PageRank on converted graphs, local and through servers. *)
From Verif Require Import Base Dist WriterModel LoaderModel GraphModel GraphSpec FeatureModel ServerModel LoaderProofs GraphProofs AnswerProofs ServerProofs
  NeighborModel WalkModel WalkProofs WalkGraphProofs PprModel PprProofs PprBest.
From Coq Require Import Lqa Permutation Sorting.Sorted ZifyBool ZifyNat ZifyN.
Local Open Scope Z_scope.

Definition ends parts types v : list Z := map e_dst (spec_edges parts types v).
Lemma neighbors_ends fadd fsub wval wm parts g types ns : converted fadd wval wm parts g -> guarded fadd fsub types parts ->
  exists l cs, neighbors fsub g ns types None = Ok (l, cs) /\ split_counts cs (map (fun y => fst (nbr_node y)) l) = Ok (map (ends parts types) ns).
Proof.
  intros C G. eexists _, _. split; [eapply converted_neighbors; eassumption|].
  rewrite <- split_counts_concat, map_map. f_equal.
  - apply map_ext. intros x. unfold ends. now rewrite map_length.
  - rewrite flat_map_concat_map, concat_map, map_map. f_equal. apply map_ext. intros x. rewrite map_map. reflexivity.
Qed.
Lemma counts_ends fadd fsub wval wm parts g types ns : converted fadd wval wm parts g -> guarded fadd fsub types parts ->
  neighbor_counts g ns types None = Ok (map (fun v => length (ends parts types v)) ns).
Proof.
  intros C G. destruct (converted_counts fadd fsub wval wm parts g types ns C) as (ls & L & E1 & E2). rewrite E2. f_equal.
  pose proof (converted_neighbors fadd fsub wval wm parts g types ns C G) as E. rewrite E1 in E. injection E as _ E. rewrite E. apply map_ext. intros x. unfold ends. now rewrite map_length.
Qed.
Section Statements.
Variables fadd fsub : N -> N -> N.
Variable wval : N -> Z.
Theorem local_ppr wm parts g types nodes count default alpha eps ord pord :
  converted fadd wval wm parts g -> guarded fadd fsub types parts -> (forall l, Permutation (ord l) l) -> (forall l, Permutation (pord l) l) ->
  (0 < alpha)%Q -> (alpha <= 1)%Q -> (0 < eps)%Q -> (0 < count)%nat ->
  exists out m, Forall2 (ppr_row (ends parts types) alpha eps count default) nodes out /\
    forall fuel, (m <= fuel)%nat ->
      ppr (fun ns ts => neighbors fsub g ns types ts) (fun ns ts => neighbor_counts g ns types ts) ord pord fuel alpha eps nodes None count default = Ok out.
Proof.
  intros C G O1 O2 A1 A2 E Hc. apply ppr_ok; try assumption; intros ns; [now apply (neighbors_ends fadd fsub wval wm)|now apply (counts_ends fadd fsub wval wm)].
Qed.
Theorem servers_ppr wm parts m fss gs g types (es es' : list Z -> list event) nodes count default alpha eps ord pord :
  Forall2 (fun fs g' => load_files fadd m fs = Ok g') fss gs -> load_files fadd m (concat fss) = Ok g -> gs <> [] ->
  (forall ns, schedule (length gs) (es ns)) -> (forall ns, schedule (length gs) (es' ns)) ->
  converted fadd wval wm parts g -> guarded fadd fsub types parts -> (forall l, Permutation (ord l) l) -> (forall l, Permutation (pord l) l) ->
  (0 < alpha)%Q -> (alpha <= 1)%Q -> (0 < eps)%Q -> (0 < count)%nat ->
  exists out m, Forall2 (ppr_row (ends parts types) alpha eps count default) nodes out /\
    forall fuel, (m <= fuel)%nat ->
      ppr (fun ns ts => d_neighbors fsub gs ns types ts (es ns)) (fun ns ts => d_neighbor_counts gs ns types ts (es' ns)) ord pord fuel alpha eps nodes None count default = Ok out.
Proof.
  intros HF HL Hne S1 S2 C G O1 O2 A1 A2 E Hc. apply ppr_ok; try assumption; intros ns.
  - destruct (neighbors_ends fadd fsub wval wm parts g types ns C G) as (l & cs & E1 & E2). exists l, cs. split; [|exact E2].
    apply (neighbors_split fsub gs g ns types None (es ns) (l, cs)); try assumption; [eapply load_split; eassumption|exact I|apply S1].
  - eapply counts_spread; try eassumption; [eapply load_spread; [exact HF|exact HL|reflexivity]|exact I|apply S2|now apply (counts_ends fadd fsub wval wm)].
Qed.
End Statements.
