(** Properties C20, C21 and C58: node and edge samplers over types and partitions. *)
From Coq Require Import Lqa Permutation.
From Verif Require Import Base Dist AliasModel AliasProofs ReservoirModel SamplerModel SamplerProofs MultinomialProofs OccurrenceProofs ShareProofs.
Local Open Scope Q_scope.

(** * C20 *)

(** Whenever the counts fit, the sample holds min(size, population) distinct elements of the
    types next to them.  Missing: the counts do not always fit (below). *)
Theorem C20_distinct_partial : forall A (types : list (Z * list (list A))) size plan skips picks,
  (forall j c, (1 <= skips j c)%nat) -> NoDup (population types) ->
  outcome (sample_plan false (sizes_of types) size) (Ok plan) ->
  exists xs, fill_without skips picks 0 (map snd types) (snd plan) = Ok (map Some xs) /\
    length xs = Nat.min size (length (population types)) /\ NoDup xs /\
    Forall2 (fun ty x => exists parts, In (ty, parts) types /\ In x (concat parts)) (fst plan) xs.
Proof. exact @without_replacement. Qed.

(** They fit if no type and no partition is larger than all later ones together (the last one
    aside), and if at least the whole population is asked for. *)
Theorem C20_counts_fit : forall A (types : list (Z * list (list A))) size r,
  has_partitions types ->
  (balanced (map (fun t => length (concat (snd t))) types) /\ Forall (fun t => balanced (lens (snd t))) types)
    \/ (length (population types) <= size)%nat ->
  outcome (sample_plan false (sizes_of types) size) r -> exists plan, r = Ok plan.
Proof. exact @no_overflow. Qed.

Theorem C20_whole_population : forall A (types : list (Z * list (list A))) size r skips picks,
  (forall j c, (1 <= skips j c)%nat) -> NoDup (population types) -> has_partitions types -> (length (population types) <= size)%nat ->
  outcome (sample_plan false (sizes_of types) size) r ->
  exists plan xs, r = Ok plan /\ fill_without skips picks 0 (map snd types) (snd plan) = Ok (map Some xs) /\
    Permutation xs (population types).
Proof. exact @whole_population. Qed.

(** The population of a partition: the elements of its alias table are the elements of the type. *)
Theorem C20_partition_elements : forall A (zero : A) (eqb : A -> A -> bool), (forall a b, eqb a b = true <-> a = b) ->
  forall es ws t rs, length es = length ws -> Forall (fun w => 0 <= w) ws -> alias_table zero es ws = Ok t -> uniform_records t rs ->
  NoDup rs /\ forall x, In x rs <-> In x es.
Proof. exact @uniform_population. Qed.

(** One type with 10 and 5 nodes, sample 8: if the first partition draws 2, the remaining 6 do
    not fit in the second and the count is raised to 10. *)
Theorem C20_overflow_refuted : exists (types : list (Z * list (list nat))) size,
  has_partitions types /\ NoDup (population types) /\ (size <= length (population types))%nat /\
  outcome (sample_plan false (sizes_of types) size) (Fail EUB).
Proof.
  exists [(0%Z, [seq 0 10; seq 10 5])], 8%nat. split; [split; [discriminate|repeat constructor; discriminate]|].
  split; [exact (seq_NoDup 15 0)|]. split; [vm_compute; lia|].
  exists 8%nat. split; [split; [vm_compute; lia|split; [intros C; vm_compute in C; congruence|reflexivity]]|].
  exists 2%nat. split; [split; [vm_compute; lia|split; [intros C; vm_compute in C; congruence|intros C; vm_compute in C; congruence]]|].
  vm_compute. reflexivity.
Qed.

(** No known type at all: the constructor leaves its tables. *)
Theorem C20_no_types_refuted : exists (types : list (Z * list (list nat))) size,
  NoDup (population types) /\ outcome (sample_plan false (sizes_of types) size) (Fail EUB).
Proof. exists [], 3%nat. split; [constructor|reflexivity]. Qed.

(** Types 0 and 1 over two partitions: 5 of the 6 elements, 1 + 2 of type 0 and 1 + 1 of type 1. *)
Definition small : list (Z * list (list nat)) := [(0%Z, [[1]; [2; 3]]); (1%Z, [[4]; [5; 6]])]%nat.
Example C20_example :
  outcome (sample_plan false (sizes_of small) 5) (Ok ([0; 0; 0; 1; 1]%Z, [(0, 0, 1); (0, 1, 2); (1, 0, 1); (1, 1, 1)]%nat)) /\
  fill_without (fun _ _ => 1%nat) (fun _ c => c) 0 (map snd small) [(0, 0, 1); (0, 1, 2); (1, 0, 1); (1, 1, 1)]%nat
    = Ok (map Some [1; 2; 3; 4; 6]%nat).
Proof.
  split; [|vm_compute; reflexivity].
  exists 3%nat. split; [split; [vm_compute; lia|split; intros C; vm_compute in C; congruence]|].
  exists 1%nat. split; [split; [vm_compute; lia|split; intros C; vm_compute in C; congruence]|].
  exists 2%nat. split; [split; [vm_compute; lia|split; [intros C; vm_compute in C; congruence|reflexivity]]|].
  exists 2%nat. split; [split; [vm_compute; lia|split; [intros C; vm_compute in C; congruence|reflexivity]]|].
  exists 1%nat. split; [split; [vm_compute; lia|split; intros C; vm_compute in C; congruence]|].
  exists 1%nat. split; [split; [vm_compute; lia|split; [intros C; vm_compute in C; congruence|reflexivity]]|].
  vm_compute. reflexivity.
Qed.

(** * C21 *)

(** The binomial draws have the law of [size] independent draws of a type and a partition,
    grouped by type and partition ... *)
Theorem C21_independent_draws : forall (types : list (Z * list Q)) size (f : res (list Z * list (nat * nat * nat)) -> Q),
  Forall (fun t => Forall (fun w => 0 <= w) (snd t) /\ snd t <> []) types -> 0 < grand (map snd types) ->
  ex (law (sample_plan true types size)) f == ex (draws size (pick_pair (map snd types))) (fun ds => f (Ok (plan_of types ds))).
Proof. exact plan_law. Qed.

(** ... each of which yields a partition in proportion to its weight. *)
Theorem C21_share : forall tws i p ws w, nth_error tws i = Some ws -> nth_error ws p = Some w ->
  pr (pick_pair tws) (pair_is i p) == w / grand tws.
Proof. exact pick_probability. Qed.

(** Weights 1 and 3 for type 7, weight 2 for type 9. *)
Definition two_types : list (Z * list Q) := [(7%Z, [1; 3]); (9%Z, [2])].
Example C21_example :
  map (fun pl => Qred (pr (law (sample_plan true two_types 1)) (fun r => match r with Ok (_, c) => match c with [x] => pair_is (fst (fst x)) (snd (fst x)) pl | _ => false end | _ => false end)))
      [(0, 0); (0, 1); (1, 0)]%nat = [1 # 6; 1 # 2; 1 # 3] /\
  plan_of two_types [(1, 0); (0, 1); (1, 0)]%nat = ([7; 9; 9]%Z, [(0, 1, 1); (1, 0, 2)]%nat).
Proof. split; vm_compute; reflexivity. Qed.

(** * C58 *)

(** On average a weighted sample holds every element in proportion to its weight. *)
Theorem C58_weighted : forall A (eqb : A -> A -> bool) x, (forall a b, eqb a b = true <-> a = b) ->
  forall (zero : A) types tabs size,
  Forall (fun t => Forall (Forall (fun e => 0 <= snd e)) (snd t) /\ snd t <> []) types ->
  0 < part_weight (elements types) ->
  Forall2 (fun t ps => Forall2 (fun part tab => 0 < part_weight part -> alias_table zero (map fst part) (map snd part) = Ok tab) (snd t) ps) types tabs ->
  ex (sample_with take_weighted (weights_of types) tabs size) (fun _ => 1) == 1 /\
  ex (sample_with take_weighted (weights_of types) tabs size) (times eqb x)
  == qnat size * (share eqb x (elements types) / part_weight (elements types)).
Proof. exact @weighted_share. Qed.

Theorem C58_uniform : forall A (eqb : A -> A -> bool) x (types : list (Z * list (list A))) size,
  Forall (fun t => snd t <> []) types -> (0 < length (population types))%nat ->
  ex (sample_with take_uniform (sizes_of types) (map snd types) size) (fun _ => 1) == 1 /\
  ex (sample_with take_uniform (sizes_of types) (map snd types) size) (times eqb x)
  == qnat size * (qnat (occ eqb x (map Some (population types))) / qnat (length (population types))).
Proof. exact @uniform_share. Qed.

(** Elements 1, 2 of type 0 in two partitions, 3 of type 1, with weights 1, 2 and 5; two slots. *)
Definition weighted_types : list (Z * list (list (nat * Q))) := [(0%Z, [[(1%nat, 1)]; [(2%nat, 2)]]); (1%Z, [[(3%nat, 5)]])].
Definition weighted_tables : list (list (list (arec nat))) := [[[AR 1 0 1]; [AR 2 0 1]]; [[AR 3 0 1]]]%nat.
Example C58_example :
  Forall2 (fun t ps => Forall2 (fun part tab => exists t', alias_table 0%nat (map fst part) (map snd part) = Ok t' /\
     map (fun r => (a_left r, a_right r, Qred (a_threshold r))) t' = map (fun r => (a_left r, a_right r, Qred (a_threshold r))) tab) (snd t) ps)
    weighted_types weighted_tables /\
  map (fun x => Qred (ex (sample_with take_weighted (weights_of weighted_types) weighted_tables 2) (times Nat.eqb x))) [1; 2; 3]%nat
    = [1 # 4; 1 # 2; 5 # 4].
Proof.
  split; [|vm_compute; reflexivity].
  repeat constructor; (eexists; split; [vm_compute; reflexivity|reflexivity]).
Qed.

Print Assumptions C20_distinct_partial.
Print Assumptions C20_counts_fit.
Print Assumptions C20_whole_population.
Print Assumptions C20_partition_elements.
Print Assumptions C20_overflow_refuted.
Print Assumptions C20_no_types_refuted.
Print Assumptions C21_independent_draws.
Print Assumptions C21_share.
Print Assumptions C58_weighted.
Print Assumptions C58_uniform.
