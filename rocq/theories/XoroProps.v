(** C57: the random generator. *)
From Verif Require Import Base XoroModel XoroProofs.
Local Open Scope N_scope.

(** Different states have different successors. *)
Theorem C57_injective : forall a b c d, a < 2 ^ 64 -> b < 2 ^ 64 -> c < 2 ^ 64 -> d < 2 ^ 64 ->
  snd (xnext (a, b)) = snd (xnext (c, d)) -> (a, b) = (c, d).
Proof. intros a b c d Ha Hb Hc Hd. apply next_inj; split; assumption. Qed.
Print Assumptions C57_injective.

(** A state other than zero never becomes zero, however many values are drawn. *)
Theorem C57_nonzero : forall n a b, a < 2 ^ 64 -> b < 2 ^ 64 -> (a, b) <> (0, 0) ->
  xstep n (a, b) <> (0, 0) /\ fst (xstep n (a, b)) < 2 ^ 64 /\ snd (xstep n (a, b)) < 2 ^ 64.
Proof.
  intros n a b Ha Hb H. assert (W : wstate (a, b)) by (split; assumption).
  split; [now apply step_nonzero|]. exact (step_word n (a, b) W).
Qed.
Print Assumptions C57_nonzero.

(** No seed leads to the zero state, different seeds lead to different states. *)
Theorem C57_seeds : forall seed n, seed < 2 ^ 64 -> xstep n (xseed seed) <> (0, 0).
Proof.
  intros seed n H. apply step_nonzero; [exact (seed_word seed)|]. intro E. apply (seed_nonzero seed H). now rewrite E.
Qed.
Print Assumptions C57_seeds.
Theorem C57_seeds_differ : forall a b n, a < 2 ^ 64 -> b < 2 ^ 64 -> a <> b -> xstep n (xseed a) <> xstep n (xseed b).
Proof.
  intros a b n Ha Hb H E. apply H. apply seed_inj; [exact Ha|exact Hb|].
  apply step_inj in E; [now rewrite E|exact (seed_word a)|exact (seed_word b)].
Qed.
Print Assumptions C57_seeds_differ.

(** Every stream is a cycle through its first state: no stream runs into a shorter loop. *)
Theorem C57_cycle : forall a b, a < 2 ^ 64 -> b < 2 ^ 64 -> exists n, (0 < n)%nat /\ xstep n (a, b) = (a, b).
Proof. intros a b Ha Hb. apply step_recurs. split; assumption. Qed.
Print Assumptions C57_cycle.

(** The first values of SplitMix64 for seed 0 as published with the algorithm. *)
Example C57_case : xseed 0 = (0xe220a8397b1dcdaf, 0x6e789e6aa1b965f4) /\
  xvalues 3 (1, 2) = [3; 412333834243; 2360170716294286339] /\
  xnext (0, 0) = (0, (0, 0)).
Proof. split; [vm_compute; reflexivity|]. split; vm_compute; reflexivity. Qed.
