(** Data parallel training described as training in one process. *)
From Verif Require Import Base Dist ParallelModel.
From Coq Require Import QArith.
Local Open Scope Z_scope.

Section Spec.
Context {W Opt X : Type}.
Variable d : nat.
Variable eg : W -> X -> nat -> Q.
Variable upd : Opt -> W -> list Q -> Opt * W.
Variable clip : list Q -> list Q.
(** Gradient descent on a list of batches. *)
Fixpoint sgd (bs : list (list X)) (w : W) (o : Opt) : Opt * W :=
  match bs with
  | [] => (o, w)
  | b :: t => let x := upd o w (clip (grad d eg w b)) in sgd t (snd x) (fst x)
  end.
End Spec.

(** The shape of an operation. *)
Inductive shape := STrain | SForward | SReduce.
Definition shape_of {X} (o : @op X) : shape := match o with OTrain _ => STrain | OForward => SForward | OReduce => SReduce end.
(** Batches of a program. *)
Definition batches_of {X} (p : list (@op X)) : list (list X) := flat_map (fun o => match o with OTrain b => [b] | _ => [] end) p.
(** Batches of an epoch that starts after [step] batches; a limit of steps allows at least one. *)
Definition epoch_batches {X} (limit step : Z) (l : list (list X)) : list (list X) :=
  let t := skipn (Z.to_nat step) l in
  if 0 <? limit then firstn (Z.to_nat (Z.max 1 (limit - step))) t else t.
(** The k-th batches of all ranks in one. *)
Definition merged {X} (n : nat) (bss : list (list (list X))) : list (list X) :=
  map (fun k => concat (map (fun bs => nth k bs []) bss)) (seq 0 n).

Definition mean_of (v : Q) (l : list Q) : Prop := (v * qnat (length l) == qsum (fun x => x) l)%Q.
