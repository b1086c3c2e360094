(** Alias tables: /repo/src/python/deepgnn/graph_engine/snark/alias.py (Vose 11-63),
    /repo/src/python/deepgnn/graph_engine/snark/converter/writers.py (NodeAliasWriter 487-573,
    EdgeAliasWriter 576-677, the calls at 98-117 and 135-160) and the two
    readers in /repo/src/cc/lib/graph/sampler.cc (WeightedNodeSamplerPartition 238-296,
    WeightedEdgeSamplerPartition 357-421).
    Simplifications: weights and thresholds are exact rationals instead of float32/float64,
    the random numbers are ideal, an element is an abstract value instead of 8 or 16 bytes. *)
From Verif Require Import Base Dist WriterModel.
Local Open Scope Q_scope.

Definition qlt (a b : Q) : bool := negb (Qle_bool b a).

(** [l[i] = x]. *)
Definition set_nth {A} (l : list A) (i : nat) (x : A) : list A := firstn i l ++ x :: skipn (S i) l.

(** Fields of Vose: the local array of weights, [alias] and [prob].  The two arrays start as
    np.empty, so an element that was never assigned is [None]. *)
Record vstate := VS { v_w : list Q; v_alias : list (option nat); v_prob : list (option Q) }.

(** Line 23: [np.multiply(weights, len(weights) / np.sum(weights))]. *)
Definition rescale (ws : list Q) : list Q :=
  map (fun w => w * (qnat (length ws) / qsum (fun x => x) ws)) ws.

(** Lines 29-35; Python stacks grow at the end, here the top is the head. *)
Fixpoint split_small (ws : list Q) (i : nat) (small large : list nat) : list nat * list nat :=
  match ws with
  | [] => (small, large)
  | w :: t => if qlt w 1 then split_small t (S i) (i :: small) large
              else split_small t (S i) small (i :: large)
  end.

(** Lines 37-49.  The indices come from [enumerate(weights)] and are in range. *)
Fixpoint vose_loop (fuel : nat) (small large : list nat) (st : vstate) : res (list nat * list nat * vstate) :=
  match small, large with
  | s :: small', l :: large' =>
      match fuel with
      | O => Fail EFuel
      | S f =>
          let ws := nth s (v_w st) 0 in
          let wl := (nth l (v_w st) 0 + ws) - 1 in
          let st' := VS (set_nth (v_w st) l wl) (set_nth (v_alias st) s (Some l)) (set_nth (v_prob st) s (Some ws)) in
          if qlt wl 1 then vose_loop f (l :: small') large' st' else vose_loop f small' (l :: large') st'
      end
  | _, _ => Ok (small, large, st)
  end.

(** Lines 51-55. *)
Definition set_one (is : list nat) (p : list (option Q)) : list (option Q) :=
  fold_left (fun p i => set_nth p i (Some 1)) is p.

(** Vose.__init__ and _generate_table. *)
Definition vose (ws : list Q) : res (list (option nat) * list (option Q)) :=
  let w := rescale ws in
  let n := length ws in
  let '(small, large) := split_small w 0 [] [] in
  do r <- vose_loop (length small + length large) small large (VS w (repeat None n) (repeat None n)) ;;
  let '(small, large, st) := r in
  Ok (v_alias st, set_one small (set_one large (v_prob st))).

(** One record of an alias file: "=qqf" for nodes and "=qqqqf" for edges. *)
Record arec (A : Type) := AR { a_left : A; a_right : A; a_threshold : Q }.
Arguments AR {A}. Arguments a_left {A}. Arguments a_right {A}. Arguments a_threshold {A}.

(** The loops 558-561 and 651-664.  Reading an element that was never assigned gives an
    arbitrary number; it is an error here. *)
Definition alias_record {A} (zero : A) (elements : list A) (alias : list (option nat)) (prob : list (option Q)) (i : nat)
  : res (arec A) :=
  do lft <- get elements i ;;
  do p <- get prob i ;;
  match p with
  | None => Fail EUB
  | Some p =>
      if qlt p 1 then
        do a <- get alias i ;;
        match a with
        | None => Fail EUB
        | Some j => do rgt <- get elements j ;; Ok (AR lft rgt p)
        end
      else Ok (AR lft zero p)
  end.

Definition alias_table {A} (zero : A) (elements : list A) (ws : list Q) : res (list (arec A)) :=
  do t <- vose ws ;;
  mapM (alias_record zero elements (fst t) (snd t)) (seq 0 (length elements)).

(** alias.py Vose.sample 57-66. *)
Definition vose_sample {A} (elements : list A) (alias : list (option nat)) (prob : list (option Q)) : dist (res A) :=
  dbind (duniform (length alias)) (fun n =>
  match nth n prob None with
  | None => dret (Fail EUB)
  | Some p => dbind (dflip p) (fun keep =>
      if keep then dret (get elements n)
      else match nth n alias None with
           | Some j => dret (get elements j)
           | None => dret (Fail EUB)
           end)
  end).

(** One slot of WeightedNodeSamplerPartition::Sample 287-293 and
    WeightedEdgeSamplerPartition::Sample 405-419: [toss(gen) * size] picks a record,
    [toss(gen) < threshold] picks the side. *)
Definition alias_sample {A} (t : list (arec A)) : dist A :=
  dbind (duniform (length t)) (fun i =>
  match nth_error t i with
  | None => []
  | Some r => dbind (dflip (a_threshold r)) (fun side => dret (if side then a_left r else a_right r))
  end).

(** ** The writers *)
(** NodeAliasWriter.add_type / add (EdgeAliasWriter likewise): per type lists of elements and
    weights; [grow] is the loop around add_type at 98-103 and 135-140. *)
Definition alias_add {A} (typ : Z) (x : A * Q) (files : list (list (A * Q))) : res (list (list (A * Q))) :=
  py_add (fun f => f ++ [x]) (grow [] files typ) typ.

Fixpoint foldE {A S} (f : A -> S -> res S) (l : list A) (s : S) : res S :=
  match l with [] => Ok s | a :: t => do s' <- f a s ;; foldE f t s' end.

(** The tables a BinaryWriter writes for the records [rs] in close (164-171); [qval] is the
    value of a float bit pattern. *)
Definition node_alias_files (qval : N -> Q) (rs : list record) : res (list (list (arec Z))) :=
  do fs <- foldE (fun r fs => if (rdst r =? -1)%Z then alias_add (rtyp r) (rsrc r, qval (rweight r)) fs else Ok fs) rs [] ;;
  mapM (fun f => alias_table 0%Z (map fst f) (map snd f)) fs.
Definition edge_alias_files (qval : N -> Q) (rs : list record) : res (list (list (arec (Z * Z)))) :=
  do fs <- foldE (fun r fs => if (rdst r =? -1)%Z then Ok fs
                              else alias_add (rtyp r) ((rsrc r, rdst r), qval (rweight r)) fs) rs [] ;;
  mapM (fun f => alias_table (0%Z, 0%Z) (map fst f) (map snd f)) fs.
