(** Model of loading one partition and of its neighbor queries:
    /repo/src/cc/lib/graph/partition.cc (ReadNodeMap 152-181, ReadEdges 183-201,
    ReadNeighborsIndex 203-223, ReadEdgeTimestamps 225-267, ReadEdgeIndex 269-337,
    ReadNodeIndex 352-372, ReadNodeFeaturesIndex 374-394, ReadEdgeFeaturesIndex 415-437,
    NeighborIndexIterator 652-696, find_start/find_last 701-732, NeighborCount 736-772,
    FullNeighbor 774-830, LastNCreatedNeighbors 832-883).
    Offsets read from files are [nat]; 64 bit wrap-around of differences is reported
    as [EUB] instead. *)
From Verif Require Import Base WriterModel.
Local Open Scope Z_scope.

(** The files of one partition as the loader sees them. *)
Record pfiles := PF {
  f_nm : list N; f_ni : list N; f_nfi : list N; f_nfd : list N;
  f_nbi : list N; f_ei : list N; f_efi : list N; f_efd : list N; f_eti : list N
}.
Definition files_of (s : wstate) : pfiles :=
  PF (nm s) (ni s) (nfi s) (nfd s) (nbi s) (ei s) (efi s) (efd s) (eti s).

(** The fields of Metadata used while loading (metadata.cc 60-83). *)
Record lmeta := LM { lm_nfc : nat; lm_efc : nat; lm_watermark : Z }.

(** partition.h: members of Partition. *)
Record partition := P {
  p_types : list Z;          (* m_node_types *)
  p_nbi : list nat;          (* m_neighbors_index *)
  p_etypes : list Z;         (* m_edge_types *)
  p_toff : list nat;         (* m_edge_type_offset *)
  p_dst : list Z;            (* m_edge_destination *)
  p_wts : list N;            (* m_edge_weights, cumulative, binary32 patterns *)
  p_foff : list nat;         (* m_edge_feature_offset *)
  p_ts : list (Z * Z);       (* m_edge_timestamps *)
  p_nidx : list nat;         (* m_node_index *)
  p_nfidx : list nat;        (* m_node_feature_index *)
  p_nfd : list N;            (* m_node_features *)
  p_efidx : list nat;        (* m_edge_feature_index *)
  p_efd : list N             (* m_edge_features *)
}.

Definition u64s (bytes : list N) : list nat := map (fun c => N.to_nat (unle c)) (fields 8 bytes).

(** ReadNodeMap 164-180: 20 byte records, the type is the last field. *)
Definition read_node_types (bytes : list N) : list Z :=
  map (fun c => unzle 4 (slice c 16 4)) (fields 20 bytes).

(** struct EdgeRecord, partition.cc 19-27. *)
Record erec := ER { er_dst : Z; er_foff : nat; er_typ : Z; er_w : N }.
Definition parse_erec (c : list N) : erec :=
  ER (unzle 8 (slice c 0 8)) (N.to_nat (unle (slice c 8 8)))
     (unzle 4 (slice c 16 4)) (unle (slice c 20 4)).

(** ReadEdgeTimestamps 242-266. *)
Fixpoint ts_pairs (l : list Z) : list (Z * Z) :=
  match l with a :: b :: t => (a, b) :: ts_pairs t | _ => [] end.
Definition read_timestamps (bytes : list N) : list (Z * Z) :=
  ts_pairs (tl (map (unzle 8) (fields 8 bytes))).

(** The vectors filled by ReadEdgeIndex. *)
Record eidx := EI { x_types : list Z; x_toff : list nat; x_dst : list Z; x_wts : list N; x_foff : list nat }.

Section Loader.
(** binary32 addition and subtraction on bit patterns; instantiated in Float32.v *)
Variables fadd fsub : N -> N -> N.

(** Inner loop 301-323 over the [n] records of one node. *)
Fixpoint read_row (efc n : nat) (curr : Z) (acc : N) (rs : list erec) (x : eidx)
  : res (list erec * eidx) :=
  match n with
  | O => Ok (rs, x)
  | S n' =>
      match rs with
      | [] => Fail EFatal
      | e :: rs' =>
          let new := negb (er_typ e =? curr) in
          let acc0 := if new then 0%N else acc in
          let acc' := fadd acc0 (er_w e) in
          read_row efc n' (if new then er_typ e else curr) acc' rs'
            (EI (if new then x_types x ++ [er_typ e] else x_types x)
                (if new then x_toff x ++ [length (x_dst x)] else x_toff x)
                (x_dst x ++ [er_dst e]) (x_wts x ++ [acc'])
                (if (0 <? efc)%nat then x_foff x ++ [er_foff e] else x_foff x))
      end
  end.

(** Outer loop 286-324; returns the rewritten prefix of m_neighbors_index. *)
Fixpoint read_rows (efc : nat) (nb : list nat) (rs : list erec) (x : eidx)
  : res (list nat * list erec * eidx) :=
  match nb with
  | a :: ((b :: _) as t) =>
      do y <- read_row efc (b - a) (-1) 0%N rs x ;;
      let '(rs', x') := y in
      do z <- read_rows efc t rs' x' ;;
      let '(ns, rs'', x'') := z in
      Ok (length (x_types x) :: ns, rs'', x'')
  | _ => Ok ([], rs, x)
  end.

(** ReadEdgeIndex 269-337. *)
Definition read_edge_index (efc : nat) (nb : list nat) (rs : list erec)
  : res (list nat * eidx) :=
  do y <- read_rows efc nb rs (EI [] [] [] [] []) ;;
  let '(ns, rs', x) := y in
  match nb, rs' with
  | [], _ => Fail EUB
  | _, [] => Fail EFatal
  | _, e :: _ =>
      Ok (ns ++ [length (x_types x)],
          EI (x_types x ++ [er_typ e]) (x_toff x ++ [length (x_dst x)]) (x_dst x ++ [er_dst e])
             (x_wts x) (if (0 <? efc)%nat then x_foff x ++ [er_foff e] else x_foff x))
  end.

(** Partition::Partition 138-150 with the readers it calls. *)
Definition load_partition (m : lmeta) (f : pfiles) : res partition :=
  do y <- read_edge_index (lm_efc m) (u64s (f_nbi f)) (map parse_erec (fields 24 (f_ei f))) ;;
  let '(nb, x) := y in
  Ok (P (read_node_types (f_nm f)) nb (x_types x) (x_toff x) (x_dst x) (x_wts x) (x_foff x)
        (if 0 <=? lm_watermark m then read_timestamps (f_eti f) else [])
        (u64s (f_ni f))
        (if (0 <? lm_nfc m)%nat then u64s (f_nfi f) else [])
        (if (0 <? lm_nfc m)%nat then f_nfd f else [])
        (if (0 <? lm_efc m)%nat then u64s (f_efi f) else [])
        (if (0 <? lm_efc m)%nat then f_efd f else [])).

(** ** NeighborIndexIterator 652-696 *)

(** First inner loop 672-674. *)
Fixpoint skip_types (ts : list Z) (g : Z) : list Z :=
  match ts with
  | t :: ts' => if t <? g then skip_types ts' g else ts
  | [] => []
  end.

(** Second inner loop 679-681. *)
Fixpoint skip_groups (fuel : nat) (etypes : list Z) (i hi : nat) (t : Z) : res nat :=
  if (i <? hi)%nat then
    do g <- get etypes i ;;
    if g <? t then
      match fuel with O => Fail EFuel | S f => skip_groups f etypes (S i) hi t end
    else Ok i
  else Ok i.

(** Outer loop 670-694: the list of [(start, last, i)] passed to [func]. *)
Fixpoint nii_loop (fuel : nat) (etypes : list Z) (toff : list nat) (i hi : nat) (ts : list Z)
  : res (list (nat * nat * nat)) :=
  if (i <? hi)%nat then
    match fuel with
    | O => Fail EFuel
    | S f =>
        do g <- get etypes i ;;
        match skip_types ts g with
        | [] => Ok []
        | t :: ts' =>
            do i' <- skip_groups (hi - i) etypes i hi t ;;
            if (i' =? hi)%nat then Ok []
            else
              do g' <- get etypes i' ;;
              if g' =? t then
                do s <- get toff i' ;;
                do l <- get toff (S i') ;;
                do rest <- nii_loop f etypes toff (S i') hi (t :: ts') ;;
                Ok ((s, l, i') :: rest)
              else nii_loop f etypes toff (S i') hi (t :: ts')
        end
    end
  else Ok [].

Definition nii (p : partition) (id : nat) (ts : list Z) : res (list (nat * nat * nat)) :=
  do offset <- get (p_nbi p) id ;;
  do next <- get (p_nbi p) (S id) ;;
  if (next <? offset)%nat then Fail EUB
  else nii_loop (next - offset) (p_etypes p) (p_toff p) offset next ts.

(** ** FullNeighbor 774-830 *)

(** The weight of the edge at [index] in a group starting at [start] (789-791, 823-824). *)
Definition edge_weight_at (p : partition) (start index : nat) : res N :=
  if (start <? index)%nat
  then do a <- get (p_wts p) index ;; do b <- get (p_wts p) (index - 1) ;; Ok (fsub a b)
  else get (p_wts p) start.

(** Result tuples: destination, type, weight, created timestamp (-1 when unknown). *)
Definition nbr : Type := Z * Z * N * Z.

(** Non temporal lambda 809-827. *)
Definition full_group (p : partition) (g : nat * nat * nat) : res (list nbr) :=
  let '(start, last, i) := g in
  mapM (fun index =>
          do d <- get (p_dst p) index ;;
          do t <- get (p_etypes p) i ;;
          do w <- edge_weight_at p start index ;;
          Ok (d, t, w, -1)) (seq start (last - start)).

(** Condition at 786 (and 736: what "alive" means for FullNeighbor). *)
Definition alive_cond (x : Z * Z) (ts : Z) : bool :=
  (fst x <=? ts) && ((ts <? snd x) || (snd x =? -1)).

(** Temporal lambda 782-801. *)
Definition full_group_ts (p : partition) (ts : Z) (g : nat * nat * nat) : res (list nbr) :=
  let '(start, last, i) := g in
  do ls <- mapM (fun index =>
          do x <- get (p_ts p) index ;;
          if alive_cond x ts then
            do d <- get (p_dst p) index ;;
            do w <- edge_weight_at p start index ;;
            do t <- get (p_etypes p) i ;;
            Ok [(d, t, w, fst x)]
          else Ok []) (seq start (last - start)) ;;
  Ok (concat ls).

Definition full_neighbor (p : partition) (id : nat) (ts : option Z) (types : list Z) : res (list nbr) :=
  do gs <- nii p id types ;;
  do ls <- mapM (match ts with None => full_group p | Some t => full_group_ts p t end) gs ;;
  Ok (concat ls).

(** The count returned by FullNeighbor: [count] in the temporal branch 780-804, the
    iterator's result 829 otherwise. *)
Definition full_neighbor_count (p : partition) (id : nat) (ts : option Z) (types : list Z) : res nat :=
  match ts with
  | Some t => do l <- full_neighbor p id ts types ;; Ok (length l)
  | None => do gs <- nii p id types ;;
            Ok (fold_left (fun c g => let '(s, l, _) := g in c + (l - s))%nat gs 0%nat)
  end.

End Loader.

(** ** find_start / find_last *)

(** libstdc++ std::lower_bound / std::upper_bound as a partition search: the number of
    steps depends on the length only.  [go x = true] means "move right past x". *)
Fixpoint bsearch {A} (fuel : nat) (go : A -> bool) (l : list A) (first len : nat) : nat :=
  match fuel with
  | O => first
  | S f =>
      match len with
      | O => first
      | _ => let half := (len / 2)%nat in
             let mid := (first + half)%nat in
             match nth_error l mid with
             | Some x => if go x then bsearch f go l (S mid) (len - half - 1)
                         else bsearch f go l first half
             | None => first
             end
      end
  end.
Definition bound {A} (go : A -> bool) (l : list A) : nat := bsearch (length l) go l 0 (length l).

(** Conversion of an int64 to the [int] parameter of the lambda at 716. *)
Definition to_int32 (z : Z) : Z :=
  let v := z mod 2 ^ 32 in if v <? 2 ^ 31 then v else v - 2 ^ 32.

(** find_start 701-717, as an index into the span. *)
Definition find_start (range : list (Z * Z)) (ts : Z) : nat :=
  match range with
  | [] => 0%nat
  | x :: _ =>
      if (fst x <=? ts) && ((ts <? snd x) || (snd x =? -1)) then 0%nat
      else let ts' := to_int32 (Z.max ts (snd x)) in
           bound (fun a => negb (snd a =? -1) && (snd a <=? ts')) range
  end.

(** find_last 721-732 (range not empty). *)
Definition find_last (range : list (Z * Z)) (ts : Z) : nat :=
  match range with
  | [] => 0%nat
  | x :: _ =>
      if ts <? fst x then 0%nat
      else bound (fun a => negb ((snd x <? snd a) || (ts <? fst a))) range
  end.

(** The loop of NeighborCount 749-767 on one group. *)
Fixpoint count_loop (fuel : nat) (span : list (Z * Z)) (ts : Z) : res nat :=
  let it := find_start span ts in
  match nth_error span it with
  | None => Ok 0%nat
  | Some x =>
      if (snd x =? -1) && (ts <? fst x) then Ok 0%nat
      else match fuel with
           | O => Fail EFuel
           | S f =>
               let local := skipn it span in
               let ll := find_last local ts in
               let adv := if (ll =? 0)%nat then 1%nat else ll in
               do rest <- count_loop f (skipn (it + adv) span) ts ;;
               Ok (ll + rest)%nat
           end
  end.

(** NeighborCount 736-772. *)
Definition neighbor_count (p : partition) (id : nat) (ts : option Z) (types : list Z) : res nat :=
  do gs <- nii p id types ;;
  match ts with
  | None => Ok (fold_left (fun c g => let '(s, l, _) := g in c + (l - s))%nat gs 0%nat)
  | Some t =>
      do cs <- mapM (fun g : nat * nat * nat =>
                       let '(s, l, _) := g in
                       if (length (p_ts p) <? l)%nat then Fail EUB
                       else count_loop (l - s) (slice (p_ts p) s (l - s)) t) gs ;;
      Ok (fold_left Nat.add cs 0%nat)
  end.
