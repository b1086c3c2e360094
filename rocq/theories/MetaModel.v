(** Model of the conversion driver and of meta.json:
    /repo/src/python/deepgnn/graph_engine/snark/dispatcher.py (PipeDispatcher 57-218,
    QueueDispatcher 220-399), convert.py (MultiWorkersConverter 26-205),
    converter/process.py 24-84, meta_merger.py 33-130, meta.py Meta 151-195,
    _adl_reader.py get_worker_files 301-324 and
    /repo/src/cc/lib/graph/metadata.cc 20-151, distributed/client.cc WriteMetadata 1034-1084,
    distributed/graph_engine.cc GetMetadata 690-722. *)
From Coq Require Import Permutation String DecimalString.
From Verif Require Import Base WriterModel.
Local Open Scope list_scope.
Local Open Scope nat_scope.

(** Contents of meta.json (convert.py 163-196).  Weights are in the unit of [wval];
    [j_parts] is the dict "partitions" in insertion order. *)
Record mjson := MJ {
  j_version : nat; j_nodes : nat; j_edges : nat; j_ntypes : nat; j_etypes : nat;
  j_nfeats : nat; j_efeats : nat;
  j_parts : list (nat * (list Z * list Z));
  j_npt : list nat; j_ept : list nat; j_watermark : Z
}.

(** ** Dispatching (dispatcher.py 140-150 and 310-324) *)

(** Contents of the input pipes and the number of dispatched lines. *)
Definition dstate (L : Type) := (nat * list (list L))%type.

(** [q[i].send(line)]; a bad index raises IndexError. *)
Definition send {L} (qs : list (list L)) (i : nat) (x : L) : res (list (list L)) :=
  match nth_error qs i with
  | Some q => Ok (firstn i qs ++ (q ++ [x]) :: skipn (S i) qs)
  | None => Fail EIndex
  end.

(** PipeDispatcher.dispatch 140-150; parallel = 0 divides by zero. *)
Definition pipe_dispatch {L} (parallel : nat) (x : L) (s : dstate L) : res (dstate L) :=
  match parallel with
  | O => Fail EFatal
  | _ => do qs <- send (snd s) (fst s mod parallel) x ;; Ok (S (fst s), qs)
  end.

(** QueueDispatcher.dispatch 310-324; [active] is the set active_partitions in order of
    first use.  Simplification: a partition number is a natural number. *)
Definition queue_dispatch {L} (partition_func : L -> nat) (x : L)
    (s : dstate L * list nat) : res (dstate L * list nat) :=
  let p := partition_func x in
  do qs <- send (snd (fst s)) p x ;;
  Ok ((S (fst (fst s)), qs), if existsb (Nat.eqb p) (snd s) then snd s else snd s ++ [p]).

Fixpoint dispatch_all {L St} (step : L -> St -> res St) (xs : list L) (s : St) : res St :=
  match xs with
  | [] => Ok s
  | x :: t => do s' <- step x s ;; dispatch_all step t s'
  end.

(** ** Workers (converter/process.py 46-84) *)

(** The dictionary put on q_out. *)
Record wout := WO {
  o_nodes : nat; o_edges : nat; o_ntypes : nat; o_etypes : nat; o_nfeats : nat; o_efeats : nat;
  o_id : nat; o_nw : list Z; o_ntc : list nat; o_ew : list Z; o_etc : list nat
}.

Definition wout_of (id : nat) (s : wstate) : wout :=
  WO (node_count s) (edge_count s) (length (node_type_count s)) (length (edge_type_count s))
     (node_feature_count s) (edge_feature_count s)
     id (node_weight s) (node_type_count s) (edge_weight s) (edge_type_count s).

(** One worker: decode and add every line, close, report.  A worker that raises never
    reports and [join] blocks for ever; the model has no result in that case. *)
Definition worker {L} (decode : L -> res (list record)) (wval : N -> Z) (wm : option Z)
    (w : nat * list L) : res wout :=
  do bs <- mapM decode (snd w) ;;
  do s <- write_partition wval wm bs ;;
  Ok (wout_of (fst w) s).

(** ** Joining (dispatcher.py 152-185, the same text at 326-361) *)

Record joined := J {
  d_nodes : nat; d_edges : nat; d_ntypes : nat; d_etypes : nat; d_nfeats : nat; d_efeats : nat;
  d_parts : list wout
}.

(** 157-170: one message taken from q_out. *)
Definition join_one (d : joined) (o : wout) : joined :=
  J (d_nodes d + o_nodes o) (d_edges d + o_edges o)
    (Nat.max (d_ntypes d) (o_ntypes o)) (Nat.max (d_etypes d) (o_etypes o))
    (Nat.max (d_nfeats d) (o_nfeats o)) (Nat.max (d_efeats d) (o_efeats o))
    (d_parts d ++ [o]).

(** 175-187: pad the per type lists of a partition. *)
Definition pad (nt et : nat) (o : wout) : wout :=
  let kn := nt - length (o_ntc o) in
  let ke := et - length (o_etc o) in
  WO (o_nodes o) (o_edges o) (o_ntypes o) (o_etypes o) (o_nfeats o) (o_efeats o) (o_id o)
     (o_nw o ++ repeat 0%Z kn) (o_ntc o ++ repeat 0 kn)
     (o_ew o ++ repeat 0%Z ke) (o_etc o ++ repeat 0 ke).

Definition join (arrived : list wout) : joined :=
  let d := fold_left join_one arrived (J 0 0 0 0 0 0 []) in
  J (d_nodes d) (d_edges d) (d_ntypes d) (d_etypes d) (d_nfeats d) (d_efeats d)
    (map (pad (d_ntypes d) (d_etypes d)) (d_parts d)).

(** ** meta.json (convert.py 138-205, debug = False) *)

(** [sorted(partitions, key=id)]: stable. *)
Fixpoint ins_id (x : wout) (l : list wout) : list wout :=
  match l with
  | [] => [x]
  | y :: t => if o_id x <=? o_id y then x :: l else y :: ins_id x t
  end.
Definition sort_id (l : list wout) : list wout := fold_right ins_id [] l.

(** [list(map(add, a, b))]: stops at the shorter list. *)
Fixpoint map_add (a b : list nat) : list nat :=
  match a, b with
  | x :: s, y :: t => (x + y) :: map_add s t
  | _, _ => []
  end.

(** [d[k] = v] on a dict in insertion order. *)
Fixpoint dict_set {V} (d : list (nat * V)) (k : nat) (v : V) : list (nat * V) :=
  match d with
  | [] => [(k, v)]
  | (k', v') :: t => if k =? k' then (k, v) :: t else (k', v') :: dict_set t k v
  end.

Definition meta_of (wm : option Z) (arrived : list wout) : mjson :=
  let d := join arrived in
  let ps := sort_id (d_parts d) in
  MJ 2 (d_nodes d) (d_edges d) (d_ntypes d) (d_etypes d) (d_nfeats d) (d_efeats d)
     (fold_left (fun m p => dict_set m (o_id p) (o_nw p, o_ew p)) ps [])
     (fold_left (fun a p => map_add a (o_ntc p)) ps (repeat 0 (d_ntypes d)))
     (fold_left (fun a p => map_add a (o_etc p)) ps (repeat 0 (d_etypes d)))
     (match wm with Some w => w | None => (-1)%Z end).

(** Everything between the lines and meta.json for PipeDispatcher: [arrived] is the order
    in which the workers report and is not determined by the code. *)
Definition pipe_workers {L} (offset parallel : nat) (lines : list L) : res (list (nat * list L)) :=
  do s <- dispatch_all (pipe_dispatch parallel) lines (0, repeat [] parallel) ;;
  Ok (combine (seq offset parallel) (snd s)).

(** QueueDispatcher: only active partitions are told to finish and report (326-331). *)
Definition queue_workers {L} (f : L -> nat) (offset n : nat) (lines : list L)
  : res (list (nat * list L)) :=
  do s <- dispatch_all (queue_dispatch f) lines ((0, repeat [] n), []) ;;
  Ok (map (fun i => (offset + i, nth i (snd (fst s)) [])) (snd s)).

(** The results a conversion can have; the order of arrival is arbitrary. *)
Definition pipe_meta {L} (wval : N -> Z) (decode : L -> res (list record)) (wm : option Z)
    (offset n : nat) (lines : list L) (m : mjson) : Prop :=
  exists ws outs arrived,
    pipe_workers offset n lines = Ok ws /\ mapM (worker decode wval wm) ws = Ok outs /\
    Permutation arrived outs /\ m = meta_of wm arrived.
Definition queue_meta {L} (wval : N -> Z) (decode : L -> res (list record)) (wm : option Z)
    (f : L -> nat) (offset n : nat) (lines : list L) (m : mjson) : Prop :=
  exists ws outs arrived,
    queue_workers f offset n lines = Ok ws /\ mapM (worker decode wval wm) ws = Ok outs /\
    Permutation arrived outs /\ m = meta_of wm arrived.

(** ** convert.py 81-88: the partitions of one converter *)

(** (offset, count); count may be zero or negative.  [math.ceil(a / b)] is taken exactly
    (true division of Python is exact enough below 2^53). *)
Definition partition_range (partitions index workers : Z) : Z * Z :=
  let count := (- ((- partitions) / workers))%Z in
  let offset := (count * index)%Z in
  (offset, if (partitions <? offset + count)%Z then (partitions - offset)%Z else count).

(** _adl_reader.py 301-324: [range(worker_index, len(files), num_workers)] over the sorted
    files. *)
Definition worker_files {F} (files : list F) (index workers : nat) : res (list F) :=
  if length files <? workers then Fail EFatal
  else Ok (map snd (filter (fun p => (index <=? fst p) && ((fst p - index) mod workers =? 0))
                           (combine (seq 0 (length files)) files))).

(** Files read by converter [index]: convert() returns before reading when it has no
    partition to generate (convert.py 114-115). *)
Definition converter_files {F} (files : list F) (partitions index workers : nat) : res (list F) :=
  if (snd (partition_range (Z.of_nat partitions) (Z.of_nat index) (Z.of_nat workers)) <=? 0)%Z
  then Ok []
  else worker_files files index workers.

(** ** meta_merger.py *)

(** Meta.__init__ 57-64.  [[x] * n] makes n references to one row, so the rows are modelled
    as addresses into a heap of rows. *)
Definition heap := list (list Z).

(** [self.node_weights[j][i] += v]. *)
Definition row_add (rows : list nat) (h : heap) (j i : nat) (v : Z) : res heap :=
  do a <- (match nth_error rows j with Some a => Ok a | None => Fail EIndex end) ;;
  do r <- (match nth_error h a with Some r => Ok r | None => Fail EIndex end) ;;
  do x <- (match nth_error r i with Some x => Ok x | None => Fail EIndex end) ;;
  Ok (firstn a h ++ (firstn i r ++ (x + v)%Z :: skipn (S i) r) :: skipn (S a) h).

Fixpoint row_add_all (rows : list nat) (j : nat) (w : list Z) (is : list nat) (h : heap) : res heap :=
  match is with
  | [] => Ok h
  | i :: t =>
      do v <- (match nth_error w i with Some v => Ok v | None => Fail EIndex end) ;;
      do h' <- row_add rows h j i v ;;
      row_add_all rows j w t h'
  end.

(** The loop 60-64 for one of the two weight tables; [ws] are the lists of the partitions in
    dict order.  The two inner loops touch different tables. *)
Fixpoint fill_rows (types : nat) (rows : list nat) (j : nat) (ws : list (list Z)) (h : heap) : res heap :=
  match ws with
  | [] => Ok h
  | w :: t => do h' <- row_add_all rows j w (seq 0 types) h ;; fill_rows types rows (S j) t h'
  end.

Record mmeta := MM { mm_json : mjson; mm_n : nat; mm_nw : list (list Z); mm_ew : list (list Z) }.

Definition read_rows (rows : list nat) (h : heap) : list (list Z) := map (fun a => nth a h []) rows.

Definition merger_meta (m : mjson) : res mmeta :=
  let n := length (j_parts m) in
  let rows := repeat 0 n in
  do hn <- fill_rows (j_ntypes m) rows 0 (map (fun p => fst (snd p)) (j_parts m)) [repeat 0%Z (j_ntypes m)] ;;
  do he <- fill_rows (j_etypes m) rows 0 (map (fun p => snd (snd p)) (j_parts m)) [repeat 0%Z (j_etypes m)] ;;
  Ok (MM m n (read_rows rows hn) (read_rows rows he)).

(** get_partition 70-78. *)
Definition get_partition (m : mmeta) (offset : nat) : list (nat * (list Z * list Z)) * nat :=
  (map (fun i => (offset + i, (nth i (mm_nw m) [], nth i (mm_ew m) []))) (seq 0 (mm_n m)),
   offset + mm_n m).

Fixpoint merge_parts (ms : list mmeta) (offset : nat) : list (nat * (list Z * list Z)) :=
  match ms with
  | [] => []
  | m :: t => let '(d, o) := get_partition m offset in d ++ merge_parts t o
  end.

Definition idx_sum (ls : list (list nat)) (i : nat) : res nat :=
  do xs <- mapM (fun l => match nth_error l i with Some x => Ok x | None => Fail EIndex end) ls ;;
  Ok (fold_left Nat.add xs 0).

(** merge 81-112.  All metadata files of one converter version carry the same version. *)
Definition merge_metas (ms : list mmeta) : res mjson :=
  match ms with
  | [] => Fail EIndex
  | m0 :: _ =>
      if forallb (fun m => j_version (mm_json m) =? j_version (mm_json m0)) ms then
        do npt <- mapM (idx_sum (map (fun m => j_npt (mm_json m)) ms)) (seq 0 (j_ntypes (mm_json m0))) ;;
        do ept <- mapM (idx_sum (map (fun m => j_ept (mm_json m)) ms)) (seq 0 (j_etypes (mm_json m0))) ;;
        Ok (MJ (j_version (mm_json m0))
               (fold_left Nat.add (map (fun m => j_nodes (mm_json m)) ms) 0)
               (fold_left Nat.add (map (fun m => j_edges (mm_json m)) ms) 0)
               (j_ntypes (mm_json m0)) (j_etypes (mm_json m0))
               (j_nfeats (mm_json m0)) (j_efeats (mm_json m0))
               (merge_parts ms 0) npt ept (j_watermark (mm_json m0)))
      else Fail EAssert
  end.

(** fs.glob of the pattern meta_* at 120-123 returns the names in string order; worker k writes meta_k.json
    (convert.py 199-203). *)
Definition meta_name (k : nat) : string :=
  String.append "meta_" (String.append (NilEmpty.string_of_uint (Nat.to_uint k)) ".json").
Fixpoint ins_name (k : nat) (l : list nat) : list nat :=
  match l with
  | [] => [k]
  | y :: t => if String.leb (meta_name k) (meta_name y) then k :: l else y :: ins_name k t
  end.
Definition glob_order (workers : nat) : list nat := fold_right ins_name [] (seq 0 workers).

(** merge_metadata_files 115-130 on the files in glob order. *)
Definition merge_files (files : list mjson) : res mjson :=
  do ms <- mapM merger_meta files ;; merge_metas ms.

(** ** The engine's metadata (metadata.h 26-43) *)

Record emeta := EM {
  c_version : nat; c_nodes : nat; c_edges : nat; c_ntypes : nat; c_etypes : nat;
  c_nfeats : nat; c_efeats : nat; c_parts : nat;
  c_nw : list (list Z); c_ew : list (list Z); c_npt : list nat; c_ept : list nat; c_watermark : Z
}.

Fixpoint dict_get {V} (d : list (nat * V)) (k : nat) : option V :=
  match d with
  | [] => None
  | (k', v) :: t => if k =? k' then Some v else dict_get t k
  end.

Section Engine.
(** Conversion of a JSON number to float. *)
Variable narrow : Z -> Z.

(** [meta[...][i]] for i < n: a missing element is a json null, whose conversion throws. *)
Definition json_floats (l : list Z) (n : nat) : res (list Z) :=
  mapM (fun i => match nth_error l i with Some x => Ok (narrow x) | None => Fail EFatal end) (seq 0 n).
Definition json_counts (l : list nat) (n : nat) : res (list nat) :=
  mapM (fun i => match nth_error l i with Some x => Ok x | None => Fail EFatal end) (seq 0 n).

Definition part_weights (sel : list Z * list Z -> list Z) (m : mjson) (types p : nat) : res (list Z) :=
  match types with
  | O => Ok []   (* the inner loop never touches meta["partitions"] *)
  | _ => match dict_get (j_parts m) p with
         | Some v => json_floats (sel v) types
         | None => Fail EFatal
         end
  end.

(** Metadata::Metadata 20-115; version below the supported minimum is fatal. *)
Definition read_meta (min_version : nat) (skip_features skip_temporal : bool) (m : mjson) : res emeta :=
  if j_version m <? min_version then Fail EFatal
  else
  let n := length (j_parts m) in
  do nw <- mapM (part_weights fst m (j_ntypes m)) (seq 0 n) ;;
  do ew <- mapM (part_weights snd m (j_etypes m)) (seq 0 n) ;;
  do npt <- json_counts (j_npt m) (j_ntypes m) ;;
  do ept <- json_counts (j_ept m) (j_etypes m) ;;
  Ok (EM (j_version m) (j_nodes m) (j_edges m) (j_ntypes m) (j_etypes m)
         (if skip_features then 0 else j_nfeats m) (if skip_features then 0 else j_efeats m) n
         nw ew npt ept (if skip_temporal then (-1)%Z else j_watermark m)).

(** Metadata::Write 117-151.  The object starts with an entry "0" that is overwritten when
    there is a partition; [operator[]] on the weight vectors is unchecked. *)
Definition write_meta (e : emeta) : res mjson :=
  do ps <- mapM (fun p => do a <- get (c_nw e) p ;; do b <- get (c_ew e) p ;; Ok (p, (a, b)))
                (seq 0 (c_parts e)) ;;
  Ok (MJ (c_version e) (c_nodes e) (c_edges e) (c_ntypes e) (c_etypes e) (c_nfeats e) (c_efeats e)
         (fold_left (fun d p => dict_set d (fst p) (snd p)) ps [(0, ([0%Z], []))])
         (c_npt e) (c_ept e) (c_watermark e)).

(** MetadataReply (service.proto 50-64): the weights are flattened. *)
Record mreply := MR {
  r_version : nat; r_nodes : nat; r_edges : nat; r_ntypes : nat; r_etypes : nat;
  r_nfeats : nat; r_efeats : nat; r_parts : nat;
  r_nw : list Z; r_ew : list Z; r_npt : list nat; r_ept : list nat; r_watermark : Z
}.

(** GetMetadata 690-722. *)
Definition get_metadata (e : emeta) : mreply :=
  MR (c_version e) (c_nodes e) (c_edges e) (c_ntypes e) (c_etypes e) (c_nfeats e) (c_efeats e)
     (c_parts e) (concat (c_nw e)) (concat (c_ew e)) (c_npt e) (c_ept e) (c_watermark e).

(** 1060-1074: the copies run over the flattened array without a bounds check. *)
Fixpoint split_rows (n k : nat) (l : list Z) : res (list (list Z)) :=
  match n with
  | O => Ok []
  | S m => if length l <? k then Fail EUB
           else do t <- split_rows m k (skipn k l) ;; Ok (firstn k l :: t)
  end.

(** WriteMetadata 1034-1084 (the reply of the first server). *)
Definition client_meta (r : mreply) : res mjson :=
  do nw <- split_rows (r_parts r) (r_ntypes r) (r_nw r) ;;
  do ew <- split_rows (r_parts r) (r_etypes r) (r_ew r) ;;
  write_meta (EM (r_version r) (r_nodes r) (r_edges r) (r_ntypes r) (r_etypes r)
                 (r_nfeats r) (r_efeats r) (r_parts r) nw ew (r_npt r) (r_ept r) (r_watermark r)).
End Engine.

(** meta.py Meta 151-195: the attributes the Python clients expose. *)
Record pmeta := PM {
  p_nodes : nat; p_edges : nat; p_ntypes : nat; p_etypes : nat; p_nfeats : nat; p_efeats : nat;
  p_parts : nat; p_nw : list Z; p_ew : list Z; p_npt : list nat; p_ept : list nat; p_watermark : Z
}.

(** 181-186: one flat row, summed over the partitions. *)
Definition sum_weights (types : nat) (ws : list (list Z)) : res (list Z) :=
  mapM (fun i =>
    do xs <- mapM (fun w => match nth_error w i with Some x => Ok x | None => Fail EIndex end) ws ;;
    Ok (fold_left Z.add xs 0%Z)) (seq 0 types).

Definition py_meta (m : mjson) : res pmeta :=
  do nw <- sum_weights (j_ntypes m) (map (fun p => fst (snd p)) (j_parts m)) ;;
  do ew <- sum_weights (j_etypes m) (map (fun p => snd (snd p)) (j_parts m)) ;;
  Ok (PM (j_nodes m) (j_edges m) (j_ntypes m) (j_etypes m) (j_nfeats m) (j_efeats m)
         (length (j_parts m)) nw ew (j_npt m) (j_ept m) (j_watermark m)).
