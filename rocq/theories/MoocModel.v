(** Records made from the MOOC interaction file:
    /repo/src/python/deepgnn/graph_engine/data/mooc.py (_serialize_temporal_features 79-106,
    _edge_iterator 108-170, the archive opened by _build_graph 178-182).
    A row is (student, unit, time, bytes of the float32 features).  Simplifications: the csv
    reader yields floats, here the first three columns are whole numbers (int() truncates
    after sorting); float32 conversion is done (bytes).  Not modelled: _build_meta, _edges. *)
From Verif Require Import Base WriterModel FeatureModel.
Local Open Scope Z_scope.

Record mrow := MR { m_src : Z; m_dst : Z; m_ts : Z; m_val : list N }.

(** sorted(..., key=lambda t: (t[0], t[1], t[2])) 117-120: stable. *)
Definition key_ltb (a b : mrow) : bool :=
  (m_src a <? m_src b) ||
  ((m_src a =? m_src b) && ((m_dst a <? m_dst b) || ((m_dst a =? m_dst b) && (m_ts a <? m_ts b)))).
Fixpoint insert_row (x : mrow) (l : list mrow) : list mrow :=
  match l with [] => [x] | y :: t => if key_ltb x y then x :: l else y :: insert_row x t end.
Definition sort_rows (l : list mrow) : list mrow := fold_left (fun acc x => insert_row x acc) l [].

(** 79-106: as in decoders.py but without sorting, and the result is a list of one array. *)
Definition serialize (h : list (Z * list N)) : list (list N) :=
  [ cu32 (length h) ++ flat_map (fun x => zle 8 (fst x)) h ++
    flat_map (fun o => zle 8 (Z.of_nat o)) (hist_offsets (hist_header h) h) ++
    flat_map snd h ++ zeros 8 ].

Definition one_weight : N := 1065353216.
Definition max_src : Z := 7046.
(** 145: created 0, removed -1, no features. *)
Definition node_rec (s : Z) : record := Rec s (-1) 0 one_weight (Some 0) (Some (-1)) [].
Definition edge_rec (s d ts : Z) (fs : list (list N)) : record :=
  Rec s (d + max_src) 0 one_weight (Some ts) (Some (-1)) (map Some fs).

(** 149-156 and 163-170: the edge with all features, then one edge for every further entry of
    output_features; [d'] is int(row[1]), [features[0][0]] raises on an empty list. *)
Fixpoint further (s d' : Z) (h : list (Z * list N)) (is_ : list nat) : res (list record) :=
  match is_ with
  | [] => Ok []
  | i :: t => do x <- get h (i + 1) ;; do r <- further s d' h t ;; Ok (edge_rec s d' (fst x) [] :: r)
  end.
Definition flush (s d d' : Z) (h : list (Z * list N)) : res (list record) :=
  let out := serialize h in
  do x <- get h 0 ;;
  do r <- further s d' h (seq 0 (length out - 1)) ;;
  Ok (edge_rec s d (fst x) out :: r).

(** 140-161: one iteration.  The second entry of the tuples in [features] (the end of the
    interval) is never read and left out. *)
Record mstate := MS { cur_src : Z; cur_dst : Z; feats : list (Z * list N) }.
Definition mstep (st : mstate) (r : mrow) : res (list record * mstate) :=
  let cd := if cur_dst st =? -1 then m_dst r else cur_dst st in
  let new := negb (m_src r =? cur_src st) in
  let out := if new then [node_rec (m_src r)] else [] in
  let cd := if new then m_dst r else cd in
  let cs := if new then m_src r else cur_src st in
  if negb (m_dst r =? cd) && (0 <? length (feats st))%nat then
    do e <- flush cs cd (m_dst r) (feats st) ;;
    Ok (out ++ e, MS cs (m_dst r) [(m_ts r, m_val r)])
  else Ok (out, MS cs cd (feats st ++ [(m_ts r, m_val r)])).
Fixpoint mrun (st : mstate) (rows : list mrow) : res (list record * mstate) :=
  match rows with
  | [] => Ok ([], st)
  | r :: t => do x <- mstep st r ;; do y <- mrun (snd x) t ;; Ok (fst x ++ fst y, snd y)
  end.
(** The whole generator; without rows line 164 raises ([row] is unbound). *)
Definition edge_iterator (file : list mrow) : res (list record) :=
  let rows := sort_rows file in
  do x <- mrun (MS (-1) (-1) []) rows ;;
  match rev rows with
  | [] => Fail EFatal
  | r :: _ =>
      do e <- flush (cur_src (snd x)) (m_dst r) (m_dst r) (feats (snd x)) ;;
      Ok (fst x ++ e)
  end.

(** _build_graph 178-182 over the names in the raw directory: the download is stored under
    one name and the archive opened under another. *)
Inductive archive := TarGz | Zip.
Definition archive_eqb (a b : archive) : bool := match a, b with TarGz, TarGz | Zip, Zip => true | _, _ => false end.
Definition open_archive (dir : list archive) : res unit :=
  let dir := TarGz :: dir in
  if existsb (archive_eqb Zip) dir then Ok tt else Fail EFatal.
