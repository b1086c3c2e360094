(** Graphs built from downloaded files: /repo/src/python/deepgnn/graph_engine/data/data_util.py
    (get_edge_list_node 32-57, write_node_files 60-67, select_training_test_nodes 70-87,
    Dataset 90-216), cora.py 59-110, citeseer.py 51-105, ppi.py 60-184, reddit.py 15-20 and 76-134.

    Text is a list of code points, blanks are those of ASCII (DecoderModel).  A float is a value of
    [F]: float() of a text is [pfl], str() of a float is [show].  A file is the list of its lines.
    A defaultdict(set), a dictionary of sets, is the list of its (key, member) pairs, a dictionary of
    lists the list of (key, element) in the order of the appends.  int(len(nodeids) * ratio) is an
    argument, random.shuffle an oracle, the mask of Reddit's down-sampling a list of booleans.  JSON
    files are the parsed values, numbers of nodes in them natural numbers and keys of the class map
    distinct; StandardScaler is left
    out, feature matrices are those after scaling. *)
From Verif Require Import Base SetupModel MetaModel DecoderModel.

(** str.split() *)
Fixpoint words (s : str) : list str :=
  match s with
  | [] => []
  | c :: t =>
      if blank c then words t
      else match t with
           | [] => [[c]]
           | d :: _ => if blank d then [c] :: words t
                       else match words t with [] => [[c]] | w :: ws => (c :: w) :: ws end
           end
  end.

Definition comma : N := 44%N.
Definition newline : N := 10%N.
Definition one_text : str := [49; 46; 48]%N.                          (* 1.0 *)
Definition float32_text : str := [102; 108; 111; 97; 116; 51; 50]%N.  (* float32 *)
Definition minus_one : str := [45; 49]%N.
Definition zero_text : str := [48]%N.
Definition single : str := [49]%N.

Fixpoint lookup {A} (k : str) (l : list (str * A)) : option A :=
  match l with [] => None | (x, a) :: t => if str_eqb k x then Some a else lookup k t end.
Fixpoint zlookup {A} (k : Z) (l : list (Z * A)) : option A :=
  match l with [] => None | (x, a) :: t => if (k =? x)%Z then Some a else zlookup k t end.
Definition or_raise {A} (o : option A) : res A := match o with Some a => Ok a | None => Fail EFatal end.

(** ** Cora and Citeseer *)
Section Citation.
Context {F : Type}.
Variable pfl : str -> res F.
Variable show : F -> str.

(** cora.py 73-92, citeseer.py 67-85: the loop over the lines of the content file. *)
Record loading := Loading
  { papers : list (str * Z); labels : list (str * Z); nodes : list (Z * (list F * Z)); next_id : Z }.
Definition load_paper (fdim : nat) (line : str) (s : loading) : res loading :=
  let col := words line in
  if negb (List.length col =? 1 + fdim + 1) then Fail EAssert
  else
    match col, rev col with
    | paper :: _, lb :: _ =>
        match lookup paper (papers s) with
        | Some _ => Fail EAssert
        | None =>
            do feat <- mapM pfl (slice col 1 fdim) ;;
            let '(ls, n) := match lookup lb (labels s) with
                            | Some n => (labels s, n)
                            | None => let n := Z.of_nat (List.length (labels s)) in (labels s ++ [(lb, n)], n)
                            end in
            Ok (Loading (papers s ++ [(paper, next_id s)]) ls (nodes s ++ [(next_id s, (feat, n))]) (next_id s + 1))
        end
    | _, _ => Fail EIndex
    end.
Fixpoint load_papers (fdim : nat) (lines : list str) (s : loading) : res loading :=
  match lines with [] => Ok s | l :: t => do s' <- load_paper fdim l s ;; load_papers fdim t s' end.
Definition nothing : loading := Loading [] [] [] 1.

(** data_util.py 70-87: [count] is int(len(nodeids) * train_node_ratio); true is "train". *)
Variable shuffle : list bool -> list bool.
Definition select (count : Z) (random : bool) (ids : list Z) : res (list (Z * bool)) :=
  let types := repeat true (Z.to_nat count) ++ repeat false (Z.to_nat (Z.of_nat (List.length ids) - count)) in
  let types := if random then shuffle types else types in
  if List.length ids =? List.length types then Ok (combine (sort_by Z.leb ids) types) else Fail EAssert.

(** cora.py 97-108 ([strict]: unknown papers raise KeyError) and citeseer.py 92-105 (skipped). *)
Definition add_pair (a b : Z) (l : list (Z * Z)) : list (Z * Z) :=
  if existsb (fun p => (fst p =? a) && (snd p =? b))%Z l then l else l ++ [(a, b)].
Definition load_cite (strict : bool) (ps : list (str * Z)) (types : list (Z * bool)) (line : str)
    (s : list (Z * Z) * list (Z * Z)) : res (list (Z * Z) * list (Z * Z)) :=
  let finish p1 p2 :=
    do t1 <- or_raise (zlookup p1 types) ;;
    do t2 <- (if t1 then or_raise (zlookup p2 types) else Ok false) ;;
    if t1 && t2 then Ok (add_pair p2 p1 (add_pair p1 p2 (fst s)), snd s)
    else Ok (fst s, add_pair p2 p1 (add_pair p1 p2 (snd s))) in
  match words line with
  | [] => Fail EIndex
  | a :: rest =>
      match lookup a ps with
      | None => if strict then Fail EFatal else Ok s
      | Some p1 =>
          match rest with
          | [] => Fail EIndex
          | b :: _ =>
              match lookup b ps with
              | None => if strict then Fail EFatal else Ok s
              | Some p2 => finish p1 p2
              end
          end
      end
  end.
Fixpoint load_cites (strict : bool) (ps : list (str * Z)) (types : list (Z * bool)) (lines : list str)
    (s : list (Z * Z) * list (Z * Z)) : res (list (Z * Z) * list (Z * Z)) :=
  match lines with [] => Ok s | l :: t => do s' <- load_cite strict ps types l s ;; load_cites strict ps types t s' end.

(** data_util.py 32-57 *)
Definition neighbors_of (a : Z) (l : list (Z * Z)) : list Z := map snd (filter (fun p => fst p =? a)%Z l).
Definition edge_text (id : Z) (typ : str) (nb : Z) : str :=
  join comma [show_int id; typ; show_int nb; one_text] ++ [newline].
Definition node_text (id : Z) (train : bool) (feat : list F) (label : Z) (tr te : list Z) : res str :=
  match feat with
  | [] => Fail EIndex
  | _ =>
      Ok (join comma ([show_int id; minus_one; show_int (if train then 0 else 1); one_text; float32_text;
                       show_int (Z.of_nat (List.length feat))] ++ map show feat ++ [float32_text; single; show_int label]) ++ [newline] ++
          flat_map (edge_text id zero_text) (sort_by Z.leb tr) ++
          flat_map (edge_text id single) (sort_by Z.leb te))
  end.

(** data_util.py 60-67 *)
Definition node_file (want : bool) (types : list (Z * bool)) : str :=
  flat_map (fun p => if Bool.eqb (snd p) want then show_int (fst p) ++ [newline] else []) types.

(** Dataset._build_graph_impl 120-163 from the extracted files on: graph.csv, train.nodes and
    test.nodes; _log_graph_statistic 170-194 raises on min() of no training nodes. *)
Record built := Built { graph_csv : str; train_file : str; test_file : str }.
Definition build (fdim : nat) (strict random : bool) (count : Z) (content cites : list str) : res built :=
  do s <- load_papers fdim content nothing ;;
  do types <- select count random (map fst (nodes s)) ;;
  do adj <- load_cites strict (papers s) types cites ([], []) ;;
  do blocks <- mapM (fun n => do t <- or_raise (zlookup (fst n) types) ;;
                              node_text (fst n) t (fst (snd n)) (snd (snd n))
                                (neighbors_of (fst n) (fst adj)) (neighbors_of (fst n) (snd adj))) (nodes s) ;;
  if existsb snd types
  then Ok (Built (List.concat blocks) (node_file true types) (node_file false types))
  else Fail EFatal.
End Citation.

(** Dataset.__init__ 93-118: the lines go to num_partitions files in turn (PipeDispatcher), the
    client loads partitions=[0]. *)
Definition client_lines (num_partitions : nat) (lines : list str) : res (list str) :=
  do s <- dispatch_all (pipe_dispatch num_partitions) lines (0, repeat [] num_partitions) ;;
  or_raise (nth_error (snd s) 0).
(** Dataset._build_graph_impl 127-133: where the archive is stored and what is opened; [contains] is
    "http" in the location. *)
Definition slash : N := 47%N.
Definition stored_as (name : str) : str := 46%N :: slash :: name.
Definition opened (contains : bool) (location name : str) : str := if contains then location ++ slash :: name else location.

(** ** PPI and Reddit *)
Section Json.
Context {K L F : Type}.
Variable keqb : K -> K -> bool.
Variable show : F -> str.
Record gnode := GNode { g_id : K; g_test : bool; g_val : bool }.
Fixpoint klookup {A} (k : K) (l : list (K * A)) : option A :=
  match l with [] => None | (x, a) :: t => if keqb k x then Some a else klookup k t end.

(** ppi.py 64-78, reddit.py 80-94: numbers and types (0 train, 1 val, 2 test) of the nodes. *)
Definition number (id_map : list (K * nat)) (g : gnode) : res (nat * nat) :=
  do n <- or_raise (klookup (g_id g) id_map) ;;
  Ok (n, if g_test g then 2 else if g_val g then 1 else 0).

(** train_mask = np.zeros(size); train_mask[train_nodes] = True *)
Definition mask (size : nat) (train : list nat) : res (list bool) :=
  if forallb (fun n => n <? size) train then Ok (map (fun i => existsb (Nat.eqb i) train) (seq 0 size)) else Fail EIndex.
Definition flag (m : list bool) (i : nat) : res bool := match nth_error m i with Some b => Ok b | None => Fail EIndex end.

(** ppi.py 84-97, reddit.py 103-115: [keys] are the keys of the dictionaries of neighbors, [resolve]
    is id_map[...] for PPI and the identity for Reddit. *)
Definition append (keys : list nat) (a b : nat) (l : list (nat * nat)) : res (list (nat * nat)) :=
  if existsb (Nat.eqb a) keys then Ok (l ++ [(a, b)]) else Fail EFatal.
Definition append_both (keys : list nat) (a b : nat) (l : list (nat * nat)) : res (list (nat * nat)) :=
  do l1 <- append keys a b l ;; if negb (b =? a) then append keys b a l1 else Ok l1.
Definition load_link (resolve : L -> res nat) (keys : list nat) (m : list bool) (e : L * L)
    (s : list (nat * nat) * list (nat * nat)) : res (list (nat * nat) * list (nat * nat)) :=
  do src <- resolve (fst e) ;;
  do tgt <- resolve (snd e) ;;
  do b1 <- flag m src ;;
  do b2 <- (if b1 then flag m tgt else Ok false) ;;
  if b1 && b2 then do l <- append_both keys src tgt (fst s) ;; Ok (l, snd s)
  else do l <- append_both keys src tgt (snd s) ;; Ok (fst s, l).
Fixpoint load_links (resolve : L -> res nat) (keys : list nat) (m : list bool) (es : list (L * L))
    (s : list (nat * nat) * list (nat * nat)) : res (list (nat * nat) * list (nat * nat)) :=
  match es with [] => Ok s | e :: t => do s' <- load_link resolve keys m e s ;; load_links resolve keys m t s' end.
(** np.array(links)[mask] *)
Fixpoint masked (keep : list bool) (es : list (L * L)) : list (L * L) :=
  match keep, es with b :: keep', e :: es' => if b then e :: masked keep' es' else masked keep' es' | _, _ => [] end.

(** ppi.py 167-184; labels are texts of the numbers in the lists. *)
Definition nats_of (a : nat) (l : list (nat * nat)) : list Z :=
  map (fun p => Z.of_nat (snd p)) (filter (fun p => fst p =? a) l).
Definition ppi_text (id typ : nat) (feat : list F) (label : list str) (tr other : list Z) : str :=
  join comma ([show_int (Z.of_nat id); minus_one; show_int (Z.of_nat typ); one_text; float32_text;
               show_int (Z.of_nat (List.length label))] ++ [join comma label] ++
              [float32_text; show_int (Z.of_nat (List.length feat))] ++ [join comma (map show feat)]) ++ [newline] ++
  flat_map (edge_text (Z.of_nat id) zero_text) (sort_by Z.leb tr) ++
  flat_map (edge_text (Z.of_nat id) single) (sort_by Z.leb other).

(** _load_raw_graph and _build_graph 113-147; [all_keys]: Reddit's masks and dictionaries are made from id_map. *)
Record ppi_built := PpiBuilt { p_csv : str; p_files : list str; p_classes : nat }.
Definition ppi_file (want : nat) (ns : list (nat * nat)) : str :=
  flat_map (fun p => if snd p =? want then show_int (Z.of_nat (fst p)) ++ [newline] else []) ns.
Definition ppi_build (all_keys : bool) (resolve : L -> res nat) (id_map : list (K * nat)) (gnodes : list gnode) (links : list (L * L))
    (class_map : list (nat * list str)) (feats : list (list F)) : res ppi_built :=
  do ns <- mapM (number id_map) gnodes ;;
  let train := map fst (filter (fun p => snd p =? 0) ns) in
  let keys := if all_keys then map snd id_map else map fst ns in
  do m <- mask (if all_keys then List.length id_map else List.length ns) train ;;
  do adj <- load_links resolve keys m links ([], []) ;;
  do zero <- or_raise (find (fun p => fst p =? 0) class_map) ;;
  do blocks <- mapM (fun n =>
      do feat <- (match nth_error feats (fst n) with Some f => Ok f | None => Fail EIndex end) ;;
      do label <- or_raise (find (fun p => fst p =? fst n) class_map) ;;
      do _ <- (match feat with [] => Fail EIndex | _ => Ok tt end) ;;
      Ok (ppi_text (fst n) (snd n) feat (snd label) (nats_of (fst n) (fst adj)) (nats_of (fst n) (snd adj)) ++ [newline])) ns ;;
  Ok (PpiBuilt (List.concat blocks) (map (fun t => ppi_file t ns) [0; 1; 2]) (List.length (snd zero))).
End Json.
(** reddit.py 15-20 _onehot; negative values count from the end. *)
Definition onehot (v : Z) (size : nat) : res (list str) :=
  let i := if (v <? 0)%Z then (v + Z.of_nat size)%Z else v in
  if ((0 <=? i) && (i <? Z.of_nat size))%Z
  then Ok (map (fun j => if j =? Z.to_nat i then single else zero_text) (seq 0 size)) else Fail EIndex.
