(** Which worker starts which server, where servers listen, which partitions a local client
    loads and which sampler a call uses:
    /repo/src/python/deepgnn/graph_engine/backends/snark/client.py (_get_server_index_client_rank
    176-232, _try_ddp 234-253, _try_mpi_or_horovod 255-289, _extract_server_index 291-302,
    _AddressFinder 375-393, _AddressReader 398-411, __init__ 108-122) and snark/local.py
    (Client.__init__ 28-54, __check_types 55-60, sample_nodes 62-79, sample_edges 81-96),
    snark/client.py (NodeSampler.__init__ 1446-1500, EdgeSampler.__init__ 1570-1620).
    Strings are lists of code points; sockets, processes and the file system are reduced to
    the values they hand over. *)
From Verif Require Import Base GraphModel.

(** Order of Python strings: lexicographic on code points. *)
Definition str := list N.
Fixpoint str_leb (a b : str) : bool :=
  match a, b with
  | [], _ => true
  | _ :: _, [] => false
  | x :: a', y :: b' => (x <? y)%N || ((x =? y)%N && str_leb a' b')
  end.
Fixpoint str_eqb (a b : str) : bool :=
  match a, b with
  | [], [] => true
  | x :: a', y :: b' => (x =? y)%N && str_eqb a' b'
  | _, _ => false
  end.
Fixpoint insert_str (s : str) (l : list str) : list str :=
  match l with [] => [s] | x :: l' => if str_leb s x then s :: l else x :: insert_str s l' end.
Definition sort_str (l : list str) : list str := fold_right insert_str [] l.
Definition str_mem (s : str) (l : list str) : bool := existsb (str_eqb s) l.

Definition colon : N := 58.
(** worker.rsplit(":", 1)[0] *)
Fixpoint host_of (w : str) : str :=
  match w with
  | [] => []
  | c :: w' => if existsb (N.eqb colon) w' then c :: host_of w' else if (c =? colon)%N then [] else w
  end.

(** _extract_server_index 294-302: the loop over the sorted workers; [seen] has no duplicates. *)
Fixpoint scan_workers (cur : str) (seen : list str) (ws : list str) : option Z :=
  match ws with
  | [] => None
  | w :: ws' =>
      let h := host_of w in
      if negb (str_eqb cur w) then scan_workers cur (if str_mem h seen then seen else h :: seen) ws'
      else Some (if str_mem h seen then (-1)%Z else Z.of_nat (length seen))
  end.
(** The second component is the list the caller is left with: workers.sort() sorts in place. *)
Definition extract_server_index (workers : list str) (index : nat) : res (option Z * list str) :=
  match nth_error workers index with
  | None => Fail EIndex
  | Some cur => Ok (scan_workers cur [] (sort_str workers), sort_str workers)
  end.

(** _try_ddp 249-251 and _try_mpi_or_horovod 283-285. *)
Definition ddp_index (world_rank local_rank local_size : nat) : Z :=
  if local_rank =? 0 then Z.of_nat (world_rank / local_size) else (-1)%Z.

(** 180-188: the number of servers from the lines of meta.json when neither the number nor
    the addresses are given; [parse] is int(). *)
Definition newline : N := 10.
Fixpoint readlines (text : str) : list str :=
  match text with
  | [] => []
  | c :: t =>
      if (c =? newline)%N then [c] :: readlines t
      else match readlines t with [] => [[c]] | l :: ls => (c :: l) :: ls end
  end.
Definition auto_servers (parse : str -> res Z) (text : str) : res Z :=
  match nth_error (readlines text) 7 with
  | None => Fail EIndex
  | Some l => do n <- parse l ;; Ok (Z.min n 4)
  end.

(** _AddressReader 399-408: files in the order glob returns them, each with an address and a
    server index. *)
Definition read_addresses (files : list (str * Z)) : list str :=
  flat_map (fun f => if (0 <=? snd f)%Z then [fst f] else []) files.
(** __init__ 113-118: where the server with this index listens. *)
Definition listen_on (servers : list str) (server_index : Z) : res str :=
  match nth_error servers (Z.to_nat server_index) with Some a => Ok a | None => Fail EIndex end.

(** local.py 37-42: the partitions handed to MemoryGraph. *)
Definition client_partitions (partitions : list nat) : list nat :=
  let partitions := if length partitions =? 0 then [0] else partitions in
  seq 0 (length partitions).

(** Sampling strategies of SamplingStrategy, and the types argument: an int or an array. *)
Inductive strategy := Weighted | Random | WithoutReplacement | TopK | PPRGo | LastN.
Inductive types := TInt (t : Z) | TArray (ts : list Z).
(** str(types): numpy abbreviates arrays of more than 1000 entries to the first and last
    three.  Decimal notation and spacing are one to one and left out. *)
Inductive shown := SInt (t : Z) | SArray (ts : list Z) | SCut (head tail : list Z).
Definition str_types (t : types) : shown :=
  match t with
  | TInt z => SInt z
  | TArray ts => if length ts <=? 1000 then SArray ts else SCut (firstn 3 ts) (skipn (length ts - 3) ts)
  end.
(** local.py __check_types *)
Definition check_types (t : types) : list Z := match t with TInt z => [z] | TArray ts => ts end.

(** What a sampler object samples from. *)
Definition sampler := (strategy * list Z)%type.
(** NodeSampler.__init__ (EdgeSampler is the same): [counts] per type from the metadata. *)
Definition create_sampler (counts : list Z) (s : strategy) (ts : list Z) : res sampler :=
  let ts := filter (fun t => (0 <=? t)%Z && (t <? Z.of_nat (length counts))%Z &&
                             (0 <? nth (Z.to_nat t) counts 0)%Z) (make_sorted_list ts) in
  if length ts =? 0 then Fail EAssert
  else match s with
       | Weighted | Random | WithoutReplacement => Ok (s, ts)
       | _ => Fail EIndex
       end.

Definition shown_eqb (a b : shown) : bool :=
  let eqb := fix eqb a b := match a, b with
             | [], [] => true
             | x :: a', y :: b' => (x =? y)%Z && eqb a' b'
             | _, _ => false end in
  match a, b with
  | SInt x, SInt y => (x =? y)%Z
  | SArray x, SArray y => eqb x y
  | SCut x x', SCut y y' => eqb x y && eqb x' y'
  | _, _ => false
  end.
Definition strategy_eqb (a b : strategy) : bool :=
  match a, b with
  | Weighted, Weighted | Random, Random | WithoutReplacement, WithoutReplacement
  | TopK, TopK | PPRGo, PPRGo | LastN, LastN => true
  | _, _ => false
  end.

(** A dictionary of samplers. *)
Fixpoint lookup_key {K V} (eqb : K -> K -> bool) (d : list (K * V)) (k : K) : option V :=
  match d with
  | [] => None
  | (k', v) :: d' => if eqb k k' then Some v else lookup_key eqb d' k
  end.
Definition nkey := (strategy * shown)%type.
Definition nkey_eqb (a b : nkey) : bool := strategy_eqb (fst a) (fst b) && shown_eqb (snd a) (snd b).
(** local.py sample_nodes 66-76: the sampler used and the new dictionary.  The key is the name
    of the strategy followed by the types; no name continued by a digit, a sign or a bracket
    is another name continued so, hence a pair. *)
Definition node_sampler (counts : list Z) (d : list (nkey * sampler)) (s : strategy) (t : types)
  : res sampler * list (nkey * sampler) :=
  let key := (s, str_types t) in
  match lookup_key nkey_eqb d key with
  | Some v => (Ok v, d)
  | None =>
      match create_sampler counts s (check_types t) with
      | Ok v => (Ok v, (key, v) :: d)
      | Fail e => (Fail e, d)
      end
  end.
(** local.py sample_edges 85-95 *)
Definition edge_sampler (counts : list Z) (d : list (shown * sampler)) (s : strategy) (t : types)
  : res sampler * list (shown * sampler) :=
  let key := str_types t in
  match lookup_key shown_eqb d key with
  | Some v => (Ok v, d)
  | None =>
      match create_sampler counts s (check_types t) with
      | Ok v => (Ok v, (key, v) :: d)
      | Fail e => (Fail e, d)
      end
  end.
(** A client's history of calls: the samplers used. *)
Fixpoint history {D} (use : D -> strategy -> types -> res sampler * D) (d : D) (calls : list (strategy * types))
  : list (res sampler) :=
  match calls with
  | [] => []
  | (s, t) :: calls' => let r := use d s t in fst r :: history use (snd r) calls'
  end.
