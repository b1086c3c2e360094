(** Forest fire sampling: src/python/deepgnn/graph_engine/snark/preprocess/sampler/forest_fire.py,
    and average_clustering of metric.py in the same folder.

    A NetworkX directed graph is its list of nodes and its list of edges, both without repetitions.
    The random numbers are arguments: a [draw] is what one turn of the loop 43-78 draws, [step] is
    the turn, and draws that the random functions cannot return give [None].

    Simplifications: nodes are numbers, sample_size is not negative (a negative one behaves like 0);
    attributes of nodes and edges are not used by the code, except that metric.py looks up the
    attributes of a node by mistake. *)
From Verif Require Import Base.

Record digraph := Digraph { g_nodes : list nat; g_edges : list (nat * nat) }.
Definition memn (x : nat) (l : list nat) : bool := existsb (Nat.eqb x) l.
Definition edge_eqb (a b : nat * nat) : bool := (fst a =? fst b) && (snd a =? snd b).
Definition successors (g : digraph) (v : nat) : list nat := map snd (filter (fun e => fst e =? v) (g_edges g)).
Definition predecessors (g : digraph) (v : nat) : list nat := map fst (filter (fun e => snd e =? v) (g_edges g)).

(** DiGraph.add_edge adds the nodes that are not there. *)
Definition add_node (v : nat) (l : list nat) : list nat := if memn v l then l else l ++ [v].
Definition add_edge (g : digraph) (u v : nat) : digraph :=
  Digraph (add_node v (add_node u (g_nodes g)))
          (if existsb (edge_eqb (u, v)) (g_edges g) then g_edges g else g_edges g ++ [(u, v)]).

Record state := State { sample : digraph; q : list nat (* the last element first *); visited : list nat }.

Inductive draw :=
| Start (i : nat)                              (* randint(0, len - 1): 39, 76 *)
| Pop                                          (* nothing is drawn: the node was visited *)
| Burn (num_succ num_pred : nat) (succ_idx pred_idx : list nat).     (* 51, 52, 59, 60 *)

Fixpoint distinctb (l : list nat) : bool :=
  match l with [] => true | x :: t => negb (memn x t) && distinctb t end.
(** random.sample(l, n): the positions are distinct. *)
Definition random_sample (l : list nat) (n : nat) (idx : list nat) : option (list nat) :=
  if (length idx =? n) && distinctb idx && forallb (fun i => i <? length l) idx
  then Some (map (fun i => nth i l 0) idx) else None.

Section Fire.
Variables (g : digraph) (sample_size : nat).

(** 62-67 and 69-74; [mk s v] is the call of add_edge. *)
Fixpoint burn (mk : digraph -> nat -> digraph) (chosen : list nat) (s : digraph) (q : list nat) : digraph * list nat :=
  match chosen with
  | [] => (s, q)
  | v :: rest => if length (g_nodes s) <? sample_size then burn mk rest (mk s v) (v :: q) else (s, q)
  end.

(** 34-42; randint(0, -1) raises ValueError. *)
Definition init (i : nat) : option state :=
  match nth_error (g_nodes g) i with
  | Some v => Some (State (Digraph [] []) [v] [])
  | None => None
  end.

Definition finished (st : state) : bool := negb (length (g_nodes (sample st)) <? sample_size).   (* 43 *)

(** One turn of the loop 44-78. *)
Definition step (st : state) (d : draw) : option state :=
  if finished st then None
  else match q st, d with
  | v :: rest, Pop => if memn v (visited st) then Some (State (sample st) rest (visited st)) else None    (* 45-47 *)
  | v :: rest, Burn ns np si pi =>
      if memn v (visited st) then None
      else
        let succ := successors g v in
        let pred := predecessors g v in
        if (ns =? 0) || (np =? 0) then None               (* np.random.geometric is at least 1 *)
        else
          match random_sample succ (Nat.min ns (length succ)) si, random_sample pred (Nat.min np (length pred)) pi with
          | Some cs, Some cp =>
              let (s1, q1) := burn (fun s x => add_edge s v x) cs (sample st) rest in
              let (s2, q2) := burn (fun s x => add_edge s x v) cp s1 q1 in
              Some (State s2 q2 (v :: visited st))
          | _, _ => None
          end
  | [], Start i =>                                                                                       (* 75-78 *)
      match nth_error (g_nodes g) i with
      | Some v => Some (State (sample st) [v] [])
      | None => None
      end
  | _, _ => None
  end.

Fixpoint steps (st : state) (ds : list draw) : option state :=
  match ds with
  | [] => Some st
  | d :: t => match step st d with Some st' => steps st' t | None => None end
  end.
(** The result of forest_fire, if the draws end the loop. *)
Definition forest_fire (i : nat) (ds : list draw) : option digraph :=
  match init i with
  | Some st => match steps st ds with
               | Some st' => if finished st' then Some (sample st') else None
               | None => None
               end
  | None => None
  end.
End Fire.

(** metric.py 49-62, average_clustering.  [nodes[i]] is the dict of attributes of node [i]
    (NodeView.__getitem__), and a dict is not a key of g; [picks] are the numbers of 55. *)
Inductive key := KNode (n : nat) | KDict.
Definition node_view (nodes : list nat) (i : nat) : res key := if memn i nodes then Ok KDict else Fail EIndex.
Definition adjacency (g : digraph) (k : key) : res (list nat) :=
  match k with
  | KNode n => if memn n (g_nodes g) then Ok (successors g n ++ predecessors g n) else Fail EIndex
  | KDict => Fail EAssert                           (* TypeError: unhashable type *)
  end.
Fixpoint trials (g : digraph) (picks : list nat) (triangles : nat) : res nat :=
  match picks with
  | [] => Ok triangles
  | i :: rest =>
      do k <- node_view (g_nodes g) i ;;
      do nbrs <- adjacency g k ;;
      trials g rest triangles                       (* 57-61, never reached *)
  end.
Definition average_clustering (g : digraph) (picks : list nat) : res (nat * nat) :=
  do t <- trials g picks 0 ;;
  if length picks =? 0 then Fail EAssert else Ok (t, length picks).       (* 62 *)
