(** What a sample of a directed graph is. *)
From Verif Require Import Base ForestModel.

(** A graph: edges between its nodes, nothing twice. *)
Definition graph_ok (g : digraph) : Prop :=
  NoDup (g_nodes g) /\ NoDup (g_edges g) /\ (forall u v, In (u, v) (g_edges g) -> In u (g_nodes g) /\ In v (g_nodes g)).
Definition touched (g : digraph) (v : nat) : Prop := exists u, In (u, v) (g_edges g) \/ In (v, u) (g_edges g).
(** A part of [g] without lonely nodes. *)
Definition part_of (s g : digraph) : Prop :=
  graph_ok s /\ incl (g_nodes s) (g_nodes g) /\ incl (g_edges s) (g_edges g) /\ (forall v, In v (g_nodes s) -> touched s v).

(** States that the loop can be in. *)
Inductive reached (g : digraph) (size : nat) : state -> Prop :=
| reached_init : forall i st, init g i = Some st -> reached g size st
| reached_step : forall st d st', reached g size st -> step g size st d = Some st' -> reached g size st'.

(** How many nodes have an edge. *)
Definition touching (g : digraph) : list nat :=
  filter (fun v => existsb (fun e => (fst e =? v) || (snd e =? v)) (g_edges g)) (g_nodes g).
