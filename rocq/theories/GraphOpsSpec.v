(** * Specification vocabulary for graph surgery *)
From Coq Require Import List.
From Verif Require Import Base.

(** A graph is a set of nodes and a set of arrows between nodes. *)
Definition wf_graph {V} (g : digraph V) : Prop :=
  NoDup (g_nodes g) /\ NoDup (g_edges g) /\
  forall e, In e (g_edges g) -> In (fst e) (g_nodes g) /\ In (snd e) (g_nodes g).
