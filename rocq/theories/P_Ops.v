(** * Property theorem C35: graph surgery *)
From Coq Require Import List Arith ZArith Bool Lia.
From Verif Require Import Base BaseProof GraphOpsModel GraphOpsSpec GraphOpsProof.
Import ListNotations.

(** ** C35 *)
(** Replacing a node keeps its predecessors: the old node disappears with the arrows leaving
    it, its predecessors point to the new node, all other arrows are unchanged. *)
Theorem C35_replace_node : forall (V : Type) (D : EqDec V) (g : digraph V) (old new : V), wf_graph g ->
  (~ In old (g_nodes g) -> replace_node_in_graph (old, new) g = Ok g) /\
  (In old (g_nodes g) -> exists g', replace_node_in_graph (old, new) g = Ok g' /\ wf_graph g' /\
     ~ In old (g_nodes g') /\
     (forall x, x <> old -> (In x (g_nodes g') <-> In x (g_nodes g) \/ (x = new /\ exists p, In (p, old) (g_edges g)))) /\
     (forall u v, u <> old -> v <> old ->
        (In (u, v) (g_edges g') <-> In (u, v) (g_edges g) \/ (v = new /\ In (u, old) (g_edges g))))).
Proof. exact @replace_node_lemma. Qed.
Print Assumptions C35_replace_node.
Example C35_example : exists g',
  replace_node_in_graph (3, 9) (from_edgelist [(1, 3); (2, 3); (3, 4); (1, 4); (3, 3)]) = Ok g' /\
  g_nodes g' = [1; 2; 4; 9] /\ g_edges g' = [(1, 4); (1, 9); (2, 9)].
Proof. eexists. split; [|split]; reflexivity. Qed.

(** Replacing a node by itself deletes it. *)
Theorem C35_replace_node_by_itself_refuted : exists (g : digraph nat) (x p : nat) (g' : digraph nat),
  wf_graph g /\ In (p, x) (g_edges g) /\ p <> x /\ replace_node_in_graph (x, x) g = Ok g' /\ ~ In (p, x) (g_edges g').
Proof. exact replace_by_itself_lemma. Qed.
Print Assumptions C35_replace_node_by_itself_refuted.

(** Replacing many nodes redirects every arrow whose target is replaced and drops the arrows
    leaving replaced nodes. *)
Theorem C35_replace_nodes : forall (V : Type) (D : EqDec V) (pairs : list (V * V)) (g : digraph V),
  wf_graph g -> NoDup (map fst pairs) ->
  (forall x, In x (map fst pairs) -> ~ In x (map snd pairs)) ->
  exists g', replace_nodes_in_graph pairs g = Ok g' /\ wf_graph g' /\
    (forall x, In x (map fst pairs) -> ~ In x (g_nodes g')) /\
    (forall u v, In (u, v) (g_edges g') <->
       ~ In u (map fst pairs) /\ exists w, In (u, w) (g_edges g) /\
         ((~ In w (map fst pairs) /\ v = w) \/ In (w, v) pairs)).
Proof. exact @replace_nodes_lemma. Qed.
Print Assumptions C35_replace_nodes.
Example C35_nodes_example : exists g',
  replace_nodes_in_graph [(3, 9); (4, 8)] (from_edgelist [(1, 3); (2, 3); (3, 4); (1, 4); (1, 2)]) = Ok g' /\
  g_edges g' = [(1, 2); (1, 9); (2, 9); (1, 8)].
Proof. eexists. split; reflexivity. Qed.
