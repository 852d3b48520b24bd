(** * Model of the graph surgery of src/mesh/mesh_operations.py:206-227

    Definitions only.  The nodes of the graph are elements of an arbitrary type with
    decidable equality (the code uses pairs (dimension, id)). *)
From Coq Require Import List Arith ZArith Bool.
From Verif Require Import Base.
Import ListNotations.

Section Ops.
  Context {V : Type} {D : EqDec V}.

  (** networkx: [G.add_edge(u, v)] adds missing end points, then the arrow if missing;
      [G.add_edges_from(l)] does this for each pair *)
  Definition add_new {A} `{EqDec A} (l : list A) (x : A) : list A := if memb x l then l else l ++ [x].
  Definition add_edge (g : digraph V) (e : V * V) : digraph V :=
    mk_digraph (add_new (add_new (g_nodes g) (fst e)) (snd e)) (add_new (g_edges g) e).
  Definition add_edges_from (g : digraph V) (l : list (V * V)) : digraph V := fold_left add_edge l g.
  (** [G.remove_edges_from(l)]: absent arrows are ignored, nodes stay *)
  Definition remove_edges_from (g : digraph V) (l : list (V * V)) : digraph V :=
    mk_digraph (g_nodes g) (filter (fun e => negb (memb e l)) (g_edges g)).
  (** [G.remove_node(x)]: with all arrows to and from it; NetworkXError when absent *)
  Definition remove_node (g : digraph V) (x : V) : res (digraph V) :=
    if memb x (g_nodes g)
    then Ok (mk_digraph (filter (fun y => negb (eqb y x)) (g_nodes g))
                        (filter (fun e => negb (eqb (fst e) x) && negb (eqb (snd e) x)) (g_edges g)))
    else Err NetworkXError.

  (** replace_node_in_grahp, mesh_operations.py:206-223 *)
  Definition replace_node_in_graph (node_pair : V * V) (g : digraph V) : res (digraph V) :=
    let (old, new) := node_pair in
    if negb (memb old (g_nodes g)) then Ok g else
    do preds <- predecessors g old;
    let g1 := remove_edges_from g (map (fun p => (p, old)) preds) in
    let g2 := add_edges_from g1 (map (fun p => (p, new)) preds) in
    remove_node g2 old.

  (** replace_nodes_in_grahp, mesh_operations.py:226-227 *)
  Definition replace_nodes_in_graph (node_pairs : list (V * V)) (g : digraph V) : res (digraph V) :=
    foldM (fun g p => replace_node_in_graph p g) node_pairs g.
End Ops.
