(** * Model of the incidence graphs and the topology queries
    src/mesh/mesh.py:639-711, src/mesh/mesh_topology.py, src/mesh/topological_queries.py

    Definitions only.  Simplifications: a cell's id is always set (the guard
    [mesh_cell.id is None] at mesh.py:640 never fires); Python's recursion limit is the
    parameter [fuel]. *)
From Coq Require Import List Arith ZArith Bool.
From Verif Require Import Base MeshModel.
Import ListNotations.

(** Graph nodes are the pairs (dimension, id), [MeshCell.index], mesh_cell.py:110-111. *)
Definition vid : Type := (nat * nat)%type.
Definition index (c : cell) : vid := (c_dim c, c_id c).

(** [self.cells[id]] followed by an attribute access: IndexError when out of range,
    AttributeError on an empty slot. *)
Definition cell_of (cs : cells) (id : nat) : res cell :=
  do slot <- get_at cs id;
  match slot with None => Err AttributeError | Some c => Ok c end.

(** Mesh.gather_graph_edges, mesh.py:639-653 *)
Fixpoint gather_graph_edges (fuel : nat) (cs : cells) (dim : Z) (c : cell)
  : res (list (vid * vid)) :=
  match fuel with
  | 0 => Err RecursionError
  | S f =>
      if memb dim [0; 1; 2; 3]%Z then
        do ids <- get_at (c_sub c) (Z.to_nat dim);
        do parts <- mapM (fun id =>
            do c' <- cell_of cs id;
            if (Z.of_nat (c_dim c') =? dim)%Z then Ok [(index c, index c')]
            else do rest <- gather_graph_edges f cs dim c'; Ok ((index c, index c') :: rest)) ids;
        Ok (concat parts)
      else Err ValueError
  end.

(** The comprehensions at mesh.py:656-658, 669-673, 698-704 read [cell_i.dimension] of
    every slot. *)
Definition all_cells (cs : cells) : res (list cell) :=
  mapM (fun slot : option cell => match slot with None => Err AttributeError | Some c => Ok c end) cs.

(** The part common to the build_graph functions: gather and nx.from_edgelist. *)
Definition graph_of (fuel : nat) (cs : cells) (dim co : Z) (sel : list cell)
  : res (digraph vid) :=
  do parts <- mapM (gather_graph_edges fuel cs (dim - co)%Z) sel;
  Ok (from_edgelist (concat parts)).

(** Mesh.build_graph, mesh.py:655-666 *)
Definition build_graph (fuel : nat) (cs : cells) (dim co : Z) : res (digraph vid) :=
  do l <- all_cells cs;
  graph_of fuel cs dim co (filter (fun c => Z.of_nat (c_dim c) =? dim)%Z l).

(** Mesh.build_graph_on_physical_tags, mesh.py:668-681 *)
Definition build_graph_on_physical_tags (fuel : nat) (cs : cells) (tags : list (option Z)) (dim co : Z)
  : res (digraph vid) :=
  do l <- all_cells cs;
  graph_of fuel cs dim co
    (filter (fun c => (Z.of_nat (c_dim c) =? dim)%Z && memb (c_mat c) tags) l).

(** Mesh.build_graph_from_cell_ids, mesh.py:683-695 (for an ndarray argument) *)
Definition build_graph_from_cell_ids (fuel : nat) (cs : cells) (ids : list nat) (dim co : Z)
  : res (digraph vid) :=
  do l <- mapM (cell_of cs) ids;
  graph_of fuel cs dim co (filter (fun c => Z.of_nat (c_dim c) =? dim)%Z l).

(** Mesh.build_graph_on_materials, mesh.py:697-711 *)
Definition build_graph_on_materials (fuel : nat) (cs : cells) (dim co : Z) : res (digraph vid) :=
  do l <- all_cells cs;
  graph_of fuel cs dim co
    (filter (fun c => (Z.of_nat (c_dim c) =? dim)%Z &&
                      match c_mat c with Some _ => true | None => false end) l).

(** MeshTopology, mesh_topology.py:4-14: [t_maps] is entity_maps, [t_ids] entity_ids. *)
Record topology : Type := mk_topology {
  t_cells : cells; t_dim : nat; t_maps : list (digraph vid); t_ids : dict nat (list nat) }.

(** MeshTopology._build_entity_ids, mesh_topology.py:28-35 *)
Definition entity_ids (maps : list (digraph vid)) (dim : nat) : res (dict nat (list nat)) :=
  do l <- mapM (fun d => do g <- get_at maps d;
                         Ok (d, map snd (filter (fun v : vid => fst v =? d) (g_nodes g))))
               (seq 0 (dim + 1));
  Ok (dict_of l).

(** MeshTopology.__init__ and build_data_on_pysical_tags, mesh_topology.py:4-14, 43-47 with
    _build_entity_maps_on_physical_tags, lines 21-26.  [mesh_dim] is [mesh.dimension]. *)
Definition build_data_on_physical_tags (fuel : nat) (cs : cells) (mesh_dim dim : nat)
    (tags : list (option Z)) : res topology :=
  if mesh_dim <? dim then Err ValueError else
  do maps <- mapM (fun d => build_graph_on_physical_tags fuel cs tags (Z.of_nat dim)
                              (Z.of_nat dim - Z.of_nat d)) (seq 0 (dim + 1));
  do ids <- entity_ids maps dim;
  Ok (mk_topology cs dim maps ids).

(** MeshTopology.build_data, mesh_topology.py:37-41 with _build_entity_maps, lines 16-19 *)
Definition build_data (fuel : nat) (cs : cells) (mesh_dim dim : nat) : res topology :=
  if mesh_dim <? dim then Err ValueError else
  do maps <- mapM (fun d => build_graph fuel cs (Z.of_nat dim)
                              (Z.of_nat dim - Z.of_nat d)) (seq 0 (dim + 1));
  do ids <- entity_ids maps dim;
  Ok (mk_topology cs dim maps ids).

(** MeshTopology.entity_map_by_dimension, mesh_topology.py:54-55 *)
Definition entity_map_by_dimension (t : topology) (d : nat) : res (digraph vid) :=
  get_at (t_maps t) d.

(** MeshTopology.entities_by_dimension, mesh_topology.py:62-67 *)
Definition entities_by_dimension (t : topology) (d : nat) : res (list nat) :=
  if t_dim t <? d then Err ValueError else dindex (t_ids t) d.

(** topological_queries.py:5-8 and 11-14 *)
Definition find_higher_dimension_neighs (c : cell) (t : topology) : res (list vid) :=
  do g <- entity_map_by_dimension t (c_dim c); predecessors g (index c).
Definition find_lower_dimension_neighs (c : cell) (t : topology) : res (list vid) :=
  do g <- entity_map_by_dimension t (c_dim c); successors g (index c).
