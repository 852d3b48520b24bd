(** * Model of src/topology/operations/domain_operations.py:31-218

    Definitions only.  Domains of dimension one whose shapes are vertices and edges (no wires);
    vertices and edges as in VertexModel.  [hash d t] is the hash of the pair (d, t). *)
From Coq Require Import List Arith ZArith Bool Reals.
From Verif Require Import Base VecBase GeoModel GraphOpsModel VertexModel.
Import ListNotations.

(** [domain.shapes] *)
Record domain1 : Type := mk_domain { d_vertices : list vertex; d_edges : list edge }.
(** [shape.index(max_dimension=1)], shape.py:118-119 *)
Definition node : Type := (nat * Z)%type.
Definition index_v (v : vertex) : node := (1, v_tag v).
Definition index_e (e : edge) : node := (0, e_tag e).
(** The values of a dict that is filled in the order of [l] *)
Definition last_by {A} (key : A -> Z) (l : list A) : list A := dvals (dict_of (map (fun x => (key x, x)) l)).
(** [G.remove_nodes_from(l)]: absent nodes are ignored *)
Definition remove_nodes_from (g : digraph node) (l : list node) : digraph node :=
  mk_digraph (filter (fun x => negb (memb x l)) (g_nodes g))
             (filter (fun a => negb (memb (fst a) l) && negb (memb (snd a) l)) (g_edges g)).

Section DomainOps.
  Variable hash : nat -> Z -> Z.
  (** create_domain, lines 31-44 *)
  Definition create_domain1 (vs : list vertex) (es : list edge) : domain1 :=
    mk_domain (last_by (fun v => hash 0 (v_tag v)) vs) (last_by (fun e => hash 1 (e_tag e)) es).

  Section Intersection.
    Variables ctol ptol ltol : R.
    (** domain_intersection, lines 47-85, with vertices as objects (VertexModel): None, or the
        vertices of the new domain *)
    Definition domain_intersection (tag_min : Z) (h : heap) (tools : list nat) (edges : list (nat * nat)) (tag : Z) (eps : R)
      : res (heap * option (list nat)) :=
      do r <- vertices_edges_intersection ctol ptol ltol tag_min h tools edges tag eps;
      let (h', output) := r in
      if length output =? 0 then Ok (h', None)
      else do keyed <- mapM (fun x => do t <- vtag h' x; Ok (hash 0 t, x)) (concat (map fst output));
           Ok (h', Some (dvals (dict_of keyed))).
  End Intersection.

  Section Difference.
    Variables ctol ptol : R.
    Variable unique_idx : list vec -> list nat.
    Variable argsort_R : list R -> list nat.
    Variable argsort : list Z -> list nat.
    (** The shapes written for one edge, lines 118-141 *)
    Definition written_edges (r : edge * list edge * list vertex) : list edge :=
      let '(e, es, vs) := r in if (length es =? 0) && (length vs =? 0) then [e] else es.
    Definition written_vertices (r : edge * list edge * list vertex) : list vertex :=
      let '(e, es, vs) := r in if (length es =? 0) && (length vs =? 0) then e_ends e else vs.
    (** domain_difference, lines 88-152 *)
    Definition domain_difference (minuend subtrahend : domain1) (tag : Z) (eps : R) : res domain1 :=
      do output <- vertices_edges_difference ctol ptol unique_idx argsort_R argsort (d_vertices subtrahend) (d_edges minuend) tag eps;
      if negb (length (d_edges minuend) =? length output) then Err AssertionError
      else Ok (mk_domain (last_by v_tag (flat_map written_vertices output)) (last_by e_tag (flat_map written_edges output))).
  End Difference.

  Section Union.
    Variable ptol : R.
    Variable argsort : list Z -> list nat.
    (** domain_c0.build_grahp(), domain.py:85-123, for edges *)
    Definition graph_of (D : domain1) : digraph node :=
      from_edgelist (flat_map (fun e => map (fun v => (index_e e, index_v v)) (e_ends e)) (d_edges D)).
    (** The loop body, lines 182-193 *)
    Definition include_tool (vertices : list vertex) (g : digraph node) (t : vertex) : res (digraph node) :=
      let chunk := filter (fun i => negb (eqb i (index_v t))) (map index_v (filter (fun v => same_geometry ptol (v_point v) (v_point t)) vertices)) in
      do preds <- mapM (fun i => do p <- predecessors g i; get_at p 0) chunk;
      Ok (remove_nodes_from (add_edges_from g (map (fun p => (p, index_v t)) preds)) chunk).
    (** nx.dfs_successors(G, source, depth_limit=1)[source]: KeyError when there is none *)
    Definition brep (g : digraph node) (i : node) : res (list node) :=
      do s <- successors g i; match filter (fun j => negb (eqb j i)) s with [] => Err KeyError | l => Ok l end.
    (** The setter of boundary_shapes, shape.py:78-93 *)
    Definition swap_brep (e : edge) (vs : list vertex) : res edge :=
      do l <- mapM (get_at vs) (argsort (map v_tag vs)); Ok (mk_edge (e_tag e) (e_phys e) l).
    (** domain_union, lines 155-218 *)
    Definition domain_union (c0 c1 : domain1) : res domain1 :=
      let all_vertices := dict_of (map (fun v => (v_tag v, v)) (d_vertices c0 ++ d_vertices c1)) in
      let all_edges := dict_of (map (fun e => (e_tag e, e)) (d_edges c0 ++ d_edges c1)) in
      do g <- foldM (include_tool (d_vertices c0)) (d_vertices c1) (graph_of c0);
      let c0_indexed := filter (fun i : node => fst i =? 0) (g_nodes g) in
      let c1_indexed := filter (fun i : node => fst i =? 1) (g_nodes g) in
      do c0_shapes <- mapM (fun i : node => dindex all_edges (snd i)) c0_indexed;
      do c1_shapes <- mapM (fun i : node => dindex all_vertices (snd i)) c1_indexed;
      do edges <- mapM (fun ie : node * edge =>
                          do idx <- brep g (fst ie);
                          do vs <- mapM (fun j : node => dindex all_vertices (snd j)) idx;
                          swap_brep (snd ie) vs)
                       (combine c0_indexed c0_shapes);
      Ok (create_domain1 c1_shapes edges).
  End Union.
End DomainOps.
