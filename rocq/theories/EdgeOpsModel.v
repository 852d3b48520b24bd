(** * Model of src/topology/operations/edge_operations.py, and of vertex_with_same_geometry_q,
      vertex_strong_equality_q and collapse_vertex, vertex_operations.py:21-46

    Definitions only.  Exact real arithmetic; [np.linalg.lstsq] and [np.argsort] are
    parameters.  Collapsing works on the trees of ShapeModel (the object changed is the second
    argument, and the result says what it is afterwards), intersecting on the heap of
    VertexModel, where an edge is the pair of its boundary vertices. *)
From Coq Require Import List Arith ZArith Bool Reals.
From Verif Require Import Base VecBase GeoModel ShapeModel VertexModel.
Import ListNotations.

Section EdgeOps.
  Variable lstsq : vec -> vec -> vec -> R * R.
  Variable argsort : list Z -> list nat.
  (** geometry_collapse_tol, geometry_point_line_incidence_tol; the recursion limit *)
  Variables ctol ptol : R.
  Variable fuel : nat.

  (** [vertex.point]: a shape which is not a vertex has no such attribute *)
  Definition point_of (v : shape vec) : res vec := match s_point v with Some p => Ok p | None => Err AttributeError end.
  (** vertex_with_same_geometry_q, vertex_operations.py:21-27 *)
  Definition vertex_with_same_geometry (a b : shape vec) (eps : R) : res bool :=
    do p <- point_of a; do q <- point_of b; Ok (allclose eps p q).
  (** vertex_strong_equality_q, vertex_operations.py:30-34 *)
  Definition vertex_strong_equality (a b : shape vec) : res bool :=
    do s <- shape_eq allclose_default fuel a b;
    do g <- vertex_with_same_geometry a b ptol;
    Ok (s && g).
  (** collapse_vertex, vertex_operations.py:37-46: whether the object is returned (or None), and
      the object afterwards *)
  Definition collapse_vertex (tool object : shape vec) (eps : R) : res (bool * shape vec) :=
    do s <- vertex_strong_equality tool object;
    if s then Ok (true, object)
    else
      do g <- vertex_with_same_geometry tool object eps;
      if g then do object <- shape_assignment argsort object tool; Ok (true, object)
      else Ok (false, object).

  (** [va_0, va_1 = edge.boundary_shapes] *)
  Definition two_ends (e : shape vec) : res (shape vec * shape vec) :=
    match s_boundary e with [a; b] => Ok (a, b) | _ => Err ValueError end.
  (** edge_with_same_geometry_q, lines 14-20 *)
  Definition edge_with_same_geometry (a b : shape vec) (eps : R) : res bool :=
    do va <- two_ends a; do vb <- two_ends b;
    do q0 <- vertex_with_same_geometry (fst va) (fst vb) eps;
    do q1 <- vertex_with_same_geometry (snd va) (snd vb) eps;
    Ok (q0 && q1).
  (** edge_strong_equality_q, lines 23-27 *)
  Definition edge_strong_equality (a b : shape vec) : res bool :=
    do s <- shape_eq allclose_default fuel a b;
    do g <- edge_with_same_geometry a b ctol;
    Ok (s && g).
  (** collapse_edge, lines 30-37 *)
  Definition collapse_edge (tool object : shape vec) (eps : R) : res (bool * shape vec) :=
    do s <- edge_strong_equality tool object;
    if s then Ok (true, object)
    else
      do g <- edge_with_same_geometry tool object eps;
      if g then do object <- shape_assignment argsort object tool; Ok (true, object)
      else Ok (false, object).

  (** ** Intersections *)
  (** The tag of a new vertex is an integer, or whatever float was passed for it *)
  Inductive label : Type := Tag (t : Z) | Float (r : R).
  (** The point of a new vertex is an array of shape (3,), an array of shape (n, 3), or a pair *)
  Inductive place : Type := Flat (p : vec) | Rows (l : list vec) | Pair (l : list vec) (q : list bool).
  (** A vertex of the heap, or a new one *)
  Inductive met : Type := Old (x : nat) | Fresh (tag : label) (point : place).
  Definition met_of (tag : label) (r : hit) : met := match r with Existing x => Old x | New p => Fresh tag (Flat p) end.
  (** edge_edge_boundary_intersection, lines 40-70 *)
  Definition edge_edge_boundary_intersection (h : heap) (tool object : nat * nat) (tag : label) (eps : R) : res (option met) :=
    do bc0 <- boundary_hit ptol h (fst tool) object eps;
    do bc1 <- boundary_hit ptol h (snd tool) object eps;
    match bc0, bc1 with
    | Some r, _ | None, Some r => Ok (Some (met_of tag r))
    | None, None =>
        do out0 <- edge_hit ctol ptol ptol h (fst tool) object eps;
        do out1 <- edge_hit ctol ptol ptol h (snd tool) object eps;
        match out0, out1 with
        | Some r, _ | None, Some r => Ok (Some (met_of tag r))
        | None, None => Ok None
        end
    end.
  (** edge_edge_intersection, lines 73-90.  Line 80 passes p_eps where the tag is expected. *)
  Definition edge_edge_intersection (h : heap) (tool object : nat * nat) (tag : Z) (p_eps l_eps : R) : res (option met) :=
    do bc_out <- edge_edge_boundary_intersection h tool object (Float p_eps) ptol;
    match bc_out with
    | Some r => Ok (Some r)
    | None =>
        do a <- vpoint h (fst tool); do b <- vpoint h (snd tool);
        do c <- vpoint h (fst object); do d <- vpoint h (snd object);
        do out <- line_line_intersection lstsq ctol ptol a b c d l_eps;
        Ok (match out with
            | LL_none => None
            | LL_points l => Some (Fresh (Tag tag) (Rows l))
            | LL_segment l q => Some (Fresh (Tag tag) (Pair l q))
            end)
    end.
End EdgeOps.
