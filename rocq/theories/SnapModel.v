(** * Model of src/topology/shape_manipulation.py:17-134 without point_on_edge_boundary (which
      is in EmbedModel), and of vertex_vertex_intersection,
      src/topology/operations/vertex_operations.py:49-61

    Definitions only.  Exact real arithmetic; shapes are the trees of ShapeModel.
    vertex_with_same_geometry and vertex_strong_equality (shape_manipulation.py:17-30) have the
    same body as those of vertex_operations.py:21-34 in EdgeOpsModel, with the tolerance
    geometry_collapse_tol. *)
From Coq Require Import List Arith ZArith Bool Reals.
From Verif Require Import Base VecBase GeoModel ShapeModel EdgeOpsModel.
Import ListNotations.

(** [x == y] for floats *)
Definition Reqb (x y : R) : bool := if Req_EM_T x y then true else false.
(** point_line_intersection, shape_manipulation.py:45-77 *)
Definition point_line_test (A B P : vec) : bool :=
  if Reqb (vx A) (vx B) && Reqb (vy A) (vy B) && Reqb (vz A) (vz B)
  then Reqb (vx P) (vx A) && Reqb (vy P) (vy A) && Reqb (vz P) (vz A)
  else
    let t a b x := if Reqb b a then [] else [((x - a) / (b - a))%R] in
    let t_values := t (vx A) (vx B) (vx P) ++ t (vy A) (vy B) (vy P) ++ t (vz A) (vz B) (vz P) in
    match t_values with
    | [] => false
    | t0 :: _ => forallb (fun t => Reqb t t0) t_values
    end.

Section Snap.
  Variable argsort : list Z -> list nat.
  (** geometry_collapse_tol, geometry_point_line_incidence_tol; the recursion limit *)
  Variables ctol ptol : R.
  Variable fuel : nat.

  (** collapse_vertex, shape_manipulation.py:33-42: whether the tool is returned (or else the
      object), and the object afterwards *)
  Definition collapse_vertex (tool object : shape vec) (eps : R) : res (bool * shape vec) :=
    do s <- vertex_strong_equality ctol fuel tool object;
    if s then Ok (true, object)
    else
      do g <- vertex_with_same_geometry tool object eps;
      if g then do object <- shape_assignment argsort object tool; Ok (false, object)
      else Ok (false, object).
  (** vertex_edge_boundary_intersection, shape_manipulation.py:80-92 *)
  Definition vertex_edge_boundary_intersection (v e : shape vec) (eps : R) : res (option (shape vec)) :=
    do check <- mapM (fun w => vertex_with_same_geometry v w eps) (s_boundary e);
    do c0 <- get_at check 0;
    if (c0 : bool) then do a <- get_at (s_boundary e) 0; Ok (Some a)
    else
      do c1 <- get_at check 1;
      if (c1 : bool) then do b <- get_at (s_boundary e) 1; Ok (Some b) else Ok None.
  (** vertex_edge_intersection, shape_manipulation.py:95-112 *)
  Definition vertex_edge_intersection (v e : shape vec) (eps : R) : res (option (shape vec)) :=
    do bc_out <- vertex_edge_boundary_intersection v e eps;
    match bc_out with
    | Some _ => Ok bc_out
    | None => vertex_edge_boundary_intersection v e ctol
    end.
  (** The tests of points_on_face_boundary, shape_manipulation.py:129-132 *)
  Definition edge_between (p q : vec) (e : shape vec) : res bool :=
    do f_points <- mapM point_of (s_boundary e);
    do a <- get_at f_points 0;
    do b <- get_at f_points 1;
    Ok ((allclose_default a p && allclose_default b q) || (allclose_default b p && allclose_default a q)).
  Fixpoint first_edge (p q : vec) (edges : list (shape vec)) : res (option (shape vec)) :=
    match edges with
    | [] => Ok None
    | e :: edges => do c <- edge_between p q e; if (c : bool) then Ok (Some e) else first_edge p q edges
    end.
  Fixpoint first_wire (p q : vec) (wires : list (shape vec)) : res (option (shape vec)) :=
    match wires with
    | [] => Ok None
    | w :: wires =>
        do r <- first_edge p q (immersed w);
        match r with Some e => Ok (Some e) | None => first_wire p q wires end
    end.
  (** points_on_face_boundary, shape_manipulation.py:125-134 *)
  Definition points_on_face_boundary (p q : vec) (face : shape vec) : res (option (shape vec)) := first_wire p q (s_boundary face).

  (** vertex_vertex_intersection, vertex_operations.py:49-61 *)
  Definition vertex_vertex_intersection (tool object : shape vec) (tag : Z) (eps : R) : res (option (shape vec)) :=
    do s <- vertex_strong_equality ptol fuel tool object;
    if s then Ok (Some object)
    else
      do g <- vertex_with_same_geometry tool object eps;
      if g then do p <- point_of tool; Ok (Some (new_vertex tag p)) else Ok None.
End Snap.
