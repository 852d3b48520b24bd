(** * Model of src/topology/shape_manipulation.py: intersect_faces, the first loops (lines 319-357)
      and the axis of a face (393-398), with points_on_face_boundary (125-134)

    Definitions only.  Exact real arithmetic.  A face is what these lines read of it: whether it
    is a Shell, the points of the vertices returned by orient_immersed_vertices of its first
    wire (modelled in ShapeModel), and the edges of all its wires with their boundary points.
    polygon_polygon_intersection (modelled in TriModel), Edge.__eq__ and the lines 359-425 are
    parameters (359-382 are in FaceEdgeModel); render_intersection_q is left out. *)
From Coq Require Import List Arith Bool Reals.
From Verif Require Import Base VecBase GeoModel VertexModel.
Import ListNotations.

Definition segment : Type := (vec * vec)%type.
Record face (E : Type) : Type := mk_face { f_shell : bool; f_outline : list vec; f_edges : list (E * segment) }.
Arguments mk_face {E}. Arguments f_shell {E}. Arguments f_outline {E}. Arguments f_edges {E}.

(** [np.all(np.isclose(a, b))] of two pairs of points *)
Definition allclose_pair (a b : segment) : bool := allclose_default (fst a) (fst b) && allclose_default (snd a) (snd b).

Section Faces.
  Context {E A : Type}.
  Variable polygon_test : list vec -> list vec -> res (option segment).
  Variable edge_eq : E -> E -> res bool.                               (* Edge.__eq__ *)
  Variable rest : list segment -> list (nat * nat) -> res A.           (* lines 359-425 *)

  (** points_on_face_boundary, lines 125-134 *)
  Fixpoint points_on_face_boundary (points : segment) (edges : list (E * segment)) : option E :=
    match edges with
    | [] => None
    | (e, (p, q)) :: edges' =>
        if allclose_pair (p, q) points then Some e
        else if allclose_pair (q, p) points then Some e
        else points_on_face_boundary points edges'
    end.
  (** The test of lines 339-342 *)
  Definition common_edge (obj_edge tool_edge : option E) : res bool :=
    match obj_edge, tool_edge with Some e, Some e' => edge_eq e e' | _, _ => Ok false end.
  (** The inner loop, lines 324-357; the state is point_pairs and case_plane_indices.  np.append in
      line 354 is called with a tuple as its only positional argument. *)
  Definition face_tool_step (i : nat) (face_i : face E) (st : list segment * list (nat * nat)) (jt : nat * face E) : res (list segment * list (nat * nat)) :=
    let (point_pairs, cases) := st in
    let (j, face_j) := jt in
    if f_shell face_j then Ok st
    else if j <=? i then Ok st
    else
      do found <- polygon_test (f_outline face_i) (f_outline face_j);
      match found with
      | None => Ok st
      | Some new_points =>
          do common <- common_edge (points_on_face_boundary new_points (f_edges face_i)) (points_on_face_boundary new_points (f_edges face_j));
          if common then Ok st
          else if existsb (allclose_pair new_points) point_pairs then Err TypeError
          else Ok (point_pairs ++ [new_points], cases ++ [(i, j)])
      end.
  (** The outer loop, lines 319-357 *)
  Definition face_object_step (tools : list (face E)) (st : list segment * list (nat * nat)) (ie : nat * face E) : res (list segment * list (nat * nat)) :=
    if f_shell (snd ie) then Ok st
    else foldM (face_tool_step (fst ie) (snd ie)) (combine (seq 0 (length tools)) tools) st.
  Definition intersect_faces (objects tools : list (face E)) : res A :=
    do st <- foldM (face_object_step tools) (combine (seq 0 (length objects)) objects) ([], []);
    rest (fst st) (snd st).
End Faces.

(** [np.argmin] of three numbers *)
Definition argmin3 (a b c : R) : nat := if Rleb a b && Rleb a c then 0 else if Rleb b c then 1 else 2.
(** axis_dir, shape_manipulation.py:393-398, of the points of the vertices of the face.  For equal
    points 0 and 2 numpy has nan. *)
Definition face_axis (points : list vec) : res nat :=
  do p2 <- get_at points 2;
  do p0 <- get_at points 0;
  let d := vsub p2 p0 in
  Ok (argmin3 (Rabs (vx d / norm d)) (Rabs (vy d / norm d)) (Rabs (vz d / norm d))).
