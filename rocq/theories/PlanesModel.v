(** * Model of src/topology/domain_market.py:375-418 (build_disjoint_planes) and 421-486
      (build_box_3D_with_planes)

    Definitions only.  Shapes and domains are the trees of ShapeModel; [planes] are the rows of
    the file, four corners each.  A wire comes with its orientation. *)
From Coq Require Import String List Arith ZArith Bool.
From Verif Require Import Base ShapeModel QueryModel.
Import ListNotations.
Local Open Scope list_scope.

(** Names of the module: imported at domain_market.py:1-23, defined at 26, 38, 58, 94, 172,
    305, 325, 375 and 421; a name which is none of these is not a builtin here. *)
Definition module_names : list string :=
  ["csv"; "np"; "Domain"; "Edge"; "Face"; "embed_edge_in_face"; "intersect_edges"; "Shell"; "Solid"; "Vertex"; "Wire";
   "topology_tag_shape_info"; "collapse_precision"; "create_domain"; "domain_difference"; "domain_union";
   "points_line_intersection"; "points_line_argsort"; "points_polygon_intersection"; "lines_lines_intersection";
   "read_fractures_file"; "build_box_1D"; "build_box_2D"; "build_box_3D"; "create_md_box_2D";
   "build_disjoint_lines"; "build_box_2D_with_lines"; "build_disjoint_planes"; "build_box_3D_with_planes"]%string.
(** Reading a global name *)
Definition global {A : Type} (name : string) (value : A) : res A :=
  if existsb (String.eqb name) module_names then Ok value else Err NameError.

Section Planes.
  Context {P : Type}.
  Variable pclose : P -> P -> bool.
  Variable argsort : list Z -> list nat.

  (** The body of the loop, domain_market.py:384-416: the domain and the wires so far, and
      v_tag, e_tag, f_tag *)
  Definition plane_step (fuel : nat) (st : domain P * list (shape P * list Z) * (Z * Z * Z)) (row : (P * P * P * P) * Z)
    : res (domain P * list (shape P * list Z) * (Z * Z * Z)) :=
    let '(D, wires, (v_tag, e_tag, f_tag)) := st in
    let '((p0, p1, p2, p3), physical_tag) := row in
    let v0 := new_vertex v_tag p0 in
    let v1 := new_vertex (v_tag + 1) p1 in
    let v2 := new_vertex (v_tag + 2) p2 in
    let v3 := new_vertex (v_tag + 3) p3 in
    do e0 <- new_edge argsort e_tag [v0; v1];
    do e1 <- new_edge argsort (e_tag + 1) [v1; v2];
    do e2 <- new_edge argsort (e_tag + 2) [v2; v3];
    do e3 <- new_edge argsort (e_tag + 3) [v3; v0];
    do w0 <- new_wire pclose argsort fuel (e_tag + 4) [e0; e1; e2; e3] [v0];
    do s0 <- new_face argsort f_tag [fst w0];
    let s0 := set_physical s0 (Some physical_tag) in
    do D <- append_shapes D [v0; v1; v2; v3];
    do D <- append_shapes D [e0; e1; e2; e3; fst w0];
    do D <- append_shapes D [s0];
    Ok (D, wires ++ [w0], (v_tag + 4, e_tag + 5, f_tag + 1)%Z).
  (** build_disjoint_planes, domain_market.py:375-418; physical_tags are those of line 380 *)
  Definition build_disjoint_planes (fuel : nat) (planes : list (P * P * P * P)) (max_f_tag max_e_tag max_v_tag max_p_tag : Z)
    : res (domain P * list (shape P * list Z)) :=
    let physical_tags := map (fun i => (Z.of_nat i + max_p_tag)%Z) (seq 0 (length planes)) in
    do st <- foldM (plane_step fuel) (combine planes physical_tags) (empty_domain 3, [], (max_v_tag, max_e_tag, max_f_tag));
    let '(D, wires, _) := st in Ok (D, wires).

  (** build_box_3D_with_planes, domain_market.py:421-486.  [intersect_faces] is what the name
      would stand for: edges and vertices from the faces and four shifts.  What it does to the
      faces is left out. *)
  Variable intersect_faces : list (shape P) -> Z -> Z -> Z -> Z -> res (list (shape P) * list (shape P)).
  Definition build_box_3D_with_planes (fuel : nat) (box_points : list P) (planes : list (P * P * P * P)) (solid : option Z) (bc : nat -> option Z)
    : res (domain P * digraph (Z * Z)) :=
    do box <- build_box_3D pclose argsort fuel box_points solid bc;
    let '(D, _, _) := box in
    do vertices <- get_at D 0;
    do edges <- get_at D 1;
    do faces <- get_at D 2;
    do max_p_tag <- max_physical_tag D;
    do solids <- get_at D 3;
    do body <- get_at solids 0;
    do out <- build_disjoint_planes fuel planes (Z.of_nat (length faces)) (Z.of_nat (length edges)) (Z.of_nat (length vertices)) (max_p_tag + 1);
    let (D', _) := out in
    do faces' <- get_at D' 2;
    do body <- set_immersed body (immersed body ++ faces');
    let D := set_at D 3 (set_at solids 0 body) in
    do vertices' <- get_at D' 0;
    do D <- append_shapes D vertices';
    do edges' <- get_at D' 1;
    do D <- append_shapes D edges';
    do D <- append_shapes D faces';
    do vertices <- get_at D 0;
    do edges <- get_at D 1;
    do faces <- get_at D 2;
    do max_p_tag <- max_physical_tag D;
    do f <- global "intersect_faces"%string intersect_faces;
    do frags <- f faces (Z.of_nat (length faces)) (Z.of_nat (length edges)) (Z.of_nat (length vertices)) max_p_tag;
    do D <- append_shapes D (snd frags);
    do D <- append_shapes D (fst frags);
    do _ <- refresh_wires pclose fuel D;
    do g <- build_graph 3 fuel D None;
    Ok (D, g).
End Planes.
