(** * Model of create_md_box_2D, src/topology/domain_market.py:172-301

    Definitions only.  Exact real arithmetic.  The rock box is built as in ShapeModel; its
    vertices and edges, and all the shapes made from them, are handled as in VertexModel and
    DomainModel; the domain returned is one of ShapeModel.  [tol] stands for the tolerances of
    globals.py, which are all 1.0e-10, and [scale] for ten to the power
    geometry_collapse_precision.  Physical tags in dicts are integers, a missing key is None. *)
From Coq Require Import List Arith ZArith Bool Reals.
From Verif Require Import Base VecBase GeoModel PolyModel LineModel ShapeModel VertexModel DomainModel.
Import ListNotations.

(** [np.unique(np.round(points, decimals), axis=0, return_index=True)[1]]: the first position of
    every rounded row, rows in lexicographic order; lines 218-220 and vertex_operations.py:165-170 *)
Fixpoint insert_index (r : row) (i : nat) (l : list (row * nat)) : list (row * nat) :=
  match l with
  | [] => [(r, i)]
  | (s, j) :: l' => match row_compare r s with
                    | Lt => (r, i) :: l
                    | Eq => l
                    | Gt => (s, j) :: insert_index r i l' end
  end.
Definition rounded_idx (scale : R) (points : list vec) : list nat :=
  map snd (fold_left (fun l ip => insert_index (rounded scale (snd ip)) (fst ip) l) (combine (seq 0 (length points)) points) []).

(** Vertices and edges of both models *)
Definition vertex_of (s : @shape vec) : res vertex :=
  match s_point s with Some p => Ok (mk_vertex (s_tag s) (s_phys s) p) | None => Err AttributeError end.
Definition edge_of (s : @shape vec) : res edge := do ends <- mapM vertex_of (s_boundary s); Ok (mk_edge (s_tag s) (s_phys s) ends).
Definition shape_of_vertex (v : vertex) : @shape vec := mk_shape Vertex (v_tag v) (v_phys v) (Some (v_point v)) [] [].
Definition shape_of_edge (e : edge) : @shape vec := mk_shape Edge (e_tag e) (e_phys e) None (map shape_of_vertex (e_ends e)) [].

(** [d[key]] *)
Definition key (value : option Z) : res (option Z) := match value with Some z => Ok (Some z) | None => Err KeyError end.
(** [a, b = edge.boundary_points()], edge.py:13-18 *)
Definition two_points (e : edge) : res segment :=
  match map v_point (e_ends e) with [a; b] => Ok (a, b) | _ => Err ValueError end.
(** [np.mean(edge.boundary_points(), axis=0)] *)
Definition midpoint (e : edge) : vec := vmean (map v_point (e_ends e)).
(** Vertices with consecutive tags *)
Definition numbered (tag : Z) (l : list (option Z * vec)) : list vertex :=
  map (fun ip : nat * (option Z * vec) => mk_vertex (tag + Z.of_nat (fst ip)) (fst (snd ip)) (snd (snd ip))) (combine (seq 0 (length l)) l).

Section MdBox.
  Variable lstsq : vec -> vec -> vec -> R * R.
  Variable argsort_R : list R -> list nat.
  Variable argsort : list Z -> list nat.
  Variable delaunay : list (R * R) -> res (list (nat * nat * nat)).
  Variable hash : nat -> Z -> Z.
  Variables tol scale : R.

  (** boundary_vertices and raw_vertices, lines 201-215: physical tags and points *)
  Definition raw_vertices (rock_edges : list edge) (rock_lines : list segment) (boundary_intx : list vec) : list (option Z * vec) :=
    flat_map (fun el : edge * segment =>
                map (fun p => (e_phys (fst el), p)) (fst (points_line_intersection tol boundary_intx (fst (snd el)) (snd (snd el)) tol)))
             (combine rock_edges rock_lines).
  (** The raw vertices that are kept, lines 218-228: their order is not changed *)
  Definition kept_vertices (raw : list (option Z * vec)) : list (option Z * vec) :=
    let unique_idx := rounded_idx scale (map snd raw) in
    map snd (filter (fun ip => memb (fst ip) unique_idx) (combine (seq 0 (length raw)) raw)).
  (** The edges of the fractures with their vertices, lines 240-252 *)
  Definition fracture_edges (internal_bc line_tag : option Z) (tag : Z) (lines : list segment) : res (Z * list vertex * list edge) :=
    foldM (fun st (line : segment) =>
             let '(tag, vs, es) := st in
             do bc <- key internal_bc;
             let v0 := mk_vertex tag bc (fst line) in
             let v1 := mk_vertex (tag + 1) bc (snd line) in
             do phys <- key line_tag;
             do e <- make_edge argsort (tag + 2)%Z phys v0 v1;
             Ok ((tag + 3)%Z, vs ++ [v0; v1], es ++ [e]))
          lines (tag, [], []).
  (** An edge of the box after domain_union, which writes new ends into an edge that was not cut *)
  Definition current (md : domain1) (e : edge) : edge :=
    match find (fun e' => (e_tag e' =? e_tag e)%Z) (d_edges md) with Some e' => e' | None => e end.
  (** The edges along one side, lines 277-286; [points - a] fails when there is none *)
  Definition side_edges (md : domain1) (edges : list edge) (boundary_edge : edge) : res (list edge) :=
    let sub_edges := filter (fun e => eqb (e_phys e) (e_phys boundary_edge)) edges in
    do ab <- two_points (current md boundary_edge);
    match sub_edges with
    | [] => Err ValueError
    | _ => mapM (get_at sub_edges) (points_line_argsort argsort_R (map midpoint sub_edges) (fst ab) (snd ab))
    end.

  (** create_md_box_2D, lines 172-301: the domain, and its wire with the orientation.  [area],
      [bc i] are the entries of domain_physical_tags; [fracture] has the entries "line",
      "internal_bc" and "point" of fracture_physical_tags. *)
  Definition create_md_box_2D (fuel : nat) (box_points : list vec) (area : option Z) (bc : nat -> option Z)
      (lines : option (list segment)) (fracture : option Z * option Z * option Z) : res (@domain vec * (@shape vec * list Z)) :=
    do rock <- build_box_2D allclose_default argsort fuel box_points area bc;
    let '(rock_domain, rock_wire, _) := rock in
    match lines with
    | None => Ok (rock_domain, rock_wire)
    | Some lines =>
        let '(line_tag, internal_bc, point_tag) := fracture in
        do d0 <- get_at rock_domain 0; do d1 <- get_at rock_domain 1;
        do rock_vertices <- mapM vertex_of d0;
        do rock_edges <- mapM edge_of (filter (fun s => negb (s_composite s)) d1);
        do rock_lines <- mapM two_points rock_edges;
        do boundary_intx <- lines_lines_points lstsq tol tol scale lines rock_lines tol;
        do fracture_intx <- lines_lines_points lstsq tol tol scale lines lines tol;
        let on_boundary := kept_vertices (raw_vertices rock_edges rock_lines boundary_intx) in
        do max_tag <- np_max (flat_map (map s_tag) rock_domain);
        let tag := (max_tag + 1)%Z in
        do crossings <- mapM (fun p => do t <- key point_tag; Ok (t, p)) fracture_intx;
        let tools := numbered tag on_boundary ++ numbered (tag + Z.of_nat (length on_boundary)) crossings in
        let domain_c1 := create_domain1 hash tools [] in
        do f <- fracture_edges internal_bc line_tag (tag + Z.of_nat (length tools)) lines;
        let '(tag, fracture_vertices, edges) := f in
        let domain := mk_domain (rock_vertices ++ tools ++ fracture_vertices) (rock_edges ++ edges) in
        do domain_c0 <- domain_difference tol tol (rounded_idx scale) argsort_R argsort domain domain_c1 tag tol;
        do md <- domain_union hash tol argsort domain_c0 domain_c1;
        do v_intx <- points_polygon_intersection delaunay tol (map v_point (d_vertices md)) box_points tol;
        do e_intx <- points_polygon_intersection delaunay tol (map midpoint (d_edges md)) box_points tol;
        let vertices := mask (d_vertices md) (snd v_intx) in
        let edges := mask (d_edges md) (snd e_intx) in
        do sides <- mapM (side_edges md edges) rock_edges;
        let wire_edges := concat sides in
        do e0 <- get_at wire_edges 0;
        do v0 <- get_at (e_ends e0) 0;
        do wire0 <- new_wire allclose_default argsort fuel tag (map shape_of_edge wire_edges) [shape_of_vertex v0];
        do face0 <- new_face argsort (tag + 1)%Z [fst wire0];
        do face0 <- set_immersed face0 (map shape_of_edge edges);
        do phys <- key area;
        do D <- append_shapes (empty_domain 2) (map shape_of_vertex vertices);
        do D <- append_shapes D (map shape_of_edge edges);
        do D <- append_shapes D [fst wire0];
        do D <- append_shapes D [set_physical face0 phys];
        Ok (D, wire0)
    end.
End MdBox.
