(** * Model of src/geometry/geometry_builder.py:7-234 (GeometryBuilder: the boxes) and of the
      part of src/mesh/conformal_mesher.py handing them to gmsh together with a network of
      fractures: set_points 27-36, add_domain_descritpion 333-428,
      add_fracture_network_description 430-492, generate 518-546

    Definitions only.  Points are elements of an arbitrary type.  Cells refer to each other by
    their positions in [self.cells] instead of by object; the cells of the boxes have no
    immersed cells, so that field is left out.  The result of the mesher is the list of the
    calls made to gmsh ([MesherModel.call]); the mesh size and the type and coefficient of
    setTransfiniteCurve are left out, and so are the calls initialize, generate and refine.
    Not modelled: set_boundary, build_internal_bc and draw_grahp of the builder. *)
From Coq Require Import List Arith ZArith Bool.
From Verif Require Import Base FracModel MesherModel.
Import ListNotations.

(** The keys of physical_tags: "line", "area", "volume", "bc_0", "bc_1", ... *)
Inductive key : Type := KLine | KArea | KVolume | KBc (i : nat).
#[export] Instance EqDec_key : EqDec key.
Proof. intros x y. decide equality. apply Nat.eq_dec. Defined.

(** GeometryCell, src/geometry/geometry_cell.py:13-30: dimension, id, physical tag, point id,
    boundary cells, boundary loop *)
Record bcell : Type := mk_bcell {
  bl_dim : nat; bl_id : nat; bl_tag : option Z; bl_pid : option nat; bl_bc : list nat; bl_loop : list Z }.
(** GeometryCell(0, id): without a point id the id is taken (geometry_cell.py:25-30). *)
Definition box_vertex (id : nat) : bcell := mk_bcell 0 id None (Some id) [] [].
Definition set_tag (c : bcell) (t : option Z) : bcell := mk_bcell (bl_dim c) (bl_id c) t (bl_pid c) (bl_bc c) (bl_loop c).

(** [self.cells[l]] with a list of positions *)
Definition cells_at (cs : list bcell) (l : list nat) : res (list nat) := mapM (fun i => do _ <- get_at cs i; Ok i) l.

(** GeometryBuilder.gather_graph_edges, geometry_builder.py:34-43; [fuel] is Python's
    recursion limit *)
Fixpoint gather_box_edges (fuel : nat) (cs : list bcell) (i : nat) : res (list (nat * nat)) :=
  match fuel with
  | 0 => Err RecursionError
  | S f =>
      do c <- get_at cs i;
      do parts <- mapM (fun k =>
          do c' <- get_at cs k;
          if bl_dim c' =? 0 then Ok [(bl_id c, bl_id c')]
          else do rest <- gather_box_edges f cs k; Ok ((bl_id c, bl_id c') :: rest)) (bl_bc c);
      Ok (concat parts)
  end.
(** GeometryBuilder.build_grahp, geometry_builder.py:45-58: all cells count, for none has
    immersed cells *)
Definition build_box_graph (fuel : nat) (cs : list bcell) : res (digraph nat) :=
  do parts <- mapM (gather_box_edges fuel cs) (seq 0 (length cs));
  Ok (from_edgelist (concat parts)).

Section Builder.
  Variable P : Type.
  (** GeometryBuilder.__init__ and set_physical_tags, geometry_builder.py:8-15 *)
  Record builder : Type := mk_builder { bu_cells : list bcell; bu_points : list P; bu_tags : dict key Z }.
  Definition new_builder (tags : dict key Z) : builder := mk_builder [] [] tags.
  Definition tags_or (tags default : dict key Z) : dict key Z := match tags with [] => default | _ => tags end.

  (** build_box_1D, geometry_builder.py:68-91.  np.append fails on an empty list of points
      (one axis instead of two). *)
  Definition box_1D (fuel : nat) (b : builder) (pts : list P) : res (builder * digraph nat) :=
    let tags := tags_or (bu_tags b) [(KLine, 1%Z); (KBc 0, 2%Z); (KBc 1, 3%Z)] in
    match pts with
    | [] => Err ValueError
    | _ =>
        let cs := bu_cells b ++ map box_vertex (seq 0 (length pts)) in
        do v0 <- get_at cs 0;
        let cs := set_at cs 0 (set_tag v0 (dget tags (KBc 0))) in
        do v1 <- get_at cs 1;
        let cs := set_at cs 1 (set_tag v1 (dget tags (KBc 1))) in
        do ends <- cells_at cs [0; 1];
        let cs := cs ++ [mk_bcell 1 (length pts) (dget tags KLine) None ends []] in
        do g <- build_box_graph fuel cs;
        Ok (mk_builder cs (bu_points b ++ pts) tags, g)
    end.

  (** The edges of a polygon, geometry_builder.py:106-123 *)
  Definition polygon_edge (n : nat) (tags : dict key Z) (cs : list bcell) (i : nat) : res (list bcell) :=
    do ends <- cells_at cs [i; if i =? n - 1 then 0 else i + 1];
    Ok (cs ++ [mk_bcell 1 (n + i) (dget tags (KBc i)) None ends []]).
  (** build_box_2D, geometry_builder.py:93-130 *)
  Definition box_2D (fuel : nat) (b : builder) (pts : list P) : res (builder * digraph nat) :=
    let tags := tags_or (bu_tags b) [(KArea, 1%Z); (KBc 0, 2%Z); (KBc 1, 3%Z); (KBc 2, 4%Z); (KBc 3, 5%Z)] in
    match pts with
    | [] => Err ValueError
    | _ =>
        let n := length pts in
        let cs := bu_cells b ++ map box_vertex (seq 0 n) in
        do cs <- foldM (polygon_edge n tags) (seq 0 n) cs;
        do edges <- cells_at cs (seq n n);
        let cs := cs ++ [mk_bcell 2 (n + n) (dget tags KArea) None edges []] in
        do g <- build_box_graph fuel cs;
        Ok (mk_builder cs (bu_points b ++ pts) tags, g)
    end.

  (** The edges, faces and loops of a hexahedron, geometry_builder.py:153-227 *)
  Definition hexa_edges : list (nat * list nat) :=
    [(8, [0; 1]); (9, [1; 2]); (10, [2; 3]); (11, [3; 0]); (12, [4; 5]); (13, [5; 6]); (14, [6; 7]); (15, [7; 4]);
     (16, [0; 4]); (17, [1; 5]); (18, [2; 6]); (19, [3; 7])].
  Definition hexa_faces : list (nat * nat * list nat * list Z) :=
    [(20, 0, [8; 17; 12; 16], [8; 17; -12; -16]%Z); (21, 1, [9; 18; 13; 17], [9; 18; -13; -17]%Z);
     (22, 2, [10; 19; 14; 18], [10; 19; -14; -18]%Z); (23, 3, [11; 16; 15; 19], [11; 16; -15; -19]%Z);
     (24, 4, [8; 9; 10; 11], [8; 9; 10; 11]%Z); (25, 5, [12; 13; 14; 15], [12; 13; 14; 15]%Z)].
  (** build_box, geometry_builder.py:132-234 *)
  Definition box_3D (fuel : nat) (b : builder) (pts : list P) : res (builder * digraph nat) :=
    let tags := tags_or (bu_tags b)
      [(KVolume, 1%Z); (KBc 0, 2%Z); (KBc 1, 3%Z); (KBc 2, 4%Z); (KBc 3, 5%Z); (KBc 4, 6%Z); (KBc 5, 7%Z)] in
    match pts with
    | [] => Err ValueError
    | _ =>
        let cs := bu_cells b ++ map box_vertex (seq 0 (length pts)) in
        do cs <- foldM (fun cs e => do ends <- cells_at cs (snd e); Ok (cs ++ [mk_bcell 1 (fst e) None None ends []])) hexa_edges cs;
        do cs <- foldM (fun cs f => let '(id, i, bc, loop) := f in
                   do edges <- cells_at cs bc; Ok (cs ++ [mk_bcell 2 id (dget tags (KBc i)) None edges loop])) hexa_faces cs;
        do faces <- cells_at cs [20; 21; 22; 23; 24; 25];
        let cs := cs ++ [mk_bcell 3 26 (dget tags KVolume) None faces []] in
        do g <- build_box_graph fuel cs;
        Ok (mk_builder cs (bu_points b ++ pts) tags, g)
    end.

  (** ** ConformalMesher *)
  Notation call := (call P).
  (** [gmsh.model.addPhysicalGroup(dim, tags, tag)]: the tag None is not an int *)
  Definition add_group (d : nat) (tags : list Z) (tag : option Z) : res call :=
    match tag with Some t => Ok (AddPhysicalGroup d tags t) | None => Err TypeError end.
  (** [cell.boundary_cells[k].point_id + 1] *)
  Definition box_end (cs : list bcell) (c : bcell) (k : nat) : res Z :=
    do i <- get_at (bl_bc c) k; do v <- get_at cs i;
    match bl_pid v with Some p => Ok (Z.of_nat p + 1)%Z | None => Err TypeError end.
  (** [gmsh.model.geo.addLine(b, e, cell.id)] for a line of a box *)
  Definition box_line (cs : list bcell) (c : bcell) : res call :=
    do b <- box_end cs c 0; do e <- box_end cs c 1; Ok (AddLine b e (Z.of_nat (bl_id c))).
  Definition of_dim (d : nat) (cs : list bcell) : list bcell := filter (fun c => bl_dim c =? d) cs.
  Definition ids (cs : list bcell) : list Z := map (fun c => Z.of_nat (bl_id c)) cs.

  (** add_domain_1d_descritpion, conformal_mesher.py:343-366 *)
  Definition describe_1D (b : builder) (g : digraph nat) : res (list call) :=
    let cs := bu_cells b in
    do cells <- mapM (get_at cs) (g_nodes g);
    do lines <- mapM (box_line cs) (of_dim 1 cells);
    let tags_1d := ids (of_dim 1 cells) in
    do groups0 <- mapM (fun c => add_group 0 [(Z.of_nat (bl_id c) + 1)%Z] (bl_tag c)) (of_dim 0 cells);
    do groups1 <- mapM (fun c => add_group 1 tags_1d (bl_tag c)) (of_dim 1 cells);
    Ok (lines ++ [Synchronize] ++ groups0 ++ groups1).

  (** add_domain_2d_descritpion, conformal_mesher.py:368-393; also returns tags_2d *)
  Definition polygon_calls (cs : list bcell) (c : bcell) : res (list call) :=
    do edges <- mapM (get_at cs) (bl_bc c);
    do lines <- mapM (box_line cs) edges;
    Ok (lines ++ [AddCurveLoop (ids edges) (Z.of_nat (bl_id c)); AddPlaneSurface [Z.of_nat (bl_id c)] (Z.of_nat (bl_id c))]).
  Definition describe_2D (b : builder) (g : digraph nat) : res (list call * list Z) :=
    let cs := bu_cells b in
    do cells <- mapM (get_at cs) (g_nodes g);
    do drawn <- mapM (polygon_calls cs) (of_dim 2 cells);
    let tags_2d := ids (of_dim 2 cells) in
    do groups1 <- mapM (fun c => add_group 1 [Z.of_nat (bl_id c)] (bl_tag c)) (of_dim 1 cells);
    do groups2 <- mapM (fun c => add_group 2 tags_2d (bl_tag c)) (of_dim 2 cells);
    Ok (concat drawn ++ [Synchronize] ++ groups1 ++ groups2, tags_2d).

  (** add_domain_3d_descritpion, conformal_mesher.py:395-428.  The list tags_2d is shared by
      the volumes and grows (the volumes after the first one also get the earlier faces). *)
  Definition face_calls (f : bcell) : list call :=
    [AddCurveLoop (bl_loop f) (Z.of_nat (bl_id f)); AddPlaneSurface [Z.of_nat (bl_id f)] (Z.of_nat (bl_id f))].
  Definition volume_calls (cs : list bcell) (s : list call * list Z) (c : bcell) : res (list call * list Z) :=
    let (calls, tags_2d) := s in
    do faces <- mapM (get_at cs) (bl_bc c);
    let tags_2d := tags_2d ++ ids faces in
    Ok (calls ++ flat_map face_calls faces ++ [AddSurfaceLoop tags_2d (Z.of_nat (bl_id c)); AddVolume [Z.of_nat (bl_id c)] (Z.of_nat (bl_id c))], tags_2d).
  Definition describe_3D (b : builder) (g : digraph nat) : res (list call) :=
    let cs := bu_cells b in
    do cells <- mapM (get_at cs) (g_nodes g);
    do lines <- mapM (box_line cs) (of_dim 1 cells);
    do (drawn, _) <- foldM (volume_calls cs) (of_dim 3 cells) ([], []);
    let tags_3d := ids (of_dim 3 cells) in
    do groups2 <- mapM (fun c => add_group 2 [Z.of_nat (bl_id c)] (bl_tag c)) (of_dim 2 cells);
    do groups3 <- mapM (fun c => add_group 3 tags_3d (bl_tag c)) (of_dim 3 cells);
    Ok (lines ++ [Synchronize] ++ drawn ++ [Synchronize] ++ groups2 ++ groups3).
  (** add_domain_descritpion, conformal_mesher.py:333-341; tags_2d only matters in dimension 2 *)
  Definition describe_domain (dimension : nat) (b : builder) (g : digraph nat) : res (list call * list Z) :=
    match dimension with
    | 1 => do r <- describe_1D b g; Ok (r, [])
    | 2 => describe_2D b g
    | 3 => do r <- describe_3D b g; Ok (r, [])
    | _ => Err ValueError
    end.

  (** FractureNetwork.shift_point_ids and shift_cell_ids, src/geometry/fracture_network.py:304-311 *)
  Definition shift_point_ids (dp : Z) (c : gcell) : gcell :=
    if gc_dim c =? 0
    then mk_gcell (gc_dim c) (gc_id c) (gc_tag c) (option_map (fun p => Z.to_nat (Z.of_nat p + dp)) (gc_pid c)) (gc_bc c) (gc_imm c)
    else c.
  Definition shift_cell_ids (dc : Z) (c : gcell) : gcell :=
    mk_gcell (gc_dim c) (Z.to_nat (Z.of_nat (gc_id c) + dc)) (gc_tag c) (gc_pid c) (gc_bc c) (gc_imm c).
  (** set_points, conformal_mesher.py:27-36: the points, and the network with other ids *)
  Definition set_points (b : builder) (n : option (network P)) : list P * option (network P) :=
    match n with
    | None => (bu_points b, None)
    | Some n =>
        (bu_points b ++ n_points P n,
         Some (mk_network P (map (shift_cell_ids (Z.of_nat (length (bu_cells b))))
                            (map (shift_point_ids (Z.of_nat (length (bu_points b)))) (n_cells P n))) (n_points P n)))
    end.
  (** write_mesh, conformal_mesher.py:494-499, on the network: only the point ids are shifted back *)
  Definition unset_points (b : builder) (n : network P) : network P :=
    mk_network P (map (shift_point_ids (- Z.of_nat (length (bu_points b)))) (n_cells P n)) (n_points P n).

  (** [cell.boundary_cells[k].point_id + 1] in the network *)
  Definition net_end (cs : list gcell) (c : gcell) (k : nat) : res Z :=
    do i <- get_at (gc_bc c) k; do v <- get_at cs i;
    match gc_pid v with Some p => Ok (Z.of_nat p + 1)%Z | None => Err TypeError end.
  Definition some_immersed (c : gcell) : bool := match gc_imm c with [] => false | _ => true end.
  (** The lines which stand for a cell: the cell itself or the cells immersed in it *)
  Definition parts (cs : list gcell) (c : gcell) : res (list gcell) :=
    if some_immersed c then mapM (get_at cs) (gc_imm c) else Ok [c].
  (** add_fracture_network_description, conformal_mesher.py:430-492; also returns tags_0d, tags_1d *)
  Definition describe_network (cs : list gcell) (g : digraph nat) (fracture_tags : list Z) : res (list call * list Z * list Z) :=
    do cells <- mapM (get_at cs) (g_nodes g);
    let cells_0 := filter (fun c => gc_dim c =? 0) cells in
    let i_cells := filter (fun c => (gc_dim c =? 1) && some_immersed c) cells in
    do ni <- mapM (fun c => mapM (get_at cs) (gc_imm c)) i_cells;
    let ni_ids := map gc_id (concat ni) in
    let cells_1 := filter (fun c => (gc_dim c =? 1) && negb (memb (gc_id c) ni_ids)) cells in
    do pieces <- mapM (parts cs) cells_1;
    do lines <- mapM (fun c => do b <- net_end cs c 0; do e <- net_end cs c 1; Ok (b, e, Z.of_nat (gc_id c))) (concat pieces);
    do vertices <- mapM (fun v => match gc_pid v with Some p => Ok ((Z.of_nat p + 1)%Z, gc_tag v) | None => Err TypeError end) cells_0;
    let groups0 := map (fun c => AddPhysicalGroup 0 (map fst (filter (fun v => (snd v =? gc_tag c)%Z) vertices)) (gc_tag c)) cells_1 in
    let groups_x := map (fun v => AddPhysicalGroup 0 [fst v] (snd v)) (filter (fun v => negb (memb (snd v) fracture_tags)) vertices) in
    let groups1 := map (fun cp => AddPhysicalGroup 1 (map (fun c => Z.of_nat (gc_id c)) (snd cp)) (gc_tag (fst cp))) (combine cells_1 pieces) in
    Ok (map (fun l => let '(b, e, t) := l in AddLine b e t) lines ++ [Synchronize] ++ groups0 ++ groups_x ++ groups1,
        flat_map (fun l => let '(b, e, _) := l in [b; e]) lines,
        map snd lines).

  (** generate, conformal_mesher.py:518-546, with the network after set_points, its graph and
      its fracture_tags *)
  Definition generate (dimension : nat) (points : list P) (b : builder) (g : digraph nat)
      (net : option (list gcell * digraph nat * list Z)) : res (list call) :=
    let pts := map (fun tp => AddPoint (snd tp) (Z.of_nat (fst tp) + 1)%Z) (combine (seq 0 (length points)) points) in
    do (domain, tags_2d) <- describe_domain dimension b g;
    match net with
    | None => Ok (pts ++ domain ++ [Synchronize])
    | Some (cs, ng, fracture_tags) =>
        if dimension =? 2 then
          do (fractures, tags_0d, tags_1d) <- describe_network cs ng fracture_tags;
          do face <- get_at tags_2d 0;
          Ok (pts ++ domain ++ [Synchronize] ++ fractures ++ [Synchronize; Embed 0 tags_0d 2 face; Embed 1 tags_1d 2 face] ++
              map (fun t => SetTransfiniteCurve t 10) tags_1d ++ [Synchronize])
        else Err AssertionError
    end.

  (** A script meshing a box: build_box_1D, build_box_2D or build_box on a new builder with the
      given physical tags, set_points, generate *)
  Definition mesh_box (fuel dimension : nat) (tags : dict key Z) (pts : list P) : res (list call) :=
    do (b, g) <- (match dimension with 1 => box_1D | 2 => box_2D | _ => box_3D end) fuel (new_builder tags) pts;
    generate dimension (fst (set_points b None)) b g None.
  (** A script meshing a polygon with a network of fractures: build_box_2D,
      intersect_1D_fractures, build_grahp of the network, set_points, generate.  The result
      includes the network before set_points. *)
  Variable isect : P -> P -> P -> P -> option P.
  Variable near : P -> P -> bool.
  Variable argsort : list P -> P -> list nat.
  Definition mesh_fractured (fuel : nat) (tags : dict key Z) (pts : list P) (fractures : list (list P)) (shift : Z) (all_q : bool)
      : res (network P * list call) :=
    do (b, g) <- box_2D fuel (new_builder tags) pts;
    do net <- intersect_1D_fractures P isect near argsort fractures shift;
    do ng <- build_network_graph fuel (n_cells P net) all_q;
    let (points, net') := set_points b (Some net) in
    match net' with
    | None => Err AttributeError
    | Some net' =>
        do r <- generate 2 points b g (Some (n_cells P net', ng, map (fun i => (Z.of_nat i + shift)%Z) (seq 0 (length fractures))));
        Ok (net, r)
    end.
End Builder.
