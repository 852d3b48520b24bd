(** * Model of the descriptions handed to gmsh: ConformalMesher.transfer_domain_occ_descritpion,
      src/mesh/conformal_mesher.py:124-331, and DiscreteDomain.convert_domain_to_occ_description,
      src/mesh/discrete_domain.py:18-321

    Definitions only.  The result is the list of the calls made to gmsh, in order; what gmsh
    does with them is not modelled (a call never fails here).  A point is one argument instead
    of three coordinates; the mesh size [lc] and the progression of the nodes on a curve
    (mesh type and coefficient) are left out.  The assignment of [wire.orientation]
    (conformal_mesher.py:168, discrete_domain.py:83) is read back at once and not kept. *)
From Coq Require Import List Arith ZArith Bool.
From Verif Require Import Base ShapeModel TagModel.
Import ListNotations.

Section Mesher.
  Context {P : Type}.
  Inductive call : Type :=
  | AddPoint (p : P) (tag : Z)
  | AddLine (b e tag : Z)
  | AddCurveLoop (lines : list Z) (tag : Z)
  | AddPlaneSurface (loops : list Z) (tag : Z)
  | AddSurfaceLoop (surfaces : list Z) (tag : Z)
  | AddVolume (loops : list Z) (tag : Z)
  | Synchronize
  | AddPhysicalGroup (dim : nat) (tags : list Z) (tag : Z)
  | Embed (dim : nat) (tags : list Z) (in_dim : nat) (in_tag : Z)
  | SetTransfiniteCurve (tag : Z) (nodes : Z).

  (** [np.unique] of integers: sorted without repetition *)
  Fixpoint insert_unique (x : Z) (l : list Z) : list Z :=
    match l with
    | [] => [x]
    | y :: r => if (x <? y)%Z then x :: l else if (x =? y)%Z then l else y :: insert_unique x r
    end.
  Definition unique_tags (l : list Z) : list Z := fold_right insert_unique [] l.
  (** [len(l) > 0] *)
  Definition some {A} (l : list A) : bool := match l with [] => false | _ => true end.

  Variable pclose : P -> P -> bool.
  (** recursion limit of the comparisons *)
  Variable fuel : nat.
  (** the numbers gmsh gets for the tags of the shapes of each dimension *)
  Variable num : nat -> Z -> Z.

  (** ** Entities *)
  (** conformal_mesher.py:134-144, discrete_domain.py:32-41: [vertex.point[0]] of a vertex
      without point is a TypeError *)
  Definition add_vertex (v : shape P) : res (list call) :=
    if some (immersed v) then Ok []
    else match s_point v with None => Err TypeError | Some p => Ok [AddPoint p (num 0 (s_tag v))] end.
  (** conformal_mesher.py:153-156, discrete_domain.py:55-58 *)
  Definition add_line (c : shape P) : res (list call) :=
    do b <- get_at (s_boundary c) 0;
    do e <- get_at (s_boundary c) 1;
    Ok [AddLine (num 0 (s_tag b)) (num 0 (s_tag e)) (num 1 (s_tag c))].
  (** [wire.orient_immersed_edges()]: only wires have this method, wire.py:43 *)
  Definition orientation (w : shape P) : res (list Z) :=
    match s_kind w with Wire => orient_immersed_edges pclose fuel w | _ => Err AttributeError end.
  (** conformal_mesher.py:163-176, discrete_domain.py:78-91 *)
  Definition add_surface (s : shape P) : res (list call) :=
    if s_composite s then Ok []
    else
      do wire <- get_at (s_boundary s) 0;
      do signs <- orientation wire;
      let loop_tags := map (fun c => num 1 (s_tag c)) (immersed wire) in
      do loop_tags <- mapM (fun q : nat * Z => do t <- get_at loop_tags (fst q); Ok (t * snd q)%Z) (combine (seq 0 (length signs)) signs);
      let tag := num 2 (s_tag s) in
      Ok [AddCurveLoop loop_tags tag; AddPlaneSurface [tag] tag].
  (** conformal_mesher.py:183-193 *)
  Definition add_volume (s : shape P) : res (list call) :=
    if s_composite s then Ok []
    else
      do shell <- get_at (s_boundary s) 0;
      let tag := num 3 (s_tag s) in
      Ok [AddSurfaceLoop (map (fun c => num 2 (s_tag c)) (immersed shell)) tag; AddVolume [tag] tag].
  (** All calls of a loop over shapes *)
  Definition for_each (f : shape P -> res (list call)) (l : list (shape P)) : res (list call) :=
    do r <- mapM f l; Ok (concat r).

  (** ** Physical groups of ConformalMesher *)
  (** conformal_mesher.py:198-207 *)
  Definition group_vertex (v : shape P) : res (list call) :=
    match s_phys v with
    | None => Ok []
    | Some p =>
        if some (immersed v) then Ok [AddPhysicalGroup 0 (unique_tags (map (fun i => num 0 (s_tag i)) (immersed v))) p]
        else Ok [AddPhysicalGroup 0 [num 0 (s_tag v)] p]
    end.
  (** [tags_0d]: the ends without a physical tag, conformal_mesher.py:219-223 and 237-241 *)
  Definition untagged_ends (c : shape P) : list Z :=
    map (fun v => num 0 (s_tag v)) (filter (fun v => match s_phys v with None => true | Some _ => false end) (s_boundary c)).
  (** conformal_mesher.py:209-248; [dimension] is domain.dimension and [graph] domain.graph, None
      before build_grahp. *)
  Definition group_curve (dimension : nat) (graph : option (digraph (Z * Z))) (c : shape P) : res (list call) :=
    match s_phys c with
    | None => Ok []
    | Some p =>
        if some (immersed c) then
          Ok (AddPhysicalGroup 1 (unique_tags (map (fun i => num 1 (s_tag i)) (immersed c))) p ::
              (if (1 <? dimension)%nat then [AddPhysicalGroup 0 (untagged_ends c) p] else []))
        else
          match dimension with
          | 1 =>
              match graph with
              | None => Err AttributeError
              | Some g =>
                  do q <- predecessors g (0%Z, s_tag c);
                  Ok (if some q then [] else [AddPhysicalGroup 1 [num 1 (s_tag c)] p])
              end
          | 2 => Ok [AddPhysicalGroup 0 (untagged_ends c) p; AddPhysicalGroup 1 [num 1 (s_tag c)] p]
          | _ => Ok []
          end
    end.
  (** conformal_mesher.py:250-262 *)
  Definition group_cell (d : nat) (s : shape P) : res (list call) :=
    match s_phys s with None => Ok [] | Some p => Ok [AddPhysicalGroup d [num d (s_tag s)] p] end.

  (** ** Embedded entities *)
  (** The tags collected from the shapes immersed in a surface, conformal_mesher.py:273-289,
      discrete_domain.py:207-224 *)
  Definition surface_tags_0d (s : shape P) : list Z :=
    unique_tags (flat_map (fun c => map (fun v => num 0 (s_tag v)) (s_boundary c)) (immersed s)).
  Definition surface_tags_1d (s : shape P) : list Z :=
    unique_tags (flat_map (fun c => if some (immersed c) then map (fun i => num 1 (s_tag i)) (immersed c) else [num 1 (s_tag c)]) (immersed s)).
  (** conformal_mesher.py:269-297, [refine]; discrete_domain.py:203-226, without *)
  Definition embed_surface (refine : bool) (s : shape P) : res (list call) :=
    if s_composite s then Ok []
    else Ok ([Embed 0 (surface_tags_0d s) 2 (num 2 (s_tag s)); Embed 1 (surface_tags_1d s) 2 (num 2 (s_tag s))] ++
             (if refine then map (fun t => SetTransfiniteCurve t 10) (surface_tags_1d s) else [])).
  (** conformal_mesher.py:301-331 *)
  Definition volume_tags_1d (s : shape P) : list Z :=
    unique_tags (flat_map (fun c => (if some (immersed c) then map (fun i => num 1 (s_tag i)) (immersed c) else []) ++
                                    flat_map (fun w => map (fun i => num 1 (s_tag i)) (immersed w)) (s_boundary c)) (immersed s)).
  Definition volume_tags_2d (s : shape P) : list Z :=
    unique_tags (flat_map (fun c => if some (immersed c) then [] else [num 2 (s_tag c)]) (immersed s)).
  Definition embed_volume (s : shape P) : res (list call) :=
    if s_composite s then Ok []
    else Ok ([Embed 1 (volume_tags_1d s) 3 (num 3 (s_tag s)); Embed 2 (volume_tags_2d s) 3 (num 3 (s_tag s))] ++
             map (fun t => SetTransfiniteCurve t 2) (volume_tags_1d s)).

  (** ** Steps of DiscreteDomain *)
  (** shapes_with_same_dimension is not empty: discrete_domain.py:48-54, 140-146, 187-193 *)
  Definition divided (c : shape P) : bool := existsb (fun i => (s_dim i =? s_dim c)%nat) (immersed c).
  (** discrete_domain.py:45-58 *)
  Definition add_curve (c : shape P) : res (list call) := if s_composite c || divided c then Ok [] else add_line c.
  (** The physical tags of a list of shapes, discrete_domain.py:104-110, 123-129, 164-170 *)
  Definition physical_tags (l : list (shape P)) : list Z :=
    unique_tags (flat_map (fun s => match s_phys s with None => [] | Some p => [p] end) l).
  Definition has_phys (p : Z) (s : shape P) : bool := match s_phys s with Some q => (q =? p)%Z | None => false end.
  (** discrete_domain.py:111-119 *)
  Definition group_vertices (l : list (shape P)) : list call :=
    flat_map (fun p => let vs := filter (has_phys p) l in
                       if some vs then [AddPhysicalGroup 0 (map (fun v => num 0 (s_tag v)) vs) p] else []) (physical_tags l).
  (** discrete_domain.py:130-160; [refinement] is the pair under "curves_refinement" in
      mesh_arguments, with the number of points of its controls if there are controls. *)
  Definition group_curves (refinement : list Z * option Z) (l : list (shape P)) : list call :=
    flat_map (fun p => let cs := filter (fun c => has_phys p c && negb (s_composite c) && negb (divided c)) l in
                       let tags := map (fun c => num 1 (s_tag c)) cs in
                       AddPhysicalGroup 1 tags p ::
                       match snd refinement with
                       | Some n => if existsb (Z.eqb p) (fst refinement) then map (fun t => SetTransfiniteCurve t n) tags else []
                       | None => []
                       end) (physical_tags l).
  (** discrete_domain.py:171-180 *)
  Definition group_surfaces (l : list (shape P)) : list call :=
    map (fun p => AddPhysicalGroup 2 (map (fun s => num 2 (s_tag s)) (filter (has_phys p) l)) p) (physical_tags l).
  (** discrete_domain.py:184-199 *)
  Definition embed_curve (c : shape P) : res (list call) :=
    if s_composite c || divided c then Ok []
    else Ok [Embed 0 (unique_tags (map (fun i => num 0 (s_tag i)) (immersed c))) 1 (num 1 (s_tag c))].
End Mesher.
Arguments call P : clear implicits.

Section Transfer.
  Context {P : Type}.
  Variable pclose : P -> P -> bool.
  Variable fuel : nat.

  (** [vertex.tag + 1], [curve_stride + curve.tag + 1], [surface_stride + surface.tag + 1] and
      [volume_stride + volume.tag + 1]: conformal_mesher.py:130-131, 143, 153, 162-164, 182-184 *)
  Definition conformal_num (D : domain P) (d : nat) (t : Z) : Z :=
    (fold_left Z.add (map (fun l : list (shape P) => Z.of_nat (length l)) (firstn d D)) 0 + t + 1)%Z.
  (** transfer_domain_occ_descritpion, conformal_mesher.py:124-331.  [dimension] is
      domain.dimension, the variable of this name in the code is [depth]. *)
  Definition transfer_occ (dimension : nat) (graph : option (digraph (Z * Z))) (D : domain P) : res (list (call P)) :=
    let depth := first_empty (map (@length _) D) 0 in
    let num := conformal_num D in
    do vertices <- get_at D 0;
    do points <- for_each (add_vertex num) vertices;
    do curves <- get_at D 1;
    do lines <- for_each (fun c => if s_composite c then Ok [] else if some (immersed c) then Ok [] else add_line num c) curves;
    do surfaces <- (if (1 <? depth)%nat then get_at D 2 else Ok []);
    do planes <- for_each (add_surface pclose fuel num) surfaces;
    do volumes <- (if (2 <? depth)%nat then get_at D 3 else Ok []);
    do solids <- for_each (add_volume num) volumes;
    do g0 <- for_each (group_vertex num) vertices;
    do g1 <- for_each (group_curve num dimension graph) curves;
    do g2 <- for_each (group_cell num 2) surfaces;
    do g3 <- for_each (group_cell num 3) volumes;
    do e2 <- for_each (embed_surface num true) surfaces;
    do e3 <- for_each (embed_volume num) volumes;
    Ok (points ++ [Synchronize] ++ lines ++ [Synchronize] ++ planes ++ [Synchronize] ++ solids ++ [Synchronize] ++
        g0 ++ g1 ++ g2 ++ g3 ++ [Synchronize] ++ e2 ++ e3).

  (** convert_domain_to_occ_description, discrete_domain.py:228-321.  With volumes, the name
      [surface_stride] of line 248 is not defined. *)
  Definition convert_occ (refinement : list Z * option Z) (D : domain P) : res (list (call P)) :=
    do strides <- compute_strides (map (@length _) D);
    let num d t := (Z.of_nat (nth d strides 0%nat) + t + 1)%Z in
    let depth := first_empty (map (@length _) D) 0 in
    do vertices <- get_at D 0;
    do points <- for_each (add_vertex num) vertices;
    do curves <- (if (0 <? depth)%nat then get_at D 1 else Ok []);
    do lines <- for_each (add_curve num) curves;
    do surfaces <- (if (1 <? depth)%nat then get_at D 2 else Ok []);
    do planes <- for_each (add_surface pclose fuel num) surfaces;
    if (2 <? depth)%nat then Err NameError
    else
      do e1 <- for_each (embed_curve num) curves;
      do e2 <- for_each (embed_surface num false) surfaces;
      Ok (points ++ [Synchronize] ++
          (if (0 <? depth)%nat then lines ++ [Synchronize] else []) ++
          (if (1 <? depth)%nat then planes ++ [Synchronize] else []) ++
          [Synchronize] ++
          (group_vertices num vertices ++ [Synchronize]) ++
          (if (0 <? depth)%nat then group_curves num refinement curves ++ [Synchronize] else []) ++
          (if (1 <? depth)%nat then group_surfaces num surfaces ++ [Synchronize] else []) ++
          [Synchronize] ++ e1 ++ e2).
End Transfer.
