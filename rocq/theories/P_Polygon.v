(** * C91, C92: convexity, points in polygons, turns around a point *)
From Coq Require Import List Arith ZArith Bool Reals.
From Verif Require Import Base VecBase GeoModel GeoSpec GeoExamples PolyModel PolySpec PolyProof2 PolyProof3 PolyProof4 PolyProof5 PolyExamples.
Import ListNotations.
Local Open Scope R_scope.

(** ** C91 *)
(** Fewer than four corners count as convex; otherwise True means that the polygon turns to
    the same side at every corner. *)
Theorem C91_true_means : forall pts : list vec, ((length pts < 4)%nat -> convex_q pts = Ok true) /\
  ((4 <= length pts)%nat -> convex_q pts = Ok true -> exists n, n <> vzero /\ turns_left n pts).
Proof. exact (fun pts => conj (small_lemma pts) (convex_q_sound pts)). Qed.
Print Assumptions C91_true_means.
(** Plane polygons that always turn left and whose corners are equally far from their mean
    (rectangles, regular polygons) are recognised, *)
Theorem C91_equidistant : forall (n : vec) (pts : list vec), planar n pts -> equidistant pts -> turns_left n pts -> convex_q pts = Ok true.
Proof. exact equidistant_convex. Qed.
Print Assumptions C91_equidistant.
Theorem C91_convex_turns : forall (n : vec) (pts : list vec), convex_polygon n pts -> turns_left n pts.
Proof. exact convex_turns. Qed.
Print Assumptions C91_convex_turns.
Example C91_rectangle : planar up rectangle /\ equidistant rectangle /\ turns_left up rectangle /\ convex_q rectangle = Ok true.
Proof. exact rectangle_recognised. Qed.
(** but so are stars, which cross themselves, *)
Theorem C91_star_refuted : exists pts, convex_q pts = Ok true /\ (forall n, ~ convex_polygon n pts) /\
  exists p, on_segment (corner pts 0) (corner pts 1) p /\ on_segment (corner pts 2) (corner pts 3) p /\
    (forall i, (i < 4)%nat -> p <> corner pts i).
Proof. exact star_lemma. Qed.
Print Assumptions C91_star_refuted.
(** and no parallelogram is whose diagonals differ, by a factor below three. *)
Theorem C91_parallelogram_refuted : forall c u w : vec,
  1 / 100000000 + 1 / 100000 * norm w < norm u - norm w -> norm u < 3 * norm w ->
  (cross u w <> vzero -> convex_polygon (cross u w) (parallelogram c u w)) /\
  convex_q (parallelogram c u w) = Ok false /\ convex_q (parallelogram c w u) = Ok false.
Proof. exact (fun c u w H1 H2 => conj (parallelogram_convex c u w) (parallelogram_lemma c u w H1 H2)). Qed.
Print Assumptions C91_parallelogram_refuted.
(** Such a parallelogram in a plane z = constant is handed to scipy as points of a line: no
    point can be tested. *)
Theorem C91_parallelogram_fails : forall (delaunay : list (R * R) -> res (list (nat * nat * nat))) (ctol eps : R) (c u w p : vec),
  1 / 100000000 + 1 / 100000 * norm w < norm u - norm w -> norm u < 3 * norm w -> vz u = 0 -> vz w = 0 ->
  (forall flat, (exists h, forall q, In q flat -> snd q = h) -> exists e, delaunay flat = Err e) ->
  exists e, point_polygon_intersection delaunay ctol p (parallelogram c u w) eps = Err e.
Proof. exact parallelogram_fails_lemma. Qed.
Print Assumptions C91_parallelogram_fails.
Example C91_rhombus : let u := P 2 0 0 in let w := P 0 1 0 in
  1 / 100000000 + 1 / 100000 * norm w < norm u - norm w /\ norm u < 3 * norm w /\ vz u = 0 /\ vz w = 0 /\ cross u w <> vzero.
Proof. exact rhombus_example. Qed.

(** Convex polygons that are recognised: every point of the polygon is found, *)
Theorem C91_inside : forall (delaunay : list (R * R) -> res (list (nat * nat * nat))) (ctol eps : R), 0 <= eps -> forall (n : vec) (pts : list vec) (p : vec),
  convex_polygon n pts -> convex_q pts = Ok true -> in_polygon n pts p -> point_polygon_intersection delaunay ctol p pts eps = Ok (Some p).
Proof. exact found_lemma. Qed.
Print Assumptions C91_inside.
Example C91_inside_example : convex_polygon up rectangle /\ convex_q rectangle = Ok true /\ in_polygon up rectangle (P (3 / 2) (3 / 4) 0).
Proof. exact rectangle_inside. Qed.
(** no point of the plane outside it, unless it is close to an edge or to a line from a corner
    to the mean, *)
Theorem C91_outside : forall (delaunay : list (R * R) -> res (list (nat * nat * nat))) (ctol eps : R), 0 <= eps -> forall (n : vec) (pts : list vec) (p : vec),
  convex_polygon n pts -> convex_q pts = Ok true -> dot n (vsub p (corner pts 0)) = 0 -> ~ in_polygon n pts p ->
  (forall a b x, fan_edge pts a b -> ~ near_segment ctol eps p a b x) ->
  point_polygon_intersection delaunay ctol p pts eps = Ok None.
Proof. exact outside_polygon_lemma. Qed.
Print Assumptions C91_outside.
Example C91_outside_example : let p := P 100 0 0 in
  dot up (vsub p (corner rectangle 0)) = 0 /\ ~ in_polygon up rectangle p /\ (forall a b x, fan_edge rectangle a b -> ~ near_segment tol tol p a b x).
Proof. exact rectangle_outside. Qed.
(** and no point off the plane. *)
Theorem C91_off_plane : forall (delaunay : list (R * R) -> res (list (nat * nat * nat))) (ctol eps : R), 0 <= eps -> forall (n : vec) (pts : list vec) (p : vec),
  convex_polygon n pts -> convex_q pts = Ok true ->
  (forall i, (i < length pts)%nat -> 6 * eps < Rabs (volume6 (vmean pts) (corner pts i) (corner pts (i + 1)) p)) ->
  (forall q, q = vmean pts \/ In q pts -> ~ close ctol q p) ->
  point_polygon_intersection delaunay ctol p pts eps = Ok None.
Proof. exact off_plane_lemma. Qed.
Print Assumptions C91_off_plane.
Example C91_off_plane_example : let p := P 1 (1 / 2) 5 in
  (forall i, (i < length rectangle)%nat -> 6 * tol < Rabs (volume6 (vmean rectangle) (corner rectangle i) (corner rectangle (i + 1)) p)) /\
  (forall q, q = vmean rectangle \/ In q rectangle -> ~ close tol q p).
Proof. exact rectangle_above. Qed.
(** Many points: those found, in their order, and the mask. *)
Theorem C91_points : forall (delaunay : list (R * R) -> res (list (nat * nat * nat))) (ctol eps : R) (inside : vec -> bool) (pts points : list vec),
  (forall p, In p points -> point_polygon_intersection delaunay ctol p pts eps = Ok (if inside p then Some p else None)) ->
  points_polygon_intersection delaunay ctol points pts eps = Ok (filter inside points, map inside points).
Proof. exact points_lemma. Qed.
Print Assumptions C91_points.
Example C91_points_example : forall (inside : vec -> bool) delaunay, inside (P (3 / 2) (3 / 4) 0) = true -> inside (P 100 0 0) = false ->
  forall p, In p [P (3 / 2) (3 / 4) 0; P 100 0 0] -> point_polygon_intersection delaunay tol p rectangle tol = Ok (if inside p then Some p else None).
Proof. exact two_points_example. Qed.

(** ** C92 *)
(** winding_number is the number of turns of the closed polygon around a point not on it. *)
Theorem C92_turns : forall (p : R * R) (pts : list (R * R)),
  (forall i, (i < length pts)%nat -> ~ on_segment2 (corner2 pts i) (corner2 pts (i + 1)) p) ->
  forall w, turns_around p pts w <-> w = winding_number p pts.
Proof. exact winding_full. Qed.
Print Assumptions C92_turns.
Example C92_turns_example : forall i, (i < length square)%nat -> ~ on_segment2 (corner2 square i) (corner2 square (i + 1)) (0, 0).
Proof. exact square_off. Qed.
(** It is positive where all edges turn left around the point, *)
Theorem C92_inside : forall (p : R * R) (pts : list (R * R)), pts <> [] -> (forall i, (i < length pts)%nat ->
    let u := minus2 (corner2 pts i) p in let v := minus2 (corner2 pts (i + 1)) p in 0 < fst u * snd v - snd u * fst v) ->
  (1 <= winding_number p pts)%Z.
Proof. exact inside_turns. Qed.
Print Assumptions C92_inside.
Example C92_inside_example : forall i, (i < length square)%nat ->
  let u := minus2 (corner2 square i) (0, 0) in let v := minus2 (corner2 square (i + 1)) (0, 0) in 0 < fst u * snd v - snd u * fst v.
Proof. exact square_inside. Qed.
(** and zero outside the convex hull. *)
Theorem C92_outside : forall (p : R * R) (pts : list (R * R)) (d : R * R),
  (forall q, In q pts -> let u := minus2 q p in 0 < fst d * fst u + snd d * snd u) -> winding_number p pts = 0%Z.
Proof. exact outside_turns. Qed.
Print Assumptions C92_outside.
Example C92_outside_example : forall q, In q square -> let u := minus2 q (5, 0) in 0 < fst (-1, 0) * fst u + snd (-1, 0) * snd u.
Proof. exact square_outside. Qed.
(** The projection keeps the points of the plane of the polygon apart. *)
Theorem C92_projection : forall (n : vec) (pts : list vec) (N : vec), (3 <= length pts)%nat -> planar n pts -> polygon_normal pts = Ok N -> N <> vzero ->
  exists i j, projection_directions pts = Ok (i, j) /\
    forall p q, dot n (vsub p q) = 0 -> axis_part p i = axis_part q i -> axis_part p j = axis_part q j -> p = q.
Proof. exact projection_lemma. Qed.
Print Assumptions C92_projection.
Example C92_projection_example : exists N, polygon_normal rectangle = Ok N /\ N <> vzero.
Proof. exact rectangle_normal. Qed.
(** A polygon that is not recognised as convex is cut into those triangles of scipy around
    whose centre its projection turns. *)
Theorem C92_triangulation : forall delaunay (pts : list vec) (ij : nat * nat) (simplices : list (nat * nat * nat)),
  convex_q pts = Ok false -> projection_directions pts = Ok ij -> delaunay (flat_points ij pts) = Ok simplices ->
  (forall i j k, In (i, j, k) simplices -> (i < length pts)%nat /\ (j < length pts)%nat /\ (k < length pts)%nat) ->
  triangulate_polygon delaunay pts =
    Ok (map (triangle_of pts) (filter (fun t => negb (winding_number (middle (flat_points ij pts) t) (flat_points ij pts) =? 0)%Z) simplices)).
Proof. exact triangulation_lemma. Qed.
Print Assumptions C92_triangulation.
Example C92_triangulation_example : convex_q dart = Ok false /\ projection_directions dart = Ok (0, 1)%nat.
Proof. exact (conj dart_false dart_directions). Qed.
