(** * C89, C90: intersecting triangles and quadrilaterals *)
From Coq Require Import List Arith ZArith Bool QArith Qabs.
From Verif Require Import Base FracModel SegModel TriModel TriSpec TriProof4 TriProof5 TriProof6 TriProof7 TriExamples.
Import ListNotations.
Local Open Scope Q_scope.

(** For triangles in general position triangle_triangle_intersection returns exactly the common
    points: (False, ..) if there are none, the two ends of the common segment otherwise. *)
Theorem C89_exact : forall (eps : Q) (p1 q1 r1 a b c : point),
  0 < eps -> general_position eps p1 q1 r1 a b c ->
  exists r, triangle_triangle_intersection eps p1 q1 r1 a b c = Ok r /\
    exact_answer (in_triangle p1 q1 r1) (in_triangle a b c) r.
Proof. exact triangle_triangle_lemma. Qed.
Print Assumptions C89_exact.
Example C89_exact_hypotheses : general_position eps_12 (P 1 1 1) (P 1 1 (-1)) (P 1 9 (-1)) (P 0 0 0) (P 4 0 0) (P 0 4 0).
Proof. exact example_position. Qed.
Example C89_exact_example : exists x y,
  triangle_triangle_intersection eps_12 (P 1 1 1) (P 1 1 (-1)) (P 1 9 (-1)) (P 0 0 0) (P 4 0 0) (P 0 4 0) = Ok (hit x y) /\
  peq x (P 1 1 0) /\ peq y (P 1 3 0).
Proof. exact example_answer. Qed.
Example C89_disjoint_example : general_position eps_12 (P 1 1 3) (P 1 1 1) (P 1 9 1) (P 0 0 0) (P 4 0 0) (P 0 4 0) /\
  triangle_triangle_intersection eps_12 (P 1 1 3) (P 1 1 1) (P 1 9 1) (P 0 0 0) (P 4 0 0) (P 0 4 0) = Ok None.
Proof. exact example_disjoint. Qed.

(** Whatever the triangles, the routine returns, and the points it returns lie in the plane of
    the second triangle. *)
Theorem C89_total : forall (eps : Q) (p1 q1 r1 a b c : point), exists r, triangle_triangle_intersection eps p1 q1 r1 a b c = Ok r.
Proof. exact total_lemma. Qed.
Print Assumptions C89_total.
Theorem C89_in_plane : forall (eps : Q) (p1 q1 r1 a b c : point) (x y : option point),
  triangle_triangle_intersection eps p1 q1 r1 a b c = Ok (Some (x, y)) ->
  exists u, x = Some u /\ in_plane a b c u /\ forall v, y = Some v -> in_plane a b c v.
Proof. exact in_plane_lemma. Qed.
Print Assumptions C89_in_plane.

(** The branches for a coplanar edge or vertex are never reached: replacing them by anything
    gives the same results. *)
Theorem C89_coplanar_branches_unreachable : forall (eps : Q) tail tail' (p1 q1 r1 a b c : point),
  triangle_triangle_with eps tail p1 q1 r1 a b c = triangle_triangle_with eps tail' p1 q1 r1 a b c.
Proof. exact dead_branches_lemma. Qed.
Print Assumptions C89_coplanar_branches_unreachable.
(** Triangles of one plane are said not to meet, even a triangle and itself. *)
Theorem C89_coplanar_missed : forall (eps : Q) (p1 q1 r1 a b c : point),
  (forall x, In x [p1; q1; r1] -> in_plane a b c x) \/ (forall x, In x [a; b; c] -> in_plane p1 q1 r1 x) ->
  triangle_triangle_intersection eps p1 q1 r1 a b c = Ok None.
Proof. exact coplanar_lemma. Qed.
Print Assumptions C89_coplanar_missed.
Example C89_coplanar_example : forall x, In x [P 0 0 0; P 4 0 0; P 0 4 0] -> in_plane (P 0 0 0) (P 4 0 0) (P 0 4 0) x.
Proof. intros x [<-|[<-|[<-|[]]]]; reflexivity. Qed.

(** Outside general position the answer depends on the order of the vertices, *)
Theorem C89_orientation_refuted : exists p1 q1 r1 a b c x y,
  triangle_triangle_intersection eps_12 p1 q1 r1 a b c = Ok (hit x y) /\
  triangle_triangle_intersection eps_12 p1 q1 r1 b a c = Ok None /\
  forall z, between x y z -> in_triangle p1 q1 r1 z /\ in_triangle a b c z.
Proof. exact orientation_lemma. Qed.
Print Assumptions C89_orientation_refuted.
(** contains points outside the second triangle, *)
Theorem C89_outside_refuted : exists p1 q1 r1 a b c x y,
  triangle_triangle_intersection eps_12 p1 q1 r1 a b c = Ok (hit x y) /\ ~ in_triangle a b c x.
Proof. exact outside_lemma. Qed.
Print Assumptions C89_outside_refuted.
(** misses a segment through a vertex, *)
Theorem C89_vertex_refuted : exists p1 q1 r1 a b c x y,
  triangle_triangle_intersection eps_12 p1 q1 r1 a b c = Ok None /\ ~ peq x y /\
  forall z, between x y z -> in_triangle p1 q1 r1 z /\ in_triangle a b c z.
Proof. exact vertex_lemma. Qed.
Print Assumptions C89_vertex_refuted.
(** and misses a segment that starts at (1, 1, 1) although it finds the same one elsewhere. *)
Theorem C89_translation_refuted : exists p1 q1 r1 a b c x y x' y',
  triangle_triangle_intersection eps_12 p1 q1 r1 a b c = Ok None /\
  triangle_triangle_intersection eps_12 (shifted p1) (shifted q1) (shifted r1) (shifted a) (shifted b) (shifted c) = Ok (hit x' y') /\
  ~ peq x y /\ forall z, between x y z -> in_triangle p1 q1 r1 z /\ in_triangle a b c z.
Proof. exact ones_lemma. Qed.
Print Assumptions C89_translation_refuted.

(** Plane convex quadrilaterals whose halves are in general position: polygon_polygon_intersection
    returns exactly the common points (further corners are ignored). *)
Theorem C90_exact : forall (eps : Q), 0 < eps -> forall (o0 o1 o2 o3 t0 t1 t2 t3 : point),
  general_position eps o0 o1 o3 t0 t1 t3 -> general_position eps o0 o1 o3 t1 t2 t3 ->
  general_position eps o1 o2 o3 t0 t1 t3 -> general_position eps o1 o2 o3 t1 t2 t3 ->
  in_plane o0 o1 o3 o2 -> in_plane t0 t1 t3 t2 -> convex (in_quad o0 o1 o2 o3) -> convex (in_quad t0 t1 t2 t3) ->
  forall more more' : list point, exists r,
  polygon_polygon_intersection eps (o0 :: o1 :: o2 :: o3 :: more) (t0 :: t1 :: t2 :: t3 :: more') = Ok r /\
  exact_answer (in_quad o0 o1 o2 o3) (in_quad t0 t1 t2 t3) r.
Proof. exact polygon_lemma. Qed.
Print Assumptions C90_exact.
Example C90_exact_hypotheses :
  general_position eps_12 (P 1 (-1) (-1)) (P 3 6 (-1)) (P 1 (-1) 2) (P 0 0 0) (P 4 0 0) (P 0 4 0) /\
  general_position eps_12 (P 1 (-1) (-1)) (P 3 6 (-1)) (P 1 (-1) 2) (P 4 0 0) (P 4 4 0) (P 0 4 0) /\
  general_position eps_12 (P 3 6 (-1)) (P 3 6 2) (P 1 (-1) 2) (P 0 0 0) (P 4 0 0) (P 0 4 0) /\
  general_position eps_12 (P 3 6 (-1)) (P 3 6 2) (P 1 (-1) 2) (P 4 0 0) (P 4 4 0) (P 0 4 0) /\
  in_plane (P 1 (-1) (-1)) (P 3 6 (-1)) (P 1 (-1) 2) (P 3 6 2) /\ in_plane (P 0 0 0) (P 4 0 0) (P 0 4 0) (P 4 4 0) /\
  convex (in_quad (P 1 (-1) (-1)) (P 3 6 (-1)) (P 3 6 2) (P 1 (-1) 2)) /\ convex (in_quad (P 0 0 0) (P 4 0 0) (P 4 4 0) (P 0 4 0)).
Proof. exact example_quads. Qed.
Example C90_exact_example : exists x y,
  polygon_polygon_intersection eps_12 [P 1 (-1) (-1); P 3 6 (-1); P 3 6 2; P 1 (-1) 2] [P 0 0 0; P 4 0 0; P 4 4 0; P 0 4 0] = Ok (hit x y) /\
  peq x (P (9 # 7) 0 0) /\ peq y (P (17 # 7) 4 0).
Proof. exact example_quads_answer. Qed.
(** Fewer than four corners are refused. *)
Theorem C90_too_few : forall (eps : Q) (o t : list point), (length o < 4)%nat \/ (length t < 4)%nat ->
  polygon_polygon_intersection eps o t = Err IndexError.
Proof. exact short_lemma. Qed.
Print Assumptions C90_too_few.
Example C90_too_few_example : (length [P 0 0 0; P 1 0 0; P 0 1 0] < 4)%nat.
Proof. unfold lt. simpl. auto. Qed.
(** Quadrilaterals of one plane are said not to meet. *)
Theorem C90_coplanar_missed : forall (eps : Q) (o0 o1 o2 o3 t0 t1 t2 t3 : point) (more more' : list point),
  (forall a b c x, In (a, b, c) [(t0, t1, t3); (t1, t2, t3)] -> In x [o0; o1; o2; o3] -> in_plane a b c x) ->
  polygon_polygon_intersection eps (o0 :: o1 :: o2 :: o3 :: more) (t0 :: t1 :: t2 :: t3 :: more') = Ok None.
Proof. exact coplanar_quads_lemma. Qed.
Print Assumptions C90_coplanar_missed.
Example C90_coplanar_example : forall a b c x, In (a, b, c) [(P 0 0 0, P 4 0 0, P 0 4 0); (P 4 0 0, P 4 4 0, P 0 4 0)] ->
  In x [P 0 0 0; P 4 0 0; P 4 4 0; P 0 4 0] -> in_plane a b c x.
Proof. intros a b c x [E|[E|[]]] H; inversion E; subst; destruct H as [<-|[<-|[<-|[<-|[]]]]]; reflexivity. Qed.
(** A fifth corner is ignored: common points are missed. *)
Theorem C90_pentagon_refuted : exists o0 o1 o2 o3 t0 t1 t2 t3 t4 x y z,
  polygon_polygon_intersection eps_12 [o0; o1; o2; o3] [t0; t1; t2; t3; t4] = Ok (hit x y) /\
  in_quad o0 o1 o2 o3 z /\ in_triangle t3 t4 t0 z /\ ~ between x y z.
Proof. exact pentagon_lemma. Qed.
Print Assumptions C90_pentagon_refuted.
(** Two rectangles with a common line very near an edge make the routine fail. *)
Theorem C90_total_refuted : exists o0 o1 o2 o3 t0 t1 t2 t3,
  polygon_polygon_intersection eps_12 [o0; o1; o2; o3] [t0; t1; t2; t3] = Err ValueError /\
  convex (in_quad o0 o1 o2 o3) /\ convex (in_quad t0 t1 t2 t3).
Proof. exact placeholder_lemma. Qed.
Print Assumptions C90_total_refuted.
