(** * Property theorems C49-C53, C55: geometric functions *)
From Coq Require Import List Arith Bool Reals Lra Lia Permutation.
From Verif Require Import Base VecBase VecProof GeoModel GeoSpec GeoProof GeoProof2 GeoExamples.
Import ListNotations.
Local Open Scope R_scope.

(** ** C49 *)
Theorem C49_point_on_segment : forall (ctol eps : R) (p a b : vec), 0 <= eps ->
  (on_segment a b p -> exists x, point_line_intersection ctol p a b eps = Some x) /\
  (forall x, point_line_intersection ctol p a b eps = Some x -> near_segment ctol eps p a b x).
Proof. exact segment_lemma. Qed.
Print Assumptions C49_point_on_segment.
Example C49_example : on_segment (P 0 0 0) (P 2 0 0) (P (1 / 2) 0 0).
Proof. exists (1 / 4). split; [lra|]. unfold P, between. apply vec_ext; vec; field. Qed.

(** ** C50 *)
Theorem C50_inside : forall (ctol eps : R) (p a b c : vec), 0 <= eps -> proper_triangle a b c -> in_triangle a b c p ->
  exists x, point_triangle_intersection ctol p a b c eps = Some x.
Proof. exact triangle_found. Qed.
Print Assumptions C50_inside.
(** A point that is answered lies near a vertex, or near the plane and near an edge, or near
    the plane and its projection lies in the triangle. *)
Theorem C50_answered : forall (ctol eps : R) (p a b c x : vec), 0 <= eps -> proper_triangle a b c -> point_triangle_intersection ctol p a b c eps = Some x ->
  (x = a /\ close ctol a p) \/ (x = b /\ close ctol b p) \/ (x = c /\ close ctol c p) \/
  (Rabs (volume6 a b c p) <= 6 * eps /\
   (near_segment ctol eps p a b x \/ near_segment ctol eps p b c x \/ near_segment ctol eps p c a x \/ (x = p /\ projects a b c p))).
Proof. exact triangle_sound. Qed.
Print Assumptions C50_answered.
Theorem C50_outside : forall (ctol eps : R) (p a b c : vec), 0 <= eps -> proper_triangle a b c -> volume6 a b c p = 0 -> ~ in_triangle a b c p ->
  (forall x, ~ near_segment ctol eps p a b x) -> (forall x, ~ near_segment ctol eps p b c x) -> (forall x, ~ near_segment ctol eps p c a x) ->
  point_triangle_intersection ctol p a b c eps = None.
Proof. exact triangle_outside. Qed.
Print Assumptions C50_outside.
Theorem C50_off_plane : forall (ctol eps : R) (p a b c : vec), 0 <= eps -> 6 * eps < Rabs (volume6 a b c p) ->
  ~ close ctol a p -> ~ close ctol b p -> ~ close ctol c p -> point_triangle_intersection ctol p a b c eps = None.
Proof. exact triangle_far. Qed.
Print Assumptions C50_off_plane.
Example C50_example : proper_triangle (P 0 0 0) (P 1 0 0) (P 0 1 0) /\ in_triangle (P 0 0 0) (P 1 0 0) (P 0 1 0) (P (1 / 4) (1 / 4) 0).
Proof. exact triangle_example. Qed.
Example C50_outside_example : let a := P 0 0 0 in let b := P 1 0 0 in let c := P 0 1 0 in let p := P 2 2 0 in
  volume6 a b c p = 0 /\ ~ in_triangle a b c p /\
  (forall x, ~ near_segment tol tol p a b x) /\ (forall x, ~ near_segment tol tol p b c x) /\ (forall x, ~ near_segment tol tol p c a x).
Proof. exact outside_example. Qed.

(** ** C51 *)
(** The assertion never fails; every returned point is near both segments; two segments with
    a common point and different directions get a point, which is the common point unless an
    end of the first segment is near the second. *)
Theorem C51_line_line : forall (lstsq : vec -> vec -> vec -> R * R) (ctol ptol eps : R) (a b c d : vec),
  ctol <= 1 / 100000000 -> 0 <= ptol -> 0 <= eps ->
  least_squares (vsub b a) (vsub d c) (vsub c a) (lstsq (vsub b a) (vsub d c) (vsub c a)) ->
  exists r, line_line_intersection lstsq ctol ptol a b c d eps = Ok r /\
    (forall out q, r = LL_segment out q -> exists x y, out = [x; y] /\ near_segment ctol ptol a c d x /\ near_segment ctol ptol b c d y) /\
    (forall out, r = LL_points out -> exists x, out = [x] /\
       (near_segment ctol ptol a c d x \/ near_segment ctol ptol b c d x \/ computed_point eps a b c d x)) /\
    (forall t s, 0 <= t <= 1 -> 0 <= s <= 1 -> between a b t = between c d s -> cross (vsub b a) (vsub d c) <> vzero ->
       r <> LL_none /\ ((forall x, ~ near_segment ctol ptol a c d x) -> (forall x, ~ near_segment ctol ptol b c d x) -> r = LL_points [between a b t])).
Proof. exact line_line_lemma. Qed.
Print Assumptions C51_line_line.
(** Colinear segments: a segment inside the first one is missed, though it is found with the
    arguments exchanged. *)
Theorem C51_inside_missed : forall lstsq, let a := P 0 0 0 in let b := P 10 0 0 in let c := P 4 0 0 in let d := P 5 0 0 in
  minimum_norm (vsub b a) (vsub d c) (vsub c a) (lstsq (vsub b a) (vsub d c) (vsub c a)) ->
  line_line_intersection lstsq tol tol a b c d tol = Ok LL_none /\
  line_line_intersection lstsq tol tol c d a b tol = Ok (LL_segment [c; d] [true; true]).
Proof. exact inside_missed_lemma. Qed.
Print Assumptions C51_inside_missed.
Example C51_example : let a := P 0 0 0 in let b := P 2 2 0 in let c := P 2 0 0 in let d := P 0 2 0 in
  least_squares (vsub b a) (vsub d c) (vsub c a) (1 / 2, 1 / 2) /\ between a b (1 / 2) = between c d (1 / 2) /\ cross (vsub b a) (vsub d c) <> vzero.
Proof. exact crossing_example. Qed.

(** ** C52 *)
Theorem C52_triangulation : forall points : list vec,
  ((length points < 3)%nat -> triangulate_convex_polygon points = Err ValueError) /\
  ((3 <= length points)%nat -> exists ts, triangulate_convex_polygon points = Ok ts /\ length ts = length points /\
     (forall i, (i < length points)%nat -> nth_error ts i =
        Some (vmean points, nth i points vzero, nth ((i + 1) mod length points) points vzero)) /\
     vsum (map triangle_area ts) = polygon_area points).
Proof. exact triangulate_lemma. Qed.
Print Assumptions C52_triangulation.
Example C52_example : polygon_area [P 0 0 0; P 2 0 0; P 2 3 0; P 0 3 0] = P 0 0 6.
Proof. unfold polygon_area, P. apply vec_ext; vec; field. Qed.

(** ** C53 *)
(** For a facet [p1] and the opposite vertex [opp] of a non-degenerate simplex whose points
    are listed in any order: the normal is a unit vector orthogonal to the facet, pointing
    away from the opposite vertex, in the space spanned by the simplex. *)
Theorem C53_normal : forall (p0 p1 : list vec) (opp : vec), Permutation p0 (p1 ++ [opp]) -> proper_simplex p1 opp ->
  exists n, normal p0 p1 (length p1 - 1) = Ok n /\ unit n /\
    (forall f g, In f p1 -> In g p1 -> dot n (vsub g f) = 0) /\
    (forall f, In f p1 -> dot n (vsub opp f) < 0) /\ spans p1 opp n.
Proof. exact normal_lemma. Qed.
Print Assumptions C53_normal.
Example C53_example : proper_simplex [P 0 0 0; P 1 0 0; P 0 1 0] (P 0 0 1) /\ proper_simplex [P 0 0 0; P 1 0 0] (P 0 1 0) /\ proper_simplex [P 0 0 0] (P 1 0 0).
Proof. exact tetra_example. Qed.

(** ** C55 *)
Theorem C55_rotation_products : forall (u v : vec) (theta : R) (axis : nat) (u' v' : vec),
  rotate_vector u theta axis = Some u' -> rotate_vector v theta axis = Some v' -> dot u' v' = dot u v.
Proof. exact rotate_dot. Qed.
Print Assumptions C55_rotation_products.
(** The last two lines: the angle is [theta], counterclockwise about the axis. *)
Theorem C55_rotation : forall (u : vec) (theta : R) (axis : nat), (axis < 3)%nat ->
  exists u', rotate_vector u theta axis = Some u' /\ norm u' = norm u /\ axis_part u' axis = axis_part u axis /\
    dot u u' = cos theta * (dot u u - axis_part u axis * axis_part u axis) + axis_part u axis * axis_part u axis /\
    axis_part (cross u u') axis = sin theta * (dot u u - axis_part u axis * axis_part u axis).
Proof. exact rotation_lemma. Qed.
Print Assumptions C55_rotation.
(** The normal of an embedded shape is a unit vector; it is orthogonal to the shape exactly
    when both ends have the same z coordinate. *)
Theorem C55_embedded_normal : forall b0 b1 : vec, b0 <> b1 -> exists n c, embed_normal b0 b1 = (Some n, c) /\ unit n /\
  vadd c c = vadd b0 b1 /\ (dot n (vsub b1 b0) = 0 <-> vz b0 = vz b1).
Proof. exact embed_lemma. Qed.
Print Assumptions C55_embedded_normal.
Example C55_example : rotate_vector (P 3 4 5) (PI / 2) 2 = Some (P (-4) 3 5).
Proof. simpl. unfold z_rotation, P. rewrite cos_PI2, sin_PI2. f_equal. apply vec_ext; simpl; ring. Qed.
