(** * Specification: intersecting triangles and quadrilaterals, C89, C90

    Points, segments, triangles and planes of rational space; nothing here refers to the
    model's own tests. *)
From Coq Require Import List ZArith QArith Qabs.
From Verif Require Import Base FracModel SegModel TriModel.
Import ListNotations.
Local Open Scope Q_scope.

(** the same point *)
Definition peq (x y : point) : Prop := px x == px y /\ py x == py y /\ pz x == pz y.
(** [x] lies between [a] and [b] *)
Definition between (a b x : point) : Prop := exists t, 0 <= t <= 1 /\ peq x (along a b t).
(** [x] lies in the closed triangle a, b, c *)
Definition in_triangle (a b c x : point) : Prop := exists u v w, 0 <= u /\ 0 <= v /\ 0 <= w /\ u + v + w == 1 /\
  peq x (mk_point (u * px a + v * px b + w * px c) (u * py a + v * py b + w * py c) (u * pz a + v * pz b + w * pz c)).
(** [x] lies on one of the edges of the triangle *)
Definition on_edges (a b c x : point) : Prop := between a b x \/ between b c x \/ between c a x.
(** components of the vector product of b - a and d - c *)
Definition area_x (a b c d : point) : Q := (py b - py a) * (pz d - pz c) - (pz b - pz a) * (py d - py c).
Definition area_y (a b c d : point) : Q := (pz b - pz a) * (px d - px c) - (px b - px a) * (pz d - pz c).
Definition area_z (a b c d : point) : Q := (px b - px a) * (py d - py c) - (py b - py a) * (px d - px c).
(** six times the oriented volume of the tetrahedron a, b, c, x *)
Definition volume (a b c x : point) : Q :=
  area_x a b a c * (px x - px a) + area_y a b a c * (py x - py a) + area_z a b a c * (pz x - pz a).
Definition in_plane (a b c x : point) : Prop := volume a b c x == 0.
(** the parallelogram spanned by b - a and d - c is not tiny: one component of its area vector
    is at least [m] *)
Definition area_at_least (m : Q) (a b c d : point) : Prop :=
  m <= Qabs (area_x a b c d) \/ m <= Qabs (area_y a b c d) \/ m <= Qabs (area_z a b c d).
Definition parallel (a b c d : point) : Prop := area_x a b c d == 0 /\ area_y a b c d == 0 /\ area_z a b c d == 0.
(** distance *)
Definition apart (eps : Q) (x y : point) : Prop := eps * eps <= (px x - px y) * (px x - px y) + (py x - py y) * (py x - py y) + (pz x - pz y) * (pz x - pz y).

(** a point where an edge of the first triangle meets the plane of the second *)
Definition cut_point (p1 q1 r1 a b c z : point) : Prop := on_edges p1 q1 r1 z /\ in_plane a b c z.

(** Triangles in general position with respect to the tolerance: no vertex of one is in the
    plane of the other; the two points where the edges of the first meet the plane of the
    second are not near the edges of the second nor near the lines of its edges; the line
    through them is parallel to an edge or not nearly so; and no common point lies near (1, 1, 1). *)
Record general_position (eps : Q) (p1 q1 r1 a b c : point) : Prop := {
  gp_first : forall x, In x [p1; q1; r1] -> ~ in_plane a b c x;
  gp_second : forall x, In x [a; b; c] -> ~ in_plane p1 q1 r1 x;
  gp_far : forall z w, cut_point p1 q1 r1 a b c z -> on_edges a b c w -> apart eps z w;
  gp_lines : forall z x y, cut_point p1 q1 r1 a b c z -> In (x, y) [(a, b); (b, c); (c, a)] ->
    area_at_least (2 * eps) z x z y;
  gp_parallel : forall z z' x y, cut_point p1 q1 r1 a b c z -> cut_point p1 q1 r1 a b c z' -> ~ peq z z' ->
    In (x, y) [(a, b); (b, c); (c, a)] -> parallel x y z z' \/ area_at_least eps x y z z';
  gp_ones : forall z, in_triangle p1 q1 r1 z -> on_edges a b c z -> apart eps z (mk_point 1 1 1)
}.

(** what the answer should be: exactly the common points of two sets, which do not meet in a
    single point *)
Definition exact_answer (A B : point -> Prop) (r : intersection) : Prop :=
  match r with
  | None => forall z, ~ (A z /\ B z)
  | Some (Some x, Some y) => ~ peq x y /\ forall z, A z /\ B z <-> between x y z
  | Some _ => False
  end.

(** a quadrilateral cut along its diagonal 1-3 *)
Definition in_quad (p q r s x : point) : Prop := in_triangle p q s x \/ in_triangle q r s x.
Definition convex (A : point -> Prop) : Prop := forall x y z, A x -> A y -> between x y z -> A z.

(** the point moved along the first axis *)
Definition shifted (x : point) : point := mk_point (px x + 1) (py x) (pz x).
