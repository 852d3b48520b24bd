(** * Specification vocabulary for geometric functions *)
From Coq Require Import List Reals.
From Verif Require Import VecBase.
Import ListNotations.
Local Open Scope R_scope.

(** Vector area of a triangle and of a closed polygon. *)
Definition triangle_area (t : vec * vec * vec) : vec :=
  let '(a, b, c) := t in vscale (1 / 2) (cross (vsub b a) (vsub c a)).
Definition polygon_area (p : list vec) : vec :=
  vscale (1 / 2) (vsum (map (fun i => cross (nth i p vzero) (nth ((i + 1) mod length p) p vzero)) (seq 0 (length p)))).

(** Unit vector *)
Definition unit (v : vec) : Prop := norm v = 1.
(** Three points not on a line; four points not in a plane. *)
Definition proper_triangle (a b c : vec) : Prop := cross (vsub b a) (vsub c a) <> vzero.
Definition proper_tetra (a b c d : vec) : Prop := dot (cross (vsub b a) (vsub c a)) (vsub d a) <> 0.

(** The point a + t (b - a). *)
Definition between (a b : vec) (t : R) : vec := vadd a (vscale t (vsub b a)).
Definition on_segment (a b p : vec) : Prop := exists t, 0 <= t <= 1 /\ p = between a b t.
(** Closed triangle *)
Definition in_triangle (a b c p : vec) : Prop :=
  exists u v, 0 <= u /\ 0 <= v /\ u + v <= 1 /\ p = vadd a (vadd (vscale u (vsub b a)) (vscale v (vsub c a))).
(** Coordinates differ by at most tol (1 + |p_i|). *)
Definition close (tol : R) (a p : vec) : Prop :=
  Rabs (vx a - vx p) <= tol + tol * Rabs (vx p) /\ Rabs (vy a - vy p) <= tol + tol * Rabs (vy p) /\
  Rabs (vz a - vz p) <= tol + tol * Rabs (vz p).
(** (t, s) solves the least squares problem  t d1 - s d2 = r. *)
Definition least_squares (d1 d2 r : vec) (ts : R * R) : Prop :=
  forall t' s', norm (vsub (vsub (vscale (fst ts) d1) (vscale (snd ts) d2)) r) <= norm (vsub (vsub (vscale t' d1) (vscale s' d2)) r).

(** The simplex with vertices [f] (a facet) and [opp] is not degenerate; [spans] says that [n]
    lies in the space spanned by it. *)
Definition proper_simplex (f : list vec) (opp : vec) : Prop :=
  match f with
  | [a] => a <> opp
  | [a; b] => proper_triangle a b opp
  | [a; b; c] => proper_tetra a b c opp
  | _ => False
  end.
Definition spans (f : list vec) (opp n : vec) : Prop :=
  match f with
  | [a] => cross n (vsub opp a) = vzero
  | [a; b] => dot n (cross (vsub b a) (vsub opp a)) = 0
  | _ => True
  end.

(** What it means that the point test of a segment answers [x] for [p]. *)
Definition near_segment (ctol eps : R) (p a b x : vec) : Prop :=
  (x = a /\ close ctol a p) \/ (x = b /\ close ctol b p) \/
  (x = p /\ (exists t, norm (vsub p (between a b t)) * norm (vsub b a) <= 2 * eps) /\
   norm (vsub p a) <= norm (vsub b a) + eps * (1 + norm (vsub p a)) /\
   norm (vsub p b) <= norm (vsub b a) + eps * (1 + norm (vsub p b))).
(** Six times the volume of the tetrahedron a b c p. *)
Definition volume6 (a b c p : vec) : R := dot (cross (vsub b a) (vsub c a)) (vsub p a).
(** Component along a coordinate axis. *)
Definition axis_part (v : vec) (axis : nat) : R := match axis with 0%nat => vx v | 1%nat => vy v | _ => vz v end.
(** the projection of [p] onto the plane of the triangle lies in the triangle *)
Definition projects (a b c p : vec) : Prop :=
  exists q, in_triangle a b c q /\ dot (vsub p q) (vsub b a) = 0 /\ dot (vsub p q) (vsub c a) = 0.

(** the point computed for two segments *)
Definition computed_point (eps : R) (a b c d x : vec) : Prop :=
  exists t s, x = between a b t /\ - eps <= t <= 1 + 2 * eps /\ - eps <= s <= 1 + 2 * eps /\ close eps x (between c d s).
(** Least squares solution of smallest norm, as returned by numpy.linalg.lstsq. *)
Definition minimum_norm (d1 d2 r : vec) (ts : R * R) : Prop :=
  least_squares d1 d2 r ts /\
  forall ts', least_squares d1 d2 r ts' -> fst ts * fst ts + snd ts * snd ts <= fst ts' * fst ts' + snd ts' * snd ts'.
