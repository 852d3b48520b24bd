(** * Specification: convex polygons, points in them, C91; turns of a polygon around a point, C92 *)
From Coq Require Import List Arith ZArith Reals.
From Verif Require Import VecBase GeoSpec.
Import ListNotations.
Local Open Scope R_scope.

(** the corners in cyclic order *)
Definition corner (pts : list vec) (i : nat) : vec := nth (i mod length pts) pts vzero.
(** all points lie in a plane with normal [n] *)
Definition planar (n : vec) (pts : list vec) : Prop := n <> vzero /\ forall p q, In p pts -> In q pts -> dot n (vsub p q) = 0.
(** positive if [x] lies left of the line from [a] to [b], seen from the tip of [n] *)
Definition side (n a b x : vec) : R := dot n (cross (vsub b a) (vsub x a)).
(** at every corner the polygon turns left *)
Definition turns_left (n : vec) (pts : list vec) : Prop :=
  forall i, (i < length pts)%nat -> 0 < dot n (cross (vsub (corner pts (i + 1)) (corner pts i)) (vsub (corner pts (i + 2)) (corner pts (i + 1)))).
(** plane convex polygon, counterclockwise around [n]: every corner lies left of the line of
    every edge it does not belong to *)
Definition convex_polygon (n : vec) (pts : list vec) : Prop :=
  (3 <= length pts)%nat /\ planar n pts /\
  forall i j, (i < length pts)%nat -> (j < length pts)%nat -> j <> i -> j <> ((i + 1) mod length pts)%nat ->
    0 < side n (corner pts i) (corner pts (i + 1)) (corner pts j).
(** the closed region of such a polygon *)
Definition in_polygon (n : vec) (pts : list vec) (x : vec) : Prop :=
  dot n (vsub x (corner pts 0)) = 0 /\
  forall i, (i < length pts)%nat -> 0 <= side n (corner pts i) (corner pts (i + 1)) x.
(** all corners have the same distance from their mean *)
Definition equidistant (pts : list vec) : Prop := exists r, forall p, In p pts -> norm (vsub p (vmean pts)) = r.
(** edges [a b] of the triangles of the fan around the mean *)
Definition fan_edge (pts : list vec) (a b : vec) : Prop :=
  exists i, (i < length pts)%nat /\
    ((a = vmean pts /\ b = corner pts i) \/ (a = corner pts i /\ b = corner pts (i + 1)) \/ (a = corner pts (i + 1) /\ b = vmean pts)).

(** the parallelogram with centre [c] and half diagonals [u], [w] *)
Definition parallelogram (c u w : vec) : list vec := [vadd c u; vadd c w; vsub c u; vsub c w].

(** [theta] is the angle from [u] to [v] in the plane, less than half a turn *)
Definition angle_between (u v : R * R) (theta : R) : Prop :=
  let len w := sqrt (fst w * fst w + snd w * snd w) in
  - PI < theta < PI /\
  fst u * fst v + snd u * snd v = len u * len v * cos theta /\
  fst u * snd v - snd u * fst v = len u * len v * sin theta.
Definition minus2 (q p : R * R) : R * R := (fst q - fst p, snd q - snd p).
Definition corner2 (pts : list (R * R)) (i : nat) : R * R := nth (i mod length pts) pts (0, 0).
(** seen from [p], the closed polygon turns [w] times around *)
Definition turns_around (p : R * R) (pts : list (R * R)) (w : Z) : Prop :=
  exists angles, length angles = length pts /\
    (forall i, (i < length pts)%nat -> angle_between (minus2 (corner2 pts i) p) (minus2 (corner2 pts (i + 1)) p) (nth i angles 0)) /\
    fold_right Rplus 0 angles = 2 * PI * IZR w.
(** [p] lies on the closed segment from [a] to [b] *)
Definition on_segment2 (a b p : R * R) : Prop :=
  exists t, 0 <= t <= 1 /\ fst p = fst a + t * (fst b - fst a) /\ snd p = snd a + t * (snd b - snd a).

(** corners projected on two axes, the centre of a triangle of corners, the triangle *)
Definition flat_points (ij : nat * nat) (pts : list vec) : list (R * R) := map (fun v => (axis_part v (fst ij), axis_part v (snd ij))) pts.
Definition middle (flat : list (R * R)) (t : nat * nat * nat) : R * R :=
  let '(i, j, k) := t in let a := nth i flat (0, 0) in let b := nth j flat (0, 0) in let c := nth k flat (0, 0) in
  ((fst a + fst b + fst c) / 3, (snd a + snd b + snd c) / 3).
Definition triangle_of (pts : list vec) (t : nat * nat * nat) : vec * vec * vec :=
  let '(i, j, k) := t in (nth i pts vzero, nth j pts vzero, nth k pts vzero).
