(** * Specification: segments meeting segments, triangles and polygons, C93, C94 *)
From Coq Require Import List Arith ZArith Reals Permutation Sorted.
From Verif Require Import VecBase GeoSpec PolySpec.
Import ListNotations.
Local Open Scope R_scope.

(** [z] lies on both segments *)
Definition meet (l m : vec * vec) (z : vec) : Prop := on_segment (fst l) (snd l) z /\ on_segment (fst m) (snd m) z.
(** the segments cross in the point [z], and an end of the first that is near the second is
    this point *)
Definition cross_at (ctol ptol : R) (l m : vec * vec) (z : vec) : Prop :=
  cross (vsub (snd l) (fst l)) (vsub (snd m) (fst m)) <> vzero /\ meet l m z /\
  forall e x, e = fst l \/ e = snd l -> near_segment ctol ptol e (fst m) (snd m) x -> e = z /\ x = z.
(** nothing of the first segment (slightly extended) is near the second *)
Definition apart (ctol ptol eps : R) (l m : vec * vec) : Prop :=
  (forall e x, e = fst l \/ e = snd l -> ~ near_segment ctol ptol e (fst m) (snd m) x) /\
  (forall t s, - eps <= t <= 1 + 2 * eps -> - eps <= s <= 1 + 2 * eps -> ~ close eps (between (fst l) (snd l) t) (between (fst m) (snd m) s)).
(** one or the other: they do not touch nearly, and are not nearly parallel *)
Definition clear_cut (ctol ptol eps : R) (l m : vec * vec) : Prop := apart ctol ptol eps l m \/ exists z, cross_at ctol ptol l m z.

(** where a line of the first list meets another line of the second *)
Definition crossing_point (tools objects : list (vec * vec)) (z : vec) : Prop := exists l m, In l tools /\ In m objects /\ l <> m /\ meet l m z.

(** close with the default tolerances of numpy *)
Definition nearly (x y : vec) : Prop :=
  let c s t := Rabs (s - t) <= 1 / 100000000 + 1 / 100000 * Rabs t in c (vx x) (vx y) /\ c (vy x) (vy y) /\ c (vz x) (vz y).

(** all coordinates differ by at most [d] *)
Definition within (d : R) (x y : vec) : Prop := Rabs (vx x - vx y) <= d /\ Rabs (vy x - vy y) <= d /\ Rabs (vz x - vz y) <= d.

(** [argsort l] lists the positions of [l] in an order that sorts [l] *)
Definition sorts (argsort : list R -> list nat) : Prop := forall l,
  Permutation (argsort l) (seq 0 (length l)) /\ StronglySorted Rle (map (fun i => nth i l 0) (argsort l)).
(** [np.linalg.lstsq] solves least squares problems *)
Definition solves (lstsq : vec -> vec -> vec -> R * R) : Prop := forall d1 d2 r, least_squares d1 d2 r (lstsq d1 d2 r).

(** the edges of a triangle *)
Definition triangle_edge (a b c u v : vec) : Prop := (u = a /\ v = b) \/ (u = b /\ v = c) \/ (u = c /\ v = a).
(** [z] is not just beside an edge *)
Definition definite (ctol eps : R) (z u v : vec) : Prop := forall x, near_segment ctol eps z u v x -> x = z /\ on_segment u v z.
(** an end [e] off the plane of the triangle *)
Definition off_plane (ctol eps : R) (a b c e : vec) : Prop :=
  6 * eps < Rabs (volume6 a b c e) /\ ~ close ctol a e /\ ~ close ctol b e /\ ~ close ctol c e.
(** the segment crosses the plane of the triangle in [z], in [z] only, and clearly *)
Definition crosses_plane (ctol eps : R) (a b c p q z : vec) : Prop :=
  on_segment p q z /\ volume6 a b c z = 0 /\ eps < Rabs (volume6 a b c q - volume6 a b c p) /\
  (p = z \/ off_plane ctol eps a b c p) /\ (q = z \/ off_plane ctol eps a b c q).
(** both ends on one side of the plane *)
Definition beside (eps : R) (a b c p q : vec) : Prop :=
  (6 * eps < volume6 a b c p /\ 6 * eps < volume6 a b c q) \/ (volume6 a b c p < - (6 * eps) /\ volume6 a b c q < - (6 * eps)).

(** where the segment meets an edge of the triangles of a polygon *)
Definition fan_crossing (pts : list vec) (p q w : vec) : Prop := exists u v, fan_edge pts u v /\ on_segment u v w /\ on_segment p q w.

(** what should be found of the common points [S] of a set and the segment from [p] *)
Definition exact_ends (S : vec -> Prop) (p : vec) (r : option (list vec)) : Prop :=
  match r with
  | None => forall w, ~ S w
  | Some [x] => forall w, S w <-> w = x
  | Some [x; y] => norm (vsub x p) < norm (vsub y p) /\ forall w, S w <-> on_segment x y w
  | Some _ => False
  end.
