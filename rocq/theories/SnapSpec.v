(** * Specification vocabulary for points on lines and edges *)
From Coq Require Import List Arith ZArith Reals.
From Verif Require Import Base VecBase GeoSpec ShapeModel EmbedSpec IntersectSpec.
Import ListNotations.
Local Open Scope R_scope.

(** On the line through two points; if they coincide, at this point. *)
Definition on_line (A B P : vec) : Prop := exists t, P = between A B t.
(** The same for the coordinates in which [A] and [B] differ only. *)
Definition on_line_where_different (A B P : vec) : Prop :=
  exists t, forall c, coord c A <> coord c B -> coord c P = coord c (between A B t).

(** A vertex as the constructor leaves it, with a physical tag. *)
Definition vertex_at (tag : Z) (phys : option Z) (p : vec) : shape vec := mk_shape Vertex tag phys (Some p) [] [].
(** An edge with its ends at two points *)
Definition edge_from_to (e : shape vec) (a b : vec) : Prop := exists v w, s_boundary e = [v; w] /\ s_point v = Some a /\ s_point w = Some b.
(** and these are the two points, in one of the orders. *)
Definition joins (p q : vec) (e : shape vec) : Prop :=
  exists a b, edge_from_to e a b /\ (near_point a p /\ near_point b q \/ near_point b p /\ near_point a q).
