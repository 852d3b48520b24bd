(** * Specification vocabulary for vertices embedded in an edge *)
From Coq Require Import List Arith ZArith Reals Permutation Sorted.
From Verif Require Import Base VecBase GeoSpec VertexModel.
Import ListNotations.
Local Open Scope R_scope.

(** The point and the tag of a vertex of the heap. *)
Definition pt (h : heap) (x : nat) : vec := snd (nth x h (0%Z, vzero)).
Definition tg (h : heap) (x : nat) : Z := fst (nth x h (0%Z, vzero)).
Definition live (h : heap) (l : list nat) : Prop := forall x, In x l -> (x < length h)%nat.
Definition dist (h : heap) (x y : nat) : R := norm (vsub (pt h y) (pt h x)).

(** Lexicographic order of points. *)
Definition lex (p q : vec) : Prop := vx p < vx q \/ (vx p = vx q /\ (vy p < vy q \/ (vy p = vy q /\ vz p < vz q))).
(** [us] has the first of the vertices [vs] at every point, points in increasing order. *)
Definition first_of_each (h : heap) (vs us : list nat) : Prop :=
  StronglySorted lex (map (pt h) us) /\
  forall u, In u us <-> exists i, nth_error vs i = Some u /\ forall j w, nth_error vs j = Some w -> pt h w = pt h u -> (i <= j)%nat.

(** numpy's default tolerances *)
Definition near (x y : R) : Prop := Rabs (x - y) <= 1 / 100000000 + 1 / 100000 * Rabs y.
Definition near_point (p q : vec) : Prop := near (vx p) (vx q) /\ near (vy p) (vy q) /\ near (vz p) (vz q).
(** Among the vertices [S], the end [x] is replaced with [x']: none is near and it stays, or
    exactly one is near [x] and no other is near that one. *)
Definition replaced (h : heap) (S : nat -> Prop) (x x' : nat) : Prop :=
  (x' = x /\ forall u, S u -> ~ near_point (pt h u) (pt h x)) \/
  (S x' /\ near_point (pt h x') (pt h x) /\
   forall u, S u -> u <> x' -> ~ near_point (pt h u) (pt h x) /\ ~ near_point (pt h u) (pt h x')).

(** A distance strictly between 0 and [len], and not near either. *)
Definition within (d len : R) : Prop := 0 < d /\ d < len /\ ~ near d 0 /\ ~ near d len.

(** [es] join the vertices [l] in order; tags count from [shift], the ends of each edge are
    sorted by tag. *)
Definition joined (h : heap) (shift : Z) (l : list nat) (es : list (Z * list nat)) : Prop :=
  S (length es) = length l /\
  forall k x y, nth_error l k = Some x -> nth_error l (S k) = Some y -> exists ends,
    nth_error es k = Some ((Z.of_nat k + shift)%Z, ends) /\ Permutation ends [x; y] /\ StronglySorted Z.le (map (tg h) ends).

(** [p] is on the ray from [a] through [b]. *)
Definition on_ray (a b p : vec) : Prop := exists t, 0 <= t /\ p = between a b t.
(** [q] is on the edge with the given ends. *)
Definition on_edge (h : heap) (ends : list nat) (q : vec) : Prop :=
  exists x y, ends = [x; y] /\ on_segment (pt h x) (pt h y) q.
