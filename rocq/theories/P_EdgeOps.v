(** * C98, C99: collapsing and intersecting edges *)
From Coq Require Import List Arith ZArith Bool Reals.
From Verif Require Import Base VecBase GeoModel GeoSpec GeoExamples ShapeModel ShapeSpec ShapeExamples VertexModel VertexSpec VertexExamples LineSpec LineExamples EdgeOpsModel EdgeOpsSpec EdgeOpsProof EdgeOpsProof2 EdgeOpsExamples.
Import ListNotations.
Local Open Scope R_scope.

(** ** C98 *)
(** The object is returned iff its ends are close to those of the tool, first to first and
    second to second.  It then equals the tool: it already did and is left alone, or takes
    over all attributes.  Otherwise nothing changes. *)
Theorem C98_edge : forall (argsort : list Z -> list nat), is_argsort argsort -> forall (ctol : R) (fuel : nat) (tool object : shape vec) (p q p' q' : vec) (eps : R),
  ctol <= eps -> edge_at tool p q -> edge_at object p' q' -> immersed tool = [] -> settled tool ->
  let strong := same allclose_default tool object /\ close ctol p p' /\ close ctol q q' in
  exists r object', collapse_edge argsort ctol (S (S fuel)) tool object eps = Ok (r, object') /\
    (r = true <-> close eps p p' /\ close eps q q') /\ (r = false -> object' = object) /\
    (r = true -> same allclose_default tool object' /\ ((strong /\ object' = object) \/ (~ strong /\ copies tool object'))).
Proof. exact edge_lemma. Qed.
Print Assumptions C98_edge.
Example C98_edge_example : exists object', collapse_edge argsort_example g 2 e_tool e_same g = Ok (true, object') /\ copies e_tool object'.
Proof. exact collapse_example. Qed.

Theorem C98_vertex : forall (argsort : list Z -> list nat), is_argsort argsort -> forall (ptol : R) (fuel : nat) (tool object : shape vec) (p q : vec) (eps : R),
  ptol <= eps -> vertex_at tool p -> vertex_at object q -> settled tool ->
  exists r object', collapse_vertex argsort ptol (S fuel) tool object eps = Ok (r, object') /\
    (r = true <-> close eps p q) /\ (r = false -> object' = object) /\
    (r = true -> (same allclose_default tool object /\ close ptol p q /\ object' = object) \/
                 (~ (same allclose_default tool object /\ close ptol p q) /\ copies tool object' /\ s_point object' = Some p)).
Proof. exact vertex_lemma. Qed.
Print Assumptions C98_vertex.
Example C98_vertex_example : exists object', collapse_vertex argsort_example g 1 (node 1 pt_b) (node 5 pt_b) g = Ok (true, object') /\ copies (node 1 pt_b) object'.
Proof. exact collapse_vertex_example. Qed.

(** The same segment with its ends numbered the other way round is not collapsed. *)
Theorem C98_reversed_refuted : exists (tool object : shape vec) (p q : vec),
  edge_at tool p q /\ edge_at object q p /\ collapse_edge argsort_example g 2 tool object g = Ok (false, object).
Proof. exact (ex_intro _ e_tool (ex_intro _ e_back (ex_intro _ pt_a (ex_intro _ pt_b back_example)))). Qed.
Print Assumptions C98_reversed_refuted.

(** With an immersed vertex in the tool, an object having other end vertices is returned as it
    is, though it differs from the tool. *)
Theorem C98_immersed_refuted : exists (tool object : shape vec) (p q : vec),
  edge_at tool p q /\ edge_at object p q /\ settled tool /\
  collapse_edge argsort_example g 2 tool object g = Ok (true, object) /\ ~ same allclose_default tool object.
Proof. exact (ex_intro _ m_tool (ex_intro _ m_object (ex_intro _ pt_a (ex_intro _ pt_b immersed_example)))). Qed.
Print Assumptions C98_immersed_refuted.

(** ** C99 *)
(** The ends of the tool against the object, with any tag and tolerance *)
Theorem C99_boundary : forall (ctol ptol : R), 0 <= ptol ->
  forall (h : heap) (tool : nat * nat) (p q : vec) (e : nat * nat) (a b : vec) (tag : label) (eps : R), placed h tool p q -> placed h e a b ->
  exists r, edge_edge_boundary_intersection ctol ptol h tool e tag eps = Ok r /\
    match r with Some m => first_touch ctol ptol eps h tag tool p q e a b m | None => no_touch ptol eps h tool p q e a b end.
Proof. exact boundary_outcome. Qed.
Print Assumptions C99_boundary.
Example C99_boundary_example : placed junction (2, 3)%nat (P 2 0 0) (P 2 3 0) /\ placed junction (0, 1)%nat (P 0 0 0) (P 4 0 0).
Proof. repeat split. Qed.

(** No exception is raised.  A vertex found is the first touch of an end of the tool on the
    object, or else a new vertex of the requested tag where the two lines meet.  None means
    that the ends of the tool do not touch the object, and that the edges are parallel if they
    have a common point. *)
Theorem C99_intersection : forall (lstsq : vec -> vec -> vec -> R * R) (ctol ptol : R), 0 <= ptol ->
  forall (h : heap) (tool : nat * nat) (p q : vec) (e : nat * nat) (a b : vec) (tag : Z) (p_eps l_eps : R), 0 <= l_eps -> solves lstsq -> placed h tool p q -> placed h e a b ->
  exists r, edge_edge_intersection lstsq ctol ptol h tool e tag p_eps l_eps = Ok r /\
    match r with
    | Some m => first_touch ctol ptol ptol h (Float p_eps) tool p q e a b m \/
                (no_touch ptol ptol h tool p q e a b /\ exists x, m = Fresh (Tag tag) (Rows [x]) /\ computed_point l_eps p q a b x /\
                  forall z, meet (p, q) (a, b) z -> cross (vsub q p) (vsub b a) <> vzero -> x = z)
    | None => no_touch ptol ptol h tool p q e a b /\ forall z, meet (p, q) (a, b) z -> cross (vsub q p) (vsub b a) = vzero
    end.
Proof. exact intersection_lemma. Qed.
Print Assumptions C99_intersection.
Example C99_corner : forall lstsq tag p_eps l_eps, edge_edge_intersection lstsq g g corner (0, 2)%nat (0, 1)%nat tag p_eps l_eps = Ok (Some (Old 0)).
Proof. exact corner_example. Qed.

(** Edges that cross, the ends of the tool away from the object: the vertex is at the crossing
    point and has the tag asked for.  Its point is an array of shape (1, 3). *)
Theorem C99_crossing : forall (lstsq : vec -> vec -> vec -> R * R) (ctol ptol : R), 0 <= ptol ->
  forall (h : heap) (tool : nat * nat) (p q : vec) (e : nat * nat) (a b : vec) (tag : Z) (p_eps l_eps : R) (z : vec), 0 <= l_eps -> solves lstsq -> placed h tool p q -> placed h e a b ->
  clear_of ctol ptol h tool p q e a b -> meet (p, q) (a, b) z -> cross (vsub q p) (vsub b a) <> vzero ->
  edge_edge_intersection lstsq ctol ptol h tool e tag p_eps l_eps = Ok (Some (Fresh (Tag tag) (Rows [z]))).
Proof. exact crossing_lemma. Qed.
Print Assumptions C99_crossing.
Example C99_crossing_example : placed crossing (2, 3)%nat (P 2 (-2) 0) (P 2 2 0) /\ placed crossing (0, 1)%nat (P 0 0 0) (P 4 0 0) /\
  clear_of g g crossing (2, 3)%nat (P 2 (-2) 0) (P 2 2 0) (0, 1)%nat (P 0 0 0) (P 4 0 0) /\
  meet (P 2 (-2) 0, P 2 2 0) (P 0 0 0, P 4 0 0) (P 2 0 0) /\ cross (vsub (P 2 2 0) (P 2 (-2) 0)) (vsub (P 4 0 0) (P 0 0 0)) <> vzero /\ solves lstsq_example.
Proof. exact (conj (proj1 crossing_placed) (conj (proj2 crossing_placed) (conj crossing_clear (conj (proj1 crossing_meet) (conj (proj2 crossing_meet) lstsq_example_ok))))). Qed.

Theorem C99_disjoint : forall (lstsq : vec -> vec -> vec -> R * R) (ctol ptol : R), 0 <= ptol ->
  forall (h : heap) (tool : nat * nat) (p q : vec) (e : nat * nat) (a b : vec) (tag : Z) (p_eps l_eps : R), 0 <= l_eps -> solves lstsq -> placed h tool p q -> placed h e a b ->
  clear_of ctol ptol h tool p q e a b ->
  (forall t s, - l_eps <= t <= 1 + 2 * l_eps -> - l_eps <= s <= 1 + 2 * l_eps -> ~ close l_eps (between p q t) (between a b s)) ->
  edge_edge_intersection lstsq ctol ptol h tool e tag p_eps l_eps = Ok None.
Proof. exact disjoint_lemma. Qed.
Print Assumptions C99_disjoint.
Example C99_parallel : placed parallel (2, 3)%nat (P 0 1 0) (P 4 1 0) /\ placed parallel (0, 1)%nat (P 0 0 0) (P 4 0 0) /\
  clear_of g g parallel (2, 3)%nat (P 0 1 0) (P 4 1 0) (0, 1)%nat (P 0 0 0) (P 4 0 0) /\
  (forall t s, - g <= t <= 1 + 2 * g -> - g <= s <= 1 + 2 * g -> ~ close g (between (P 0 1 0) (P 4 1 0) t) (between (P 0 0 0) (P 4 0 0) s)).
Proof. exact parallel_example. Qed.

(** The parameter p_eps is no tolerance: it only becomes the tag of the new vertices. *)
Theorem C99_tolerance_refuted : forall (lstsq : vec -> vec -> vec -> R * R) (ctol ptol : R), 0 <= ptol ->
  forall (h : heap) (tool : nat * nat) (p q : vec) (e : nat * nat) (a b : vec) (tag : Z) (eps eps' l_eps : R), placed h tool p q -> placed h e a b ->
  match edge_edge_intersection lstsq ctol ptol h tool e tag eps l_eps with
  | Ok r => edge_edge_intersection lstsq ctol ptol h tool e tag eps' l_eps = Ok (retag (Float eps') r)
  | Err x => edge_edge_intersection lstsq ctol ptol h tool e tag eps' l_eps = Err x
  end.
Proof. exact tolerance_lemma. Qed.
Print Assumptions C99_tolerance_refuted.

(** An edge ending on another: the tag asked for is ignored, and with the edges exchanged the
    vertex has another tag and a point of another shape. *)
Theorem C99_tag_refuted : forall (tag : Z) (p_eps : R),
  edge_edge_intersection lstsq_example g g junction (2, 3)%nat (0, 1)%nat tag p_eps g = Ok (Some (Fresh (Float p_eps) (Flat (P 2 0 0)))) /\
  edge_edge_intersection lstsq_example g g junction (0, 1)%nat (2, 3)%nat tag p_eps g = Ok (Some (Fresh (Tag tag) (Rows [P 2 0 0]))).
Proof. exact (fun tag p_eps => conj (junction_to tag p_eps g) (junction_from tag p_eps)). Qed.
Print Assumptions C99_tag_refuted.

(** Overlapping edges: one end of the overlap is returned, or nothing with the edges
    exchanged. *)
Theorem C99_overlap_refuted : forall (lstsq : vec -> vec -> vec -> R * R) (tag : Z) (p_eps : R),
  minimum_norm (vsub (P 10 0 0) (P 0 0 0)) (vsub (P 5 0 0) (P 4 0 0)) (vsub (P 4 0 0) (P 0 0 0))
    (lstsq (vsub (P 10 0 0) (P 0 0 0)) (vsub (P 5 0 0) (P 4 0 0)) (vsub (P 4 0 0) (P 0 0 0))) ->
  edge_edge_intersection lstsq g g overlapping (2, 3)%nat (0, 1)%nat tag p_eps g = Ok (Some (Fresh (Float p_eps) (Flat (P 4 0 0)))) /\
  edge_edge_intersection lstsq g g overlapping (0, 1)%nat (2, 3)%nat tag p_eps g = Ok None.
Proof. exact (fun lstsq tag p_eps M => conj (overlap_inner lstsq tag p_eps g) (overlap_outer lstsq tag p_eps M)). Qed.
Print Assumptions C99_overlap_refuted.
Example C99_overlap_solution : minimum_norm (vsub (P 10 0 0) (P 0 0 0)) (vsub (P 5 0 0) (P 4 0 0)) (vsub (P 4 0 0) (P 0 0 0)) (40 / 101, - (4 / 101)).
Proof. exact overlap_solution. Qed.
