(** * Property: points on vertices, lines, edges and faces (src/topology/shape_manipulation.py and
      vertex_vertex_intersection) *)
From Coq Require Import List Arith ZArith Bool Reals Lra Lia.
From Verif Require Import Base VecBase GeoSpec GeoExamples ShapeModel ShapeSpec ShapeExamples EmbedSpec IntersectSpec SnapModel SnapSpec SnapProof SnapExamples.
Import ListNotations.
Local Open Scope R_scope.

(** ** C106 *)
(** The exact outcome of the test, and what it says about the line. *)
Theorem C106_line_test : forall A B P, point_line_test A B P = true <-> (A = B /\ P = A) \/ (A <> B /\ on_line_where_different A B P).
Proof. exact line_test. Qed.
Print Assumptions C106_line_test.
Theorem C106_line_found : forall A B P, A <> B -> on_line A B P -> point_line_test A B P = true.
Proof. exact line_complete. Qed.
Print Assumptions C106_line_found.
Theorem C106_line_partial : forall A B P, (forall c, coord c A <> coord c B) -> point_line_test A B P = true -> on_line A B P.
Proof. exact line_sound. Qed.
Print Assumptions C106_line_partial.
Example C106_line_example : (forall c, coord c (P 0 1 2) <> coord c (P 2 3 7)) /\ on_line (P 0 1 2) (P 2 3 7) (P 1 2 (9 / 2)).
Proof. split; [intros [|[|c]]; cbn; lra|]. exists (1 / 2). unfold between, vadd, vscale, vsub, P; cbn. f_equal; lra. Qed.
(** Coordinates in which A and B agree are not compared. *)
Theorem C106_line_refuted : ~ (forall A B P, A <> B -> point_line_test A B P = true -> on_line A B P).
Proof. exact line_refuted. Qed.
Print Assumptions C106_line_refuted.

Theorem C106_collapse : forall argsort, is_argsort argsort -> forall ctol fuel, (1 <= fuel)%nat -> forall eps t ph p t' ph' p', exists r object,
  collapse_vertex argsort ctol fuel (vertex_at t ph p) (vertex_at t' ph' p') eps = Ok (r, object) /\
  (r = true <-> t = t' /\ near_point p p' /\ close ctol p p') /\
  (r = false /\ close eps p p' -> object = vertex_at t ph p) /\ (r = true \/ ~ close eps p p' -> object = vertex_at t' ph' p').
Proof. exact collapse_lemma. Qed.
Print Assumptions C106_collapse.
Theorem C106_vertices : forall ptol fuel, (1 <= fuel)%nat -> forall eps tag t ph p t' ph' p',
  (t = t' /\ near_point p p' /\ close ptol p p' -> vertex_vertex_intersection ptol fuel (vertex_at t ph p) (vertex_at t' ph' p') tag eps = Ok (Some (vertex_at t' ph' p'))) /\
  (~ (t = t' /\ near_point p p' /\ close ptol p p') -> close eps p p' -> vertex_vertex_intersection ptol fuel (vertex_at t ph p) (vertex_at t' ph' p') tag eps = Ok (Some (vertex_at tag None p))) /\
  (~ (t = t' /\ near_point p p' /\ close ptol p p') -> ~ close eps p p' -> vertex_vertex_intersection ptol fuel (vertex_at t ph p) (vertex_at t' ph' p') tag eps = Ok None).
Proof. exact meet_lemma. Qed.
Print Assumptions C106_vertices.
Example C106_collapse_example : close (/ 1000) (P 1 2 3) (P 1 2 3) /\ ~ (4%Z = 5%Z /\ near_point (P 1 2 3) (P 1 2 3) /\ close (/ 1000) (P 1 2 3) (P 1 2 3)).
Proof. split; [apply close_same|]. intros (K & _). discriminate. Qed.

Theorem C106_edge_ends : forall ctol v p e a b eps u w, s_point v = Some p -> s_boundary e = [u; w] -> s_point u = Some a -> s_point w = Some b ->
  exists r, vertex_edge_intersection ctol v e eps = Ok r /\
    (r = None <-> ~ close eps p a /\ ~ close eps p b /\ ~ close ctol p a /\ ~ close ctol p b) /\
    (forall x, r = Some x -> (x = u /\ (close eps p a \/ ~ close eps p b /\ close ctol p a)) \/
                             (x = w /\ ~ close eps p a /\ (close eps p b \/ ~ close ctol p a /\ close ctol p b))).
Proof. exact edge_hit_lemma. Qed.
Print Assumptions C106_edge_ends.
Example C106_edge_example : exists x, vertex_edge_intersection (/ 1000) (tri_vertex 7 2 0) (tri_edge 0 (tri_vertex 0 0 0) (tri_vertex 1 2 0)) (/ 1000) = Ok (Some x).
Proof.
  destruct (C106_edge_ends (/ 1000) (tri_vertex 7 2 0) (P 2 0 0) (tri_edge 0 (tri_vertex 0 0 0) (tri_vertex 1 2 0)) (P 0 0 0) (P 2 0 0) (/ 1000) _ _ eq_refl eq_refl eq_refl eq_refl) as ([x|] & E & K & _); [eauto|].
  destruct K as (K & _). destruct (K eq_refl) as (_ & C & _). destruct C. apply close_same.
Qed.
(** A vertex inside the edge is not found. *)
Theorem C106_edge_refuted : ~ (forall ctol fuel v p e a b, 0 <= ctol <= / 1000 -> (1 <= fuel)%nat -> s_point v = Some p -> edge_from_to e a b -> on_segment a b p ->
  exists x, vertex_edge_intersection ctol v e ctol = Ok (Some x)).
Proof. exact middle_refuted. Qed.
Print Assumptions C106_edge_refuted.

Theorem C106_face : forall p q face, Forall (fun e => exists a b, edge_from_to e a b) (flat_map immersed (s_boundary face)) -> exists r, points_on_face_boundary p q face = Ok r /\
  match r with
  | Some e => exists l1 l2, flat_map immersed (s_boundary face) = l1 ++ e :: l2 /\ joins p q e /\ forall e', In e' l1 -> ~ joins p q e'
  | None => forall e, In e (flat_map immersed (s_boundary face)) -> ~ joins p q e
  end.
Proof. exact face_lemma. Qed.
Print Assumptions C106_face.
Example C106_face_example : Forall (fun e => exists a b, edge_from_to e a b) (flat_map immersed (s_boundary tri_face)) /\
  exists e, In e (flat_map immersed (s_boundary tri_face)) /\ joins (P 0 2 0) (P 2 0 0) e.
Proof. split; [exact tri_ends|]. eexists. split; [|exact tri_joins]. right. left. reflexivity. Qed.
