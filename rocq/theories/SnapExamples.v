(** * Concrete vertices and a triangle *)
From Coq Require Import List Arith ZArith Bool Reals Lra Lia.
From Verif Require Import Base VecBase VecProof GeoSpec GeoExamples ShapeModel EmbedSpec EmbedProof SnapModel SnapSpec SnapProof.
Import ListNotations.
Local Open Scope R_scope.

Definition tri_vertex (t : Z) (x y : R) : shape vec := vertex_at t None (P x y 0).
Definition tri_edge (t : Z) (v w : shape vec) : shape vec := mk_shape Edge t None None [v; w] [].
Definition tri_edges : list (shape vec) :=
  [tri_edge 0 (tri_vertex 0 0 0) (tri_vertex 1 2 0); tri_edge 1 (tri_vertex 1 2 0) (tri_vertex 2 0 2); tri_edge 2 (tri_vertex 0 0 0) (tri_vertex 2 0 2)].
Definition tri_face : shape vec := mk_shape Face 0 None None [mk_shape Wire 3 None None [tri_vertex 0 0 0] tri_edges] [].
Lemma tri_ends : Forall (fun e => exists a b, edge_from_to e a b) (flat_map immersed (s_boundary tri_face)).
Proof. cbn. repeat constructor; do 4 eexists; repeat split. Qed.
Lemma tri_joins : joins (P 0 2 0) (P 2 0 0) (tri_edge 1 (tri_vertex 1 2 0) (tri_vertex 2 0 2)).
Proof. exists (P 2 0 0), (P 0 2 0). split; [do 2 eexists; repeat split|]. right. split; apply near_refl. Qed.
Lemma close_same p : close (/ 1000) p p.
Proof. unfold close. rewrite !Rminus_eq_0, Rabs_R0. pose proof (Rabs_pos (vx p)). pose proof (Rabs_pos (vy p)). pose proof (Rabs_pos (vz p)). repeat split; lra. Qed.
