(** * Examples: intersecting triangles and quadrilaterals, C89, C90 *)
From Coq Require Import List Arith ZArith Bool QArith Qabs Lqa.
From Verif Require Import Base FracModel SegModel TriModel TriSpec TriProof6 TriProof7.
Import ListNotations.
Local Open Scope Q_scope.
Notation P := mk_point.

(** a vertical triangle that crosses the hypotenuse of a horizontal one *)
Lemma example_position : general_position eps_12 (P 1 1 1) (P 1 1 (-1)) (P 1 9 (-1)) (P 0 0 0) (P 4 0 0) (P 0 4 0).
Proof. apply gp_check_ok. vm_compute. reflexivity. Qed.
Lemma example_answer : exists x y, triangle_triangle_intersection eps_12 (P 1 1 1) (P 1 1 (-1)) (P 1 9 (-1)) (P 0 0 0) (P 4 0 0) (P 0 4 0) = Ok (hit x y) /\
  peq x (P 1 1 0) /\ peq y (P 1 3 0).
Proof. do 2 eexists. split; [vm_compute; reflexivity|]. split; repeat split; vm_compute; reflexivity. Qed.
(** the same triangle lifted above the other *)
Lemma example_disjoint : general_position eps_12 (P 1 1 3) (P 1 1 1) (P 1 9 1) (P 0 0 0) (P 4 0 0) (P 0 4 0) /\
  triangle_triangle_intersection eps_12 (P 1 1 3) (P 1 1 1) (P 1 9 1) (P 0 0 0) (P 4 0 0) (P 0 4 0) = Ok None.
Proof. split; [apply gp_check_ok; vm_compute; reflexivity|vm_compute; reflexivity]. Qed.

(** a slanted rectangle through a square *)
Lemma example_quads : 
  general_position eps_12 (P 1 (-1) (-1)) (P 3 6 (-1)) (P 1 (-1) 2) (P 0 0 0) (P 4 0 0) (P 0 4 0) /\
  general_position eps_12 (P 1 (-1) (-1)) (P 3 6 (-1)) (P 1 (-1) 2) (P 4 0 0) (P 4 4 0) (P 0 4 0) /\
  general_position eps_12 (P 3 6 (-1)) (P 3 6 2) (P 1 (-1) 2) (P 0 0 0) (P 4 0 0) (P 0 4 0) /\
  general_position eps_12 (P 3 6 (-1)) (P 3 6 2) (P 1 (-1) 2) (P 4 0 0) (P 4 4 0) (P 0 4 0) /\
  in_plane (P 1 (-1) (-1)) (P 3 6 (-1)) (P 1 (-1) 2) (P 3 6 2) /\ in_plane (P 0 0 0) (P 4 0 0) (P 0 4 0) (P 4 4 0) /\
  convex (in_quad (P 1 (-1) (-1)) (P 3 6 (-1)) (P 3 6 2) (P 1 (-1) 2)) /\ convex (in_quad (P 0 0 0) (P 4 0 0) (P 4 4 0) (P 0 4 0)).
Proof.
  split; [apply gp_check_ok; vm_compute; reflexivity|]. split; [apply gp_check_ok; vm_compute; reflexivity|].
  split; [apply gp_check_ok; vm_compute; reflexivity|]. split; [apply gp_check_ok; vm_compute; reflexivity|].
  split; [reflexivity|]. split; [reflexivity|].
  split; apply parallelogram_convex; (split; [vm_compute; reflexivity|split; vm_compute; reflexivity]).
Qed.
Lemma example_quads_answer : exists x y,
  polygon_polygon_intersection eps_12 [P 1 (-1) (-1); P 3 6 (-1); P 3 6 2; P 1 (-1) 2] [P 0 0 0; P 4 0 0; P 4 4 0; P 0 4 0] = Ok (hit x y) /\
  peq x (P (9 # 7) 0 0) /\ peq y (P (17 # 7) 4 0).
Proof. do 2 eexists. split; [vm_compute; reflexivity|]. split; repeat split; vm_compute; reflexivity. Qed.
