(** * Property theorems C46, C56: traces and Jacobians *)
From Coq Require Import List Arith Bool Reals Lra Lia Permutation.
From Verif Require Import Base MeshModel VecBase VecProof MapModel MapSpec MapProof JacProof MapExamples.
Import ListNotations.
Local Open Scope R_scope.

(** ** C46 *)
(** If the cell [c1] lists the nodes of facet [i] of [c0] in any order, the mapped reference
    points have the same physical position in [c0] as the given ones in [c1]; if it lists
    other nodes, the function fails. *)
Theorem C46_trace_position : forall (points : list (list R)) (c1 c0 : cell) (i : nat) (X : nat -> vec),
  is_facet c1 c0 i -> Forall (reference_point (c_dim c1)) points ->
  (Permutation (c_nodes c1) (facet_nodes (c_dim c0) (c_nodes c0) i) ->
     exists mapped, transform_lower_to_higher points c1 c0 = Ok (Some mapped) /\
     Forall2 (fun p q => length q = c_dim c0 /\ map_x (c_dim c0) (map X (c_nodes c0)) q = map_x (c_dim c1) (map X (c_nodes c1)) p) points mapped) /\
  (~ Permutation (c_nodes c1) (facet_nodes (c_dim c0) (c_nodes c0) i) -> c_dim c1 <> 0%nat ->
     transform_lower_to_higher points c1 c0 = Err AssertionError).
Proof. exact trace_lemma. Qed.
Print Assumptions C46_trace_position.
(** The map of a cell with nodes x0, x1, ... is x0 + sum p_i (x_i - x0). *)
Theorem C46_affine_map : forall (d : nat) (x0 : vec) (xs : list vec) (p : list R),
  length xs = d -> length p = d -> (1 <= d <= 3)%nat ->
  map_x d (x0 :: xs) p = vadd x0 (vsum (map (fun q => vscale (fst q) (vsub (snd q) x0)) (combine p xs))).
Proof. exact map_x_lemma. Qed.
Print Assumptions C46_affine_map.
Example C46_example : is_facet trace_face trace_tetra 1 /\ Permutation (c_nodes trace_face) (facet_nodes 3 (c_nodes trace_tetra) 1) /\
  Forall (reference_point 2) [[1 / 3; 1 / 5]].
Proof. exact trace_is_facet. Qed.

(** ** C56 *)
(** For edge vectors of non-zero length, area or volume and any QR factorisation of the
    Jacobian, the determinant is that measure and the matrix is a left inverse. *)
Theorem C56_jacobian : forall (qr : nat -> matrix -> matrix * matrix) (inv : nat -> matrix -> matrix) (cols : list vec),
  factorises (length cols) (of_columns cols) (qr (length cols) (of_columns cols)) -> is_inverse inv -> (1 <= length cols <= 3)%nat -> measure cols <> 0 ->
  let out := det_and_pseudo_inverse qr inv (length cols) (of_columns cols) in
  fst out = measure cols /\ 0 < fst out /\
  forall i j, (i < length cols)%nat -> (j < length cols)%nat -> mmul 3 (snd out) (of_columns cols) i j = if (i =? j)%nat then 1 else 0.
Proof. exact jacobian_lemma. Qed.
Print Assumptions C56_jacobian.
(** The columns of the Jacobian are the edge vectors starting at the first node. *)
Theorem C56_columns : forall (d : nat) (x0 : vec) (xs : list vec), length xs = d -> (1 <= d <= 3)%nat ->
  jac_columns d (x0 :: xs) = map (fun x => vsub x x0) xs.
Proof. exact jac_columns_lemma. Qed.
Print Assumptions C56_columns.
Example C56_example : factorises 2 (of_columns two_edges) (negative_qr 2 (of_columns two_edges)) /\ measure two_edges <> 0 /\
  snd (negative_qr 2 (of_columns two_edges)) 0%nat 0%nat < 0.
Proof. exact two_edges_ok. Qed.
Example C56_inverse_example : is_inverse cofactor_inverse.
Proof. exact cofactor_inverse_ok. Qed.
