(** * C72: the local system of linear elasticity *)
From Coq Require Import String List Arith Bool ZArith QArith.
From Verif Require Import Base FormModel FormSpec FormExamples AdModel AdSpec AdProof3 AdProof4 AdExamples.
Import ListNotations.
Open Scope nat_scope.
Open Scope list_scope.

(** The local system is that of (2 mu eps(u), eps(v)) + (lambda div u, div v) + (f, v) at the
    given state *)
Theorem C72_system : forall F, is_field F -> @kadd F k1 k1 <> k0 ->
  forall (sp : fe_space F) fn iel alpha d, le_reads sp fn iel d -> le_fits d ->
  exists L, le_primal (Some sp) (Some fn) iel alpha = Ok L /\ system_of (le_size d) (le_form d) (le_load d) alpha L.
Proof. exact @le_system. Qed.
Print Assumptions C72_system.

(** The matrix is the derivative of the residual *)
Theorem C72_exact_jacobian : forall F, is_field F -> @kadd F k1 k1 <> k0 ->
  forall (sp : fe_space F) fn iel d, le_reads sp fn iel d -> le_fits d ->
  exact_jacobian (le_primal (Some sp) (Some fn) iel).
Proof. exact @le_exact. Qed.
Print Assumptions C72_exact_jacobian.

(** Twice the elastic energy is the quadratic form of the matrix; and between any two functions *)
Theorem C72_matrix : forall F, is_field F -> @kadd F k1 k1 <> k0 ->
  forall (sp : fe_space F) fn iel alpha d L, le_reads sp fn iel d -> le_fits d ->
  le_primal (Some sp) (Some fn) iel alpha = Ok L -> forall x y, quad L y x = le_form d x y.
Proof. exact @le_coupling. Qed.
Print Assumptions C72_matrix.

Theorem C72_symmetric : forall F, is_field F -> @kadd F k1 k1 <> k0 ->
  forall (sp : fe_space F) fn iel alpha d L, le_reads sp fn iel d -> le_fits d ->
  le_primal (Some sp) (Some fn) iel alpha = Ok L -> forall a b, a < l_n L -> b < l_n L -> l_j L a b = l_j L b a.
Proof. exact @le_symmetric. Qed.
Print Assumptions C72_symmetric.

(** Rigid motions cost nothing *)
Theorem C72_rigid : forall F, is_field F -> @kadd F k1 k1 <> k0 ->
  forall (sp : fe_space F) fn iel alpha d L x, le_reads sp fn iel d -> le_fits d ->
  le_primal (Some sp) (Some fn) iel alpha = Ok L -> le_rigid d x ->
  forall a, a < l_n L -> Sum (l_n L) (fun b => kmul (l_j L a b) (x b)) = k0.
Proof. exact @le_rigid_zero. Qed.
Print Assumptions C72_rigid.

(** in particular translations, when the derivatives of the basis functions sum to zero *)
Theorem C72_translation : forall F, is_field F -> @kadd F k1 k1 <> k0 ->
  forall (sp : fe_space F) fn iel alpha d L t x, le_reads sp fn iel d -> le_fits d ->
  le_primal (Some sp) (Some fn) iel alpha = Ok L ->
  (forall i r, i < length (le_w d) -> r < t_nder (e_tab (le_e d)) ->
     Sum (t_nphi (e_tab (le_e d))) (fun k => t_val (e_tab (le_e d)) (S r) i k 0) = k0) ->
  (forall k c, k < t_nphi (e_tab (le_e d)) -> c < le_dim d -> x (k * le_dim d + c) = t c) ->
  forall a, a < l_n L -> Sum (l_n L) (fun b => kmul (l_j L a b) (x b)) = k0.
Proof. exact @le_translation_zero. Qed.
Print Assumptions C72_translation.

Example C72_case :
  qentries (le_primal (Some ee_space) (Some ee_fn) 0 ee_alpha) =
  Ok (6, [-4; 8; 24; 14; 10; 20]%Q,
      [[18; 10; -14; -4; -4; -6]; [10; 18; -6; -4; -4; -14]; [-14; -6; 14; 0; 0; 6];
       [-4; -4; 0; 4; 4; 0]; [-4; -4; 0; 4; 4; 0]; [-6; -14; 6; 0; 0; 14]]%Q) /\
  le_reads ee_space ee_fn 0 ee_data /\ le_fits ee_data /\ is_field Qs /\ @kadd Qs k1 k1 <> k0.
Proof. split; [vm_compute; reflexivity|exact (conj ee_reads (conj ee_fits (conj Qs_field Qs_two)))]. Qed.
Example C72_rigid_case : le_rigid ee_data ee_rotation.
Proof. exact ee_rotation_rigid. Qed.
Example C72_translation_case :
  (forall i r, i < length (le_w ee_data) -> r < t_nder (e_tab (le_e ee_data)) ->
     Sum (F := Qs) (t_nphi (e_tab (le_e ee_data))) (fun k => t_val (e_tab (le_e ee_data)) (S r) i k 0) = k0) /\
  (forall k c, k < t_nphi (e_tab (le_e ee_data)) -> c < le_dim ee_data -> ee_shift (k * le_dim ee_data + c) = qat [4; 9]%Z c).
Proof. exact (conj ee_unity ee_shift_same). Qed.
