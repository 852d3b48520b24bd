(** * C75: the solids with a stress constraint, with a pressure, with micro-rotations *)
From Coq Require Import String List Arith Bool ZArith QArith.
From Verif Require Import Base FormModel FormSpec FormExamples AdModel AdModel2 AdSpec AdExamples SolidSpec SolidProof SolidProof2 SolidProof3 SolidExamples.
Import ListNotations.
Open Scope nat_scope.
Open Scope list_scope.

(** LEPrimalStressConstraint: beta (sigma(u) - sigma_target, grad v) at the given state; the
    matrix is beta times that of linear elasticity *)
Theorem C75_stress_system : forall F, is_field F -> @kadd F k1 k1 <> k0 ->
  forall beta target (sp : fe_space F) fn iel alpha d, sc_reads sp fn iel d -> le_fits d ->
  exists L, stress_constraint beta target (Some sp) (Some fn) iel alpha = Ok L /\
    system_of (le_size d) (fun x y => kmul beta (le_form d x y)) (sc_load beta target d) alpha L.
Proof. exact @stress_system. Qed.
Print Assumptions C75_stress_system.

Theorem C75_stress_jacobian : forall F, is_field F -> @kadd F k1 k1 <> k0 ->
  forall beta target (sp : fe_space F) fn iel d, sc_reads sp fn iel d -> le_fits d ->
  exact_jacobian (stress_constraint beta target (Some sp) (Some fn) iel).
Proof. exact @stress_exact. Qed.
Print Assumptions C75_stress_jacobian.

(** no residual when the stress is met at the points *)
Theorem C75_stress_met : forall F, is_field F -> @kadd F k1 k1 <> k0 ->
  forall beta target (sp : fe_space F) fn iel alpha d, sc_reads sp fn iel d -> le_fits d ->
  (forall i c dir, i < length (le_w d) -> c < le_dim d -> dir < le_dim d -> target c dir i = le_stress d alpha i c dir) ->
  exists L, stress_constraint beta target (Some sp) (Some fn) iel alpha = Ok L /\ forall a, a < l_n L -> l_r L a = k0.
Proof. exact @stress_met. Qed.
Print Assumptions C75_stress_met.

Example C75_stress_case :
  qentries (stress_constraint (F := Qs) (q 10) sx_other (Some ee_space) (Some ee_fn) 0 ee_alpha) =
  Ok (6, [-80; 80; 120; -60; -40; -20]%Q,
      [[180; 100; -140; -40; -40; -60]; [100; 180; -60; -40; -40; -140]; [-140; -60; 140; 0; 0; 60];
       [-40; -40; 0; 40; 40; 0]; [-40; -40; 0; 40; 40; 0]; [-60; -140; 60; 0; 0; 140]]%Q) /\
  sc_reads ee_space ee_fn 0 ee_data /\ le_fits ee_data /\ is_field Qs /\ @kadd Qs k1 k1 <> k0.
Proof. split; [vm_compute; reflexivity|]. exact (conj sx_reads (conj ee_fits (conj Qs_field Qs_two))). Qed.
Example C75_stress_met_case : exists L,
  stress_constraint (F := Qs) (q 10) sx_target (Some ee_space) (Some ee_fn) 0 ee_alpha = Ok L /\ forall a, a < l_n L -> l_r L a = k0.
Proof. exact (C75_stress_met Qs Qs_field Qs_two (q 10) sx_target ee_space ee_fn 0 ee_alpha ee_data sx_reads ee_fits sx_target_met). Qed.

(** LETaylorHood in two dimensions: (2 mu dev eps(u), dev eps(v)) + (p, div v) + (div u, q)
    - (p/(lambda + mu), q) + (f, v) at the given state *)
Theorem C75_taylor_hood_system : forall F, is_field F -> @kadd F k1 k1 <> k0 ->
  forall (sp : fe_space F) fn iel alpha d, th_reads sp fn iel d -> th_fits d ->
  exists L, taylor_hood (Some sp) (Some fn) iel alpha = Ok L /\
    system_of (le_size (th_le d) + th_np d) (th_form d) (le_load (th_le d)) alpha L.
Proof. exact @th_system. Qed.
Print Assumptions C75_taylor_hood_system.

Theorem C75_taylor_hood_jacobian : forall F, is_field F -> @kadd F k1 k1 <> k0 ->
  forall (sp : fe_space F) fn iel d, th_reads sp fn iel d -> th_fits d ->
  exact_jacobian (taylor_hood (Some sp) (Some fn) iel).
Proof. exact @th_exact. Qed.
Print Assumptions C75_taylor_hood_jacobian.

Theorem C75_taylor_hood_symmetric : forall F, is_field F -> @kadd F k1 k1 <> k0 ->
  forall (sp : fe_space F) fn iel alpha d L, th_reads sp fn iel d -> th_fits d ->
  taylor_hood (Some sp) (Some fn) iel alpha = Ok L -> forall a b, a < l_n L -> b < l_n L -> l_j L a b = l_j L b a.
Proof. exact @th_symmetric. Qed.
Print Assumptions C75_taylor_hood_symmetric.

(** With p = (lambda + mu) div u at the points the displacement rows are those of the primal
    form and the pressure rows vanish *)
Theorem C75_taylor_hood_consistent : forall F, is_field F -> @kadd F k1 k1 <> k0 ->
  forall (sp : fe_space F) fn iel alpha d L, th_reads sp fn iel d -> th_fits d ->
  (forall i, i < length (le_w (th_le d)) -> kadd (le_lambda (th_le d) i) (le_mu (th_le d) i) <> k0 /\
     th_press d alpha i = kmul (kadd (le_lambda (th_le d) i) (le_mu (th_le d) i)) (le_trace (th_le d) alpha i)) ->
  taylor_hood (Some sp) (Some fn) iel alpha = Ok L ->
  exists P, le_primal (Some sp) (Some fn) iel alpha = Ok P /\
    (forall a, a < l_n P -> l_r L a = l_r P a) /\ (forall a, l_n P <= a -> a < l_n L -> l_r L a = k0).
Proof. exact @th_consistent. Qed.
Print Assumptions C75_taylor_hood_consistent.

Example C75_taylor_hood_case :
  qentries (taylor_hood (F := Qs) (Some tx_space) (Some ee_fn) 0 tx_alpha) =
  Ok (8, [-4; 8; 24; 14; 10; 20; 0; 0]%Q,
      [[8; 0; -4; -4; -4; 4; -2; -4]; [0; 8; 4; -4; -4; -4; -2; -4]; [-4; 4; 4; 0; 0; -4; 2; 4]; [-4; -4; 0; 4; 4; 0; 0; 0];
       [-4; -4; 0; 4; 4; 0; 0; 0]; [4; -4; -4; 0; 0; 4; 2; 4]; [-2; -2; 2; 0; 0; 2; -2 # 5; -4 # 5]; [-4; -4; 4; 0; 0; 4; -4 # 5; -8 # 5]]%Q) /\
  th_reads tx_space ee_fn 0 tx_data /\ th_fits tx_data.
Proof. split; [vm_compute; reflexivity|exact (conj tx_reads tx_fits)]. Qed.
Example C75_taylor_hood_consistent_case : forall L, taylor_hood (F := Qs) (Some tx_space) (Some ee_fn) 0 tx_alpha = Ok L ->
  exists P, le_primal (Some tx_space) (Some ee_fn) 0 tx_alpha = Ok P /\
    (forall a, a < l_n P -> l_r L a = l_r P a) /\ (forall a, l_n P <= a -> a < l_n L -> l_r L a = k0).
Proof. exact (fun L => C75_taylor_hood_consistent Qs Qs_field Qs_two tx_space ee_fn 0 tx_alpha tx_data L tx_reads tx_fits tx_consistent). Qed.

(** LCEPrimal in two and three dimensions, with e = grad u + t x: (2 mu sym e, sym e')
    + (2 kappa skew e, skew e') + (lambda tr e, tr e') + (gamma grad t, grad t') + (f, v) + (m, s)
    at the given state *)
Theorem C75_cosserat_system : forall F, is_field F -> @kadd F k1 k1 <> k0 ->
  forall (sp : fe_space F) fn iel alpha d, lce_reads sp fn iel d -> lce_fits d ->
  exists L, lce_primal (Some sp) (Some fn) iel alpha = Ok L /\ system_of (lce_size d) (lce_form d) (lce_load d) alpha L.
Proof. exact @lce_system. Qed.
Print Assumptions C75_cosserat_system.

Theorem C75_cosserat_jacobian : forall F, is_field F -> @kadd F k1 k1 <> k0 ->
  forall (sp : fe_space F) fn iel d, lce_reads sp fn iel d -> lce_fits d ->
  exact_jacobian (lce_primal (Some sp) (Some fn) iel).
Proof. exact @lce_exact. Qed.
Print Assumptions C75_cosserat_jacobian.

Theorem C75_cosserat_symmetric : forall F, is_field F -> @kadd F k1 k1 <> k0 ->
  forall (sp : fe_space F) fn iel alpha d L, lce_reads sp fn iel d -> lce_fits d ->
  lce_primal (Some sp) (Some fn) iel alpha = Ok L -> forall a b, a < l_n L -> b < l_n L -> l_j L a b = l_j L b a.
Proof. exact @lce_symmetric. Qed.
Print Assumptions C75_cosserat_symmetric.

(** Twice the stored energy is the quadratic form of the matrix *)
Theorem C75_cosserat_matrix : forall F, is_field F -> @kadd F k1 k1 <> k0 ->
  forall (sp : fe_space F) fn iel alpha d L, lce_reads sp fn iel d -> lce_fits d ->
  lce_primal (Some sp) (Some fn) iel alpha = Ok L -> forall x y, quad L y x = lce_form d x y.
Proof. exact @lce_matrix. Qed.
Print Assumptions C75_cosserat_matrix.

(** Motions without strain and curvature cost nothing *)
Theorem C75_cosserat_rigid : forall F, is_field F -> @kadd F k1 k1 <> k0 ->
  forall (sp : fe_space F) fn iel alpha d L x, lce_reads sp fn iel d -> lce_fits d ->
  lce_primal (Some sp) (Some fn) iel alpha = Ok L -> lce_rigid d x ->
  forall a, a < l_n L -> Sum (l_n L) (fun b => kmul (l_j L a b) (x b)) = k0.
Proof. exact @lce_rigid_zero. Qed.
Print Assumptions C75_cosserat_rigid.

(** Without kappa the displacement rows are those of classical elasticity, whatever the rotations *)
Theorem C75_cosserat_classical : forall F, is_field F -> @kadd F k1 k1 <> k0 ->
  forall (sp : fe_space F) fn iel alpha d L, lce_reads sp fn iel d -> lce_fits d ->
  (forall i, i < length (le_w (lc_le d)) -> lc_kappa d i = k0) ->
  lce_primal (Some sp) (Some fn) iel alpha = Ok L ->
  exists P, le_primal (Some sp) (Some fn) iel alpha = Ok P /\ forall a, a < l_n P -> l_r L a = l_r P a.
Proof. exact @lce_no_kappa. Qed.
Print Assumptions C75_cosserat_classical.

Example C75_cosserat_case :
  qentries (lce_primal (F := Qs) (Some cx_space) (Some cx_fn) 0 cx_alpha) =
  Ok (9, [0; 4; 24; 18; 6; 20; 22; 38; -30]%Q,
      [[20; 8; -14; -2; -6; -6; 4; 4; -4]; [8; 20; -6; -6; -2; -14; -4; -4; 4]; [-14; -6; 14; 0; 0; 6; 0; 0; 0];
       [-2; -6; 0; 6; 2; 0; 4; 4; -4]; [-6; -2; 0; 2; 6; 0; -4; -4; 4]; [-6; -14; 6; 0; 0; 14; 0; 0; 0];
       [4; -4; 0; 4; -4; 0; 24; 0; -16]; [4; -4; 0; 4; -4; 0; 0; 16; -8]; [-4; 4; 0; -4; 4; 0; -16; -8; 16]]%Q) /\
  lce_reads cx_space cx_fn 0 cx_data /\ lce_fits cx_data.
Proof. split; [vm_compute; reflexivity|exact (conj cx_reads cx_fits)]. Qed.
Example C75_cosserat_solid_case : lce_reads cy_space cy_fn 0 cy_data /\ lce_fits cy_data /\ lce_size cy_data = 24 /\ lce_rigid cy_data cy_motion.
Proof. exact (conj cy_reads (conj cy_fits (conj eq_refl cy_motion_rigid))). Qed.
Example C75_cosserat_rigid_case : forall L, lce_primal (F := Qs) (Some cx_space) (Some cx_fn) 0 cx_alpha = Ok L ->
  forall a, a < l_n L -> Sum (l_n L) (fun b => kmul (l_j L a b) (cx_motion b)) = k0.
Proof. exact (fun L H => C75_cosserat_rigid Qs Qs_field Qs_two cx_space cx_fn 0 cx_alpha cx_data L cx_motion cx_reads cx_fits H cx_motion_rigid). Qed.
Example C75_cosserat_classical_case : forall L, lce_primal (F := Qs) (Some cx_space) (Some cz_fn) 0 cx_alpha = Ok L ->
  exists P, le_primal (Some cx_space) (Some cz_fn) 0 cx_alpha = Ok P /\ forall a, a < l_n P -> l_r L a = l_r P a.
Proof. exact (fun L => C75_cosserat_classical Qs Qs_field Qs_two cx_space cz_fn 0 cx_alpha cz_data L cz_reads cz_fits cz_kappa). Qed.
