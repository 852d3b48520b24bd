(** * C76: the dual (mixed) forms of linear and Cosserat elasticity *)
From Coq Require Import String List Arith Bool ZArith QArith Qcanon.
From Verif Require Import Base FormModel FormSpec FormExamples AdModel AdModel2 AdSpec AdExamples SolidSpec DualModel DualSpec DualProof7 DualProof8 DualProof9 DualExamples.
Import ListNotations.
Open Scope nat_scope.
Open Scope list_scope.

(** LCEDualWeakForm.evaluate_form: (A s, tau) + (A_o m, v)/l + (u, div tau) + (div s, w)
    + (t, div v) + (div m, q) - (t x ., tau) - (s, q x .) - (f, w) - (g, q) at the given state *)
Theorem C76_system : forall F, is_field F -> @kadd F k1 k1 <> k0 ->
  forall (sp : fe_space F) fn iel alpha d, lce_gets true false sp fn iel d -> lce_dual_fits d -> has_load d ->
  exists L, lce_dual (Some sp) (Some fn) iel alpha = Ok L /\
    system_of (du_size (plain_data d)) (dual_form (plain_data d)) (dual_load (plain_data d)) alpha L.
Proof. exact @lce_dual_system. Qed.
Print Assumptions C76_system.

Theorem C76_jacobian : forall F, is_field F -> @kadd F k1 k1 <> k0 ->
  forall (sp : fe_space F) fn iel d, lce_gets true false sp fn iel d -> lce_dual_fits d -> has_load d ->
  exact_jacobian (lce_dual (Some sp) (Some fn) iel).
Proof. exact @lce_dual_exact. Qed.
Print Assumptions C76_jacobian.

(** a saddle point: the matrix is symmetric and, tested with displacement and rotation
    negated, gives the energy of the stresses *)
Theorem C76_saddle : forall F, is_field F -> @kadd F k1 k1 <> k0 ->
  forall (sp : fe_space F) fn iel alpha d L, lce_gets true false sp fn iel d -> lce_dual_fits d -> has_load d ->
  lce_dual (Some sp) (Some fn) iel alpha = Ok L ->
  (forall a b, a < l_n L -> b < l_n L -> l_j L a b = l_j L b a) /\
  (forall x y, quad L y x = dual_form (plain_data d) x y) /\
  (forall x, quad L (flip (plain_data d) x) x = integral (li_se d) (li_w d) (energy (plain_data d) x x)).
Proof. exact @lce_dual_saddle. Qed.
Print Assumptions C76_saddle.

(** the compliance is the inverse of S = 2 mu sym E + 2 kappa skew E + lambda tr E *)
Theorem C76_compliance : forall F, is_field F -> @kadd F k1 k1 <> k0 ->
  forall n (lambda mu kappa : F) (E T : nat -> nat -> F), mu <> k0 -> kappa <> k0 ->
  kadd (kmul (kadd k1 k1) mu) (kmul (of_nat n) lambda) <> k0 ->
  compliance n lambda mu kappa (stiffness n lambda mu kappa E) T = contract n n E T.
Proof. exact @compliance_inverse. Qed.
Print Assumptions C76_compliance.

(** evaluate_form_vectorized: the same system at the zero state, whatever the state *)
Theorem C76_vectorized_partial : forall F, is_field F -> @kadd F k1 k1 <> k0 ->
  forall (sp : fe_space F) fn iel alpha d, lce_gets true false sp fn iel d -> lce_dual_fits d -> has_load d -> regular (li_se d) (li_w d) ->
  exists L, lce_dual_vectorized (Some sp) (Some fn) iel alpha = Ok L /\
    system_of (du_size (plain_data d)) (dual_form (plain_data d)) (dual_load (plain_data d)) zero_state L.
Proof. exact @lce_dual_vectorized_system. Qed.
Print Assumptions C76_vectorized_partial.

Theorem C76_agree : forall F, is_field F -> @kadd F k1 k1 <> k0 ->
  forall (sp : fe_space F) fn iel alpha beta d L L' L0, lce_gets true false sp fn iel d -> lce_dual_fits d -> has_load d -> regular (li_se d) (li_w d) ->
  lce_dual (Some sp) (Some fn) iel alpha = Ok L -> lce_dual_vectorized (Some sp) (Some fn) iel beta = Ok L' ->
  lce_dual (Some sp) (Some fn) iel zero_state = Ok L0 ->
  l_n L = l_n L' /\ (forall a b, a < l_n L -> b < l_n L -> l_j L a b = l_j L' a b) /\ (forall a, a < l_n L -> l_r L' a = l_r L0 a).
Proof. exact @lce_dual_agree. Qed.
Print Assumptions C76_agree.

(** it is not the system at the given state *)
Theorem C76_vectorized_state_refuted :
  ~ (forall (sp : fe_space Qs) fn iel alpha d, lce_gets true false sp fn iel d -> lce_dual_fits d -> has_load d -> regular (li_se d) (li_w d) ->
     exists L, lce_dual_vectorized (Some sp) (Some fn) iel alpha = Ok L /\
       system_of (du_size (plain_data d)) (dual_form (plain_data d)) (dual_load (plain_data d)) alpha L).
Proof. exact dual_state. Qed.
Print Assumptions C76_vectorized_state_refuted.

Example C76_case :
  qentries (lce_dual (F := Qs) (Some dx_space) (Some dx_fn) 0 dx_alpha) =
  Ok (8, [205 # 4; -148 # 5; 1759 # 20; -379 # 20; 65; -29; -73; 0]%Q,
      [[73 # 20; -6 # 5; 149 # 20; -3 # 2; 0; 21; 0; 6]; [-6 # 5; 81 # 20; -5 # 2; 93 # 20; 0; 0; 21; -12];
       [149 # 20; -5 # 2; 112 # 5; -4 # 5; 0; -14; 0; 24]; [-3 # 2; 93 # 20; -4 # 5; 64 # 5; 0; 0; -14; -12];
       [0; 0; 0; 0; 5; 0; 0; 30]; [21; 0; -14; 0; 0; 0; 0; 0]; [0; 21; 0; -14; 0; 0; 0; 0]; [6; -12; 24; -12; 30; 0; 0; 0]]%Q) /\
  lce_gets true false dx_space dx_fn 0 (dx_with dx_rhs [] (qat [2; 4]%Z)) /\ lce_dual_fits (dx_with dx_rhs [] (qat [2; 4]%Z)) /\
  has_load (dx_with dx_rhs [] (qat [2; 4]%Z)) /\ regular (F := Qs) dx_se dx_w /\ is_field Qs /\ @kadd Qs k1 k1 <> k0.
Proof. split; [vm_compute; reflexivity|]. exact (conj (dx_gets true false) (conj (dx_fits _ _ _) (conj (dx_load _ _) (conj dx_regular (conj Qs_field Qs_two))))). Qed.
Example C76_vectorized_case :
  qentries (lce_dual_vectorized (F := Qs) (Some dx_space) (Some dx_fn) 0 dx_alpha) =
  qentries (lce_dual (F := Qs) (Some dx_space) (Some dx_fn) 0 (fun _ => q 0)) /\
  qentries (lce_dual_vectorized (F := Qs) (Some dx_space) (Some dx_fn) 0 dx_alpha) <>
  qentries (lce_dual (F := Qs) (Some dx_space) (Some dx_fn) 0 dx_alpha).
Proof. split; [vm_compute; reflexivity|]. vm_compute. discriminate. Qed.
(** a tetrahedron *)
Example C76_case_3d :
  (do L <- lce_dual (F := Qs) (Some dz_space) (Some dz_fn) 0 dx_alpha; Ok (l_n L, this (l_j L 0 11), this (l_j L 3 5), this (l_r L 0))) =
  Ok (12, 4%Q, (-10 # 27)%Q, (291 # 52)%Q) /\
  lce_gets true false dz_space dz_fn 0 (dz_with dz_rhs []) /\ lce_dual_fits (dz_with dz_rhs []) /\ has_load (dz_with dz_rhs []) /\ regular (F := Qs) dz_se dz_w.
Proof. split; [vm_compute; reflexivity|]. exact (conj (dz_gets true false) (conj (dz_fits _ _) (conj (dz_load _) dz_regular))). Qed.
Example C76_compliance_case :
  compliance (F := Qs) 2 (q 3) (q 2) (q 1) (stiffness (F := Qs) 2 (q 3) (q 2) (q 1) (fun c d => qat [1; 2; 3; 4]%Z (2 * c + d))) (fun c d => qat [5; -1; 0; 2]%Z (2 * c + d)) = q 11.
Proof. apply Qc_is_canon. vm_compute. reflexivity. Qed.

(** LEDualWeakForm.evaluate_form_vectorized: the same without couple stress, kappa = mu, and
    the zero state *)
Theorem C76_elastic_partial : forall F, is_field F -> @kadd F k1 k1 <> k0 ->
  forall (sp : fe_space F) fn iel alpha d, ld_gets sp fn iel d -> ld_fits d -> ld_has_load d -> regular (ld_se d) (ld_w d) ->
  exists L, le_dual_vectorized (Some sp) (Some fn) iel alpha = Ok L /\
    system_of (du_size (elastic_data d)) (dual_form (elastic_data d)) (dual_load (elastic_data d)) zero_state L.
Proof. exact @le_dual_vectorized_system. Qed.
Print Assumptions C76_elastic_partial.

Theorem C76_elastic_saddle : forall F, is_field F -> @kadd F k1 k1 <> k0 ->
  forall (sp : fe_space F) fn iel alpha d L, ld_gets sp fn iel d -> ld_fits d -> ld_has_load d -> regular (ld_se d) (ld_w d) ->
  le_dual_vectorized (Some sp) (Some fn) iel alpha = Ok L ->
  (forall a b, a < l_n L -> b < l_n L -> l_j L a b = l_j L b a) /\
  (forall x y, quad L y x = dual_form (elastic_data d) x y) /\
  (forall x, quad L (flip (elastic_data d) x) x = integral (ld_se d) (ld_w d) (energy (elastic_data d) x x)).
Proof. exact @le_dual_saddle. Qed.
Print Assumptions C76_elastic_saddle.

Theorem C76_elastic_state_refuted :
  ~ (forall (sp : fe_space Qs) fn iel alpha d, ld_gets sp fn iel d -> ld_fits d -> ld_has_load d -> regular (ld_se d) (ld_w d) ->
     exists L, le_dual_vectorized (Some sp) (Some fn) iel alpha = Ok L /\
       system_of (du_size (elastic_data d)) (dual_form (elastic_data d)) (dual_load (elastic_data d)) alpha L).
Proof. exact le_dual_state. Qed.
Print Assumptions C76_elastic_state_refuted.

Example C76_elastic_case :
  qentries (le_dual_vectorized (F := Qs) (Some dy_space) (Some dy_fn) 0 dy_alpha) =
  Ok (7, [0; 0; 0; 0; -22; -38; -84]%Q,
      [[29 # 10; -9 # 20; 26 # 5; -3 # 2; 21; 0; 6]; [-9 # 20; 61 # 20; 0; 83 # 20; 0; 21; -12];
       [26 # 5; 0; 77 # 5; -3 # 10; -14; 0; 24]; [-3 # 2; 83 # 20; -3 # 10; 59 # 5; 0; -14; -12];
       [21; 0; -14; 0; 0; 0; 0]; [0; 21; 0; -14; 0; 0; 0]; [6; -12; 24; -12; 0; 0; 0]]%Q) /\
  ld_gets dy_space dy_fn 0 dy_data /\ ld_fits dy_data /\ ld_has_load dy_data /\ regular (F := Qs) dx_se dx_w.
Proof. split; [vm_compute; reflexivity|]. exact (conj dy_gets (conj dy_fits (conj dy_load dx_regular))). Qed.
