(** * C78: the Riesz maps of the dual problems *)
From Coq Require Import String List Arith Bool ZArith QArith Qcanon.
From Verif Require Import Base FormModel FormSpec FormExamples AdModel AdModel2 AdSpec AdExamples SolidSpec DualModel DualSpec DualProof8 DualProof9 DualExamples.
Import ListNotations.
Open Scope nat_scope.
Open Scope list_scope.

(** LCERieszMapWeakForm.evaluate_form: (A s, tau) + (A_o m, v)/l + (div s, div tau) + (div m, div v)
    + (u, w) + (t, q) *)
Theorem C78_system : forall F, is_field F -> @kadd F k1 k1 <> k0 ->
  forall (sp : fe_space F) fn iel alpha d, lce_gets false false sp fn iel d -> lce_dual_fits d ->
  exists L, lce_riesz (Some sp) (Some fn) iel alpha = Ok L /\
    system_of (du_size (plain_data d)) (riesz_form (plain_data d)) (fun _ => k0) alpha L.
Proof. exact @lce_riesz_system. Qed.
Print Assumptions C78_system.

Theorem C78_jacobian : forall F, is_field F -> @kadd F k1 k1 <> k0 ->
  forall (sp : fe_space F) fn iel d, lce_gets false false sp fn iel d -> lce_dual_fits d ->
  exact_jacobian (lce_riesz (Some sp) (Some fn) iel).
Proof. exact @lce_riesz_exact. Qed.
Print Assumptions C78_jacobian.

Theorem C78_vectorized_partial : forall F, is_field F -> @kadd F k1 k1 <> k0 ->
  forall (sp : fe_space F) fn iel alpha d, lce_gets false false sp fn iel d -> lce_dual_fits d ->
  exists L, lce_riesz_vectorized (Some sp) (Some fn) iel alpha = Ok L /\
    system_of (du_size (plain_data d)) (riesz_form (plain_data d)) (fun _ => k0) zero_state L.
Proof. exact @lce_riesz_vectorized_system. Qed.
Print Assumptions C78_vectorized_partial.

(** one symmetric matrix, that of the inner product; the residual is the matrix times the state,
    zero in the vectorized form *)
Theorem C78_norm : forall F, is_field F -> @kadd F k1 k1 <> k0 ->
  forall (sp : fe_space F) fn iel alpha beta d L L', lce_gets false false sp fn iel d -> lce_dual_fits d ->
  lce_riesz (Some sp) (Some fn) iel alpha = Ok L -> lce_riesz_vectorized (Some sp) (Some fn) iel beta = Ok L' ->
  l_n L = l_n L' /\ (forall a b, a < l_n L -> b < l_n L -> l_j L a b = l_j L' a b /\ l_j L a b = l_j L b a) /\
  (forall x y, quad L y x = riesz_form (plain_data d) x y) /\
  (forall a, a < l_n L -> l_r L a = Sum (l_n L) (fun b => kmul (l_j L a b) (alpha b)) /\ l_r L' a = k0).
Proof. exact @lce_riesz_norm. Qed.
Print Assumptions C78_norm.

Theorem C78_vectorized_state_refuted :
  ~ (forall (sp : fe_space Qs) fn iel alpha d, lce_gets false false sp fn iel d -> lce_dual_fits d ->
     exists L, lce_riesz_vectorized (Some sp) (Some fn) iel alpha = Ok L /\
       system_of (du_size (plain_data d)) (riesz_form (plain_data d)) (fun _ => k0) alpha L).
Proof. exact riesz_state. Qed.
Print Assumptions C78_vectorized_state_refuted.

(** LCEScaledRieszMapWeakForm: the same with A_o not divided by l and div(l v) *)
Theorem C78_scaled_system : forall F, is_field F -> @kadd F k1 k1 <> k0 ->
  forall (sp : fe_space F) fn iel alpha d, lce_gets true true sp fn iel d -> lce_dual_fits d -> has_grad d ->
  exists L, lce_scaled_riesz (Some sp) (Some fn) iel alpha = Ok L /\
    system_of (du_size (scaled_data d)) (riesz_form (scaled_data d)) (fun _ => k0) alpha L.
Proof. exact @lce_scaled_riesz_system. Qed.
Print Assumptions C78_scaled_system.

Theorem C78_scaled_vectorized_partial : forall F, is_field F -> @kadd F k1 k1 <> k0 ->
  forall (sp : fe_space F) fn iel alpha d, lce_gets false true sp fn iel d -> lce_dual_fits d -> has_grad d ->
  exists L, lce_scaled_riesz_vectorized (Some sp) (Some fn) iel alpha = Ok L /\
    system_of (du_size (scaled_data d)) (riesz_form (scaled_data d)) (fun _ => k0) zero_state L.
Proof. exact @lce_scaled_riesz_vectorized_system. Qed.
Print Assumptions C78_scaled_vectorized_partial.

Theorem C78_scaled_norm : forall F, is_field F -> @kadd F k1 k1 <> k0 ->
  forall (sp : fe_space F) fn iel alpha d L, lce_gets true true sp fn iel d -> lce_dual_fits d -> has_grad d ->
  lce_scaled_riesz (Some sp) (Some fn) iel alpha = Ok L ->
  (forall a b, a < l_n L -> b < l_n L -> l_j L a b = l_j L b a) /\ (forall x y, quad L y x = riesz_form (scaled_data d) x y).
Proof. exact @lce_scaled_riesz_norm. Qed.
Print Assumptions C78_scaled_norm.

Theorem C78_scaled_agree : forall F, is_field F -> @kadd F k1 k1 <> k0 ->
  forall (sp : fe_space F) fn iel alpha beta d L L', lce_gets true true sp fn iel d -> lce_dual_fits d -> has_grad d ->
  lce_scaled_riesz (Some sp) (Some fn) iel alpha = Ok L -> lce_scaled_riesz_vectorized (Some sp) (Some fn) iel beta = Ok L' ->
  l_n L = l_n L' /\ (forall a b, a < l_n L -> b < l_n L -> l_j L a b = l_j L' a b) /\ (forall a, a < l_n L -> l_r L' a = k0).
Proof. exact @lce_scaled_riesz_agree. Qed.
Print Assumptions C78_scaled_agree.

(** LERieszMapWeakForm.evaluate_form_vectorized *)
Theorem C78_elastic_partial : forall F, is_field F -> @kadd F k1 k1 <> k0 ->
  forall (sp : fe_space F) fn iel alpha d, ld_gets sp fn iel d -> ld_fits d ->
  exists L, le_riesz_vectorized (Some sp) (Some fn) iel alpha = Ok L /\
    system_of (du_size (elastic_data d)) (riesz_form (elastic_data d)) (fun _ => k0) zero_state L.
Proof. exact @le_riesz_vectorized_system. Qed.
Print Assumptions C78_elastic_partial.

Theorem C78_elastic_norm : forall F, is_field F -> @kadd F k1 k1 <> k0 ->
  forall (sp : fe_space F) fn iel alpha d L, ld_gets sp fn iel d -> ld_fits d ->
  le_riesz_vectorized (Some sp) (Some fn) iel alpha = Ok L ->
  (forall a b, a < l_n L -> b < l_n L -> l_j L a b = l_j L b a) /\ (forall x y, quad L y x = riesz_form (elastic_data d) x y).
Proof. exact @le_riesz_norm. Qed.
Print Assumptions C78_elastic_norm.

Example C78_case :
  qentries (lce_riesz (F := Qs) (Some dx_space) (Some dx_fn) 0 dx_alpha) =
  Ok (8, [49 # 4; -178 # 5; 1159 # 20; 501 # 20; 55; 26; 0; 48]%Q,
      [[433 # 20; -6 # 5; -91 # 20; -3 # 2; 0; 0; 0; 0]; [-6 # 5; 441 # 20; -5 # 2; -147 # 20; 0; 0; 0; 0];
       [-91 # 20; -5 # 2; 152 # 5; -4 # 5; 0; 0; 0; 0]; [-3 # 2; -147 # 20; -4 # 5; 104 # 5; 0; 0; 0; 0];
       [0; 0; 0; 0; 55; 0; 0; 0]; [0; 0; 0; 0; 0; 26; 0; 0]; [0; 0; 0; 0; 0; 0; 26; 0]; [0; 0; 0; 0; 0; 0; 0; 24]]%Q) /\
  qentries (lce_riesz_vectorized (F := Qs) (Some dx_space) (Some dx_fn) 0 dx_alpha) =
  qentries (lce_riesz (F := Qs) (Some dx_space) (Some dx_fn) 0 (fun _ => q 0)) /\
  lce_gets false false dx_space dx_fn 0 (dx_with [] [] (qat [2; 4]%Z)) /\ lce_dual_fits (dx_with [] [] (qat [2; 4]%Z)).
Proof. split; [vm_compute; reflexivity|]. split; [vm_compute; reflexivity|]. exact (conj (dx_gets false false) (dx_fits _ _ _)). Qed.
Example C78_scaled_case :
  (do L <- lce_scaled_riesz (F := Qs) (Some dx_space) (Some dx_fn) 0 dx_alpha; Ok (l_n L, this (l_j L 4 4), this (l_r L 4))) = Ok (8, (2751 # 2)%Q, (2751 # 2)%Q) /\
  (do L <- lce_scaled_riesz_vectorized (F := Qs) (Some dx_space) (Some dx_fn) 0 dx_alpha; Ok (l_n L, this (l_j L 4 4), this (l_r L 4))) = Ok (8, (2751 # 2)%Q, 0%Q) /\
  (do L <- lce_scaled_riesz_vectorized (F := Qs) (Some dz_space) (Some dz_fn) 0 dx_alpha; Ok (l_n L, this (l_j L 3 3), this (l_j L 3 5))) = Ok (12, (3506 # 27)%Q, (-20 # 27)%Q) /\
  lce_gets true true dx_space dx_fn 0 (dx_with dx_rhs dx_grad (qat [2; 4]%Z)) /\ lce_gets false true dx_space dx_fn 0 (dx_with [] dx_grad (qat [2; 4]%Z)) /\
  lce_dual_fits (dx_with dx_rhs dx_grad (qat [2; 4]%Z)) /\ has_grad (dx_with dx_rhs dx_grad (qat [2; 4]%Z)).
Proof.
  split; [vm_compute; reflexivity|]. split; [vm_compute; reflexivity|]. split; [vm_compute; reflexivity|].
  exact (conj (dx_gets true true) (conj (dx_gets false true) (conj (dx_fits _ _ _) (dx_has_grad _ _)))).
Qed.
Example C78_elastic_case :
  (do L <- le_riesz_vectorized (F := Qs) (Some dy_space) (Some dy_fn) 0 dy_alpha; Ok (l_n L, this (l_j L 0 0), this (l_j L 0 2), this (l_j L 6 6))) =
  Ok (7, (209 # 10)%Q, (-34 # 5)%Q, 24%Q) /\ ld_gets dy_space dy_fn 0 dy_data /\ ld_fits dy_data.
Proof. split; [vm_compute; reflexivity|]. exact (conj dy_gets dy_fits). Qed.
