(** * C77: the dual form of Cosserat elasticity with a scaled couple stress *)
From Coq Require Import String List Arith Bool ZArith QArith Qcanon.
From Verif Require Import Base FormModel FormSpec FormExamples AdModel AdModel2 AdSpec AdExamples SolidSpec DualModel DualSpec DualProof8 DualProof9 DualExamples.
Import ListNotations.
Open Scope nat_scope.
Open Scope list_scope.

(** LCEScaledDualWeakForm.evaluate_form: the dual form with the compliance of the couple stress
    not divided by l and div(l v) = l div v + grad l . v for its divergence *)
Theorem C77_system : forall F, is_field F -> @kadd F k1 k1 <> k0 ->
  forall (sp : fe_space F) fn iel alpha d, lce_gets true true sp fn iel d -> lce_dual_fits d -> has_load d -> has_grad d ->
  exists L, lce_scaled_dual (Some sp) (Some fn) iel alpha = Ok L /\
    system_of (du_size (scaled_data d)) (dual_form (scaled_data d)) (dual_load (scaled_data d)) alpha L.
Proof. exact @lce_scaled_dual_system. Qed.
Print Assumptions C77_system.

Theorem C77_jacobian : forall F, is_field F -> @kadd F k1 k1 <> k0 ->
  forall (sp : fe_space F) fn iel d, lce_gets true true sp fn iel d -> lce_dual_fits d -> has_load d -> has_grad d ->
  exact_jacobian (lce_scaled_dual (Some sp) (Some fn) iel).
Proof. exact @lce_scaled_dual_exact. Qed.
Print Assumptions C77_jacobian.

Theorem C77_saddle : forall F, is_field F -> @kadd F k1 k1 <> k0 ->
  forall (sp : fe_space F) fn iel alpha d L, lce_gets true true sp fn iel d -> lce_dual_fits d -> has_load d -> has_grad d ->
  lce_scaled_dual (Some sp) (Some fn) iel alpha = Ok L ->
  (forall a b, a < l_n L -> b < l_n L -> l_j L a b = l_j L b a) /\
  (forall x y, quad L y x = dual_form (scaled_data d) x y) /\
  (forall x, quad L (flip (scaled_data d) x) x = integral (li_se d) (li_w d) (energy (scaled_data d) x x)).
Proof. exact @lce_scaled_dual_saddle. Qed.
Print Assumptions C77_saddle.

(** evaluate_form_vectorized *)
Theorem C77_vectorized_partial : forall F, is_field F -> @kadd F k1 k1 <> k0 ->
  forall (sp : fe_space F) fn iel alpha d, lce_gets true true sp fn iel d -> lce_dual_fits d -> has_load d -> has_grad d -> regular (li_se d) (li_w d) ->
  exists L, lce_scaled_dual_vectorized (Some sp) (Some fn) iel alpha = Ok L /\
    system_of (du_size (scaled_data d)) (dual_form (scaled_data d)) (dual_load (scaled_data d)) zero_state L.
Proof. exact @lce_scaled_dual_vectorized_system. Qed.
Print Assumptions C77_vectorized_partial.

Theorem C77_agree : forall F, is_field F -> @kadd F k1 k1 <> k0 ->
  forall (sp : fe_space F) fn iel alpha beta d L L' L0, lce_gets true true sp fn iel d -> lce_dual_fits d -> has_load d -> has_grad d -> regular (li_se d) (li_w d) ->
  lce_scaled_dual (Some sp) (Some fn) iel alpha = Ok L -> lce_scaled_dual_vectorized (Some sp) (Some fn) iel beta = Ok L' ->
  lce_scaled_dual (Some sp) (Some fn) iel zero_state = Ok L0 ->
  l_n L = l_n L' /\ (forall a b, a < l_n L -> b < l_n L -> l_j L a b = l_j L' a b) /\ (forall a, a < l_n L -> l_r L' a = l_r L0 a).
Proof. exact @lce_scaled_dual_agree. Qed.
Print Assumptions C77_agree.

Theorem C77_vectorized_state_refuted :
  ~ (forall (sp : fe_space Qs) fn iel alpha d, lce_gets true true sp fn iel d -> lce_dual_fits d -> has_load d -> has_grad d -> regular (li_se d) (li_w d) ->
     exists L, lce_scaled_dual_vectorized (Some sp) (Some fn) iel alpha = Ok L /\
       system_of (du_size (scaled_data d)) (dual_form (scaled_data d)) (dual_load (scaled_data d)) alpha L).
Proof. exact scaled_dual_state. Qed.
Print Assumptions C77_vectorized_state_refuted.

(** With a constant length l the scaled form is the dual form of C76 with length l * l and the
    couple stress l m *)
Theorem C77_change : forall F, is_field F -> @kadd F k1 k1 <> k0 ->
  forall (d : lce_input F) l x y, lce_dual_fits d -> l <> k0 ->
  (forall i, li_l d i = l) -> (forall g i, In g (li_grad_l d) -> g i = k0) ->
  dual_form (scaled_data d) x y =
  dual_form (plain_data (with_length (kmul l l) d)) (stretch (plain_data (with_length (kmul l l) d)) l x) (stretch (plain_data (with_length (kmul l l) d)) l y).
Proof. exact @lce_scaled_change. Qed.
Print Assumptions C77_change.

Example C77_case :
  qentries (lce_scaled_dual (F := Qs) (Some dx_space) (Some dx_fn) 0 dx_alpha) =
  Ok (8, [205 # 4; -148 # 5; 1759 # 20; -379 # 20; 443 # 2; -29; -73; 72]%Q,
      [[73 # 20; -6 # 5; 149 # 20; -3 # 2; 0; 21; 0; 6]; [-6 # 5; 81 # 20; -5 # 2; 93 # 20; 0; 0; 21; -12];
       [149 # 20; -5 # 2; 112 # 5; -4 # 5; 0; -14; 0; 24]; [-3 # 2; 93 # 20; -4 # 5; 64 # 5; 0; 0; -14; -12];
       [0; 0; 0; 0; 35 # 2; 0; 0; 102]; [21; 0; -14; 0; 0; 0; 0; 0]; [0; 21; 0; -14; 0; 0; 0; 0]; [6; -12; 24; -12; 102; 0; 0; 0]]%Q) /\
  lce_gets true true dx_space dx_fn 0 (dx_with dx_rhs dx_grad (qat [2; 4]%Z)) /\ lce_dual_fits (dx_with dx_rhs dx_grad (qat [2; 4]%Z)) /\
  has_load (dx_with dx_rhs dx_grad (qat [2; 4]%Z)) /\ has_grad (dx_with dx_rhs dx_grad (qat [2; 4]%Z)) /\ regular (F := Qs) dx_se dx_w.
Proof. split; [vm_compute; reflexivity|]. exact (conj (dx_gets true true) (conj (dx_fits _ _ _) (conj (dx_load _ _) (conj (dx_has_grad _ _) dx_regular)))). Qed.
Example C77_vectorized_case :
  qentries (lce_scaled_dual_vectorized (F := Qs) (Some dx_space) (Some dx_fn) 0 dx_alpha) =
  qentries (lce_scaled_dual (F := Qs) (Some dx_space) (Some dx_fn) 0 (fun _ => q 0)) /\
  qentries (lce_scaled_dual_vectorized (F := Qs) (Some dz_space) (Some dz_fn) 0 dx_alpha) =
  qentries (lce_scaled_dual (F := Qs) (Some dz_space) (Some dz_fn) 0 (fun _ => q 0)).
Proof. split; vm_compute; reflexivity. Qed.
Example C77_change_case : lce_dual_fits dl_data /\ q 3 <> @k0 Qs /\ (forall i, li_l dl_data i = q 3) /\
  (forall g i, In g (li_grad_l dl_data) -> g i = @k0 Qs) /\
  this (dual_form (scaled_data dl_data) dx_alpha dx_alpha) = (7163 # 10)%Q.
Proof. split; [apply dx_fits|]. split; [discriminate|]. split; [reflexivity|]. split; [exact dl_grad|]. vm_compute. reflexivity. Qed.
