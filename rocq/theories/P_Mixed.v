(** * C74: the elliptic forms with porosity, in scaled and in physical unknowns *)
From Coq Require Import String List Arith Bool ZArith QArith.
From Verif Require Import Base FormModel FormSpec FormExamples AdModel AdModel2 AdSpec AdExamples MixSpec MixProof MixProof2 MixProof3 MixExamples.
Import ListNotations.
Open Scope list_scope.

(** DegenerateEllipticWeakForm: (v, w) - (q, div(delta w)/sqrt phi) + (div(delta v)/sqrt phi, r)
    + (q, r) - (f, r) at the given state; the divergence is dropped where phi is not positive *)
Theorem C74_degenerate_system : forall F, is_ring F ->
  forall ksqrt positive (sp : fe_space F) fn iel alpha d, por_reads "v" "q" sp fn iel d -> por_fits d ->
  exists L, degenerate_form ksqrt positive (Some sp) (Some fn) iel alpha = Ok L /\
    system_of (t_nphi (e_tab (po_ue d)) + t_nphi (e_tab (po_pe d))) (mix_form (degenerate_mix ksqrt positive d))
      (mix_load (degenerate_mix ksqrt positive d)) alpha L.
Proof. exact @degenerate_system. Qed.
Print Assumptions C74_degenerate_system.

Theorem C74_degenerate_jacobian : forall F, is_ring F ->
  forall ksqrt positive (sp : fe_space F) fn iel d, por_reads "v" "q" sp fn iel d -> por_fits d ->
  exact_jacobian (degenerate_form ksqrt positive (Some sp) (Some fn) iel).
Proof. exact @degenerate_exact. Qed.
Print Assumptions C74_degenerate_jacobian.

(** The couplings cancel in the quadratic form: what is left is |v|^2 + q^2, whatever the
    porosity *)
Theorem C74_degenerate_energy : forall F, is_ring F ->
  forall ksqrt positive (sp : fe_space F) fn iel alpha d L, por_reads "v" "q" sp fn iel d -> por_fits d ->
  degenerate_form ksqrt positive (Some sp) (Some fn) iel alpha = Ok L ->
  let m := degenerate_mix ksqrt positive d in forall x,
  quad L x x = integral (po_ue d) (po_w d) (fun i =>
    kadd (Sum (po_dim d) (fun dir => kmul (m_flux m x i dir) (m_flux m x i dir))) (kmul (m_pot m x i) (m_pot m x i))).
Proof. exact @degenerate_energy. Qed.
Print Assumptions C74_degenerate_energy.

Example C74_degenerate_case :
  qentries (degenerate_form (F := Qs) mx_sqrt mx_positive (Some mx_space) (Some mx_fn) 0 mx_state) =
  Ok (4%nat, [-118; -130; -58; 194]%Q,
      [[18; 0; 10; -42]; [0; 38; -10; -72]; [10; -10; 12; -12]; [42; 72; 12; 38]]%Q) /\
  por_reads "v" "q" mx_space mx_fn 0 mx_data /\ por_fits mx_data.
Proof. split; [vm_compute; reflexivity|exact (conj mx_reads_v mx_fits)]. Qed.

(** UnscaledEllipticWeakForm: (u/delta^2, v) - (p, div v) + (div u, q) + (phi p, q)
    - (sqrt phi f, q) at the given state, with delta and phi replaced by the threshold where small
    (not in the source) *)
Theorem C74_unscaled_system : forall F, is_ring F ->
  forall ksqrt small threshold (sp : fe_space F) fn iel alpha d, por_reads "u" "p" sp fn iel d -> por_fits d ->
  exists L, unscaled_form ksqrt small threshold (Some sp) (Some fn) iel alpha = Ok L /\
    system_of (t_nphi (e_tab (po_ue d)) + t_nphi (e_tab (po_pe d))) (mix_form (unscaled_mix ksqrt small threshold d))
      (mix_load (unscaled_mix ksqrt small threshold d)) alpha L.
Proof. exact @unscaled_system. Qed.
Print Assumptions C74_unscaled_system.

Theorem C74_unscaled_jacobian : forall F, is_ring F ->
  forall ksqrt small threshold (sp : fe_space F) fn iel d, por_reads "u" "p" sp fn iel d -> por_fits d ->
  exact_jacobian (unscaled_form ksqrt small threshold (Some sp) (Some fn) iel).
Proof. exact @unscaled_exact. Qed.
Print Assumptions C74_unscaled_jacobian.

Example C74_unscaled_case :
  qentries (unscaled_form (F := Qs) mx_sqrt mx_small (q 1) (Some mx_space) (Some mx_fn) 0 mx_state) =
  Ok (4%nat, [-370 # 9; -193 # 6; -265 # 6; 298]%Q,
      [[41 # 18; 0; 25 # 18; -14]; [0; 9 # 2; -5 # 6; -14]; [25 # 18; -5 # 6; 17 # 9; -14]; [14; 14; 14; 146]]%Q) /\
  por_reads "u" "p" mx_space mx_fn 0 mx_data /\ por_fits mx_data.
Proof. split; [vm_compute; reflexivity|exact (conj mx_reads_u mx_fits)]. Qed.

(** On an element with constant porosity and delta the two forms are one: the scaled system is
    the physical one after the change of unknowns u = delta v, p = q/sqrt(phi), in the matrix and
    in the residual *)
Theorem C74_scaling : forall F, is_field F ->
  forall ksqrt positive small threshold (d : por_data F) phi delta, constant_medium ksqrt positive small d phi delta ->
  let nu := t_nphi (e_tab (po_ue d)) in
  forall (spd spu : fe_space F) fnd fnu iel alpha,
  por_reads "v" "q" spd fnd iel d -> por_reads "u" "p" spu fnu iel d -> por_fits d ->
  exists Ld Lu, degenerate_form ksqrt positive (Some spd) (Some fnd) iel alpha = Ok Ld /\
    unscaled_form ksqrt small threshold (Some spu) (Some fnu) iel (scaled_state nu delta (ksqrt phi) alpha) = Ok Lu /\
    l_n Ld = l_n Lu /\
    (forall a, a < l_n Ld -> l_r Ld a = kmul (to_physical nu delta (ksqrt phi) a) (l_r Lu a)) /\
    (forall a b, a < l_n Ld -> b < l_n Ld ->
       l_j Ld a b = kmul (kmul (to_physical nu delta (ksqrt phi) a) (l_j Lu a b)) (to_physical nu delta (ksqrt phi) b)).
Proof. exact @scaling_law. Qed.
Print Assumptions C74_scaling.

Example C74_scaling_case :
  constant_medium (F := Qs) mx_sqrt mx_positive mx_small my_data (q 4) (q 3) /\
  por_reads "v" "q" mx_space my_fn 0 my_data /\ por_reads "u" "p" mx_space my_fn 0 my_data /\ por_fits my_data /\
  qline (degenerate_form (F := Qs) mx_sqrt mx_positive (Some mx_space) (Some my_fn) 0 mx_state) = Ok [-55; 23; -85; 62]%Q /\
  qline (unscaled_form (F := Qs) mx_sqrt mx_small (q 1) (Some mx_space) (Some my_fn) 0 (scaled_state (F := Qs) 3 (q 3) (q 2) mx_state)) = Ok [-55 # 3; 23 # 3; -85 # 3; 124]%Q.
Proof. repeat match goal with |- _ /\ _ => split end; [exact my_constant|exact my_reads_v|exact my_reads_u|exact my_fits|vm_compute; reflexivity|vm_compute; reflexivity]. Qed.

(** ScaledToPhysicalL2Projection: (u, v) + (p, q) against the scaled state [s], its flux times
    delta and its scalar over sqrt(phi) where phi is positive, unchanged elsewhere *)
Theorem C74_physical_system : forall F, is_ring F ->
  forall ksqrt above (d : phy_data F) (sp : fe_space F) fn iel alpha scaled, phy_reads sp fn iel d -> phy_fits d ->
  exists L, physical_form ksqrt above (Some sp) (Some fn) iel alpha scaled = Ok L /\
    system_of (ph_nv d + ph_nq d) (phy_form d) (phy_load ksqrt above d scaled) alpha L.
Proof. exact @physical_system. Qed.
Print Assumptions C74_physical_system.

Theorem C74_physical_jacobian : forall F, is_ring F ->
  forall ksqrt above (d : phy_data F) (sp : fe_space F) fn iel scaled, phy_reads sp fn iel d -> phy_fits d ->
  exact_jacobian (fun alpha => physical_form ksqrt above (Some sp) (Some fn) iel alpha scaled).
Proof. exact @physical_exact. Qed.
Print Assumptions C74_physical_jacobian.

Example C74_physical_case :
  qentries (physical_form (F := Qs) mx_sqrt mx_positive (Some mx_space) (Some mx_fn) 0 mx_state (qat [1; 1; 2; 4]%Z)) =
  Ok (4%nat, [-94; 44; -70; 34]%Q, [[18; 0; 10; 0]; [0; 38; -10; 0]; [10; -10; 12; 0]; [0; 0; 0; 38]]%Q) /\
  phy_reads mx_space mx_fn 0 mx_phy /\ phy_fits mx_phy.
Proof. split; [vm_compute; reflexivity|exact (conj mx_phy_reads mx_phy_fits)]. Qed.

(** With constant porosity and delta the changed coefficients solve the projection exactly *)
Theorem C74_physical_solved : forall F, is_ring F ->
  forall ksqrt above (d : phy_data F) (sp : fe_space F) fn iel scaled phi delta, phy_reads sp fn iel d -> phy_fits d ->
  (forall i, i < length (ph_w d) -> ph_phi d i = phi /\ ph_delta d i = delta) -> above phi = true ->
  exists L, physical_form ksqrt above (Some sp) (Some fn) iel (scaled_state (ph_nv d) delta (ksqrt phi) scaled) scaled = Ok L /\
    forall a, a < l_n L -> l_r L a = k0.
Proof. exact @physical_solved. Qed.
Print Assumptions C74_physical_solved.

Example C74_solved_case :
  qline (physical_form (F := Qs) mx_sqrt mx_positive (Some mx_space) (Some my_fn) 0 (scaled_state (F := Qs) 3 (q 3) (q 2) mx_state) mx_state) = Ok [0; 0; 0; 0]%Q /\
  qline (physical_form (F := Qs) mx_sqrt mx_positive (Some mx_space) (Some my_fn) 0 mx_state mx_state) <> Ok [0; 0; 0; 0]%Q /\
  phy_reads mx_space my_fn 0 my_phy.
Proof. split; [vm_compute; reflexivity|split; [vm_compute; discriminate|exact my_phy_reads]]. Qed.
