(** * C71: the local system of the mixed Laplace form *)
From Coq Require Import String List Arith Bool ZArith QArith.
From Verif Require Import Base FormModel FormSpec FormExamples AdModel AdSpec AdProof2 AdProof4 AdExamples AdRefute.
Import ListNotations.
Open Scope list_scope.

(** The local system is that of (u/kappa, v) - (p, div v) + (div u, q) - (f, q), at the state
    zero.  Missing: the residual at the state handed over (see the refutation below). *)
Theorem C71_system_partial : forall F, is_ring F ->
  forall (sp : fe_space F) fn iel alpha d, lap_reads sp fn iel d -> lap_fits d ->
  exists L, laplace_dual (Some sp) (Some fn) iel alpha = Ok L /\
    system_of (lp_nu d + lp_np d) (lap_form d) (lap_load d) (fun _ => k0) L.
Proof. exact @laplace_system. Qed.
Print Assumptions C71_system_partial.

(** The matrix, between any two functions of the space *)
Theorem C71_matrix : forall F, is_ring F ->
  forall (sp : fe_space F) fn iel alpha d L, lap_reads sp fn iel d -> lap_fits d ->
  laplace_dual (Some sp) (Some fn) iel alpha = Ok L -> forall x y, quad L y x = lap_form d x y.
Proof. exact @laplace_coupling. Qed.
Print Assumptions C71_matrix.

(** The coupling blocks cancel in the quadratic form *)
Theorem C71_energy : forall F, is_ring F ->
  forall (sp : fe_space F) fn iel alpha d L, lap_reads sp fn iel d -> lap_fits d ->
  laplace_dual (Some sp) (Some fn) iel alpha = Ok L -> forall x,
  quad L x x = integral (lp_ue d) (lp_w d) (fun i =>
    Sum (lp_dim d) (fun dir => kmul (kinv (lp_kappa d i)) (kmul (lap_flux d x i dir) (lap_flux d x i dir)))).
Proof. exact @laplace_energy. Qed.
Print Assumptions C71_energy.

(** The residual is not that of the state handed over *)
Theorem C71_state_refuted :
  ~ (forall F, is_field F -> forall (sp : fe_space F) fn iel d, lap_reads sp fn iel d -> lap_fits d ->
       exact_jacobian (laplace_dual (Some sp) (Some fn) iel)).
Proof. exact laplace_state_refuted. Qed.
Print Assumptions C71_state_refuted.

Example C71_case :
  qentries (laplace_dual (Some lx_space) (Some lx_fn) 0 (fun _ => q 9)) =
  Ok (4%nat, [0; 0; 0; -94]%Q,
      [[17; 0; 9; -14]; [0; 37; -11; -14]; [9; -11; 10; -14]; [14; 14; 14; 0]]%Q) /\
  lap_reads lx_space lx_fn 0 lx_data /\ lap_fits lx_data.
Proof. split; [vm_compute; reflexivity|exact (conj lx_reads lx_fits)]. Qed.
