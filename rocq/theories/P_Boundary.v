(** * C73: the local systems of the boundary forms *)
From Coq Require Import String List Arith Bool ZArith.
From Verif Require Import Base FormModel FormSpec FormExamples AdModel AdModel2 AdSpec BcSpec BcProof2 BcProof3 AdExamples AdRefute.
Import ListNotations.
Open Scope nat_scope.
Open Scope list_scope.

(** Given displacement by penalty, at the state zero.  Missing: the residual at the state handed
    over (refuted below) *)
Theorem C73_dirichlet_partial : forall F, is_ring F ->
  forall beta (sp : fe_space F) fn iel alpha d, bc_reads sp fn "u" "u" iel d -> b_comp d <= length (b_g d) ->
  exists L, le_bc_dirichlet beta sp fn iel alpha = Ok L /\
    system_of (b_size d) (dirichlet_form beta d) (dirichlet_load beta d) (fun _ => k0) L.
Proof. exact @dirichlet_system. Qed.
Print Assumptions C73_dirichlet_partial.

Theorem C73_dirichlet_state_refuted :
  ~ (forall F, is_ring F -> forall beta (sp : fe_space F) fn iel d, bc_reads sp fn "u" "u" iel d -> b_comp d <= length (b_g d) ->
       exact_jacobian (le_bc_dirichlet beta sp fn iel)).
Proof. exact dirichlet_state_refuted. Qed.
Print Assumptions C73_dirichlet_state_refuted.

(** Given displacement and rotation of a Cosserat body: the two blocks do not couple *)
Theorem C73_cosserat_partial : forall F, is_ring F ->
  forall beta (sp : fe_space F) fn iel alpha du dt,
  bc_reads sp fn "u" "u" iel du -> bc_reads sp fn "t" "t" iel dt -> b_comp du <= length (b_g du) -> b_comp dt <= length (b_g dt) ->
  b_w dt = b_w du -> (forall i, i < length (b_w du) -> e_det (b_e dt) i = e_det (b_e du) i) ->
  exists L, lce_bc_dirichlet beta sp fn iel alpha = Ok L /\
    system_of (b_size du + b_size dt) (pair_form beta du dt) (pair_load beta du dt) (fun _ => k0) L.
Proof. exact @lce_dirichlet_system. Qed.
Print Assumptions C73_cosserat_partial.

(** Given traction *)
Theorem C73_neumann : forall F, is_ring F ->
  forall (sp : fe_space F) fn iel alpha d, bc_reads sp fn "u" "t" iel d -> b_comp d <= length (b_g d) ->
  exists L, le_bc_neumann sp fn iel alpha = Ok L /\ system_of (b_size d) (fun _ _ => k0) (neumann_load d) alpha L.
Proof. exact @neumann_system. Qed.
Print Assumptions C73_neumann.

(** Given normal displacement: what the code computes for any normal; the normal components when
    the normal lies along an axis; not for other normals *)
Theorem C73_normal_computed : forall F, is_ring F ->
  forall beta (sp : fe_space F) fn normal iel alpha d n,
  bc_reads sp fn "u" "u" iel d -> normal iel = Ok n ->
  b_comp d = e_dim (b_e d) + 1 -> b_comp d = length (b_g d) -> b_comp d <= length n ->
  exists L, le_bc_normal beta sp fn normal iel alpha = Ok L /\
    system_of (b_size d) (diagonal_form beta n d) (normal_load beta n d) (fun _ => k0) L.
Proof. exact @normal_ok. Qed.
Print Assumptions C73_normal_computed.

Theorem C73_normal_partial : forall F, is_ring F ->
  forall beta (sp : fe_space F) fn normal iel alpha d n,
  bc_reads sp fn "u" "u" iel d -> normal iel = Ok n ->
  b_comp d = e_dim (b_e d) + 1 -> b_comp d = length (b_g d) -> b_comp d <= length n -> axis_aligned n (b_comp d) ->
  exists L, le_bc_normal beta sp fn normal iel alpha = Ok L /\
    system_of (b_size d) (normal_form beta n d) (normal_load beta n d) (fun _ => k0) L.
Proof. exact @normal_axis. Qed.
Print Assumptions C73_normal_partial.

Theorem C73_normal_slanted_refuted :
  ~ (forall F, is_ring F -> forall beta (sp : fe_space F) fn normal iel alpha d n L,
       bc_reads sp fn "u" "u" iel d -> normal iel = Ok n ->
       b_comp d = e_dim (b_e d) + 1 -> b_comp d = length (b_g d) -> b_comp d <= length n ->
       le_bc_normal beta sp fn normal iel alpha = Ok L ->
       system_of (b_size d) (normal_form beta n d) (normal_load beta n d) (fun _ => k0) L).
Proof. exact normal_slanted_refuted. Qed.
Print Assumptions C73_normal_slanted_refuted.

(** Given potential against the normal flux, for the mixed Laplace form and the two elliptic
    forms with porosity *)
Theorem C73_potential : forall F, is_ring F ->
  forall (sp : fe_space F) fn trace iel alpha d tr,
  bc_reads sp fn "u" "p" iel d -> trace iel = Ok tr -> b_comp d <= length (b_g d) ->
  flux_fits (mk_flux (b_e d) (b_w d) (b_comp d) (b_phi d) tr (fun c i => b_given d i c)) ->
  exists L, laplace_bc sp fn trace iel alpha = Ok L /\
    system_of (b_size d) (fun _ _ => k0)
      (flux_load (mk_flux (b_e d) (b_w d) (b_comp d) (b_phi d) tr (fun c i => b_given d i c))) (fun _ => k0) L.
Proof. exact @laplace_bc_system. Qed.
Print Assumptions C73_potential.

Theorem C73_unscaled_potential : forall F, is_ring F ->
  forall (sp : fe_space F) fn trace iel alpha d tr,
  bc_reads sp fn "u" "p" iel d -> trace iel = Ok tr -> b_comp d <= length (b_g d) ->
  flux_fits (mk_flux (b_e d) (b_w d) (b_comp d) (length (tr_dofs tr)) tr (fun c i => b_given d i c)) ->
  exists L, unscaled_bc sp fn trace iel alpha = Ok L /\
    system_of (length (tr_dofs tr) * b_comp d) (fun _ _ => k0)
      (flux_load (mk_flux (b_e d) (b_w d) (b_comp d) (length (tr_dofs tr)) tr (fun c i => b_given d i c))) (fun _ => k0) L.
Proof. exact @unscaled_bc_system. Qed.
Print Assumptions C73_unscaled_potential.

(** the value is d_phi/sqrt(porosity) times the given one where the porosity is positive, and
    the given one elsewhere *)
Theorem C73_degenerate_potential : forall F, is_ring F ->
  forall (ksqrt : F -> F) (positive : F -> bool) (sp : fe_space F) fn trace iel alpha d phi delta tr,
  bc_reads sp fn "v" "q" iel d -> dget (scal_of fn) "d_phi"%string = Some delta -> dget (scal_of fn) "porosity"%string = Some phi ->
  trace iel = Ok tr -> b_comp d <= length (b_g d) ->
  let value := fun c i : nat => if positive (phi i) then kmul (b_given d i c) (kmul (delta i) (kinv (ksqrt (phi i)))) else b_given d i c in
  flux_fits (mk_flux (b_e d) (b_w d) (b_comp d) (length (tr_dofs tr)) tr value) ->
  exists L, degenerate_bc ksqrt positive sp fn trace iel alpha = Ok L /\
    system_of (length (tr_dofs tr) * b_comp d) (fun _ _ => k0)
      (flux_load (mk_flux (b_e d) (b_w d) (b_comp d) (length (tr_dofs tr)) tr value)) (fun _ => k0) L.
Proof. exact @degenerate_bc_system. Qed.
Print Assumptions C73_degenerate_potential.

Example C73_dirichlet_case :
  entries_of (le_bc_dirichlet (F := Zs) 10%Z be_space be_fn 0 zero_state) =
  Ok (4, [-820; -260; -440; -320]%Z,
      [[380; 0; 160; 0]; [0; 380; 0; 160]; [160; 0; 120; 0]; [0; 160; 0; 120]]%Z) /\
  bc_reads be_space be_fn "u" "u" 0 be_data /\ b_comp be_data <= length (b_g be_data).
Proof. split; [vm_compute; reflexivity|exact (conj be_reads (le_n 2))]. Qed.
Example C73_cosserat_case :
  entries_of (lce_bc_dirichlet (F := Zs) 10%Z be_space be_fn 0 zero_state) =
  Ok (6, [-820; -260; -440; -320; -820; -440]%Z,
      [[380; 0; 160; 0; 0; 0]; [0; 380; 0; 160; 0; 0]; [160; 0; 120; 0; 0; 0]; [0; 160; 0; 120; 0; 0];
       [0; 0; 0; 0; 380; 160]; [0; 0; 0; 0; 160; 120]]%Z) /\
  bc_reads be_space be_fn "t" "t" 0 bt_data.
Proof. split; [vm_compute; reflexivity|exact be_reads_tt]. Qed.
Example C73_neumann_case :
  (do L <- le_bc_neumann (F := Zs) be_space be_fn 0 zero_state; Ok (map (l_r L) (seq 0 (l_n L)))) = Ok [82; 26; 44; 32]%Z /\
  bc_reads be_space be_fn "u" "t" 0 be_data.
Proof. split; [vm_compute; reflexivity|exact be_reads_t]. Qed.
Example C73_normal_case :
  entries_of (le_bc_normal (F := Zs) 10%Z be_space be_fn axis_normal 0 zero_state) =
  Ok (4, [0; -260; 0; -320]%Z, [[0; 0; 0; 0]; [0; 380; 0; 160]; [0; 0; 0; 0]; [0; 160; 0; 120]]%Z) /\
  axis_aligned (F := Zs) [0; 1; 0]%Z (b_comp be_data).
Proof. split; [vm_compute; reflexivity|exact axis_normal_aligned]. Qed.
Example C73_slanted_case :
  entries_of (le_bc_normal (F := Zs) 10%Z be_space be_fn slanted_normal 0 zero_state) =
  Ok (4, [-10500; -14000; -7800; -10400]%Z,
      [[3420; 0; 1440; 0]; [0; 6080; 0; 2560]; [1440; 0; 1080; 0]; [0; 2560; 0; 1920]]%Z).
Proof. vm_compute. reflexivity. Qed.
Example C73_potential_case :
  entries_of (laplace_bc (F := Zs) fx_space fx_fn (fun _ => Ok fx_trace) 0 zero_state) = Ok (1, [860]%Z, [[0]]%Z) /\
  entries_of (unscaled_bc (F := Zs) fx_space fx_fn (fun _ => Ok fx_trace) 0 zero_state) = Ok (1, [860]%Z, [[0]]%Z) /\
  entries_of (degenerate_bc (F := Zs) (fun x => x) (fun x => (0 <? x)%Z) fx_space fx_fn (fun _ => Ok fx_trace) 0 zero_state) = Ok (1, [260]%Z, [[0]]%Z) /\
  bc_reads fx_space fx_fn "u" "p" 0 fx_data /\ bc_reads fx_space fx_fn "v" "q" 0 fx_data /\ flux_fits fx_flux.
Proof. split; [vm_compute; reflexivity|]. split; [vm_compute; reflexivity|]. split; [vm_compute; reflexivity|exact (conj fx_reads_u (conj fx_reads_v fx_fits))]. Qed.
