(** * C79: the boundary forms of the dual problems, and the forms that cannot be evaluated *)
From Coq Require Import String List Arith Bool ZArith.
From Verif Require Import Base FormModel FormSpec FormExamples AdModel AdModel2 AdSpec BcSpec AdExamples DualModel DualBcModel DualBcSpec DualBcProof2 DualBcExamples DualBcRefute SpaceModel.
Import ListNotations.
Open Scope nat_scope.
Open Scope list_scope.

(** Given displacement: - (u_D, tau n) over the facet, no matrix *)
Theorem C79_displacement : forall F, is_ring F ->
  forall (sp : fe_space F) fn trace iel alpha d tr,
  bc_reads sp fn "s" "u" iel d -> trace iel = Ok tr -> b_comp d <= length (b_g d) -> flux_fits (flux_of d tr) ->
  exists L, le_dual_bc sp fn trace iel alpha = Ok L /\
    system_of (b_size d) (fun _ _ => k0) (fun y => kopp (flux_load (flux_of d tr) y)) alpha L.
Proof. exact @le_dual_bc_system. Qed.
Print Assumptions C79_displacement.

(** Given displacement and rotation: - (u_D, tau n) - (t_D, v n) *)
Theorem C79_cosserat : forall F, is_ring F ->
  forall (sp : fe_space F) fn trace_s trace_m iel alpha ds dm ts tm,
  bc_reads sp fn "s" "u" iel ds -> bc_reads sp fn "m" "t" iel dm -> trace_s iel = Ok ts -> trace_m iel = Ok tm ->
  b_comp ds <= length (b_g ds) -> b_comp dm <= length (b_g dm) -> same_facet ds dm ts tm ->
  flux_fits (flux_of ds ts) -> flux_fits (flux_of dm tm) ->
  exists L, lce_dual_bc sp fn trace_s trace_m iel alpha = Ok L /\
    system_of (b_size ds + b_size dm) (fun _ _ => k0)
      (fun y => kadd (kopp (flux_load (flux_of ds ts) y)) (kopp (flux_load (flux_of dm tm) (after (b_size ds) y)))) alpha L.
Proof. exact @lce_dual_bc_system. Qed.
Print Assumptions C79_cosserat.

(** With the scaled couple stress the rotation is multiplied by l + eps, eps = 1e-16 *)
Theorem C79_scaled : forall F, is_ring F ->
  forall eps (sp : fe_space F) fn trace_s trace_m iel alpha ds dm ts tm l g,
  bc_reads sp fn "s" "u" iel ds -> bc_reads sp fn "m" "t" iel dm -> trace_s iel = Ok ts -> trace_m iel = Ok tm ->
  dget (scal_of fn) "l"%string = Some l -> dget (vec_of fn) "grad_l"%string = Some g ->
  b_comp ds <= length (b_g ds) -> b_comp dm <= length (b_g dm) -> same_facet ds dm ts tm ->
  flux_fits (flux_of ds ts) -> flux_fits (flux_of dm tm) ->
  exists L, lce_scaled_dual_bc eps sp fn trace_s trace_m iel alpha = Ok L /\
    system_of (b_size ds + b_size dm) (fun _ _ => k0)
      (fun y => kadd (kopp (flux_load (flux_of ds ts) y))
                     (kopp (flux_load (flux_times (fun i => kadd (l i) eps) dm tm) (after (b_size ds) y)))) alpha L.
Proof. exact @lce_scaled_dual_bc_system. Qed.
Print Assumptions C79_scaled.

(** Given tractions by penalty: beta (s n, tau n) + beta (m n, v n) - beta (s_N, tau n) -
    beta (m_N, v n), at the state zero.  Missing: the residual at the state handed over (refuted
    below) *)
Theorem C79_traction_partial : forall F, is_ring F ->
  forall beta (sp : fe_space F) fn trace_s trace_m iel alpha ds dm ts tm,
  bc_reads sp fn "s" "s" iel ds -> bc_reads sp fn "m" "m" iel dm -> trace_s iel = Ok ts -> trace_m iel = Ok tm ->
  b_comp ds <= length (b_g ds) -> b_comp dm <= length (b_g dm) -> same_facet ds dm ts tm ->
  flux_fits (flux_of ds ts) -> flux_fits (flux_of dm tm) ->
  exists L, lce_dual_bc_neumann beta sp fn trace_s trace_m iel alpha = Ok L /\
    system_of (b_size ds + b_size dm)
      (fun x y => kadd (traction_form beta (flux_of ds ts) x y) (traction_form beta (flux_of dm tm) (after (b_size ds) x) (after (b_size ds) y)))
      (fun y => kadd (traction_load beta (flux_of ds ts) y) (traction_load beta (flux_of dm tm) (after (b_size ds) y))) (fun _ => k0) L.
Proof. exact @lce_dual_bc_neumann_system. Qed.
Print Assumptions C79_traction_partial.

Theorem C79_traction_state_refuted :
  ~ (forall F, is_ring F -> forall beta (sp : fe_space F) fn trace_s trace_m iel ds dm ts tm,
       bc_reads sp fn "s" "s" iel ds -> bc_reads sp fn "m" "m" iel dm -> trace_s iel = Ok ts -> trace_m iel = Ok tm ->
       b_comp ds <= length (b_g ds) -> b_comp dm <= length (b_g dm) -> same_facet ds dm ts tm ->
       flux_fits (flux_of ds ts) -> flux_fits (flux_of dm tm) ->
       exact_jacobian (lce_dual_bc_neumann beta sp fn trace_s trace_m iel)).
Proof. exact traction_state_refuted. Qed.
Print Assumptions C79_traction_state_refuted.

(** The other two classes LCEDualWeakFormBCNeumann raise whatever they are given *)
Theorem C79_old_traction_never : forall F names (sp : fe_space F) fn iel alpha L, old_bc_neumann names sp fn iel alpha <> Ok L.
Proof. exact @old_neumann_never. Qed.
Print Assumptions C79_old_traction_never.

(** The lists of quadrature rules of a product space have four entries, ... *)
Theorem C79_four_rules : forall fields q b, define_quadrature fields = Ok (q, b) -> length q = 4 /\ length b = 4.
Proof. exact quadrature_lists_four. Qed.
Print Assumptions C79_four_rules.

(** ... so the forms that unpack them into two names never return: LaplacePrimalWeakForm, its
    boundary form, LEDualWeakForm.evaluate_form and LERieszMapWeakForm.evaluate_form *)
Theorem C79_laplace_primal_never : forall F rest (space : option (fe_space F)) fn iel alpha L,
  (forall sp, space = Some sp -> length (fs_quadrature sp) = 4) -> laplace_primal rest space fn iel alpha <> Ok L.
Proof. exact @laplace_primal_never. Qed.
Print Assumptions C79_laplace_primal_never.
Theorem C79_laplace_primal_bc_never : forall F rest (sp : fe_space F) fn iel alpha L,
  length (fs_quadrature sp) = 4 -> laplace_primal_bc rest sp fn iel alpha <> Ok L.
Proof. exact @laplace_primal_bc_never. Qed.
Print Assumptions C79_laplace_primal_bc_never.
Theorem C79_elastic_never : forall F needs_rhs rest (space : option (fe_space F)) fn iel alpha L,
  (forall sp, space = Some sp -> length (fs_quadrature sp) = 4) -> le_ad_form needs_rhs rest space fn iel alpha <> Ok L.
Proof. exact @le_ad_never. Qed.
Print Assumptions C79_elastic_never.

Example C79_displacement_case :
  (do L <- le_dual_bc (F := Zs) dx_space dx_fn (fun _ => Ok dx_ts) 0 zero_state; Ok (map (l_r L) (seq 0 (l_n L)))) = Ok [-1160; -514; -328; -104]%Z /\
  bc_reads dx_space dx_fn "s" "u" 0 dx_ds /\ flux_fits (flux_of dx_ds dx_ts).
Proof. split; [vm_compute; reflexivity|exact (conj dx_reads_s dx_fits_s)]. Qed.
Example C79_cosserat_case :
  (do L <- lce_dual_bc (F := Zs) dx_space dx_fn (fun _ => Ok dx_ts) (fun _ => Ok dx_tm) 0 zero_state; Ok (map (l_r L) (seq 0 (l_n L)))) =
  Ok [-1160; -514; -328; -104; -282; -328]%Z /\
  bc_reads dx_space dx_fn "m" "t" 0 dx_dm /\ flux_fits (flux_of dx_dm dx_tm) /\ same_facet dx_ds dx_dm dx_ts dx_tm.
Proof. split; [vm_compute; reflexivity|exact (conj dx_reads_m (conj dx_fits_m dx_same))]. Qed.
Example C79_scaled_case :
  (do L <- lce_scaled_dual_bc (F := Zs) 1%Z dx_space dx_fn (fun _ => Ok dx_ts) (fun _ => Ok dx_tm) 0 zero_state; Ok (map (l_r L) (seq 0 (l_n L)))) =
  Ok [-1160; -514; -328; -104; -1098; -1272]%Z.
Proof. vm_compute. reflexivity. Qed.
Example C79_traction_case :
  entries_of (lce_dual_bc_neumann (F := Zs) 10%Z dx_space dx_fn (fun _ => Ok dx_ts) (fun _ => Ok dx_tm) 0 zero_state) =
  Ok (6, [-11600; -5140; -3280; -1040; -2820; -3280]%Z,
      [[51020; 0; 14080; 0; 0; 0]; [0; 51020; 0; 14080; 0; 0]; [14080; 0; 4160; 0; 0; 0]; [0; 14080; 0; 4160; 0; 0];
       [0; 0; 0; 0; 3120; 3600]; [0; 0; 0; 0; 3600; 4160]]%Z) /\
  bc_reads dx_space dx_fn "s" "s" 0 dx_ds /\ bc_reads dx_space dx_fn "m" "m" 0 dx_dm.
Proof. split; [vm_compute; reflexivity|exact (conj dx_reads_ss dx_reads_mm)]. Qed.
Example C79_old_case :
  old_bc_neumann (F := Zs) ["s"; "m"]%string dx_space dx_fn 0 zero_state = Err AttributeError /\
  laplace_primal_bc (F := Zs) (Err KeyError) (mk_fe_space (F := Zs) [("p"%string, dx_m)] [None; Some be_w; None; None])
    (mk_user (F := Zs) [("p"%string, be_g)] []) 0 zero_state = Err ValueError /\
  define_quadrature [(2, 1)] = Ok ([Some QPoint; Some (QBasix CInterval 3); Some (QBasix CTriangle 3); None], [None; Some (QBasix CInterval 3); None; None]).
Proof. vm_compute. repeat split. Qed.
