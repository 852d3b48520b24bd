(** * Witness against the wider statement about the traction penalty *)
From Coq Require Import String List Arith Bool ZArith Lia.
From Verif Require Import Base FormModel FormSpec FormExamples AdModel AdModel2 AdSpec BcSpec AdExamples AdRefute DualBcModel DualBcSpec DualBcExamples.
Import ListNotations.
Open Scope nat_scope.
Open Scope list_scope.

Lemma traction_state_refuted :
  ~ (forall F, is_ring F -> forall beta (sp : fe_space F) fn trace_s trace_m iel ds dm ts tm,
       bc_reads sp fn "s" "s" iel ds -> bc_reads sp fn "m" "m" iel dm -> trace_s iel = Ok ts -> trace_m iel = Ok tm ->
       b_comp ds <= length (b_g ds) -> b_comp dm <= length (b_g dm) -> same_facet ds dm ts tm ->
       flux_fits (flux_of ds ts) -> flux_fits (flux_of dm tm) ->
       exact_jacobian (lce_dual_bc_neumann beta sp fn trace_s trace_m iel)).
Proof.
  intros H. specialize (H Zs Zs_ring 10%Z dx_space dx_fn (fun _ => Ok dx_ts) (fun _ => Ok dx_tm) 0 dx_ds dx_dm dx_ts dx_tm
    dx_reads_ss dx_reads_mm eq_refl eq_refl (le_n 2) (le_S _ _ (le_n 1)) dx_same dx_fits_s dx_fits_m). revert H.
  assert (X : match lce_dual_bc_neumann (F := Zs) 10%Z dx_space dx_fn (fun _ => Ok dx_ts) (fun _ => Ok dx_tm) 0 zero_state with
              | Ok L => (0 <? l_n L) && negb (Z.eqb (ksub (l_r L 0) (l_r L 0))
                   (Sum (F := Zs) (l_n L) (fun b => kmul (l_j L 0 b) (ksub (1%Z : Zs) (zero_state b : Zs)))))
              | Err _ => false end = true) by (vm_compute; reflexivity).
  destruct (lce_dual_bc_neumann (F := Zs) 10%Z dx_space dx_fn (fun _ => Ok dx_ts) (fun _ => Ok dx_tm) 0 zero_state) as [L|] eqn:E; [|discriminate].
  apply andb_true_iff in X as [X1 X2].
  apply (same_state_not_exact Zs _ zero_state (fun _ => 1%Z) L 0); [exact E|exact E|apply Nat.ltb_lt; exact X1|].
  intros C. rewrite C, Z.eqb_refl in X2. discriminate.
Qed.
