(** * Witnesses against the wider statements about the local systems *)
From Coq Require Import String List Arith Bool ZArith QArith Qcanon Lia.
From Verif Require Import Base FormModel FormSpec FormExamples AdModel AdModel2 AdSpec BcSpec AdExamples.
Import ListNotations.
Open Scope nat_scope.
Open Scope list_scope.

Lemma same_state_not_exact : forall (F : scalar) (form : (nat -> F) -> res (local_system F)) alpha beta L a,
  form alpha = Ok L -> form beta = Ok L -> a < l_n L ->
  ksub (l_r L a) (l_r L a) <> Sum (l_n L) (fun b => kmul (l_j L a b) (ksub (beta b) (alpha b))) ->
  ~ exact_jacobian form.
Proof. intros F form alpha beta L a H1 H2 Ha N E. destruct (E alpha beta L L H1 H2) as (_ & _ & E3). apply N. apply E3. exact Ha. Qed.

Lemma laplace_state_refuted :
  ~ (forall F, is_field F -> forall (sp : fe_space F) fn iel d, lap_reads sp fn iel d -> lap_fits d ->
       exact_jacobian (laplace_dual (Some sp) (Some fn) iel)).
Proof.
  intros H. specialize (H Qs Qs_field lx_space lx_fn 0 lx_data lx_reads lx_fits). revert H.
  assert (X : match laplace_dual (F := Qs) (Some lx_space) (Some lx_fn) 0 (fun _ => q 0) with
              | Ok L => (0 <? l_n L) && negb (Qeq_bool (this (ksub (l_r L 0) (l_r L 0)))
                   (this (Sum (F := Qs) (l_n L) (fun b => kmul (l_j L 0 b) (ksub (q 1 : Qs) (q 0 : Qs))))))
              | Err _ => false end = true) by (vm_compute; reflexivity).
  destruct (laplace_dual (F := Qs) (Some lx_space) (Some lx_fn) 0 (fun _ => q 0)) as [L|] eqn:E; [|discriminate].
  apply andb_true_iff in X as [X1 X2].
  apply (same_state_not_exact Qs _ (fun _ => q 0) (fun _ => q 1) L 0); [exact E|exact E|apply Nat.ltb_lt; exact X1|].
  intros C. rewrite C in X2. rewrite (proj2 (Qeq_bool_iff _ _) (Qeq_refl _)) in X2. discriminate.
Qed.

Lemma dirichlet_state_refuted :
  ~ (forall F, is_ring F -> forall beta (sp : fe_space F) fn iel d, bc_reads sp fn "u" "u" iel d -> b_comp d <= length (b_g d) ->
       exact_jacobian (le_bc_dirichlet beta sp fn iel)).
Proof.
  intros H. specialize (H Zs Zs_ring 10%Z be_space be_fn 0 be_data be_reads (le_n 2)). revert H.
  assert (X : match le_bc_dirichlet (F := Zs) 10%Z be_space be_fn 0 zero_state with
              | Ok L => (0 <? l_n L) && negb (Z.eqb (ksub (l_r L 0) (l_r L 0))
                   (Sum (F := Zs) (l_n L) (fun b => kmul (l_j L 0 b) (ksub (1%Z : Zs) (zero_state b : Zs)))))
              | Err _ => false end = true) by (vm_compute; reflexivity).
  destruct (le_bc_dirichlet (F := Zs) 10%Z be_space be_fn 0 zero_state) as [L|] eqn:E; [|discriminate].
  apply andb_true_iff in X as [X1 X2].
  apply (same_state_not_exact Zs _ zero_state (fun _ => 1%Z) L 0); [exact E|exact E|apply Nat.ltb_lt; exact X1|].
  intros C. rewrite C, Z.eqb_refl in X2. discriminate.
Qed.

Lemma normal_slanted_refuted :
  ~ (forall F, is_ring F -> forall beta (sp : fe_space F) fn normal iel alpha d n L,
       bc_reads sp fn "u" "u" iel d -> normal iel = Ok n ->
       b_comp d = e_dim (b_e d) + 1 -> b_comp d = length (b_g d) -> b_comp d <= length n ->
       le_bc_normal beta sp fn normal iel alpha = Ok L ->
       system_of (b_size d) (normal_form beta n d) (normal_load beta n d) (fun _ => k0) L).
Proof.
  intros H. specialize (H Zs Zs_ring 10%Z be_space be_fn slanted_normal 0 zero_state be_data [3; 4; 0]%Z).
  assert (X : match le_bc_normal (F := Zs) 10%Z be_space be_fn slanted_normal 0 zero_state with
              | Ok L => negb (Z.eqb (l_j L 0 1) (normal_form (F := Zs) 10%Z [3; 4; 0]%Z be_data (unit_at 1) (unit_at 0)))
              | Err _ => false end = true) by (vm_compute; reflexivity).
  destruct (le_bc_normal (F := Zs) 10%Z be_space be_fn slanted_normal 0 zero_state) as [L|] eqn:E; [|discriminate].
  destruct (H L be_reads eq_refl eq_refl eq_refl) as (_ & _ & J); [exact (le_S _ _ (le_n 2))|reflexivity|].
  assert (A0 : 0 < b_size be_data) by (vm_compute; lia). assert (A1 : 1 < b_size be_data) by (vm_compute; lia).
  rewrite (J 0 1 A0 A1), Z.eqb_refl in X. discriminate.
Qed.
