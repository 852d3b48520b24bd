(** * Mixed elliptic forms *)
From Coq Require Import String List Arith Bool Lia Ring Field.
From Verif Require Import Base BaseProof FormModel FormSpec FormProof FormProof2 AdModel AdModel2 AdSpec AdProof AdProof2 AdProof3 BcProof2 MixSpec.
Import ListNotations.
Open Scope list_scope.

Section MixProof.
  Context {F : scalar} (HF : is_ring F).
  Let HR : ring_theory (@k0 F) k1 kadd kmul ksub kopp eq := HF.
  Add Ring KringK : HR.
  Local Open Scope num_scope.

  (** the loop over the points gives the system of a form *)
  Lemma form_loop : forall (e : element F) w n (integrand : nat -> nat -> dual F) r alpha (B : nat -> nat -> (nat -> F) -> F) l form,
    (forall a, a < n -> du_v (r a) = l (unit_at a)) -> (forall a b, a < n -> du_d (r a) b = k0) ->
    (forall i a, i < length w -> a < n -> lin n alpha (integrand i a) (B i a)) ->
    (forall a x, a < n -> form x (unit_at a) = integral e w (fun i => B i a x)) ->
    exists r', foldM (fun r i => Ok (fun a => dadd (r a) (dscale (e_det e i * weight w i) (integrand i a)))) (seq 0 (length w)) r = Ok r' /\
      system_of n form l alpha (of_duals n r').
  Proof.
    intros e w n integrand r alpha B l form H1 H2 H3 H4.
    destruct (point_loop HF true (length w) (fun i a => dscale (e_det e i * weight w i) (integrand i a)) r) as [PL _].
    destruct (PL eq_refl) as (r' & Q1 & Q2). exists r'. split; [exact Q1|].
    apply (affine_system n r' (fun a => du_v (r a)) (fun a x => ksum (length w) (fun i => (e_det e i * weight w i) * B i a x))).
    - intros a Ha. exists (dsum (length w) (fun i => dscale (e_det e i * weight w i) (integrand i a))). split.
      + apply (lin_sum HF). intros i Hi. apply (lin_scale HF). apply H3; assumption.
      + destruct (Q2 a) as [Q3 Q4]. split.
        * rewrite Q3. f_equal. symmetry. apply dsum_v.
        * intros b Hb. rewrite Q4, H2, dsum_d by assumption. ring.
    - exact H1.
    - intros a x Ha. rewrite H4 by exact Ha. unfold integral. rewrite (Sum_ksum HF). apply ksum_ext. intros. unfold weight. ring.
  Qed.

  Section Generic.
    Variable d : mix_data F.
    Let nu := m_nu d.
    Let np := m_np d.

    Definition mix_row (i a : nat) (x : nat -> F) : F :=
      if a <? nu then
        ksum (m_dim d) (fun dir => m_psi d i a dir * (m_a d i * ksum nu (fun l => m_psi d i l dir * x l)))
        - m_op d i a * ksum np (fun l => m_chi d i l * x (nu + l)%nat)
      else m_chi d i (a - nu) * ksum nu (fun l => m_op d i l * x l)
           + m_chi d i (a - nu) * (m_c d i * ksum np (fun l => m_chi d i l * x (nu + l)%nat)).

    Lemma m_pot_low : forall a i, a < nu -> m_pot d (unit_at a) i = k0.
    Proof. intros. apply (sum_unit_out HF). intros; unfold nu, np in *; lia. Qed.
    Lemma m_pot_high : forall a i, nu <= a -> a < nu + np -> m_pot d (unit_at a) i = m_chi d i (a - nu).
    Proof.
      intros a i H H'. pose proof (sum_unit_shift HF np nu (a - nu) (fun k => m_chi d i k)) as SU.
      replace (nu + (a - nu))%nat with a in SU by lia. apply SU. lia.
    Qed.

    Lemma mix_row_ok : forall a x, a < nu + np -> mix_form d x (unit_at a) = integral (m_e d) (m_w d) (fun i => mix_row i a x).
    Proof.
      intros a x Ha. unfold mix_form. apply (integral_ext HF). intros i Hi. unfold mix_row.
      assert (FX : forall dir, m_flux d x i dir = ksum nu (fun l => m_psi d i l dir * x l)).
      { intros. unfold m_flux. rewrite (Sum_ksum HF). apply ksum_ext. intros; ring. }
      assert (DX : m_div d x i = ksum nu (fun l => m_op d i l * x l)).
      { unfold m_div. rewrite (Sum_ksum HF). apply ksum_ext. intros; ring. }
      assert (PX : m_pot d x i = ksum np (fun l => m_chi d i l * x (nu + l)%nat)).
      { unfold m_pot. rewrite (Sum_ksum HF). apply ksum_ext. intros. fold nu. ring. }
      destruct (Nat.ltb_spec a nu) as [H|H].
      - rewrite m_pot_low by exact H. unfold m_div at 1. rewrite (sum_unit_in HF) by exact H. rewrite PX, (Sum_ksum HF).
        rewrite (ksum_ext (m_dim d) _ (fun dir => m_psi d i a dir * (m_a d i * ksum nu (fun l => m_psi d i l dir * x l)))).
        + ring.
        + intros dir Hd. unfold m_flux at 2. rewrite (sum_unit_in HF) by exact H. rewrite FX. ring.
      - rewrite m_pot_high by assumption. unfold m_div at 1.
        rewrite (sum_unit_out HF _ _ (fun k => k)) by (intros; unfold nu, np in *; lia). rewrite DX, PX, (Sum_ksum HF).
        rewrite (ksum_zero HF); [ring|]. intros dir Hd. unfold m_flux at 2.
        rewrite (sum_unit_out HF _ _ (fun k => k)) by (intros; unfold nu, np in *; lia). ring.
    Qed.

    Lemma mix_load_unit : forall a, a < nu + np ->
      mix_load d (unit_at a) = if a <? nu then k0
        else - ksum (length (m_w d)) (fun i => (e_det (m_e d) i * weight (m_w d) i * m_chi d i (a - nu)) * m_src d i).
    Proof.
      intros a Ha. unfold mix_load, integral. rewrite (Sum_ksum HF). destruct (Nat.ltb_spec a nu) as [H|H].
      - rewrite (ksum_zero HF); [ring|]. intros i Hi. rewrite m_pot_low by exact H. ring.
      - f_equal. apply ksum_ext. intros i Hi. rewrite m_pot_high by assumption. unfold weight. ring.
    Qed.

    Lemma mix_linear_1 : forall y, linear_in (nu + np) (fun x => mix_form d x y).
    Proof.
      intros y. unfold mix_form. apply (linear_integral HF). intros i Hi. apply (linear_add HF); [apply (linear_add HF); [apply (linear_sub HF)|]|].
      - apply (linear_sum HF). intros dir Hd. apply (linear_l HF). apply (linear_r HF). unfold m_flux. apply (linear_sum HF).
        intros k Hk. apply (linear_r HF). apply (linear_var HF). unfold nu, np in *; lia.
      - apply (linear_r HF). unfold m_pot. apply (linear_sum HF). intros k Hk. apply (linear_r HF).
        apply (linear_var HF _ (m_nu d + k)). unfold nu, np in *; lia.
      - apply (linear_r HF). unfold m_div. apply (linear_sum HF). intros k Hk. apply (linear_r HF).
        apply (linear_var HF). unfold nu, np in *; lia.
      - apply (linear_l HF). apply (linear_r HF). unfold m_pot. apply (linear_sum HF). intros k Hk. apply (linear_r HF).
        apply (linear_var HF _ (m_nu d + k)). unfold nu, np in *; lia.
    Qed.
    Lemma mix_linear_2 : forall x, linear_in (nu + np) (fun y => mix_form d x y).
    Proof.
      intros x. unfold mix_form. apply (linear_integral HF). intros i Hi. apply (linear_add HF); [apply (linear_add HF); [apply (linear_sub HF)|]|].
      - apply (linear_sum HF). intros dir Hd. apply (linear_l HF). apply (linear_l HF). unfold m_flux. apply (linear_sum HF).
        intros k Hk. apply (linear_r HF). apply (linear_var HF). unfold nu, np in *; lia.
      - apply (linear_l HF). unfold m_div. apply (linear_sum HF). intros k Hk. apply (linear_r HF).
        apply (linear_var HF). unfold nu, np in *; lia.
      - apply (linear_l HF). unfold m_pot. apply (linear_sum HF). intros k Hk. apply (linear_r HF).
        apply (linear_var HF _ (m_nu d + k)). unfold nu, np in *; lia.
      - apply (linear_l HF). apply (linear_l HF). unfold m_pot. apply (linear_sum HF). intros k Hk. apply (linear_r HF).
        apply (linear_var HF _ (m_nu d + k)). unfold nu, np in *; lia.
    Qed.
    Lemma mix_energy : forall x, mix_form d x x = integral (m_e d) (m_w d) (fun i =>
      Sum (m_dim d) (fun dir => m_a d i * (m_flux d x i dir * m_flux d x i dir)) + m_c d i * (m_pot d x i * m_pot d x i)).
    Proof. intros. unfold mix_form. apply (integral_ext HF). intros. ring. Qed.
  End Generic.

  (** ** Degenerate form *)
  Theorem degenerate_system : forall ksqrt positive (sp : fe_space F) fn iel alpha d,
    por_reads "v" "q" sp fn iel d -> por_fits d ->
    exists L, degenerate_form ksqrt positive (Some sp) (Some fn) iel alpha = Ok L /\
      system_of (t_nphi (e_tab (po_ue d)) + t_nphi (e_tab (po_pe d))) (mix_form (degenerate_mix ksqrt positive d))
        (mix_load (degenerate_mix ksqrt positive d)) alpha L.
  Proof.
    intros ksqrt positive sp fn iel alpha d (R1 & R2 & R3 & R4 & R5 & R6 & R7 & R8 & R9 & R10) (U1 & P1 & V & D & D1 & V' & G).
    unfold degenerate_form, dindex. rewrite R1, R2, R3, R4, R5, R6. simpl bind.
    unfold get_at at 1. rewrite R7. simpl bind. unfold quadrature_of, get_at at 1. rewrite R8. simpl bind.
    unfold get_at at 1. rewrite R9. simpl bind. rewrite U1, P1.
    set (nu := t_nphi (e_tab (po_ue d))) in *. set (np := t_nphi (e_tab (po_pe d))) in *.
    replace (nu * 1)%nat with nu by lia. replace (np * 1)%nat with (np * 1)%nat by lia.
    set (md := degenerate_mix ksqrt positive d).
    destruct (source_loop HF true nu np 1 (po_f d) (fun fc k => ksum (length (po_w d)) (fun i => (e_det (po_ue d) i * weight (po_w d) i * t_val (e_tab (po_pe d)) 0 i k 0) * fc i))) as [SL _].
    destruct (SL R10) as (r & S1 & S2 & S3 & S4). cbn [seq] in S1 |- *. rewrite S1. cbn [bind]. clear S1 SL.
    assert (SH : laplace_shapes (e_dim (po_ue d)) nu 1 np 1 (t_vs (e_tab (po_pe d))) = true).
    { unfold laplace_shapes. rewrite !Nat.mul_1_r, !Nat.eqb_refl, V'. unfold po_dim in D1. rewrite Nat.min_r by lia. reflexivity. }
    rewrite SH. fold (po_dim d). rewrite V, (Nat.min_l (po_dim d) (length (po_grad d))), Nat.min_id, Nat.eqb_refl by exact G. cbn [andb].
    rewrite Nat.mul_1_r.
    edestruct (form_loop (po_ue d) (po_w d) (nu + np)
      (degenerate_integrand ksqrt positive (po_dim d) (e_tab (po_ue d)) (e_tab (po_pe d)) (e_det (po_ue d)) (po_phi d) (po_delta d)
         (fun dd i => nth dd (po_grad d) (fun _ => k0) i) nu (dvar alpha)) r alpha (mix_row md) (mix_load md) (mix_form md)) as (r' & Q1 & Q2).
    5:{ rewrite Q1. cbn [bind]. eexists. split; [reflexivity|exact Q2]. }
    - intros a Ha. rewrite (mix_load_unit md) by exact Ha. change (m_nu md) with nu. destruct (Nat.ltb_spec a nu) as [H|H].
      + apply S2. exact H.
      + replace a with (nu + ((a - nu) * 1 + 0))%nat at 1 by lia. rewrite S3 by lia. reflexivity.
    - intros. apply S4.
    - intros i a Hi Ha. unfold degenerate_integrand, mix_row. change (m_nu md) with nu. change (m_np md) with np. rewrite V, Nat.min_id.
      assert (DV : forall k, degenerate_div ksqrt positive (po_dim d) (e_tab (po_ue d)) (e_det (po_ue d)) (po_phi d) (po_delta d) (fun dd i => nth dd (po_grad d) (fun _ => k0) i) i k = m_op md i k).
      { intros k. unfold degenerate_div. rewrite V, D, !Nat.min_id. simpl. unfold po_div, po_adv, kdiv. rewrite !(Sum_ksum HF).
        destruct (positive (po_phi d i)); [reflexivity|ring]. }
      destruct (Nat.ltb_spec a nu) as [H|H].
      + apply (lin_sub HF).
        * apply (lin_eq _ _ _ (fun x => ksum (po_dim d) (fun dir => t_val (e_tab (po_ue d)) 0 i a dir * ksum nu (fun l => t_val (e_tab (po_ue d)) 0 i l dir * x l)))).
          -- apply (lin_sum HF). intros dir _. apply (lin_scale HF). apply (lin_sum HF). intros l Hl.
             apply (lin_scale HF). apply (lin_var HF). unfold nu, np in *; lia.
          -- intros x. apply ksum_ext. intros dir Hd. simpl. unfold nu. ring.
        * rewrite DV. apply (lin_scale HF). apply (lin_sum HF). intros l Hl. apply (lin_scale HF). apply (lin_var HF). unfold nu, np in *; lia.
      + apply (lin_add HF).
        * apply (lin_scale HF). apply (lin_sum HF). intros l Hl. rewrite DV. apply (lin_scale HF). apply (lin_var HF). unfold nu, np in *; lia.
        * apply (lin_eq _ _ _ (fun x => t_val (e_tab (po_pe d)) 0 i (a - nu) 0 * ksum np (fun l => t_val (e_tab (po_pe d)) 0 i l 0 * x (nu + l)%nat))).
          -- apply (lin_scale HF). apply (lin_sum HF). intros l Hl. apply (lin_scale HF). apply (lin_var HF). unfold nu, np in *; lia.
          -- intros x. simpl. unfold nu, np. ring.
    - intros a x Ha. apply (mix_row_ok md a x Ha).
  Qed.

  (** ** Unscaled form *)
  Theorem unscaled_system : forall ksqrt small threshold (sp : fe_space F) fn iel alpha d,
    por_reads "u" "p" sp fn iel d -> por_fits d ->
    exists L, unscaled_form ksqrt small threshold (Some sp) (Some fn) iel alpha = Ok L /\
      system_of (t_nphi (e_tab (po_ue d)) + t_nphi (e_tab (po_pe d))) (mix_form (unscaled_mix ksqrt small threshold d))
        (mix_load (unscaled_mix ksqrt small threshold d)) alpha L.
  Proof.
    intros ksqrt small threshold sp fn iel alpha d (R1 & R2 & R3 & R4 & R5 & R6 & R7 & R8 & R9 & R10) (U1 & P1 & V & D & D1 & V' & G).
    unfold unscaled_form, dindex. rewrite R1, R2, R3, R4, R5, R6. simpl bind.
    unfold get_at at 1. rewrite R7. simpl bind. unfold quadrature_of, get_at at 1. rewrite R8. simpl bind.
    unfold get_at at 1. rewrite R9. simpl bind. rewrite U1, P1.
    set (nu := t_nphi (e_tab (po_ue d))) in *. set (np := t_nphi (e_tab (po_pe d))) in *.
    replace (nu * 1)%nat with nu by lia.
    set (md := unscaled_mix ksqrt small threshold d).
    destruct (source_loop HF true nu np 1 (po_f d) (fun fc k => ksum (length (po_w d)) (fun i => (ksqrt (po_phi d i) * (e_det (po_ue d) i * weight (po_w d) i * t_val (e_tab (po_pe d)) 0 i k 0)) * fc i))) as [SL _].
    destruct (SL R10) as (r & S1 & S2 & S3 & S4). cbn [seq] in S1 |- *. rewrite S1. cbn [bind]. clear S1 SL.
    assert (SH : laplace_shapes (e_dim (po_ue d)) nu 1 np 1 (t_vs (e_tab (po_pe d))) = true).
    { unfold laplace_shapes. rewrite !Nat.mul_1_r, !Nat.eqb_refl, V'. unfold po_dim in D1. rewrite Nat.min_r by lia. reflexivity. }
    rewrite SH. fold (po_dim d). rewrite Nat.mul_1_r.
    edestruct (form_loop (po_ue d) (po_w d) (nu + np)
      (unscaled_integrand small threshold (po_dim d) (e_tab (po_ue d)) (e_tab (po_pe d)) (e_det (po_ue d)) (po_phi d) (po_delta d)
         nu (dvar alpha)) r alpha (mix_row md) (mix_load md) (mix_form md)) as (r' & Q1 & Q2).
    5:{ rewrite Q1. cbn [bind]. eexists. split; [reflexivity|exact Q2]. }
    - intros a Ha. rewrite (mix_load_unit md) by exact Ha. change (m_nu md) with nu. destruct (Nat.ltb_spec a nu) as [H|H].
      + apply S2. exact H.
      + replace a with (nu + ((a - nu) * 1 + 0))%nat at 1 by lia. rewrite S3 by lia. simpl. f_equal. apply ksum_ext. intros. ring.
    - intros. apply S4.
    - intros i a Hi Ha. unfold unscaled_integrand, mix_row. change (m_nu md) with nu. change (m_np md) with np. rewrite V, D, !Nat.min_id.
      assert (DV : forall k, kdiv (ksum (po_dim d) (fun dir => t_val (e_tab (po_ue d)) (S dir) i k dir)) (e_det (po_ue d) i) = m_op md i k).
      { intros k. simpl. unfold po_div, kdiv. rewrite !(Sum_ksum HF). reflexivity. }
      destruct (Nat.ltb_spec a nu) as [H|H].
      + apply (lin_sub HF).
        * apply (lin_eq _ _ _ (fun x => ksum (po_dim d) (fun dir => t_val (e_tab (po_ue d)) 0 i a dir * (kdiv k1 ((if small (po_delta d i) then threshold else po_delta d i) * (if small (po_delta d i) then threshold else po_delta d i)) * ksum nu (fun l => t_val (e_tab (po_ue d)) 0 i l dir * x l))))).
          -- apply (lin_sum HF). intros dir _. apply (lin_scale HF). apply (lin_scale HF). apply (lin_sum HF). intros l Hl.
             apply (lin_scale HF). apply (lin_var HF). unfold nu, np in *; lia.
          -- intros x. apply ksum_ext. intros dir Hd. simpl. unfold nu, kdiv. ring.
        * rewrite DV. apply (lin_scale HF). apply (lin_sum HF). intros l Hl. apply (lin_scale HF). apply (lin_var HF). unfold nu, np in *; lia.
      + apply (lin_add HF).
        * apply (lin_scale HF). apply (lin_sum HF). intros l Hl. rewrite DV. apply (lin_scale HF). apply (lin_var HF). unfold nu, np in *; lia.
        * apply (lin_scale HF). apply (lin_scale HF). apply (lin_sum HF). intros l Hl. apply (lin_scale HF). apply (lin_var HF). unfold nu, np in *; lia.
    - intros a x Ha. apply (mix_row_ok md a x Ha).
  Qed.

  (** consequences *)
  Theorem degenerate_exact : forall ksqrt positive (sp : fe_space F) fn iel d, por_reads "v" "q" sp fn iel d -> por_fits d ->
    exact_jacobian (degenerate_form ksqrt positive (Some sp) (Some fn) iel).
  Proof.
    intros ksqrt positive sp fn iel d HR' HD. apply (system_exact HF _ (t_nphi (e_tab (po_ue d)) + t_nphi (e_tab (po_pe d))) (mix_form (degenerate_mix ksqrt positive d)) (mix_load (degenerate_mix ksqrt positive d))).
    - intros y x. exact (mix_linear_1 (degenerate_mix ksqrt positive d) y x).
    - intros alpha L H. destruct (degenerate_system ksqrt positive sp fn iel alpha d HR' HD) as (L' & E & S). rewrite H in E. injection E as <-. exact S.
  Qed.
  Theorem unscaled_exact : forall ksqrt small threshold (sp : fe_space F) fn iel d, por_reads "u" "p" sp fn iel d -> por_fits d ->
    exact_jacobian (unscaled_form ksqrt small threshold (Some sp) (Some fn) iel).
  Proof.
    intros ksqrt small threshold sp fn iel d HR' HD. apply (system_exact HF _ (t_nphi (e_tab (po_ue d)) + t_nphi (e_tab (po_pe d))) (mix_form (unscaled_mix ksqrt small threshold d)) (mix_load (unscaled_mix ksqrt small threshold d))).
    - intros y x. exact (mix_linear_1 (unscaled_mix ksqrt small threshold d) y x).
    - intros alpha L H. destruct (unscaled_system ksqrt small threshold sp fn iel alpha d HR' HD) as (L' & E & S). rewrite H in E. injection E as <-. exact S.
  Qed.
  Lemma mix_quad : forall (m : mix_data F) l alpha L, system_of (m_nu m + m_np m) (mix_form m) l alpha L -> forall x,
    quad L x x = integral (m_e m) (m_w m) (fun i =>
      Sum (m_dim m) (fun dir => m_a m i * (m_flux m x i dir * m_flux m x i dir)) + m_c m i * (m_pot m x i * m_pot m x i)).
  Proof.
    intros m l alpha L H x. rewrite (system_quad HF _ _ _ _ _ x x) with (1 := fun y x => mix_linear_1 m y x) (2 := fun x y => mix_linear_2 m x y) (3 := H).
    apply mix_energy.
  Qed.
  Theorem degenerate_energy : forall ksqrt positive (sp : fe_space F) fn iel alpha d L, por_reads "v" "q" sp fn iel d -> por_fits d ->
    degenerate_form ksqrt positive (Some sp) (Some fn) iel alpha = Ok L ->
    let m := degenerate_mix ksqrt positive d in forall x,
    quad L x x = integral (po_ue d) (po_w d) (fun i => Sum (po_dim d) (fun dir => m_flux m x i dir * m_flux m x i dir) + m_pot m x i * m_pot m x i).
  Proof.
    intros ksqrt positive sp fn iel alpha d L HR' HD H m x. destruct (degenerate_system ksqrt positive sp fn iel alpha d HR' HD) as (L' & E & S).
    rewrite H in E. injection E as <-. rewrite (mix_quad m _ _ _ S). apply (integral_ext HF). intros i Hi. simpl.
    f_equal; [|ring]. apply (Sum_ext HF). intros. ring.
  Qed.
  Theorem unscaled_energy : forall ksqrt small threshold (sp : fe_space F) fn iel alpha d L, por_reads "u" "p" sp fn iel d -> por_fits d ->
    unscaled_form ksqrt small threshold (Some sp) (Some fn) iel alpha = Ok L ->
    let m := unscaled_mix ksqrt small threshold d in forall x,
    quad L x x = integral (po_ue d) (po_w d) (fun i => Sum (po_dim d) (fun dir => m_a m i * (m_flux m x i dir * m_flux m x i dir)) + m_c m i * (m_pot m x i * m_pot m x i)).
  Proof.
    intros ksqrt small threshold sp fn iel alpha d L HR' HD H m x. destruct (unscaled_system ksqrt small threshold sp fn iel alpha d HR' HD) as (L' & E & S).
    rewrite H in E. injection E as <-. exact (mix_quad m _ _ _ S x).
  Qed.
End MixProof.
