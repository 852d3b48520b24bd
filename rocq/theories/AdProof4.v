(** * Consequences for the local systems *)
From Coq Require Import String List Arith Bool Lia Ring Field.
From Verif Require Import Base BaseProof FormModel FormSpec FormProof FormProof2 AdModel AdModel2 AdSpec AdProof AdProof2 AdProof3 BcSpec BcProof BcProof2 BcProof3.
Import ListNotations.
Open Scope list_scope.

Section Conseq.
  Context {F : scalar} (HF : is_ring F).
  Let HR : ring_theory (@k0 F) k1 kadd kmul ksub kopp eq := HF.
  Add Ring KringI : HR.
  Local Open Scope num_scope.

  Theorem laplace_coupling : forall (sp : fe_space F) fn iel alpha d L, lap_reads sp fn iel d -> lap_fits d ->
    laplace_dual (Some sp) (Some fn) iel alpha = Ok L -> forall x y, quad L y x = lap_form d x y.
  Proof.
    intros sp fn iel alpha d L HR' HD H x y. destruct (laplace_system HF sp fn iel alpha d HR' HD) as (L' & E & S).
    rewrite H in E. injection E as <-. apply (system_quad HF _ _ _ _ _ x y) in S; [exact S| |].
    - intros y' x'. apply (lap_linear_1 HF d y').
    - intros x' y'. apply (lap_linear_2 HF d x').
  Qed.
  Theorem laplace_energy : forall (sp : fe_space F) fn iel alpha d L, lap_reads sp fn iel d -> lap_fits d ->
    laplace_dual (Some sp) (Some fn) iel alpha = Ok L -> forall x,
    quad L x x = integral (lp_ue d) (lp_w d) (fun i => Sum (lp_dim d) (fun dir => kinv (lp_kappa d i) * (lap_flux d x i dir * lap_flux d x i dir))).
  Proof.
    intros sp fn iel alpha d L HR' HD H x. rewrite (laplace_coupling sp fn iel alpha d L HR' HD H).
    unfold lap_form. apply (integral_ext HF). intros i Hi.
    rewrite (Sum_ext HF _ _ (fun dir => kinv (lp_kappa d i) * (lap_flux d x i dir * lap_flux d x i dir))) by (intros; ring). ring.
  Qed.
End Conseq.

Section ConseqField.
  Context {F : scalar} (HK : is_field F) (two : @kadd F k1 k1 <> k0).
  Let HF : is_ring F := field_is_ring F HK.
  Let HR : ring_theory (@k0 F) k1 kadd kmul ksub kopp eq := HF.
  Add Ring KringJ : HR.
  Local Open Scope num_scope.

  Theorem le_exact : forall (sp : fe_space F) fn iel d, le_reads sp fn iel d -> le_fits d ->
    exact_jacobian (le_primal (Some sp) (Some fn) iel).
  Proof.
    intros sp fn iel d HR' HD. apply (system_exact HF _ (le_size d) (le_form d) (le_load d)).
    - intros y x. destruct HD as [_ HD]. exact (le_linear_1 HK d y x).
    - intros alpha L H. destruct (le_system HK two sp fn iel alpha d HR' HD) as (L' & E & S). rewrite H in E. injection E as <-. exact S.
  Qed.
  Theorem le_coupling : forall (sp : fe_space F) fn iel alpha d L, le_reads sp fn iel d -> le_fits d ->
    le_primal (Some sp) (Some fn) iel alpha = Ok L -> forall x y, quad L y x = le_form d x y.
  Proof.
    intros sp fn iel alpha d L HR' HD H x y. destruct (le_system HK two sp fn iel alpha d HR' HD) as (L' & E & S).
    rewrite H in E. injection E as <-. apply (system_quad HF _ _ _ _ _ x y) in S; [exact S| |].
    - intros y' x'. exact (le_linear_1 HK d y' x').
    - intros x' y'. exact (le_linear_2 HK d x' y').
  Qed.
  Theorem le_symmetric : forall (sp : fe_space F) fn iel alpha d L, le_reads sp fn iel d -> le_fits d ->
    le_primal (Some sp) (Some fn) iel alpha = Ok L -> forall a b, a < l_n L -> b < l_n L -> l_j L a b = l_j L b a.
  Proof.
    intros sp fn iel alpha d L HR' HD H a b. destruct (le_system HK two sp fn iel alpha d HR' HD) as (L' & E & N & _ & J).
    rewrite H in E. injection E as <-. rewrite N. intros Ha Hb. rewrite !J by assumption. apply (le_form_sym HK).
  Qed.
  Theorem le_rigid_zero : forall (sp : fe_space F) fn iel alpha d L x, le_reads sp fn iel d -> le_fits d ->
    le_primal (Some sp) (Some fn) iel alpha = Ok L -> le_rigid d x ->
    forall a, a < l_n L -> Sum (l_n L) (fun b => l_j L a b * x b) = k0.
  Proof.
    intros sp fn iel alpha d L x HR' HD H HX a. destruct (le_system HK two sp fn iel alpha d HR' HD) as (L' & E & N & _ & J).
    rewrite H in E. injection E as <-. rewrite N. intros Ha. rewrite (Sum_ksum HF).
    rewrite (ksum_ext _ _ (fun b => le_form d (unit_at b) (unit_at a) * x b)).
    - etransitivity; [symmetry; exact (le_linear_1 HK d (unit_at a) x)|]. apply (le_rigid_form HK two). exact HX.
    - intros b Hb. rewrite J by assumption. reflexivity.
  Qed.
  (** the same displacement at every node *)
  Lemma le_translation_rigid : forall (d : le_data F) (t x : nat -> F),
    (forall i r, i < length (le_w d) -> r < t_nder (e_tab (le_e d)) -> Sum (t_nphi (e_tab (le_e d))) (fun k => t_val (e_tab (le_e d)) (S r) i k 0) = k0) ->
    (forall k c, k < t_nphi (e_tab (le_e d)) -> c < le_dim d -> x (k * le_dim d + c)%nat = t c) -> le_rigid d x.
  Proof.
    intros d t x H HX.
    assert (G : forall i c dir, i < length (le_w d) -> c < le_dim d -> le_grad d x i c dir = k0).
    { intros i c dir Hi Hc. unfold le_grad. rewrite (Sum_ksum HF).
      rewrite (ksum_ext _ _ (fun k => t c * ksum (t_nder (e_tab (le_e d))) (fun r => e_inv (le_e d) i r dir * t_val (e_tab (le_e d)) (S r) i k 0))).
      2:{ intros k Hk. rewrite HX, (Sum_ksum HF) by assumption. reflexivity. }
      rewrite (ksum_mul_l HF), (ksum_swap HF), (ksum_zero HF); [ring|]. intros r Hr. rewrite (ksum_mul_l HF).
      rewrite <- (Sum_ksum HF), (H i r Hi Hr). ring. }
    intros i c dir Hi Hc Hd. rewrite !G by assumption. ring.
  Qed.
  Theorem le_translation_zero : forall (sp : fe_space F) fn iel alpha d L t x, le_reads sp fn iel d -> le_fits d ->
    le_primal (Some sp) (Some fn) iel alpha = Ok L ->
    (forall i r, i < length (le_w d) -> r < t_nder (e_tab (le_e d)) -> Sum (t_nphi (e_tab (le_e d))) (fun k => t_val (e_tab (le_e d)) (S r) i k 0) = k0) ->
    (forall k c, k < t_nphi (e_tab (le_e d)) -> c < le_dim d -> x (k * le_dim d + c)%nat = t c) ->
    forall a, a < l_n L -> Sum (l_n L) (fun b => l_j L a b * x b) = k0.
  Proof.
    intros sp fn iel alpha d L t x HR' HD H H1 H2. apply (le_rigid_zero sp fn iel alpha d L x HR' HD H).
    apply (le_translation_rigid d t x H1 H2).
  Qed.
End ConseqField.
