(** * The theorems on the dual forms and Riesz maps *)
From Coq Require Import String List Arith Bool Lia Ring Field.
From Verif Require Import Base BaseProof FormModel FormSpec FormProof FormProof2 AdModel AdModel2 AdSpec AdProof AdProof2 AdProof3 BcProof BcProof2 MixProof MixProof2 SolidSpec SolidProof SolidProof2 SolidProof3 DualModel DualSpec DualProof DualProof2 DualProof3 DualProof4 DualProof5 DualProof6 DualProof7.
Import ListNotations.
Open Scope list_scope.

Section Theorems.
  Context {F : scalar} (HK : is_field F) (two : @kadd F k1 k1 <> k0).
  Let HF : is_ring F := field_is_ring F HK.
  Let HFd : field_theory (@k0 F) k1 kadd kmul ksub kopp (fun a b => kmul a (kinv b)) kinv eq := HK.
  Add Field KfieldX : HFd.
  Local Open Scope num_scope.

  (** *** Divergences *)
  Lemma one_over_l_is : forall (d : lce_input F) i, one_over_l d i = kinv (li_l d i).
  Proof. intros. unfold one_over_l, kdiv. ring. Qed.
  Section Div.
    Variable d : lce_input F.
    Hypothesis Hfit : lce_dual_fits d.
    Let dm := piola_div (li_se d) (e_tab (li_me d)) (li_dim d).
    Let dms i k := li_l d i * dm i k + Sum (li_dim d) (fun dir => nth dir (li_grad_l d) (fun _ => k0) i * t_val (e_tab (li_me d)) 0 i k dir).

    Lemma ref_div_is : forall nder i k, li_dim d <= nder -> ref_div (e_tab (li_me d)) nder (e_dim (li_se d)) i k = ksum (li_dim d) (fun r => t_val (e_tab (li_me d)) (S r) i k r).
    Proof.
      intros nder i k H. destruct Hfit as (E1 & E2 & E3 & E4 & E5 & E6 & E7 & E8 & E9 & E10 & E11).
      unfold ref_div, cols. rewrite E8, E9. change (e_dim (li_se d)) with (li_dim d). rewrite Nat.min_id, (Nat.min_r nder), Nat.min_id by exact H. reflexivity.
    Qed.
    Lemma div_v_is : forall nder i k, li_dim d <= nder -> div_v d nder i k = dm i k.
    Proof. intros. unfold div_v, dm, piola_div, kdiv. rewrite ref_div_is, (Sum_ksum HF) by assumption. reflexivity. Qed.
    Lemma grad_dot_is : forall i k, has_grad d ->
      grad_dot (li_grad_l d) (e_tab (li_me d)) (e_dim (li_se d)) i k = Sum (li_dim d) (fun dir => nth dir (li_grad_l d) (fun _ => k0) i * t_val (e_tab (li_me d)) 0 i k dir).
    Proof.
      intros i k H. unfold has_grad in H. destruct Hfit as (E1 & E2 & E3 & E4 & E5 & E6 & E7 & E8 & E9 & E10 & E11).
      unfold grad_dot, cols. rewrite E8. change (e_dim (li_se d)) with (li_dim d). rewrite Nat.min_id, Nat.min_r by exact H. rewrite (Sum_ksum HF). reflexivity.
    Qed.
    Lemma div_v_s_is : forall i k, has_grad d -> div_v_s d i k = dms i k.
    Proof.
      intros i k H. unfold div_v_s, dms. rewrite grad_dot_is by exact H. rewrite div_v_is; [reflexivity|].
      destruct Hfit as (E1 & E2 & E3 & E4 & E5 & E6 & E7 & E8 & E9 & E10 & E11). rewrite E9. lia.
    Qed.
    Lemma nder_m : li_dim d <= t_nder (e_tab (li_me d)).
    Proof. destruct Hfit as (E1 & E2 & E3 & E4 & E5 & E6 & E7 & E8 & E9 & E10 & E11). rewrite E9. lia. Qed.
    Lemma nder_s : li_dim d <= S (t_nder (e_tab (li_se d))).
    Proof. destruct Hfit as (E1 & E2 & E3 & E4 & E5 & E6 & E7 & E8 & E9 & E10 & E11). rewrite E7. lia. Qed.
  End Div.

  (** *** Systems *)
  Theorem lce_dual_system : forall (sp : fe_space F) fn iel alpha d, lce_gets true false sp fn iel d -> lce_dual_fits d -> has_load d ->
    exists L, lce_dual (Some sp) (Some fn) iel alpha = Ok L /\ system_of (du_size (plain_data d)) (dual_form (plain_data d)) (dual_load (plain_data d)) alpha L.
  Proof.
    intros sp fn iel alpha d HG HX HL. unfold lce_dual, with_input. rewrite (lce_read_ok _ _ _ _ _ _ HG). cbn [bind].
    destruct (lce_dual_ad_ok HK two d HX (one_over_l d) (piola_div (li_se d) (e_tab (li_me d)) (li_dim d))
      (div_v d (if e_dim (li_se d) =? 2 then S (t_nder (e_tab (li_se d))) else t_nder (e_tab (li_me d)))) alpha HL) as (L & E & S).
    - intros i k Hi. apply div_v_is; [exact HX|]. destruct (_ =? 2); [apply nder_s|apply nder_m]; exact HX.
    - exists L. split; [exact E|]. unfold plain_data. refine (system_form_ext _ _ _ _ _ _ _ S).
      apply (dual_scale_ext HK d _ _ _ _ HX); [apply one_over_l_is|reflexivity].
  Qed.
  Theorem lce_dual_vectorized_system : forall (sp : fe_space F) fn iel alpha d, lce_gets true false sp fn iel d -> lce_dual_fits d -> has_load d -> regular (li_se d) (li_w d) ->
    exists L, lce_dual_vectorized (Some sp) (Some fn) iel alpha = Ok L /\ system_of (du_size (plain_data d)) (dual_form (plain_data d)) (dual_load (plain_data d)) zero_state L.
  Proof.
    intros sp fn iel alpha d HG HX HL HR. unfold lce_dual_vectorized, with_input. rewrite (lce_read_ok _ _ _ _ _ _ HG). cbn [bind].
    destruct (lce_dual_vec_ok HK two d HX (one_over_l d) (piola_div (li_se d) (e_tab (li_me d)) (li_dim d))
      (ref_div (e_tab (li_me d)) (t_nder (e_tab (li_me d))) (e_dim (li_se d))) HL HR) as (L & E & S).
    - intros i k Hi. apply (ref_div_m HK d HX); assumption.
    - exists L. split; [exact E|]. unfold plain_data. refine (system_form_ext _ _ _ _ _ _ _ S).
      apply (dual_scale_ext HK d _ _ _ _ HX); [apply one_over_l_is|reflexivity].
  Qed.
  Theorem lce_scaled_dual_system : forall (sp : fe_space F) fn iel alpha d, lce_gets true true sp fn iel d -> lce_dual_fits d -> has_load d -> has_grad d ->
    exists L, lce_scaled_dual (Some sp) (Some fn) iel alpha = Ok L /\ system_of (du_size (scaled_data d)) (dual_form (scaled_data d)) (dual_load (scaled_data d)) alpha L.
  Proof.
    intros sp fn iel alpha d HG HX HL Hg. unfold lce_scaled_dual, with_input. rewrite (lce_read_ok _ _ _ _ _ _ HG). cbn [bind].
    apply (lce_dual_ad_ok HK two d HX); [exact HL|]. intros i k Hi. apply div_v_s_is; assumption.
  Qed.
  Theorem lce_scaled_dual_vectorized_system : forall (sp : fe_space F) fn iel alpha d, lce_gets true true sp fn iel d -> lce_dual_fits d -> has_load d -> has_grad d -> regular (li_se d) (li_w d) ->
    exists L, lce_scaled_dual_vectorized (Some sp) (Some fn) iel alpha = Ok L /\ system_of (du_size (scaled_data d)) (dual_form (scaled_data d)) (dual_load (scaled_data d)) zero_state L.
  Proof.
    intros sp fn iel alpha d HG HX HL Hg HR. unfold lce_scaled_dual_vectorized, with_input. rewrite (lce_read_ok _ _ _ _ _ _ HG). cbn [bind].
    apply (lce_dual_vec_ok HK two d HX); [exact HL|exact HR|]. intros i k Hi. rewrite grad_dot_is by assumption. rewrite (ref_div_m HK d HX) by assumption. ring.
  Qed.
  Theorem lce_riesz_system : forall (sp : fe_space F) fn iel alpha d, lce_gets false false sp fn iel d -> lce_dual_fits d ->
    exists L, lce_riesz (Some sp) (Some fn) iel alpha = Ok L /\ system_of (du_size (plain_data d)) (riesz_form (plain_data d)) (fun _ => k0) alpha L.
  Proof.
    intros sp fn iel alpha d HG HX. unfold lce_riesz, with_input. rewrite (lce_read_ok _ _ _ _ _ _ HG). cbn [bind].
    destruct (lce_riesz_ad_ok HK two d HX (one_over_l d) (piola_div (li_se d) (e_tab (li_me d)) (li_dim d)) (div_v d (t_nder (e_tab (li_me d)))) alpha) as (L & E & S).
    - intros i k Hi. apply div_v_is; [exact HX|]. apply nder_m; exact HX.
    - exists L. split; [exact E|]. unfold plain_data. refine (system_form_ext _ _ _ _ _ _ _ S).
      apply (dual_scale_ext HK d _ _ _ _ HX); [apply one_over_l_is|reflexivity].
  Qed.
  Theorem lce_riesz_vectorized_system : forall (sp : fe_space F) fn iel alpha d, lce_gets false false sp fn iel d -> lce_dual_fits d ->
    exists L, lce_riesz_vectorized (Some sp) (Some fn) iel alpha = Ok L /\ system_of (du_size (plain_data d)) (riesz_form (plain_data d)) (fun _ => k0) zero_state L.
  Proof.
    intros sp fn iel alpha d HG HX. unfold lce_riesz_vectorized, with_input. rewrite (lce_read_ok _ _ _ _ _ _ HG). cbn [bind].
    destruct (lce_riesz_vec_ok HK two d HX (one_over_l d) (piola_div (li_se d) (e_tab (li_me d)) (li_dim d))
      (fun i k => ref_div (e_tab (li_me d)) (t_nder (e_tab (li_me d))) (e_dim (li_se d)) i k * kdiv k1 (e_det (li_se d) i))) as (L & E & S).
    - intros i k Hi. rewrite (ref_div_is d HX) by (apply nder_m; exact HX). unfold piola_div, kdiv. rewrite (Sum_ksum HF). ring.
    - exists L. split; [exact E|]. unfold plain_data. refine (system_form_ext _ _ _ _ _ _ _ S).
      apply (dual_scale_ext HK d _ _ _ _ HX); [apply one_over_l_is|reflexivity].
  Qed.
  Theorem lce_scaled_riesz_system : forall (sp : fe_space F) fn iel alpha d, lce_gets true true sp fn iel d -> lce_dual_fits d -> has_grad d ->
    exists L, lce_scaled_riesz (Some sp) (Some fn) iel alpha = Ok L /\ system_of (du_size (scaled_data d)) (riesz_form (scaled_data d)) (fun _ => k0) alpha L.
  Proof.
    intros sp fn iel alpha d HG HX Hg. unfold lce_scaled_riesz, with_input. rewrite (lce_read_ok _ _ _ _ _ _ HG). cbn [bind].
    apply (lce_riesz_ad_ok HK two d HX). intros i k Hi. apply div_v_s_is; assumption.
  Qed.
  Theorem lce_scaled_riesz_vectorized_system : forall (sp : fe_space F) fn iel alpha d, lce_gets false true sp fn iel d -> lce_dual_fits d -> has_grad d ->
    exists L, lce_scaled_riesz_vectorized (Some sp) (Some fn) iel alpha = Ok L /\ system_of (du_size (scaled_data d)) (riesz_form (scaled_data d)) (fun _ => k0) zero_state L.
  Proof.
    intros sp fn iel alpha d HG HX Hg. unfold lce_scaled_riesz_vectorized, with_input. rewrite (lce_read_ok _ _ _ _ _ _ HG). cbn [bind].
    apply (lce_riesz_vec_ok HK two d HX). intros i k Hi. rewrite grad_dot_is by assumption. rewrite (ref_div_is d HX) by (apply nder_m; exact HX).
    unfold piola_div, kdiv. rewrite !(Sum_ksum HF). ring.
  Qed.
  Theorem le_dual_vectorized_system : forall (sp : fe_space F) fn iel alpha d, ld_gets sp fn iel d -> ld_fits d -> ld_has_load d -> regular (ld_se d) (ld_w d) ->
    exists L, le_dual_vectorized (Some sp) (Some fn) iel alpha = Ok L /\ system_of (du_size (elastic_data d)) (dual_form (elastic_data d)) (dual_load (elastic_data d)) zero_state L.
  Proof. intros. apply (le_dual_vec_ok HK two); assumption. Qed.
  Theorem le_riesz_vectorized_system : forall (sp : fe_space F) fn iel alpha d, ld_gets sp fn iel d -> ld_fits d ->
    exists L, le_riesz_vectorized (Some sp) (Some fn) iel alpha = Ok L /\ system_of (du_size (elastic_data d)) (riesz_form (elastic_data d)) (fun _ => k0) zero_state L.
  Proof. intros. apply (le_riesz_vec_ok HK two); assumption. Qed.

  (** *** Consequences *)
  Definition two_three (D : du_data F) : Prop := du_nd D = 2%nat \/ du_nd D = 3%nat.
  Lemma dual_system_props : forall D l (alpha : nat -> F) L, two_three D -> system_of (du_size D) (dual_form D) l alpha L ->
    (forall a b, a < l_n L -> b < l_n L -> l_j L a b = l_j L b a) /\ (forall x y, quad L y x = dual_form D x y) /\
    (forall x, quad L (flip D x) x = integral (du_e D) (du_w D) (energy D x x)).
  Proof.
    intros D l alpha L H S. split; [|assert (Q : forall x y, quad L y x = dual_form D x y)].
    - destruct S as (S1 & S2 & S3). rewrite S1. intros a b Ha Hb. rewrite !S3 by assumption. apply (dual_sym HK).
    - intros x y. refine (system_quad HF _ _ _ _ _ _ _ _ _ S).
      + intros y' x'. exact (dual_linear_1 HK two D H y' x').
      + intros x' y'. exact (dual_linear_2 HK two D H x' y').
    - split; [exact Q|]. intros x. rewrite Q. apply (dual_flip HK D H).
  Qed.
  Lemma riesz_system_props : forall D l (alpha : nat -> F) L, two_three D -> system_of (du_size D) (riesz_form D) l alpha L ->
    (forall a b, a < l_n L -> b < l_n L -> l_j L a b = l_j L b a) /\ (forall x y, quad L y x = riesz_form D x y).
  Proof.
    intros D l alpha L H S. split.
    - destruct S as (S1 & S2 & S3). rewrite S1. intros a b Ha Hb. rewrite !S3 by assumption. apply (riesz_sym HK).
    - intros x y. refine (system_quad HF _ _ _ _ _ _ _ _ _ S).
      + intros y' x'. exact (riesz_linear_1 HK two D H y' x').
      + intros x' y'. exact (riesz_linear_2 HK two D H x' y').
  Qed.
  Lemma fits_23 : forall d s dm, lce_dual_fits d -> two_three (li_data d s dm).
  Proof. intros d s dm (E & _). exact E. Qed.
  Lemma two_systems : forall n B l (L L' : local_system F), system_of n B l zero_state L -> system_of n B l zero_state L' ->
    l_n L = l_n L' /\ (forall a, a < l_n L -> l_r L a = l_r L' a) /\ (forall a b, a < l_n L -> b < l_n L -> l_j L a b = l_j L' a b).
  Proof.
    intros n B l L L' (A1 & A2 & A3) (B1 & B2 & B3). rewrite A1. split; [congruence|]. split; intros.
    - rewrite A2, B2 by assumption. reflexivity.
    - rewrite A3, B3 by assumption. reflexivity.
  Qed.
  Lemma other_state : forall n B l (alpha : nat -> F) (L L' : local_system F), system_of n B l alpha L -> system_of n B l zero_state L' ->
    l_n L = l_n L' /\ (forall a b, a < l_n L -> b < l_n L -> l_j L a b = l_j L' a b).
  Proof. intros n B l alpha L L' (A1 & A2 & A3) (B1 & B2 & B3). rewrite A1. split; [congruence|]. intros. rewrite A3, B3 by assumption. reflexivity. Qed.

  Theorem lce_dual_exact : forall (sp : fe_space F) fn iel d, lce_gets true false sp fn iel d -> lce_dual_fits d -> has_load d ->
    exact_jacobian (fun alpha => lce_dual (Some sp) (Some fn) iel alpha).
  Proof.
    intros sp fn iel d HG HX HL. apply (system_exact HF _ (du_size (plain_data d)) (dual_form (plain_data d)) (dual_load (plain_data d))).
    - intros y x. exact (dual_linear_1 HK two (plain_data d) (fits_23 d _ _ HX) y x).
    - intros alpha L E. destruct (lce_dual_system sp fn iel alpha d HG HX HL) as (L' & E' & S). congruence.
  Qed.
  Theorem lce_scaled_dual_exact : forall (sp : fe_space F) fn iel d, lce_gets true true sp fn iel d -> lce_dual_fits d -> has_load d -> has_grad d ->
    exact_jacobian (fun alpha => lce_scaled_dual (Some sp) (Some fn) iel alpha).
  Proof.
    intros sp fn iel d HG HX HL Hg. apply (system_exact HF _ (du_size (scaled_data d)) (dual_form (scaled_data d)) (dual_load (scaled_data d))).
    - intros y x. exact (dual_linear_1 HK two (scaled_data d) (fits_23 d _ _ HX) y x).
    - intros alpha L E. destruct (lce_scaled_dual_system sp fn iel alpha d HG HX HL Hg) as (L' & E' & S). congruence.
  Qed.
  Theorem lce_riesz_exact : forall (sp : fe_space F) fn iel d, lce_gets false false sp fn iel d -> lce_dual_fits d ->
    exact_jacobian (fun alpha => lce_riesz (Some sp) (Some fn) iel alpha).
  Proof.
    intros sp fn iel d HG HX. apply (system_exact HF _ (du_size (plain_data d)) (riesz_form (plain_data d)) (fun _ => k0)).
    - intros y x. exact (riesz_linear_1 HK two (plain_data d) (fits_23 d _ _ HX) y x).
    - intros alpha L E. destruct (lce_riesz_system sp fn iel alpha d HG HX) as (L' & E' & S). congruence.
  Qed.

  (** saddle point: symmetric, and the energy when the test functions flip displacement and rotation *)
  Theorem lce_dual_saddle : forall (sp : fe_space F) fn iel alpha d L, lce_gets true false sp fn iel d -> lce_dual_fits d -> has_load d ->
    lce_dual (Some sp) (Some fn) iel alpha = Ok L ->
    (forall a b, a < l_n L -> b < l_n L -> l_j L a b = l_j L b a) /\ (forall x y, quad L y x = dual_form (plain_data d) x y) /\
    (forall x, quad L (flip (plain_data d) x) x = integral (li_se d) (li_w d) (energy (plain_data d) x x)).
  Proof.
    intros sp fn iel alpha d L HG HX HL E. destruct (lce_dual_system sp fn iel alpha d HG HX HL) as (L' & E' & S).
    assert (L' = L) by congruence. subst. exact (dual_system_props (plain_data d) _ _ _ (fits_23 d _ _ HX) S).
  Qed.
  Theorem le_dual_saddle : forall (sp : fe_space F) fn iel alpha d L, ld_gets sp fn iel d -> ld_fits d -> ld_has_load d -> regular (ld_se d) (ld_w d) ->
    le_dual_vectorized (Some sp) (Some fn) iel alpha = Ok L ->
    (forall a b, a < l_n L -> b < l_n L -> l_j L a b = l_j L b a) /\ (forall x y, quad L y x = dual_form (elastic_data d) x y) /\
    (forall x, quad L (flip (elastic_data d) x) x = integral (ld_se d) (ld_w d) (energy (elastic_data d) x x)).
  Proof.
    intros sp fn iel alpha d L HG HX HL HR E. destruct (le_dual_vectorized_system sp fn iel alpha d HG HX HL HR) as (L' & E' & S).
    assert (L' = L) by congruence. subst. destruct HX as (H & _). exact (dual_system_props (elastic_data d) _ _ _ H S).
  Qed.
  Theorem lce_scaled_dual_saddle : forall (sp : fe_space F) fn iel alpha d L, lce_gets true true sp fn iel d -> lce_dual_fits d -> has_load d -> has_grad d ->
    lce_scaled_dual (Some sp) (Some fn) iel alpha = Ok L ->
    (forall a b, a < l_n L -> b < l_n L -> l_j L a b = l_j L b a) /\ (forall x y, quad L y x = dual_form (scaled_data d) x y) /\
    (forall x, quad L (flip (scaled_data d) x) x = integral (li_se d) (li_w d) (energy (scaled_data d) x x)).
  Proof.
    intros sp fn iel alpha d L HG HX HL Hg E. destruct (lce_scaled_dual_system sp fn iel alpha d HG HX HL Hg) as (L' & E' & S).
    assert (L' = L) by congruence. subst. exact (dual_system_props (scaled_data d) _ _ _ (fits_23 d _ _ HX) S).
  Qed.

  (** the two implementations *)
  Theorem lce_dual_agree : forall (sp : fe_space F) fn iel alpha beta d L L' L0, lce_gets true false sp fn iel d -> lce_dual_fits d -> has_load d -> regular (li_se d) (li_w d) ->
    lce_dual (Some sp) (Some fn) iel alpha = Ok L -> lce_dual_vectorized (Some sp) (Some fn) iel beta = Ok L' -> lce_dual (Some sp) (Some fn) iel zero_state = Ok L0 ->
    l_n L = l_n L' /\ (forall a b, a < l_n L -> b < l_n L -> l_j L a b = l_j L' a b) /\ (forall a, a < l_n L -> l_r L' a = l_r L0 a).
  Proof.
    intros sp fn iel alpha beta d L L' L0 HG HX HL HR E E' E0.
    destruct (lce_dual_system sp fn iel alpha d HG HX HL) as (M & F1 & S1). destruct (lce_dual_vectorized_system sp fn iel beta d HG HX HL HR) as (M' & F2 & S2).
    destruct (lce_dual_system sp fn iel zero_state d HG HX HL) as (M0 & F0 & S0).
    assert (M = L) by congruence. assert (M' = L') by congruence. assert (M0 = L0) by congruence. subst.
    destruct (other_state _ _ _ _ _ _ S1 S2) as (P1 & P2). destruct (two_systems _ _ _ _ _ S2 S0) as (Q1 & Q2 & Q3). split; [exact P1|]. split; [exact P2|].
    intros a Ha. apply Q2. congruence.
  Qed.
  Theorem lce_scaled_dual_agree : forall (sp : fe_space F) fn iel alpha beta d L L' L0, lce_gets true true sp fn iel d -> lce_dual_fits d -> has_load d -> has_grad d -> regular (li_se d) (li_w d) ->
    lce_scaled_dual (Some sp) (Some fn) iel alpha = Ok L -> lce_scaled_dual_vectorized (Some sp) (Some fn) iel beta = Ok L' -> lce_scaled_dual (Some sp) (Some fn) iel zero_state = Ok L0 ->
    l_n L = l_n L' /\ (forall a b, a < l_n L -> b < l_n L -> l_j L a b = l_j L' a b) /\ (forall a, a < l_n L -> l_r L' a = l_r L0 a).
  Proof.
    intros sp fn iel alpha beta d L L' L0 HG HX HL Hg HR E E' E0.
    destruct (lce_scaled_dual_system sp fn iel alpha d HG HX HL Hg) as (M & F1 & S1). destruct (lce_scaled_dual_vectorized_system sp fn iel beta d HG HX HL Hg HR) as (M' & F2 & S2).
    destruct (lce_scaled_dual_system sp fn iel zero_state d HG HX HL Hg) as (M0 & F0 & S0).
    assert (M = L) by congruence. assert (M' = L') by congruence. assert (M0 = L0) by congruence. subst.
    destruct (other_state _ _ _ _ _ _ S1 S2) as (P1 & P2). destruct (two_systems _ _ _ _ _ S2 S0) as (Q1 & Q2 & Q3). split; [exact P1|]. split; [exact P2|].
    intros a Ha. apply Q2. congruence.
  Qed.

  (** Riesz maps: symmetric, the squared norm, no load; the two implementations have one matrix *)
  Theorem lce_riesz_norm : forall (sp : fe_space F) fn iel alpha beta d L L', lce_gets false false sp fn iel d -> lce_dual_fits d ->
    lce_riesz (Some sp) (Some fn) iel alpha = Ok L -> lce_riesz_vectorized (Some sp) (Some fn) iel beta = Ok L' ->
    l_n L = l_n L' /\ (forall a b, a < l_n L -> b < l_n L -> l_j L a b = l_j L' a b /\ l_j L a b = l_j L b a) /\
    (forall x y, quad L y x = riesz_form (plain_data d) x y) /\
    (forall a, a < l_n L -> l_r L a = Sum (l_n L) (fun b => l_j L a b * alpha b) /\ l_r L' a = k0).
  Proof.
    intros sp fn iel alpha beta d L L' HG HX E E'.
    destruct (lce_riesz_system sp fn iel alpha d HG HX) as (M & F1 & S1). destruct (lce_riesz_vectorized_system sp fn iel beta d HG HX) as (M' & F2 & S2).
    assert (M = L) by congruence. assert (M' = L') by congruence. subst.
    destruct (other_state _ _ _ _ _ _ S1 S2) as (P1 & P2). destruct (riesz_system_props (plain_data d) _ _ _ (fits_23 d _ _ HX) S1) as (Q1 & Q2).
    split; [exact P1|]. split; [intros; split; [apply P2|apply Q1]; assumption|]. split; [exact Q2|].
    destruct S1 as (A1 & A2 & A3). destruct S2 as (B1 & B2 & B3). rewrite A1. intros a Ha. split.
    - rewrite A2 by exact Ha. rewrite (Sum_ksum HF). pose proof (riesz_linear_1 HK two (plain_data d) (fits_23 d _ _ HX) (unit_at a) alpha) as LI. cbn beta in LI. rewrite LI.
      rewrite (ksum_ext _ (fun b => l_j L a b * alpha b) (fun b => riesz_form (plain_data d) (unit_at b) (unit_at a) * alpha b)); [ring|].
      intros b Hb. rewrite A3 by assumption. reflexivity.
    - rewrite B2 by exact Ha. pose proof (riesz_linear_1 HK two (plain_data d) (fits_23 d _ _ HX) (unit_at a) zero_state) as LI. cbn beta in LI. rewrite LI.
      rewrite (ksum_zero HF); [ring|]. intros. unfold zero_state. ring.
  Qed.
  Theorem lce_scaled_riesz_norm : forall (sp : fe_space F) fn iel alpha d L, lce_gets true true sp fn iel d -> lce_dual_fits d -> has_grad d ->
    lce_scaled_riesz (Some sp) (Some fn) iel alpha = Ok L ->
    (forall a b, a < l_n L -> b < l_n L -> l_j L a b = l_j L b a) /\ (forall x y, quad L y x = riesz_form (scaled_data d) x y).
  Proof.
    intros sp fn iel alpha d L HG HX Hg E. destruct (lce_scaled_riesz_system sp fn iel alpha d HG HX Hg) as (M & F1 & S1).
    assert (M = L) by congruence. subst. exact (riesz_system_props (scaled_data d) _ _ _ (fits_23 d _ _ HX) S1).
  Qed.
  Theorem lce_scaled_riesz_vectorized_norm : forall (sp : fe_space F) fn iel alpha d L, lce_gets false true sp fn iel d -> lce_dual_fits d -> has_grad d ->
    lce_scaled_riesz_vectorized (Some sp) (Some fn) iel alpha = Ok L ->
    (forall a b, a < l_n L -> b < l_n L -> l_j L a b = l_j L b a) /\ (forall x y, quad L y x = riesz_form (scaled_data d) x y).
  Proof.
    intros sp fn iel alpha d L HG HX Hg E. destruct (lce_scaled_riesz_vectorized_system sp fn iel alpha d HG HX Hg) as (M & F1 & S1).
    assert (M = L) by congruence. subst. exact (riesz_system_props (scaled_data d) _ _ _ (fits_23 d _ _ HX) S1).
  Qed.
  Theorem lce_scaled_riesz_agree : forall (sp : fe_space F) fn iel alpha beta d L L', lce_gets true true sp fn iel d -> lce_dual_fits d -> has_grad d ->
    lce_scaled_riesz (Some sp) (Some fn) iel alpha = Ok L -> lce_scaled_riesz_vectorized (Some sp) (Some fn) iel beta = Ok L' ->
    l_n L = l_n L' /\ (forall a b, a < l_n L -> b < l_n L -> l_j L a b = l_j L' a b) /\ (forall a, a < l_n L -> l_r L' a = k0).
  Proof.
    intros sp fn iel alpha beta d L L' HG HX Hg E E'.
    destruct (lce_scaled_riesz_system sp fn iel alpha d HG HX Hg) as (M & F1 & S1).
    assert (HG' : lce_gets false true sp fn iel (no_load d)).
    { destruct HG as (G1 & G2 & G3 & G4 & G5 & G6). repeat (split; [first [assumption|reflexivity]|]). exact G6. }
    destruct (lce_scaled_riesz_vectorized_system sp fn iel beta (no_load d) HG' HX Hg) as (M' & F2 & S2).
    assert (M = L) by congruence. assert (M' = L') by congruence. subst.
    change (system_of (du_size (scaled_data d)) (riesz_form (scaled_data d)) (fun _ => k0) zero_state L') in S2.
    destruct (other_state _ _ _ _ _ _ S1 S2) as (P1 & P2). split; [exact P1|]. split; [exact P2|].
    destruct S1 as (A1 & _). destruct S2 as (B1 & B2 & B3). rewrite A1. intros a Ha. rewrite B2 by exact Ha.
    pose proof (riesz_linear_1 HK two (scaled_data d) (fits_23 d _ _ HX) (unit_at a) zero_state) as LI. cbn beta in LI. rewrite LI.
    rewrite (ksum_zero HF); [ring|]. intros. unfold zero_state. ring.
  Qed.
  Theorem le_riesz_norm : forall (sp : fe_space F) fn iel alpha d L, ld_gets sp fn iel d -> ld_fits d ->
    le_riesz_vectorized (Some sp) (Some fn) iel alpha = Ok L ->
    (forall a b, a < l_n L -> b < l_n L -> l_j L a b = l_j L b a) /\ (forall x y, quad L y x = riesz_form (elastic_data d) x y).
  Proof.
    intros sp fn iel alpha d L HG HX E. destruct (le_riesz_vectorized_system sp fn iel alpha d HG HX) as (M & F1 & S1).
    assert (M = L) by congruence. subst. destruct HX as (H & _). exact (riesz_system_props (elastic_data d) _ _ _ H S1).
  Qed.

  (** a constant length: the scaled form is the plain one with length l^2 and couple stress l m *)
  Theorem lce_scaled_change : forall (d : lce_input F) l x y, lce_dual_fits d -> l <> k0 ->
    (forall i, li_l d i = l) -> (forall g i, In g (li_grad_l d) -> g i = k0) ->
    dual_form (scaled_data d) x y =
    dual_form (plain_data (with_length (l * l) d)) (stretch (plain_data (with_length (l * l) d)) l x) (stretch (plain_data (with_length (l * l) d)) l y).
  Proof.
    intros d l x y HX Hl H1 H2.
    apply (scaled_change HK two d l (fun _ => kinv (l * l)) (piola_div (li_se d) (e_tab (li_me d)) (li_dim d))); [exact HX|exact Hl|reflexivity|].
    intros i k. cbn beta. rewrite H1, (Sum_ksum HF), (ksum_zero HF); [ring|]. intros dir Hd.
    destruct (nth_in_or_default dir (li_grad_l d) (fun _ => k0)) as [I|I]; [rewrite (H2 _ i I)|rewrite I]; ring.
  Qed.
End Theorems.
