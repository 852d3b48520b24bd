(** * Scaled against unscaled unknowns *)
From Coq Require Import String List Arith Bool Lia Ring Field.
From Verif Require Import Base BaseProof FormModel FormSpec FormProof FormProof2 AdModel AdModel2 AdSpec AdProof AdProof2 AdProof3 BcProof2 MixSpec MixProof.
Import ListNotations.
Open Scope list_scope.

Section Scaling.
  Context {F : scalar} (HK : is_field F).
  Let HF : is_ring F := field_is_ring F HK.
  Let HFd : field_theory (@k0 F) k1 kadd kmul ksub kopp (fun a b => kmul a (kinv b)) kinv eq := HK.
  Add Field KfieldM : HFd.
  Local Open Scope num_scope.

  Variable ksqrt : F -> F.
  Variable positive small : F -> bool.
  Variable threshold : F.
  Variable d : por_data F.
  Variable phi delta : F.
  Hypothesis M : constant_medium ksqrt positive small d phi delta.
  Let nu := t_nphi (e_tab (po_ue d)).
  Let np := t_nphi (e_tab (po_pe d)).
  Let D := degenerate_mix ksqrt positive d.
  Let U := unscaled_mix ksqrt small threshold d.
  Let S := scaled_state nu delta (ksqrt phi).

  Lemma root_nz : ksqrt phi <> k0.
  Proof. destruct M as (_ & _ & _ & _ & H & H' & _). intros E. apply H'. rewrite <- H, E. ring. Qed.

  Lemma flux_scale : forall x i dir, m_flux U (S x) i dir = delta * m_flux D x i dir.
  Proof.
    intros. unfold m_flux. simpl. rewrite !(Sum_ksum HF), <- (ksum_mul_l HF). apply ksum_ext. intros k Hk. unfold S, scaled_state, to_physical.
    replace (k <? nu) with true by (symmetry; apply Nat.ltb_lt; exact Hk). ring.
  Qed.
  Lemma div_scale : forall x i, i < length (po_w d) -> delta * m_div U x i = ksqrt phi * m_div D x i.
  Proof.
    intros x i Hi. destruct M as (C & P & _). destruct (C i Hi) as (C1 & C2 & C3). unfold m_div. simpl. rewrite !(Sum_ksum HF), <- !(ksum_mul_l HF). apply ksum_ext. intros k Hk.
    rewrite C1, P, C2. assert (A : po_adv d i k = k0).
    { unfold po_adv. rewrite (Sum_ksum HF). apply (ksum_zero HF). intros dir Hd. rewrite C3 by exact Hd. ring. }
    rewrite A. field. apply root_nz.
  Qed.
  Lemma div_scale' : forall x i, i < length (po_w d) -> m_div U (S x) i = ksqrt phi * m_div D x i.
  Proof.
    intros x i Hi. rewrite <- div_scale by exact Hi. unfold m_div. rewrite !(Sum_ksum HF), <- !(ksum_mul_l HF). apply ksum_ext. intros k Hk.
    unfold S, scaled_state, to_physical. replace (k <? nu) with true by (symmetry; apply Nat.ltb_lt; exact Hk). ring.
  Qed.
  Lemma pot_scale : forall x i, m_pot U (S x) i = kinv (ksqrt phi) * m_pot D x i.
  Proof.
    intros. unfold m_pot. simpl. rewrite !(Sum_ksum HF), <- (ksum_mul_l HF). apply ksum_ext. intros k Hk. unfold S, scaled_state, to_physical. fold nu.
    replace (nu + k <? nu) with false by (symmetry; apply Nat.ltb_ge; lia). ring.
  Qed.

  (** the two forms are the same form in different unknowns *)
  Lemma form_scale : forall x y, mix_form U (S x) (S y) = mix_form D x y.
  Proof.
    intros x y. pose proof root_nz as RN. destruct M as (C & P & SM & SD & R & PN & DN). unfold mix_form. change (m_e U) with (m_e D). change (m_w U) with (m_w D).
    apply (integral_ext HF). intros i Hi. destruct (C i Hi) as (C1 & C2 & C3).
    rewrite !pot_scale, !div_scale' by exact Hi.
    assert (CU : m_c U i = phi) by (simpl; rewrite C1, SM; reflexivity).
    assert (AU : m_a U i = kinv (delta * delta)) by (simpl; rewrite C2, SD; reflexivity).
    change (m_dim U) with (m_dim D). change (m_c D i) with (@k1 F). rewrite CU.
    rewrite !(Sum_ksum HF). rewrite (ksum_ext (m_dim D) _ (fun dir => m_a D i * (m_flux D x i dir * m_flux D y i dir))).
    - remember (ksqrt phi) as rt eqn:ER. rewrite <- R. field. exact RN.
    - intros dir Hd. rewrite !flux_scale, AU. change (m_a D i) with (@k1 F). field. exact DN.
  Qed.
  Lemma load_scale : forall y, mix_load U (S y) = mix_load D y.
  Proof.
    intros y. pose proof root_nz as RN. destruct M as (C & P & SM & SD & R & PN & DN). unfold mix_load. f_equal. change (m_e U) with (m_e D). change (m_w U) with (m_w D).
    apply (integral_ext HF). intros i Hi. destruct (C i Hi) as (C1 & C2 & C3). rewrite pot_scale. simpl. rewrite C1. field. exact RN.
  Qed.

  Lemma S_unit : forall a b, S (unit_at a) b = to_physical nu delta (ksqrt phi) a * unit_at a b.
  Proof. intros a b. unfold S, scaled_state, unit_at. destruct (b =? a) eqn:E; [apply Nat.eqb_eq in E; subst|]; ring. Qed.

  Lemma form_scale_l : forall c y x x', (forall b, x' b = c * x b) -> mix_form U x' y = c * mix_form U x y.
  Proof.
    intros c y x x' H. unfold mix_form. rewrite <- (integral_mul HF). apply (integral_ext HF). intros i Hi.
    assert (A1 : forall dir, m_flux U x' i dir = c * m_flux U x i dir).
    { intros. unfold m_flux. rewrite !(Sum_ksum HF), <- (ksum_mul_l HF). apply ksum_ext. intros. rewrite H. ring. }
    assert (A2 : m_div U x' i = c * m_div U x i).
    { unfold m_div. rewrite !(Sum_ksum HF), <- (ksum_mul_l HF). apply ksum_ext. intros. rewrite H. ring. }
    assert (A3 : m_pot U x' i = c * m_pot U x i).
    { unfold m_pot. rewrite !(Sum_ksum HF), <- (ksum_mul_l HF). apply ksum_ext. intros. rewrite H. ring. }
    rewrite A2, A3. rewrite !(Sum_ksum HF).
    rewrite (ksum_ext (m_dim U) _ (fun dir => c * (m_a U i * (m_flux U x i dir * m_flux U y i dir)))) by (intros; rewrite A1; ring).
    rewrite (ksum_mul_l HF). ring.
  Qed.
  Lemma form_scale_r : forall c y x y', (forall b, y' b = c * y b) -> mix_form U x y' = c * mix_form U x y.
  Proof.
    intros c y x y' H. unfold mix_form. rewrite <- (integral_mul HF). apply (integral_ext HF). intros i Hi.
    assert (A1 : forall dir, m_flux U y' i dir = c * m_flux U y i dir).
    { intros. unfold m_flux. rewrite !(Sum_ksum HF), <- (ksum_mul_l HF). apply ksum_ext. intros. rewrite H. ring. }
    assert (A2 : m_div U y' i = c * m_div U y i).
    { unfold m_div. rewrite !(Sum_ksum HF), <- (ksum_mul_l HF). apply ksum_ext. intros. rewrite H. ring. }
    assert (A3 : m_pot U y' i = c * m_pot U y i).
    { unfold m_pot. rewrite !(Sum_ksum HF), <- (ksum_mul_l HF). apply ksum_ext. intros. rewrite H. ring. }
    rewrite A2, A3. rewrite !(Sum_ksum HF).
    rewrite (ksum_ext (m_dim U) _ (fun dir => c * (m_a U i * (m_flux U x i dir * m_flux U y i dir)))) by (intros; rewrite A1; ring).
    rewrite (ksum_mul_l HF). ring.
  Qed.
  Lemma load_scale_r : forall c y y', (forall b, y' b = c * y b) -> mix_load U y' = c * mix_load U y.
  Proof.
    intros c y y' H. unfold mix_load. assert (E : integral (m_e U) (m_w U) (fun i => m_src U i * m_pot U y' i) = c * integral (m_e U) (m_w U) (fun i => m_src U i * m_pot U y i)).
    { rewrite <- (integral_mul HF). apply (integral_ext HF). intros i Hi. unfold m_pot.
      rewrite !(Sum_ksum HF). rewrite (ksum_ext (m_np U) _ (fun k => c * (y (m_nu U + k)%nat * m_chi U i k))) by (intros; rewrite H; ring).
      rewrite (ksum_mul_l HF). ring. }
    rewrite E. ring.
  Qed.

  (** the local systems differ by the change of unknowns *)
  Theorem scaling_law : forall (spd spu : fe_space F) fnd fnu iel alpha,
    por_reads "v" "q" spd fnd iel d -> por_reads "u" "p" spu fnu iel d -> por_fits d ->
    exists Ld Lu, degenerate_form ksqrt positive (Some spd) (Some fnd) iel alpha = Ok Ld /\
      unscaled_form ksqrt small threshold (Some spu) (Some fnu) iel (scaled_state nu delta (ksqrt phi) alpha) = Ok Lu /\
      l_n Ld = l_n Lu /\
      (forall a, a < l_n Ld -> l_r Ld a = to_physical nu delta (ksqrt phi) a * l_r Lu a) /\
      (forall a b, a < l_n Ld -> b < l_n Ld ->
         l_j Ld a b = to_physical nu delta (ksqrt phi) a * l_j Lu a b * to_physical nu delta (ksqrt phi) b).
  Proof.
    intros spd spu fnd fnu iel alpha RD RU FT.
    destruct (degenerate_system HF ksqrt positive spd fnd iel alpha d RD FT) as (Ld & E1 & D1 & D2 & D3).
    destruct (unscaled_system HF ksqrt small threshold spu fnu iel (scaled_state nu delta (ksqrt phi) alpha) d RU FT) as (Lu & E2 & U1 & U2 & U3).
    exists Ld, Lu. split; [exact E1|]. split; [exact E2|]. split; [congruence|]. fold D in D2, D3. fold U in U2, U3. split.
    - intros a Ha. rewrite D1 in Ha. rewrite D2, U2 by exact Ha. fold S. rewrite <- form_scale, <- load_scale.
      rewrite (load_scale_r (to_physical nu delta (ksqrt phi) a) (unit_at a)) by apply S_unit.
      rewrite (form_scale_r (to_physical nu delta (ksqrt phi) a) (unit_at a)) by apply S_unit. ring.
    - intros a b Ha Hb. rewrite D1 in Ha, Hb. rewrite D3, U3 by assumption. rewrite <- form_scale.
      rewrite (form_scale_r (to_physical nu delta (ksqrt phi) a) (unit_at a)) by apply S_unit.
      rewrite (form_scale_l (to_physical nu delta (ksqrt phi) b) _ (unit_at b)) by apply S_unit. ring.
  Qed.
End Scaling.
