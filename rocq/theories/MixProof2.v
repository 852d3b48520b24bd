(** * The projection to physical unknowns; scaled against unscaled unknowns *)
From Coq Require Import String List Arith Bool Lia Ring Field.
From Verif Require Import Base BaseProof FormModel FormSpec FormProof FormProof2 AdModel AdModel2 AdSpec AdProof AdProof2 AdProof3 BcProof2 MixSpec MixProof.
Import ListNotations.
Open Scope list_scope.

Section Physical.
  Context {F : scalar} (HF : is_ring F).
  Let HR : ring_theory (@k0 F) k1 kadd kmul ksub kopp eq := HF.
  Add Ring KringL : HR.
  Local Open Scope num_scope.

  (** the loop over the points when the integrand is affine *)
  Lemma form_loop' : forall (e : element F) w n (integrand : nat -> nat -> dual F) alpha (c : nat -> nat -> F) (B : nat -> nat -> (nat -> F) -> F) l form,
    (forall a, a < n -> ksum (length w) (fun i => (e_det e i * weight w i) * c i a) = l (unit_at a)) ->
    (forall i a, i < length w -> a < n -> affine n alpha (integrand i a) (c i a) (B i a)) ->
    (forall a x, a < n -> form x (unit_at a) = integral e w (fun i => B i a x)) ->
    exists r', foldM (fun r i => Ok (fun a => dadd (r a) (dscale (e_det e i * weight w i) (integrand i a)))) (seq 0 (length w)) (fun _ => dzero) = Ok r' /\
      system_of n form l alpha (of_duals n r').
  Proof.
    intros e w n integrand alpha c B l form H1 H3 H4.
    destruct (point_loop HF true (length w) (fun i a => dscale (e_det e i * weight w i) (integrand i a)) (fun _ => dzero)) as [PL _].
    destruct (PL eq_refl) as (r' & Q1 & Q2). exists r'. split; [exact Q1|].
    assert (SUM : forall m (f : nat -> dual F) cc BB, (forall i, i < m -> affine n alpha (f i) (cc i) (BB i)) ->
      affine n alpha (dsum m f) (ksum m cc) (fun x => ksum m (fun i => BB i x))).
    { intros m f cc BB. induction m as [|m IH]; intros HB.
      - exists dzero. split; [exact (lin_sum HF n alpha 0 (fun _ => dzero) (fun _ _ => k0) ltac:(intros; lia))|].
        split; simpl; [ring|reflexivity].
      - destruct IH as (s & S1 & S2 & S3); [intros; apply HB; lia|]. destruct (HB m (Nat.lt_succ_diag_r m)) as (t & T1 & T2 & T3).
        exists (dadd s t). split; [apply (lin_add HF); assumption|]. simpl. split; [rewrite S2, T2; ring|].
        intros b Hb. rewrite S3, T3 by exact Hb. reflexivity. }
    apply (affine_system n r' (fun a => ksum (length w) (fun i => (e_det e i * weight w i) * c i a)) (fun a x => ksum (length w) (fun i => (e_det e i * weight w i) * B i a x))).
    - intros a Ha. destruct (SUM (length w) (fun i => dscale (e_det e i * weight w i) (integrand i a)) (fun i => (e_det e i * weight w i) * c i a) (fun i x => (e_det e i * weight w i) * B i a x)) as (s & S1 & S2 & S3).
      { intros i Hi. destruct (H3 i a Hi Ha) as (t & T1 & T2 & T3). exists (dscale (e_det e i * weight w i) t). split; [apply (lin_scale HF); exact T1|].
        simpl. split; [rewrite T2; ring|]. intros b Hb. rewrite T3 by exact Hb. reflexivity. }
      exists s. split; [exact S1|]. destruct (Q2 a) as [Q3 Q4]. split.
      + rewrite Q3, <- S2, dsum_v. simpl. ring.
      + intros b Hb. rewrite Q4, <- S3, dsum_d by exact Hb. simpl. ring.
    - exact H1.
    - intros a x Ha. rewrite H4 by exact Ha. unfold integral. rewrite (Sum_ksum HF). apply ksum_ext. intros. unfold weight. ring.
  Qed.

  Variable ksqrt : F -> F.
  Variable above : F -> bool.
  Variable d : phy_data F.
  Let nv := ph_nv d.
  Let nq := ph_nq d.

  Definition phy_cu (i : nat) : F := if above (ph_phi d i) then ph_delta d i else k1.
  Definition phy_cp (i : nat) : F := if above (ph_phi d i) then kinv (ksqrt (ph_phi d i)) else k1.
  Definition phy_row (i a : nat) (x : nat -> F) : F :=
    if a <? nv then ksum (ph_dim d) (fun dir => t_val (e_tab (ph_ve d)) 0 i a dir * ksum nv (fun l => t_val (e_tab (ph_ve d)) 0 i l dir * x l))
    else t_val (e_tab (ph_qe d)) 0 i (a - nv) 0 * ksum nq (fun l => t_val (e_tab (ph_qe d)) 0 i l 0 * x (nv + l)%nat).
  Definition phy_const (s : nat -> F) (i a : nat) : F :=
    if a <? nv then - ksum (ph_dim d) (fun dir => t_val (e_tab (ph_ve d)) 0 i a dir * (phy_cu i * ksum nv (fun l => s l * t_val (e_tab (ph_ve d)) 0 i l dir)))
    else - (t_val (e_tab (ph_qe d)) 0 i (a - nv) 0 * (phy_cp i * ksum nq (fun l => s (nv + l)%nat * t_val (e_tab (ph_qe d)) 0 i l 0))).

  Lemma ph_flux_low : forall a i dir, a < nv -> ph_flux d (unit_at a) i dir = t_val (e_tab (ph_ve d)) 0 i a dir.
  Proof. intros. unfold ph_flux. exact (sum_unit_in HF (ph_nv d) a (fun k => t_val (e_tab (ph_ve d)) 0 i k dir) H). Qed.
  Lemma ph_flux_high : forall a i dir, nv <= a -> ph_flux d (unit_at a) i dir = k0.
  Proof. intros. unfold ph_flux. apply (sum_unit_out HF _ _ (fun k => k)). intros; unfold nv in *; lia. Qed.
  Lemma ph_pot_low : forall a i, a < nv -> ph_pot d (unit_at a) i = k0.
  Proof. intros. apply (sum_unit_out HF). intros; unfold nv in *; lia. Qed.
  Lemma ph_pot_high : forall a i, nv <= a -> a < nv + nq -> ph_pot d (unit_at a) i = t_val (e_tab (ph_qe d)) 0 i (a - nv) 0.
  Proof.
    intros a i H H'. pose proof (sum_unit_shift HF nq nv (a - nv) (fun k => t_val (e_tab (ph_qe d)) 0 i k 0)) as SU.
    replace (nv + (a - nv))%nat with a in SU by lia. apply SU. lia.
  Qed.

  Lemma phy_row_ok : forall a x, a < nv + nq -> phy_form d x (unit_at a) = integral (ph_ve d) (ph_w d) (fun i => phy_row i a x).
  Proof.
    intros a x Ha. unfold phy_form. apply (integral_ext HF). intros i Hi. unfold phy_row. destruct (Nat.ltb_spec a nv) as [H|H].
    - rewrite ph_pot_low, (Sum_ksum HF) by exact H.
      rewrite (ksum_ext (ph_dim d) _ (fun dir => t_val (e_tab (ph_ve d)) 0 i a dir * ksum nv (fun l => t_val (e_tab (ph_ve d)) 0 i l dir * x l))); [ring|].
      intros dir Hd. rewrite ph_flux_low by exact H. unfold ph_flux. rewrite (Sum_ksum HF).
      rewrite (ksum_ext (ph_nv d) _ (fun l => t_val (e_tab (ph_ve d)) 0 i l dir * x l)) by (intros; ring). fold nv. ring.
    - rewrite ph_pot_high, (Sum_ksum HF), (ksum_zero HF) by (try assumption; intros; rewrite ph_flux_high by assumption; ring).
      unfold ph_pot. rewrite (Sum_ksum HF). rewrite (ksum_ext (ph_nq d) _ (fun l => t_val (e_tab (ph_qe d)) 0 i l 0 * x (nv + l)%nat)) by (intros; fold nv; ring).
      fold nq. ring.
  Qed.
  Lemma phy_load_unit : forall s a, a < nv + nq ->
    ksum (length (ph_w d)) (fun i => (e_det (ph_ve d) i * weight (ph_w d) i) * phy_const s i a) = phy_load ksqrt above d s (unit_at a).
  Proof.
    intros s a Ha. unfold phy_load, integral. rewrite (Sum_ksum HF), <- (ksum_opp HF). apply ksum_ext. intros i Hi. unfold phy_const, weight.
    fold (phy_cu i). fold (phy_cp i). destruct (Nat.ltb_spec a nv) as [H|H].
    - rewrite ph_pot_low, (Sum_ksum HF) by exact H.
      rewrite (ksum_ext (ph_dim d) (fun dir => phy_cu i * ph_flux d s i dir * ph_flux d (unit_at a) i dir)
        (fun dir => t_val (e_tab (ph_ve d)) 0 i a dir * (phy_cu i * ksum nv (fun l => s l * t_val (e_tab (ph_ve d)) 0 i l dir)))); [ring|].
      intros dir Hd. rewrite ph_flux_low by exact H. unfold ph_flux. rewrite (Sum_ksum HF). fold nv. ring.
    - rewrite ph_pot_high by assumption.
      assert (Z : Sum (ph_dim d) (fun dir => phy_cu i * ph_flux d s i dir * ph_flux d (unit_at a) i dir) = k0).
      { rewrite (Sum_ksum HF). apply (ksum_zero HF). intros dir Hd. rewrite ph_flux_high by assumption. ring. }
      rewrite Z. unfold ph_pot. rewrite (Sum_ksum HF). fold nv nq. ring.
  Qed.

  Theorem physical_system : forall (sp : fe_space F) fn iel alpha scaled, phy_reads sp fn iel d -> phy_fits d ->
    exists L, physical_form ksqrt above (Some sp) (Some fn) iel alpha scaled = Ok L /\
      system_of (ph_nv d + ph_nq d) (phy_form d) (phy_load ksqrt above d scaled) alpha L.
  Proof.
    intros sp fn iel alpha scaled (R1 & R2 & R4 & R5 & R7 & R8 & R9) (U1 & P1 & V & D1 & V').
    unfold physical_form, dindex. rewrite R1, R2, R4, R5. simpl bind.
    unfold get_at at 1. rewrite R7. simpl bind. unfold quadrature_of, get_at at 1. rewrite R8. simpl bind.
    unfold get_at at 1. rewrite R9. simpl bind. rewrite U1, P1, !Nat.mul_1_r, !Nat.eqb_refl. cbn [andb].
    fold (ph_nv d) (ph_nq d) (ph_dim d). fold nv nq.
    edestruct (form_loop' (ph_ve d) (ph_w d) (nv + nq)
      (physical_integrand ksqrt above (ph_dim d) (e_tab (ph_ve d)) (e_tab (ph_qe d)) (ph_phi d) (ph_delta d) nv scaled (dvar alpha)) alpha
      (phy_const scaled) phy_row (phy_load ksqrt above d scaled) (phy_form d)) as (r' & Q1 & Q2).
    4:{ rewrite Q1. cbn [bind]. eexists. split; [reflexivity|exact Q2]. }
    - apply phy_load_unit.
    - intros i a Hi Ha. unfold physical_integrand, phy_const, phy_row. rewrite V, V', Nat.min_id, (Nat.min_r (ph_dim d) 1) by lia.
      fold (ph_nv d) (ph_nq d). fold nv nq. destruct (Nat.ltb_spec a nv) as [H|H].
      + exists (dsum (ph_dim d) (fun dir => dscale (t_val (e_tab (ph_ve d)) 0 i a dir) (dsum nv (fun l => dscale (t_val (e_tab (ph_ve d)) 0 i l dir) (dvar alpha l))))).
        split; [|split].
        * apply (lin_sum HF). intros dir _. apply (lin_scale HF). apply (lin_sum HF). intros l Hl. apply (lin_scale HF). apply (lin_var HF). lia.
        * rewrite !dsum_v. rewrite <- (ksum_opp HF), <- (ksum_add HF). apply ksum_ext. intros dir Hd. simpl.
          assert (E : (if above (ph_phi d i) then ksum nv (fun l => scaled l * t_val (e_tab (ph_ve d)) 0 i l dir) * ph_delta d i else ksum nv (fun l => scaled l * t_val (e_tab (ph_ve d)) 0 i l dir))
             = phy_cu i * ksum nv (fun l => scaled l * t_val (e_tab (ph_ve d)) 0 i l dir)).
          { unfold phy_cu. destruct (above (ph_phi d i)); ring. }
          rewrite E. ring.
        * intros b Hb. rewrite !dsum_d. apply ksum_ext. intros dir Hd. simpl. ring.
      + exists (dscale (t_val (e_tab (ph_qe d)) 0 i (a - nv) 0) (dsum nq (fun l => dscale (t_val (e_tab (ph_qe d)) 0 i l 0) (dvar alpha (nv + l)%nat)))).
        split; [|split].
        * apply (lin_scale HF). apply (lin_sum HF). intros l Hl. apply (lin_scale HF). apply (lin_var HF). lia.
        * rewrite dsum_v. cbn [ksum]. simpl.
          assert (E : (if above (ph_phi d i) then ksum nq (fun l => scaled (nv + l)%nat * t_val (e_tab (ph_qe d)) 0 i l 0) * kdiv k1 (ksqrt (ph_phi d i)) else ksum nq (fun l => scaled (nv + l)%nat * t_val (e_tab (ph_qe d)) 0 i l 0))
             = phy_cp i * ksum nq (fun l => scaled (nv + l)%nat * t_val (e_tab (ph_qe d)) 0 i l 0)).
          { unfold phy_cp, kdiv. destruct (above (ph_phi d i)); ring. }
          rewrite E. ring.
        * intros b Hb. rewrite dsum_d. cbn [ksum]. simpl. ring.
    - exact phy_row_ok.
  Qed.

  Lemma phy_linear_1 : forall y, linear_in (nv + nq) (fun x => phy_form d x y).
  Proof.
    intros y. unfold phy_form. apply (linear_integral HF). intros i Hi. apply (linear_add HF).
    - apply (linear_sum HF). intros dir Hd. apply (linear_r HF). unfold ph_flux. apply (linear_sum HF).
      intros k Hk. apply (linear_r HF). apply (linear_var HF). unfold nv, nq in *; lia.
    - apply (linear_r HF). unfold ph_pot. apply (linear_sum HF). intros k Hk. apply (linear_r HF).
      apply (linear_var HF _ (ph_nv d + k)). unfold nv, nq in *; lia.
  Qed.
  Theorem physical_exact : forall (sp : fe_space F) fn iel scaled, phy_reads sp fn iel d -> phy_fits d ->
    exact_jacobian (fun alpha => physical_form ksqrt above (Some sp) (Some fn) iel alpha scaled).
  Proof.
    intros sp fn iel scaled HR' HD. apply (system_exact HF _ (nv + nq) (phy_form d) (phy_load ksqrt above d scaled)).
    - intros y x. exact (phy_linear_1 y x).
    - intros alpha L H. destruct (physical_system sp fn iel alpha scaled HR' HD) as (L' & E & S). rewrite H in E. injection E as <-. exact S.
  Qed.

  (** the scaled coefficients, changed to physical ones, solve the projection *)
  Lemma ph_flux_scale : forall dl rt x i dir, ph_flux d (scaled_state nv dl rt x) i dir = dl * ph_flux d x i dir.
  Proof.
    intros. unfold ph_flux. rewrite !(Sum_ksum HF), <- (ksum_mul_l HF). apply ksum_ext. intros k Hk. unfold scaled_state, to_physical.
    replace (k <? nv) with true by (symmetry; apply Nat.ltb_lt; exact Hk). ring.
  Qed.
  Lemma ph_pot_scale : forall dl rt x i, ph_pot d (scaled_state nv dl rt x) i = kinv rt * ph_pot d x i.
  Proof.
    intros. unfold ph_pot. rewrite !(Sum_ksum HF), <- (ksum_mul_l HF). apply ksum_ext. intros k Hk. unfold scaled_state, to_physical. fold nv.
    replace (nv + k <? nv) with false by (symmetry; apply Nat.ltb_ge; lia). ring.
  Qed.
  Theorem physical_solved : forall (sp : fe_space F) fn iel scaled phi delta, phy_reads sp fn iel d -> phy_fits d ->
    (forall i, i < length (ph_w d) -> ph_phi d i = phi /\ ph_delta d i = delta) -> above phi = true ->
    exists L, physical_form ksqrt above (Some sp) (Some fn) iel (scaled_state (ph_nv d) delta (ksqrt phi) scaled) scaled = Ok L /\
      forall a, a < l_n L -> l_r L a = k0.
  Proof.
    intros sp fn iel scaled phi delta HR' HD HC HA.
    destruct (physical_system sp fn iel (scaled_state (ph_nv d) delta (ksqrt phi) scaled) scaled HR' HD) as (L & E & S1 & S2 & _).
    exists L. split; [exact E|]. intros a Ha. rewrite S1 in Ha. rewrite (S2 a Ha). unfold phy_form, phy_load, integral.
    rewrite !(Sum_ksum HF), <- (ksum_opp HF), <- (ksum_add HF). apply (ksum_zero HF). intros i Hi. destruct (HC i Hi) as [C1 C2]. rewrite C1, C2, HA.
    fold nv. rewrite ph_pot_scale, !(Sum_ksum HF). rewrite (ksum_ext (ph_dim d) (fun dir => ph_flux d (scaled_state nv delta (ksqrt phi) scaled) i dir * ph_flux d (unit_at a) i dir)
      (fun dir => delta * ph_flux d scaled i dir * ph_flux d (unit_at a) i dir)).
    - ring.
    - intros dir Hd. rewrite ph_flux_scale. reflexivity.
  Qed.
End Physical.
