(** * Linear elasticity: the vectorized dual form and Riesz map; reading the input *)
From Coq Require Import String List Arith Bool Lia Ring Field.
From Verif Require Import Base BaseProof FormModel FormSpec FormProof FormProof2 AdModel AdModel2 AdSpec AdProof AdProof2 AdProof3 BcProof BcProof2 MixProof MixProof2 SolidSpec SolidProof SolidProof2 SolidProof3 DualModel DualSpec DualProof DualProof2 DualProof3 DualProof4.
Import ListNotations.
Open Scope list_scope.

Section Elastic.
  Context {F : scalar} (HK : is_field F) (two : @kadd F k1 k1 <> k0).
  Let HF : is_ring F := field_is_ring F HK.
  Let HFd : field_theory (@k0 F) k1 kadd kmul ksub kopp (fun a b => kmul a (kinv b)) kinv eq := HK.
  Add Field KfieldU : HFd.
  Local Open Scope num_scope.

  Lemma lce_read_ok : forall b b' (sp : fe_space F) fn iel d, lce_gets b b' sp fn iel d -> lce_read b b' sp fn iel = Ok d.
  Proof.
    intros b b' sp fn iel d (R1 & R2 & R3 & R4 & R5 & R6 & R7 & R8 & R9 & R10 & R11 & R12 & R13 & R14 & R15 & R16 & R17 & R18).
    unfold lce_read, dindex. rewrite R1, R2, R3, R4, R6, R7, R8, R9, R10, R11, R12. cbn [bind].
    assert (X : (if b then match dget (vec_of fn) "rhs"%string with Some v => Ok v | None => Err KeyError end else Ok []) = Ok (li_rhs d)).
    { destruct b; [rewrite R5; reflexivity|rewrite R5; reflexivity]. }
    rewrite X. cbn [bind].
    assert (Y : (if b' then match dget (vec_of fn) "grad_l"%string with Some v => Ok v | None => Err KeyError end else Ok []) = Ok (li_grad_l d)).
    { destruct b'; [rewrite R13; reflexivity|rewrite R13; reflexivity]. }
    rewrite Y. cbn [bind]. unfold get_at at 1. rewrite R14. cbn [bind]. unfold get_at at 1. rewrite R15. cbn [bind].
    unfold get_at at 1. rewrite R16. cbn [bind]. unfold get_at at 1. rewrite R17. cbn [bind].
    unfold quadrature_of, get_at. rewrite R18. cbn [bind]. destruct d. reflexivity.
  Qed.

  Section Elastic.
    Variable d : ld_data F.
    Hypothesis Hfit : ld_fits d.
    Let D := elastic_data d.
    Let nd := ld_dim d.
    Let nr := ld_rot d.
    Let n := du_size D.
    Let w := ld_w d.
    Let c i := e_det (ld_se d) i * weight w i.
    Let ns := t_nphi (e_tab (ld_se d)).

    Lemma elastic_u : at_u D = at_m D.
    Proof. unfold at_u, D. simpl. lia. Qed.
    Lemma elastic_block : forall J y x,
      bil n (add_block 0 (ns * nd) 1 0 (ns * nd) 1
              (weighted (length w) (fun i p q => (- k1) * outer_at (e_tab (ld_se d)) nd i p q) (fun i => vol_factor nd (ld_lambda d) (ld_mu d) i * c i))
              (diag_loop 0 (ns * nd) nd (weighted (length w) (inner_at (e_tab (ld_se d)) nd) (fun i => kdiv k1 (k2 * ld_mu d i) * c i)) J)) y x
      = bil n J y x + ksum (length w) (fun i => c i * ven D x y i).
    Proof.
      intros J y x. destruct Hfit as (E1 & E2 & E3 & E4 & E5 & E6).
      assert (C : cols (e_tab (ld_se d)) nd = nd) by (unfold cols; rewrite E5; fold nd; lia).
      assert (B : 0 + ns * nd <= n) by (unfold n, du_size, at_t, at_u, at_m; simpl; fold nd ns; lia).
      etransitivity; [exact (bil_full HF n 0 ns nd _ _ y x B)|].
      rewrite (bil_diag HF) by exact B. rewrite (diag_inner HK), (fblk_weighted HF), C.
      transitivity (bil n J y x + (ksum (length w) (fun i => kdiv k1 (k2 * ld_mu d i) * c i * contract nd nd (tens 0 ns nd (e_tab (ld_se d)) i x) (tens 0 ns nd (e_tab (ld_se d)) i y))
        + ksum (length w) (fun i => vol_factor nd (ld_lambda d) (ld_mu d) i * c i * fblk 0 ns nd (fun p q => (- k1) * outer_at (e_tab (ld_se d)) nd i p q) y x))); [ring|].
      f_equal. rewrite <- (ksum_add HF). apply ksum_ext. intros i Hi.
      assert (SC : fblk 0 ns nd (fun p q => (- k1) * outer_at (e_tab (ld_se d)) nd i p q) y x = (- k1) * fblk 0 ns nd (outer_at (e_tab (ld_se d)) nd i) y x).
      { unfold fblk. rewrite <- (ksum_mul_l HF). apply ksum_ext. intros. rewrite <- (ksum_mul_l HF). apply ksum_ext. intros. apply (cblk_scale HF). }
      rewrite SC, (fblk_outer HK) by exact C. unfold ven. simpl du_scale. simpl du_mu. simpl du_kappa. simpl du_lambda.
      change (du_nd D) with nd. rewrite (compliance_whole HK two).
      change (vs D x i) with (tens 0 ns nd (e_tab (ld_se d)) i x). change (vs D y i) with (tens 0 ns nd (e_tab (ld_se d)) i y).
      rewrite (vol_is HK). unfold kdiv, k2. ring.
    Qed.
    Lemma elastic_div : forall i k, regular (ld_se d) w -> i < length w ->
      ref_div (e_tab (ld_se d)) (t_nder (e_tab (ld_se d))) nd i k = e_det (ld_se d) i * piola_div (ld_se d) (e_tab (ld_se d)) nd i k.
    Proof.
      intros i k R Hi. destruct Hfit as (E1 & E2 & E3 & E4 & E5 & E6).
      unfold ref_div, piola_div, cols. rewrite E5, E6. fold nd. rewrite !Nat.min_id, (Sum_ksum HF). field. apply R. exact Hi.
    Qed.
    Lemma no_couple : forall (z z' : nat -> F) i, dot (du_nr D) (vdm D z i) z' = k0.
    Proof. intros. rewrite (dot_ksum HK). apply (ksum_zero HF). intros. unfold vdm, val. simpl. ring. Qed.
    Lemma elastic_sizes : n = (at_m D + t_nphi (e_tab (ld_ue d)) * nd + t_nphi (e_tab (ld_te d)) * nr)%nat.
    Proof. unfold n, du_size, at_t. rewrite elastic_u. reflexivity. Qed.

    Lemma le_dual_vec_ok : forall (sp : fe_space F) fn iel alpha, ld_gets sp fn iel d -> ld_has_load d -> regular (ld_se d) w ->
      exists L, le_dual_vectorized (Some sp) (Some fn) iel alpha = Ok L /\ system_of n (dual_form D) (dual_load D) zero_state L.
    Proof.
      intros sp fn iel alpha (R1 & R2 & R3 & R4 & R5 & R6 & R7 & R8 & R9 & R10) HL HR.
      pose proof Hfit as Hf. destruct Hf as (E1 & E2 & E3 & E4 & E5 & E6). unfold ld_has_load in HL. fold nd nr in HL.
      unfold le_dual_vectorized, dindex. rewrite R1, R2, R3, R4, R5, R6. cbn [bind]. unfold get_at at 1. rewrite R7. cbn [bind].
      unfold get_at at 1. rewrite R8. cbn [bind]. unfold get_at at 1. rewrite R9. cbn [bind]. unfold quadrature_of, get_at. rewrite R10. cbn [bind].
      rewrite E2, E3, E4. change (e_dim (ld_se d)) with nd. fold nd nr w ns. change (fun i : nat => e_det (ld_se d) i * weight w i) with c.
      change (ns * nd)%nat with (at_m D).
      destruct (load_loop_ok HK n 0 (at_m D) nd (e_tab (ld_ue d)) (length w) c (ld_rhs d) (fun _ => k0)) as (r & L1 & L2); [lia|rewrite elastic_sizes; lia|].
      rewrite L1. cbn [bind].
      destruct (load_loop_ok HK n nd (at_m D + t_nphi (e_tab (ld_ue d)) * nd) nr (e_tab (ld_te d)) (length w) c (ld_rhs d) r) as (r' & L3 & L4); [lia|rewrite elastic_sizes; lia|].
      rewrite L3. cbn [bind]. clear L1 L3.
      assert (C : cols (e_tab (ld_se d)) nd = nd) by (unfold cols; rewrite E5; fold nd; lia).
      unfold fits_cols. rewrite C, Nat.eqb_refl. cbn [bind].
      unfold second_dir. rewrite C. replace (2 <=? nd) with true by (destruct E1 as [E|E]; fold nd in E; rewrite E; reflexivity). cbn [bind].
      match goal with |- context [rot_loop nd _ _ _ _ _ _ ?j] => set (J1 := j) end.
      assert (B1 : ns * nd <= n) by (rewrite elastic_sizes; unfold at_m; simpl; fold ns nd; lia).
      assert (AT : at_t D = (at_m D + t_nphi (e_tab (ld_ue d)) * nd)%nat) by (unfold at_t; rewrite elastic_u; reflexivity).
      assert (RL' : exists J2, rot_loop nd (rot_op (e_tab (ld_te d)) (e_tab (ld_se d)) (length w) c) (at_m D + t_nphi (e_tab (ld_ue d)) * nd) (t_nphi (e_tab (ld_te d)) * nr) nr (ns * nd) nd J1 = Ok J2 /\
        forall y x, bil n J2 y x = bil n J1 y x + ksum (length w) (fun i => c i * (- contract nd nd (spin nd (vt D x i)) (vs D y i) - contract nd nd (vs D x i) (spin nd (vt D y i))))).
      { destruct (rot_loop_ok HK n (at_t D) (t_nphi (e_tab (ld_te d))) ns nd (length w) (e_tab (ld_te d)) (e_tab (ld_se d)) c (fun _ => k0) (fun _ => k0) B1) with (J := J1) as (J2 & Q & _).
        - change (n_rot nd) with nr. rewrite elastic_sizes, AT. lia.
        - exact E1.
        - rewrite <- AT. exists J2. split; [exact Q|]. intros y x.
          destruct (rot_loop_ok HK n (at_t D) (t_nphi (e_tab (ld_te d))) ns nd (length w) (e_tab (ld_te d)) (e_tab (ld_se d)) c y x B1) with (J := J1) as (J3 & Q3 & Q4).
          + change (n_rot nd) with nr. rewrite elastic_sizes, AT. lia.
          + exact E1.
          + assert (J3 = J2) by congruence. subst. rewrite Q4. reflexivity. }
      destruct RL' as (J2 & Q1 & Q2). change (ns * nd)%nat with (at_m D) in Q1. rewrite Q1. cbn [bind]. clear Q1.
      rewrite <- elastic_sizes. eexists. split; [reflexivity|]. apply (system_bil HK).
      - intros y. rewrite L4, L2, (lf_zero HK), (dual_load_vals HK). change (du_nd D) with nd. change (du_nr D) with nr. change (du_w D) with w. change (du_e D) with (ld_se d). change (du_f D) with (ld_rhs d).
        unfold vu, vt. rewrite AT, elastic_u. change (du_nd D) with nd. change (du_nr D) with nr. simpl. unfold c. ring.
      - intros y x.
        match goal with |- context [coupling_loop (at_m D) ?un nd 0 (at_m D) nd] =>
          change (coupling_loop (at_m D) un nd 0 (at_m D) nd) with (@coupling_loop F (at_m D) un nd 0 (ns * nd) nd) end.
        rewrite (bil_coupling HF) by (rewrite elastic_sizes; unfold at_m; simpl; fold ns nd; lia).
        rewrite Q2. unfold J1. clear Q2 J1. change (at_m D) with (ns * nd)%nat at 1 2 3. rewrite elastic_block, (bil_zero HF).
        rewrite (coupling_det HK) with (det := e_det (ld_se d)) (g' := piola_div (ld_se d) (e_tab (ld_se d)) nd).
        2:{ intros i l Hi. apply elastic_div; assumption. }
        rewrite (dual_form_vals HK D E1). change (du_w D) with w. change (e_det (du_e D)) with (e_det (ld_se d)).
        transitivity (k0 + ksum (length w) (fun i => c i * dual_point D x y i)); [|unfold c; ring].
        repeat match goal with |- ?b + ksum _ ?f + ksum _ ?g = _ => replace (b + ksum (length w) f + ksum (length w) g) with (b + ksum (length w) (fun i => f i + g i)) by (rewrite (ksum_add HF); ring) end.
        f_equal. apply ksum_ext. intros i Hi. unfold dual_point. rewrite (dot_comm HK (du_nr D) (vt D x i)), !no_couple.
        change (du_nd D) with nd.
        change (val 0 ns nd (piola_div (ld_se d) (e_tab (ld_se d)) nd i)) with (fun z => vds D z i).
        rewrite <- elastic_u.
        change (val (at_u D) (t_nphi (e_tab (ld_ue d))) nd (fun k => t_val (e_tab (ld_ue d)) 0 i k 0)) with (fun z => vu D z i).
        cbn beta. unfold c. ring.
    Qed.

    Lemma le_riesz_vec_ok : forall (sp : fe_space F) fn iel alpha, ld_gets sp fn iel d ->
      exists L, le_riesz_vectorized (Some sp) (Some fn) iel alpha = Ok L /\ system_of n (riesz_form D) (fun _ => k0) zero_state L.
    Proof.
      intros sp fn iel alpha (R1 & R2 & R3 & R4 & R5 & R6 & R7 & R8 & R9 & R10).
      pose proof Hfit as Hf. destruct Hf as (E1 & E2 & E3 & E4 & E5 & E6).
      unfold le_riesz_vectorized, dindex. rewrite R1, R2, R3, R4, R5, R6. cbn [bind]. unfold get_at at 1. rewrite R7. cbn [bind].
      unfold get_at at 1. rewrite R8. cbn [bind]. unfold get_at at 1. rewrite R9. cbn [bind]. unfold quadrature_of, get_at. rewrite R10. cbn [bind].
      rewrite E2, E3, E4. change (e_dim (ld_se d)) with nd. fold nd nr w ns. change (fun i : nat => e_det (ld_se d) i * weight w i) with c.
      assert (C : cols (e_tab (ld_se d)) nd = nd) by (unfold cols; rewrite E5; fold nd; lia).
      unfold fits_cols. rewrite C, Nat.eqb_refl. cbn [bind].
      assert (AT : at_t D = (at_m D + t_nphi (e_tab (ld_ue d)) * nd)%nat) by (unfold at_t; rewrite elastic_u; reflexivity).
      pose proof elastic_sizes as ES. change (at_m D) with (ns * nd)%nat in ES. rewrite <- ES.
      eexists. split; [reflexivity|]. apply (system_bil HK); [intros; apply (lf_zero HK)|]. intros y x.
      rewrite !(bil_diag HF) by (rewrite elastic_sizes; unfold at_m; simpl; fold ns nd; lia).
      rewrite elastic_block, (bil_zero HF).
      rewrite (diag_sep HK 0 _ nd (length w) (fun i k => ref_div (e_tab (ld_se d)) (t_nder (e_tab (ld_se d))) nd i k * kdiv k1 (e_det (ld_se d) i))).
      rewrite (diag_sep HK (ns * nd) _ nd (length w) (fun i k => t_val (e_tab (ld_ue d)) 0 i k 0)),
        (diag_sep HK (ns * nd + t_nphi (e_tab (ld_ue d)) * nd) _ nr (length w) (fun i k => t_val (e_tab (ld_te d)) 0 i k 0)).
      rewrite (riesz_form_vals HK D E1). change (du_w D) with w. change (e_det (du_e D)) with (e_det (ld_se d)).
      transitivity (k0 + ksum (length w) (fun i => c i * riesz_point D x y i)); [|unfold c; ring].
      repeat match goal with |- ?b + ksum _ ?f + ksum _ ?g = _ => replace (b + ksum (length w) f + ksum (length w) g) with (b + ksum (length w) (fun i => f i + g i)) by (rewrite (ksum_add HF); ring) end.
      f_equal. apply ksum_ext. intros i Hi. unfold riesz_point. rewrite no_couple. change (du_nd D) with nd. change (du_nr D) with nr.
      assert (V1 : forall z e, val 0 ns nd (fun k => ref_div (e_tab (ld_se d)) (t_nder (e_tab (ld_se d))) nd i k * kdiv k1 (e_det (ld_se d) i)) z e = vds D z i e).
      { intros. unfold vds, val. apply ksum_ext. intros k Hk. f_equal. unfold ref_div, cols. rewrite E5, E6. fold nd. rewrite !Nat.min_id.
        change (du_ds D i k) with (piola_div (ld_se d) (e_tab (ld_se d)) nd i k). unfold piola_div, kdiv. rewrite (Sum_ksum HF). ring. }
      rewrite (dot_ext HK nd (val 0 _ nd _ x) (vds D x i) (val 0 _ nd _ y) (vds D y i)) by (intros; apply V1).
      change (ns * nd)%nat with (at_m D). rewrite <- AT, <- elastic_u.
      change (val (at_u D) (t_nphi (e_tab (ld_ue d))) nd (fun k => t_val (e_tab (ld_ue d)) 0 i k 0)) with (fun z => vu D z i).
      change (val (at_t D) (t_nphi (e_tab (ld_te d))) nr (fun k => t_val (e_tab (ld_te d)) 0 i k 0)) with (fun z => vt D z i).
      unfold c. cbn beta. ring.
    Qed.
  End Elastic.
End Elastic.
