(** * The vectorized dual forms and Riesz maps: systems *)
From Coq Require Import String List Arith Bool Lia Ring Field.
From Verif Require Import Base BaseProof FormModel FormSpec FormProof FormProof2 AdModel AdModel2 AdSpec AdProof AdProof2 AdProof3 BcProof BcProof2 MixProof MixProof2 SolidSpec SolidProof SolidProof2 SolidProof3 DualModel DualSpec DualProof DualProof2 DualProof3.
Import ListNotations.
Open Scope list_scope.

Section Systems.
  Context {F : scalar} (HK : is_field F) (two : @kadd F k1 k1 <> k0).
  Let HF : is_ring F := field_is_ring F HK.
  Let HFd : field_theory (@k0 F) k1 kadd kmul ksub kopp (fun a b => kmul a (kinv b)) kinv eq := HK.
  Add Field KfieldT : HFd.
  Local Open Scope num_scope.

  Section Couple.
    Variable d : lce_input F.
    Hypothesis Hfit : lce_dual_fits d.
    Variables (scale : nat -> F) (dm : nat -> nat -> F).
    Let D := li_data d scale dm.
    Let nd := li_dim d.
    Let nr := li_rot d.
    Let n := du_size D.
    Let w := li_w d.
    Let c i := e_det (li_se d) i * weight w i.

    Lemma loads_ok : has_load d ->
      exists r, (do r <- load_loop 0 (at_u D) nd (e_tab (li_ue d)) (length w) c (li_rhs d) (fun _ => k0);
                 load_loop nd (at_t D) nr (e_tab (li_te d)) (length w) c (li_rhs d) r) = Ok r /\
        forall y, lf n r y = dual_load D y.
    Proof.
      intros HL. unfold has_load in HL. fold nd nr in HL.
      destruct (load_loop_ok HK n 0 (at_u D) nd (e_tab (li_ue d)) (length w) c (li_rhs d) (fun _ => k0)) as (r & R1 & R2);
        [lia|unfold n, du_size, at_t; simpl; fold nd; lia|].
      destruct (load_loop_ok HK n nd (at_t D) nr (e_tab (li_te d)) (length w) c (li_rhs d) r) as (r' & Q1 & Q2);
        [lia|unfold n, du_size; unfold du_nr; simpl; fold nd; unfold nr, li_rot; fold nd; lia|].
      rewrite R1. cbn [bind]. rewrite Q1. exists r'. split; [reflexivity|]. intros y.
      rewrite Q2, R2, (lf_zero HK), (dual_load_vals HK). unfold vu, vt. simpl. fold nd w c. unfold du_nr. simpl. fold nd. change (if nd =? 2 then 1%nat else 3%nat) with nr. unfold c. ring.
    Qed.

    Lemma lce_dual_vec_ok : forall dv, has_load d -> regular (li_se d) w ->
      (forall i k, i < length w -> dv i k = e_det (li_se d) i * dm i k) ->
      exists L, lce_dual_vec d scale dv = Ok L /\ system_of n (dual_form D) (dual_load D) zero_state L.
    Proof.
      intros dv HL HR HD.
      pose proof Hfit as Hf. destruct Hf as (E1 & E2 & E3 & E4 & E5 & E6 & E7 & E8 & E9 & E10 & E11).
      assert (NR : du_nr D = nr) by reflexivity.
      assert (A1 : (t_nphi (e_tab (li_se d)) * fe_comp (li_s d))%nat = at_m D) by (rewrite E2; reflexivity).
      assert (A2 : (at_m D + t_nphi (e_tab (li_me d)) * fe_comp (li_m d))%nat = at_u D) by (rewrite E3; reflexivity).
      assert (A3 : (at_u D + t_nphi (e_tab (li_ue d)) * fe_comp (li_u d))%nat = at_t D) by (rewrite E4; reflexivity).
      assert (A4 : (at_t D + t_nphi (e_tab (li_te d)) * fe_comp (li_t d))%nat = n) by (rewrite E5; reflexivity).
      unfold lce_dual_vec. rewrite A1, A2, A3, A4. rewrite E2, E3, E4, E5. fold nd nr w c. change (e_dim (li_se d)) with nd.
      destruct (loads_ok HL) as (r & R1 & R2).
      change (fun i : nat => e_det (li_se d) i * weight w i) with c.
      assert (LL : forall (K : (nat -> F) -> res (local_system F)), (do r0 <- load_loop 0 (at_u D) nd (e_tab (li_ue d)) (length w) c (li_rhs d) (fun _ : nat => k0);
        do r1 <- load_loop nd (at_t D) nr (e_tab (li_te d)) (length w) c (li_rhs d) r0; K r1) = K r).
      { intros K. destruct (load_loop 0 (at_u D) nd (e_tab (li_ue d)) (length w) c (li_rhs d) (fun _ : nat => k0)) as [r0|]; [|discriminate R1].
        cbn [bind] in R1 |- *. rewrite R1. reflexivity. }
      rewrite LL. clear LL R1.
      destruct (ss_block_ok HK two d Hfit scale dm (fun _ _ => k0)) as (J1 & S1 & S2). rewrite S1. cbn [bind]. clear S1.
      assert (C : cols (e_tab (li_se d)) nd = nd) by (unfold cols; rewrite E6; fold nd; lia).
      unfold second_dir. rewrite C. replace (2 <=? nd) with true by (destruct E1 as [E|E]; fold nd in E; rewrite E; reflexivity). cbn [bind].
      pose proof (fun y x => rot_loop_ok HK n (at_t D) (t_nphi (e_tab (li_te d))) (t_nphi (e_tab (li_se d))) nd (length w) (e_tab (li_te d)) (e_tab (li_se d)) c y x) as RL.
      assert (RL' : exists J2, rot_loop nd (rot_op (e_tab (li_te d)) (e_tab (li_se d)) (length w) c) (at_t D) (t_nphi (e_tab (li_te d)) * nr) nr (t_nphi (e_tab (li_se d)) * nd) nd J1 = Ok J2 /\
        forall y x, bil n J2 y x = bil n J1 y x + ksum (length w) (fun i => c i * (- contract nd nd (spin nd (vt D x i)) (vs D y i) - contract nd nd (vs D x i) (spin nd (vt D y i))))).
      { destruct (RL (fun _ => k0) (fun _ => k0)) with (J := J1) as (J2 & Q & _).
        - unfold n, du_size, at_t, at_u, at_m; simpl; fold nd; lia.
        - change (n_rot nd) with nr. unfold n, du_size. rewrite NR. simpl. lia.
        - exact E1.
        - exists J2. split; [exact Q|]. intros y x. destruct (RL y x) with (J := J1) as (J3 & Q3 & Q4).
          + unfold n, du_size, at_t, at_u, at_m; simpl; fold nd; lia.
          + change (n_rot nd) with nr. unfold n, du_size. rewrite NR. simpl. lia.
          + exact E1.
          + assert (J3 = J2) by congruence. subst. rewrite Q4. reflexivity. }
      destruct RL' as (J2 & Q1 & Q2). change (t_nphi (e_tab (li_se d)) * nd)%nat with (at_m D) in Q1. rewrite Q1. cbn [bind]. clear RL Q1.
      destruct (mm_block_ok HK two d Hfit scale dm J2) as (J3 & M1 & M2). rewrite M1. cbn [bind]. clear M1.
      eexists. split; [reflexivity|]. apply (system_bil HK); [exact R2|]. intros y x.
      rewrite (bil_coupling HF) by (try (unfold n, du_size; rewrite NR; simpl; lia); unfold n, du_size, at_t, at_u, at_m; rewrite NR; simpl; fold nd; lia).
      match goal with |- context [coupling_loop (at_u D) ?un nd 0 (at_m D) nd] =>
        change (coupling_loop (at_u D) un nd 0 (at_m D) nd) with (@coupling_loop F (at_u D) un nd 0 (t_nphi (e_tab (li_se d)) * nd) nd) end.
      rewrite (bil_coupling HF) by (unfold n, du_size, at_t, at_u, at_m; rewrite NR; simpl; fold nd; lia).
      fold n in M2, S2. rewrite M2, Q2, S2, (bil_zero HF). clear M2 Q2 S2. fold D nd w.
      rewrite (coupling_det HK) with (det := e_det (li_se d)) (g' := piola_div (li_se d) (e_tab (li_se d)) nd).
      2:{ intros i l Hi. apply (ref_div_s HK d Hfit); assumption. }
      rewrite (coupling_det HK) with (det := e_det (li_se d)) (g' := dm) by exact HD.
      rewrite (dual_form_vals HK D E1). change (du_w D) with w. change (e_det (du_e D)) with (e_det (li_se d)).
      transitivity (k0 + ksum (length w) (fun i => c i * dual_point D x y i)); [|fold c; unfold c; ring].
      repeat match goal with |- ?b + ksum _ ?f + ksum _ ?g = _ => replace (b + ksum (length w) f + ksum (length w) g) with (b + ksum (length w) (fun i => f i + g i)) by (rewrite (ksum_add HF); ring) end.
      f_equal. apply ksum_ext. intros i Hi. unfold dual_point, ven. change (du_nd D) with nd. rewrite NR. fold w.
      change (val 0 (t_nphi (e_tab (li_se d))) nd (piola_div (li_se d) (e_tab (li_se d)) nd i)) with (fun z => vds D z i).
      change (val (at_u D) (t_nphi (e_tab (li_ue d))) nd (fun k => t_val (e_tab (li_ue d)) 0 i k 0)) with (fun z => vu D z i).
      change (val (at_m D) (t_nphi (e_tab (li_me d))) nr (dm i)) with (fun z => vdm D z i).
      change (val (at_t D) (t_nphi (e_tab (li_te d))) nr (fun k => t_val (e_tab (li_te d)) 0 i k 0)) with (fun z => vt D z i).
      unfold c. cbn beta. simpl. ring.
    Qed.

    Lemma lce_riesz_vec_ok : forall dv, (forall i k, i < length w -> dv i k = dm i k) ->
      exists L, lce_riesz_vec d scale dv = Ok L /\ system_of n (riesz_form D) (fun _ => k0) zero_state L.
    Proof.
      intros dv HD.
      pose proof Hfit as Hf. destruct Hf as (E1 & E2 & E3 & E4 & E5 & E6 & E7 & E8 & E9 & E10 & E11).
      assert (NR : du_nr D = nr) by reflexivity.
      assert (A1 : (t_nphi (e_tab (li_se d)) * fe_comp (li_s d))%nat = at_m D) by (rewrite E2; reflexivity).
      assert (A2 : (at_m D + t_nphi (e_tab (li_me d)) * fe_comp (li_m d))%nat = at_u D) by (rewrite E3; reflexivity).
      assert (A3 : (at_u D + t_nphi (e_tab (li_ue d)) * fe_comp (li_u d))%nat = at_t D) by (rewrite E4; reflexivity).
      assert (A4 : (at_t D + t_nphi (e_tab (li_te d)) * fe_comp (li_t d))%nat = n) by (rewrite E5; reflexivity).
      unfold lce_riesz_vec. rewrite A1, A2, A3, A4. rewrite E2, E3, E4, E5. fold nd nr w c.
      change (fun i : nat => e_det (li_se d) i * weight w i) with c.
      destruct (ss_block_ok HK two d Hfit scale dm (fun _ _ => k0)) as (J1 & S1 & S2). rewrite S1. cbn [bind]. clear S1.
      destruct (mm_block_ok HK two d Hfit scale dm J1) as (J3 & M1 & M2). rewrite M1. cbn [bind]. clear M1.
      eexists. split; [reflexivity|]. apply (system_bil HK); [intros; apply (lf_zero HK)|]. intros y x.
      match goal with |- context [diag_loop 0 (at_m D) nd] =>
        change (@diag_loop F 0 (at_m D) nd) with (@diag_loop F 0 (t_nphi (e_tab (li_se d)) * nd) nd) end.
      rewrite !(bil_diag HF) by (try (unfold n, du_size; rewrite NR; simpl; lia); unfold n, du_size, at_t, at_u, at_m; rewrite NR; simpl; fold nd; lia).
      fold n in M2, S2. rewrite M2, S2, (bil_zero HF). clear M2 S2. fold D nd w.
      rewrite (diag_sep HK 0 _ nd (length w) (fun i k => ref_div (e_tab (li_se d)) (t_nder (e_tab (li_se d))) (e_dim (li_se d)) i k * kdiv k1 (e_det (li_se d) i))).
      rewrite (diag_sep HK (at_m D) _ nr (length w) dv), (diag_sep HK (at_u D) _ nd (length w) (fun i k => t_val (e_tab (li_ue d)) 0 i k 0)),
        (diag_sep HK (at_t D) _ nr (length w) (fun i k => t_val (e_tab (li_te d)) 0 i k 0)).
      rewrite (riesz_form_vals HK D E1). change (du_w D) with w. change (e_det (du_e D)) with (e_det (li_se d)).
      transitivity (k0 + ksum (length w) (fun i => c i * riesz_point D x y i)); [|unfold c; ring].
      repeat match goal with |- ?b + ksum _ ?f + ksum _ ?g = _ => replace (b + ksum (length w) f + ksum (length w) g) with (b + ksum (length w) (fun i => f i + g i)) by (rewrite (ksum_add HF); ring) end.
      f_equal. apply ksum_ext. intros i Hi. unfold riesz_point, ven. change (du_nd D) with nd. rewrite NR. fold w.
      assert (V1 : forall z e, val 0 (t_nphi (e_tab (li_se d))) nd (fun k => ref_div (e_tab (li_se d)) (t_nder (e_tab (li_se d))) (e_dim (li_se d)) i k * kdiv k1 (e_det (li_se d) i)) z e = vds D z i e).
      { intros. unfold vds, val. apply ksum_ext. intros k Hk. f_equal. unfold ref_div, cols. rewrite E6, E7.
        change (e_dim (li_se d)) with (li_dim d). rewrite !Nat.min_id. change (du_ds D i k) with (piola_div (li_se d) (e_tab (li_se d)) nd i k).
        unfold piola_div, kdiv. rewrite (Sum_ksum HF). fold nd. ring. }
      assert (V2 : forall z e, val (at_m D) (t_nphi (e_tab (li_me d))) nr (dv i) z e = vdm D z i e).
      { intros. unfold vdm, val. apply ksum_ext. intros k Hk. f_equal. apply HD. exact Hi. }
      rewrite (dot_ext HK nd (val 0 _ nd _ x) (vds D x i) (val 0 _ nd _ y) (vds D y i)) by (intros; apply V1).
      rewrite (dot_ext HK nr (val (at_m D) _ nr _ x) (vdm D x i) (val (at_m D) _ nr _ y) (vdm D y i)) by (intros; apply V2).
      change (val (at_u D) (t_nphi (e_tab (li_ue d))) nd (fun k => t_val (e_tab (li_ue d)) 0 i k 0)) with (fun z => vu D z i).
      change (val (at_t D) (t_nphi (e_tab (li_te d))) nr (fun k => t_val (e_tab (li_te d)) 0 i k 0)) with (fun z => vt D z i).
      unfold c. cbn beta. simpl. ring.
    Qed.
  End Couple.
End Systems.
