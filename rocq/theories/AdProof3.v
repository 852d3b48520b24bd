(** * Linear elasticity *)
From Coq Require Import String List Arith Bool Lia Ring Field.
From Verif Require Import Base BaseProof FormModel FormSpec FormProof FormProof2 AdModel AdSpec AdProof AdProof2.
Import ListNotations.
Open Scope list_scope.

Lemma field_is_ring : forall F, is_field F -> is_ring F.
Proof. intros F H. exact (F_R H). Qed.

Section ElasticProof.
  Context {F : scalar} (HK : is_field F).
  Let HF : is_ring F := field_is_ring F HK.
  Let HR : ring_theory (@k0 F) k1 kadd kmul ksub kopp eq := HF.
  Add Ring KringD : HR.
  Local Open Scope num_scope.
  Hypothesis two : (k1 + k1 : F) <> k0.

  Lemma half_twice : forall x : F, kinv (k1 + k1) * (x + x) = x.
  Proof.
    intros x. pose proof (Finv_l HK _ two) as H.
    transitivity ((kinv (k1 + k1) * (k1 + k1)) * x); [ring|]. rewrite H. ring.
  Qed.

  Lemma ksum_scaled_unit : forall n c (f : nat -> F), c < n -> ksum n (fun d => (if c =? d then k1 else k0) * f d) = f c.
  Proof.
    intros n c f H. rewrite (ksum_single HF n c); [|exact H|].
    - rewrite Nat.eqb_refl. ring.
    - intros j Hj Hn. replace (c =? j) with false by (symmetry; apply Nat.eqb_neq; congruence). ring.
  Qed.

  Section Data.
    Variable d : le_data F.
    Let nd := le_dim d.
    Let e := le_e d.
    Let np := t_nphi (e_tab e).

    Definition le_g (i k dir : nat) : F := grad_phi e i k dir.
    Lemma le_grad_sum : forall x i c dir, le_grad d x i c dir = ksum np (fun l => le_g i l dir * x (l * nd + c)%nat).
    Proof.
      intros. unfold le_grad. rewrite (Sum_ksum HF). apply ksum_ext. intros l Hl. unfold le_g, grad_phi. rewrite (Sum_ksum HF). fold e nd. ring.
    Qed.

    Lemma unit_index : forall k c l c', c < nd -> c' < nd -> (l * nd + c')%nat = (k * nd + c)%nat -> l = k /\ c' = c.
    Proof. intros k c l c' H H' E. assert (l = k) by nia. subst. split; [reflexivity|lia]. Qed.

    Lemma le_grad_unit : forall k c i c' dir, k < np -> c < nd -> c' < nd ->
      le_grad d (unit_at (k * nd + c)%nat) i c' dir = (if c =? c' then k1 else k0) * le_g i k dir.
    Proof.
      intros k c i c' dir Hk Hc Hc'. rewrite le_grad_sum. destruct (Nat.eqb_spec c c') as [<-|N].
      - rewrite (ksum_single HF _ k); [|exact Hk|].
        + rewrite unit_same. ring.
        + intros l Hl Hn. rewrite unit_other; [ring|]. intros E. apply unit_index in E; [|assumption|assumption]. destruct E; congruence.
      - rewrite (ksum_zero HF); [ring|]. intros l Hl. rewrite unit_other; [ring|].
        intros E. apply unit_index in E; [|assumption|assumption]. destruct E; congruence.
    Qed.

    Lemma le_strain_sym : forall x i c dir, le_strain d x i c dir = le_strain d x i dir c.
    Proof. intros. unfold le_strain. ring. Qed.

    Definition le_row (i k c : nat) (x : nat -> F) : F :=
      ksum nd (fun dir => le_g i k dir *
        ((k1 + k1) * le_mu d i * le_strain d x i c dir + (if c =? dir then k1 else k0) * (le_lambda d i * le_trace d x i))).

    Lemma le_energy_lin : forall alpha i k c, k < np -> c < nd -> lin (np * nd) alpha
      (le_strain_energy nd e (le_lambda d) (le_mu d) (dvar alpha) i k c) (le_row i k c).
    Proof.
      intros alpha i k c Hk Hc.
      assert (G : forall c' dir, c' < nd -> lin (np * nd) alpha
          (dsum np (fun l => dscale (grad_phi e i l dir) (dvar alpha (l * nd + c')%nat))) (fun x => le_grad d x i c' dir)).
      { intros c' dir Hc'. eapply (lin_eq (np * nd)); [|intros x; symmetry; apply le_grad_sum].
        apply (lin_sum HF). intros l Hl. apply (lin_scale HF). apply (lin_var HF). nia. }
      assert (S : forall c' dir, c' < nd -> dir < nd -> lin (np * nd) alpha
          (dscale khalf (dadd (dsum np (fun l => dscale (grad_phi e i l dir) (dvar alpha (l * nd + c')%nat)))
                              (dsum np (fun l => dscale (grad_phi e i l c') (dvar alpha (l * nd + dir)%nat)))))
          (fun x => le_strain d x i c' dir)).
      { intros c' dir H1 H2. apply (lin_scale HF). apply (lin_add HF); apply G; assumption. }
      apply (lin_sum HF). intros dir Hd. apply (lin_scale HF). apply (lin_add HF).
      - apply (lin_scale HF). apply S; assumption.
      - apply (lin_scale HF). apply (lin_scale HF).
        eapply (lin_eq (np * nd)); [apply (lin_sum HF); intros c' Hc'; apply (S c' c'); assumption|].
        intros x. unfold le_trace. rewrite (Sum_ksum HF). apply ksum_ext. intros c' Hc'. unfold le_strain. apply half_twice.
    Qed.

    Lemma le_row_ok : forall k c x, k < np -> c < nd ->
      le_form d x (unit_at (k * nd + c)%nat) =
      ksum (length (le_w d)) (fun i => (e_det e i * weight (le_w d) i) * le_row i k c x).
    Proof.
      intros k c x Hk Hc. unfold le_form, integral. rewrite (Sum_ksum HF). apply ksum_ext. intros i Hi. fold e nd.
      assert (T : le_trace d (unit_at (k * nd + c)%nat) i = le_g i k c).
      { unfold le_trace. rewrite (Sum_ksum HF). fold nd. rewrite (ksum_ext nd _ (fun c' => (if c =? c' then k1 else k0) * le_g i k c')).
        - apply ksum_scaled_unit. exact Hc.
        - intros c' Hc'. apply le_grad_unit; assumption. }
      assert (E : Sum nd (fun c' => Sum nd (fun dir => le_strain d x i c' dir * le_strain d (unit_at (k * nd + c)%nat) i c' dir)) =
                  ksum nd (fun dir => le_g i k dir * le_strain d x i c dir)).
      { rewrite (Sum_ksum HF).
        rewrite (ksum_ext nd _ (fun c' => kinv (k1 + k1) * ((if c =? c' then k1 else k0) * ksum nd (fun dir => le_g i k dir * le_strain d x i c' dir)) +
                                        kinv (k1 + k1) * (le_g i k c' * le_strain d x i c' c))).
        - rewrite (ksum_add HF), !(ksum_mul_l HF), ksum_scaled_unit by exact Hc.
          rewrite (ksum_ext nd (fun c' => le_g i k c' * le_strain d x i c' c) (fun dir => le_g i k dir * le_strain d x i c dir)).
          + rewrite <- (half_twice (ksum nd (fun dir => le_g i k dir * le_strain d x i c dir))) at 3. ring.
          + intros c' Hc'. rewrite le_strain_sym. reflexivity.
        - intros c' Hc'. rewrite (Sum_ksum HF).
          rewrite (ksum_ext nd _ (fun dir => kinv (k1 + k1) * ((if c =? c' then k1 else k0) * (le_g i k dir * le_strain d x i c' dir)) +
               kinv (k1 + k1) * ((if c =? dir then k1 else k0) * (le_g i k c' * le_strain d x i c' dir)))).
          + rewrite (ksum_add HF), !(ksum_mul_l HF), ksum_scaled_unit by exact Hc. reflexivity.
          + intros dir Hd. unfold le_strain at 2. rewrite !le_grad_unit by assumption.
            ring. }
      rewrite T, E. unfold le_row.
      rewrite (ksum_ext nd (fun dir => le_g i k dir * ((k1 + k1) * le_mu d i * le_strain d x i c dir + (if c =? dir then k1 else k0) * (le_lambda d i * le_trace d x i))) (fun dir => (k1 + k1) * le_mu d i * (le_g i k dir * le_strain d x i c dir) +
         (if c =? dir then k1 else k0) * (le_g i k dir * (le_lambda d i * le_trace d x i)))) by (intros; ring).
      rewrite (ksum_add HF), (ksum_mul_l HF), ksum_scaled_unit by exact Hc. unfold weight. ring.
    Qed.

    Lemma le_load_unit : forall k c, k < np -> c < nd ->
      le_load d (unit_at (k * nd + c)%nat) =
      ksum (length (le_w d)) (fun i => (e_det e i * weight (le_w d) i * t_val (e_tab e) 0 i k 0) * nth c (le_f d) (fun _ => k0) i).
    Proof.
      intros k c Hk Hc. unfold le_load, integral. rewrite (Sum_ksum HF). apply ksum_ext. intros i Hi.
      assert (U : forall c', c' < nd -> le_disp d (unit_at (k * nd + c)%nat) i c' = (if c =? c' then k1 else k0) * t_val (e_tab e) 0 i k 0).
      { intros c' Hc'. unfold le_disp. fold e nd np. destruct (Nat.eqb_spec c c') as [<-|N].
        - rewrite (Sum_ksum HF), (ksum_single HF _ k); [|exact Hk|].
          + rewrite unit_same. ring.
          + intros l Hl Hn. rewrite unit_other; [ring|]. intros E. apply unit_index in E; [|assumption|assumption]. destruct E; congruence.
        - rewrite (sum_unit_out HF _ _ (fun l => (l * nd + c')%nat)); [ring|]. intros l Hl E. apply unit_index in E; [|assumption|assumption].
          destruct E; congruence. }
      fold nd e. rewrite (Sum_ksum HF), (ksum_ext nd _ (fun c' => (if c =? c' then k1 else k0) * (t_val (e_tab e) 0 i k 0 * nth c' (le_f d) (fun _ => k0) i))).
      - rewrite ksum_scaled_unit by exact Hc. unfold weight. ring.
      - intros c' Hc'. rewrite U by exact Hc'. ring.
    Qed.

    Lemma le_grad_linear : forall i c dir, c < nd -> linear_in (np * nd) (fun x => le_grad d x i c dir).
    Proof.
      intros i c dir Hc. unfold le_grad. apply (linear_sum HF). intros k Hk. apply (linear_r HF). apply (linear_var HF). unfold np, e, nd in *. nia.
    Qed.
    Lemma le_strain_linear : forall i c dir, c < nd -> dir < nd -> linear_in (np * nd) (fun x => le_strain d x i c dir).
    Proof. intros. unfold le_strain. apply (linear_l HF). apply (linear_add HF); apply le_grad_linear; assumption. Qed.
    Lemma le_trace_linear : forall i, linear_in (np * nd) (fun x => le_trace d x i).
    Proof. intros. unfold le_trace. apply (linear_sum HF). intros. apply le_grad_linear. assumption. Qed.
    Lemma le_linear_1 : forall y, linear_in (np * nd) (fun x => le_form d x y).
    Proof.
      intros y. unfold le_form. apply (linear_integral HF). intros i Hi. apply (linear_add HF).
      - apply (linear_l HF). apply (linear_sum HF). intros c Hc. apply (linear_sum HF). intros dir Hd. apply (linear_r HF). apply le_strain_linear; assumption.
      - apply (linear_l HF). apply (linear_r HF). apply le_trace_linear.
    Qed.
    Lemma le_form_sym : forall x y, le_form d x y = le_form d y x.
    Proof.
      intros. unfold le_form. apply (integral_ext HF). intros i Hi. f_equal; [|ring]. f_equal.
      apply (Sum_ext HF). intros. apply (Sum_ext HF). intros. ring.
    Qed.
    Lemma le_linear_2 : forall x, linear_in (np * nd) (fun y => le_form d x y).
    Proof.
      intros x y. rewrite le_form_sym, le_linear_1. apply ksum_ext. intros. rewrite (le_form_sym x). reflexivity.
    Qed.
    Lemma le_rigid_form : forall x y, le_rigid d x -> le_form d x y = k0.
    Proof.
      intros x y H. unfold le_form, integral. rewrite (Sum_ksum HF). apply (ksum_zero HF). intros i Hi.
      assert (T : le_trace d x i = k0).
      { unfold le_trace. rewrite (Sum_ksum HF). apply (ksum_zero HF). intros c Hc. fold nd in Hc.
        rewrite <- (half_twice (le_grad d x i c c)). rewrite (H i c c Hi Hc Hc) at 2. ring. }
      rewrite T. fold nd. rewrite (Sum_ksum HF), (ksum_zero HF nd); [ring|]. intros c Hc. rewrite (Sum_ksum HF). apply (ksum_zero HF). intros dir Hd.
      unfold le_strain at 1. rewrite (H i c dir Hi Hc Hd) at 1. ring.
    Qed.
  End Data.

  Theorem le_system : forall (sp : fe_space F) fn iel alpha d, le_reads sp fn iel d -> le_fits d ->
    exists L, le_primal (Some sp) (Some fn) iel alpha = Ok L /\ system_of (le_size d) (le_form d) (le_load d) alpha L.
  Proof.
    intros sp fn iel alpha d (R1 & R2 & R3 & R4 & R5 & R6 & R7) HD. pose proof HD as (U1 & U2).
    unfold le_primal, dindex. rewrite R1, R2, R3, R4. simpl bind.
    unfold get_at at 1. rewrite R5. simpl bind. unfold quadrature_of, get_at at 1. rewrite R6. simpl bind.
    rewrite U1 in *.
    set (nd := le_dim d) in *. set (np := t_nphi (e_tab (le_e d))).
    destruct (source_loop HF false 0 np nd (le_f d) (fun fc k => ksum (length (le_w d)) (fun i => (e_det (le_e d) i * weight (le_w d) i * t_val (e_tab (le_e d)) 0 i k 0) * fc i))) as [SL _].
    destruct (SL R7) as (r & S1 & S2 & S3 & S4).
    match goal with |- context [foldM ?g (seq 0 nd) ?z] => replace (foldM g (seq 0 nd) z) with (Ok r) end.
    2:{ symmetry. etransitivity; [|exact S1]. apply foldM_ext. intros r0 c. destruct (get_at (le_f d) c); [|reflexivity]. simpl. rewrite !Nat.add_0_r. reflexivity. }
    cbn [bind]. clear S1 SL. change (e_dim (le_e d)) with nd.
    assert (OK : ((nd =? 2) || (nd =? 3)) && match nd with 0 => false | S _ => true end && ((np =? 0) || (nd =? nd)) = true).
    { rewrite Nat.eqb_refl, orb_true_r, andb_true_r. destruct U2 as [U2|U2]; rewrite U2; reflexivity. }
    rewrite OK.
    destruct (point_loop HF true (length (le_w d)) (fun i a => dscale (e_det (le_e d) i * weight (le_w d) i)
        (le_strain_energy nd (le_e d) (le_lambda d) (le_mu d) (dvar alpha) i (a / nd)%nat (a mod nd)%nat)) r) as [PL _].
    destruct (PL eq_refl) as (r' & Q1 & Q2). rewrite Q1. cbn [bind]. clear Q1 PL. eexists. split; [reflexivity|].
    assert (ND : nd <> 0%nat) by (destruct U2 as [U2|U2]; rewrite U2; discriminate).
    assert (IX : forall a, a < np * nd -> a / nd < np /\ a mod nd < nd /\ a = (a / nd * nd + a mod nd)%nat).
    { intros a Ha. split; [apply Nat.div_lt_upper_bound; lia|]. split; [apply Nat.mod_upper_bound; exact ND|].
      rewrite (Nat.div_mod a nd) at 1 by exact ND. lia. }
    unfold le_size. fold nd np.
    apply (affine_system (np * nd) r' (fun a => du_v (r a))
      (fun a x => ksum (length (le_w d)) (fun i => (e_det (le_e d) i * weight (le_w d) i) * le_row d i (a / nd)%nat (a mod nd)%nat x))).
    - intros a Ha. destruct (IX a Ha) as (I1 & I2 & I3).
      exists (dsum (length (le_w d)) (fun i => dscale (e_det (le_e d) i * weight (le_w d) i)
        (le_strain_energy nd (le_e d) (le_lambda d) (le_mu d) (dvar alpha) i (a / nd)%nat (a mod nd)%nat))).
      split.
      + apply (lin_sum HF). intros i Hi. apply (lin_scale HF). apply (le_energy_lin d); assumption.
      + destruct (Q2 a) as [Q3 Q4]. split.
        * rewrite Q3. f_equal. symmetry. apply dsum_v.
        * intros b Hb. rewrite Q4, S4, dsum_d. ring.
    - intros a Ha. destruct (IX a Ha) as (I1 & I2 & I3). rewrite I3 at 2. rewrite (le_load_unit d) by assumption.
      rewrite I3 at 1. pose proof (S3 (a / nd)%nat (a mod nd)%nat I1 I2) as S5. simpl Nat.add in S5. exact S5.
    - intros a x Ha. destruct (IX a Ha) as (I1 & I2 & I3). rewrite I3 at 1. apply (le_row_ok d); assumption.
  Qed.
End ElasticProof.
