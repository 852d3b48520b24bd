(** * The mixed Laplace form *)
From Coq Require Import String List Arith Bool Lia Ring Field.
From Verif Require Import Base BaseProof FormModel FormSpec FormProof FormProof2 AdModel AdSpec AdProof.
Import ListNotations.
Open Scope list_scope.

Section Units.
  Context {F : scalar} (HF : is_ring F).
  Let HR : ring_theory (@k0 F) k1 kadd kmul ksub kopp eq := HF.
  Add Ring KringB : HR.
  Local Open Scope num_scope.

  Lemma unit_same : forall a, @unit_at F a a = k1.
  Proof. intros. unfold unit_at. rewrite Nat.eqb_refl. reflexivity. Qed.
  Lemma unit_other : forall a b, b <> a -> @unit_at F a b = k0.
  Proof. intros. unfold unit_at. replace (b =? a) with false by (symmetry; apply Nat.eqb_neq; assumption). reflexivity. Qed.

  Lemma sum_unit_in : forall n a (f : nat -> F), a < n -> Sum n (fun k => unit_at a k * f k) = f a.
  Proof.
    intros n a f Ha. rewrite (Sum_ksum HF), (ksum_single HF n a); [|exact Ha|].
    - rewrite unit_same. ring.
    - intros j Hj Hn. rewrite unit_other by assumption. ring.
  Qed.
  Lemma sum_unit_out : forall n a g (f : nat -> F), (forall k, k < n -> g k <> a) -> Sum n (fun k => unit_at a (g k) * f k) = k0.
  Proof. intros n a g f H. rewrite (Sum_ksum HF). apply (ksum_zero HF). intros. rewrite unit_other by (apply H; assumption). ring. Qed.
  Lemma sum_unit_shift : forall n b a (f : nat -> F), a < n -> Sum n (fun k => unit_at (b + a)%nat (b + k)%nat * f k) = f a.
  Proof.
    intros n b a f Ha. rewrite (Sum_ksum HF), (ksum_single HF n a); [|exact Ha|].
    - rewrite unit_same. ring.
    - intros j Hj Hn. rewrite unit_other by lia. ring.
  Qed.
  Lemma Sum_ext : forall n (f g : nat -> F), (forall i, i < n -> f i = g i) -> Sum n f = Sum n g.
  Proof. intros. rewrite !(Sum_ksum HF). apply ksum_ext. assumption. Qed.
  Lemma integral_ext : forall e w (f g : nat -> F), (forall i, i < length w -> f i = g i) -> integral e w f = integral e w g.
  Proof. intros. apply Sum_ext. intros. rewrite H by assumption. reflexivity. Qed.

  (** a system with a linear form in its first argument has the exact Jacobian *)
  Lemma system_exact : forall (form : (nat -> F) -> res (local_system F)) n B l,
    (forall y x, B x y = ksum n (fun b => B (unit_at b) y * x b)) ->
    (forall alpha L, form alpha = Ok L -> system_of n B l alpha L) -> exact_jacobian form.
  Proof.
    intros form n B l HB H alpha beta L L' H1 H2. apply H in H1, H2.
    destruct H1 as (N & R & J), H2 as (N' & R' & J'). rewrite N. split; [congruence|]. split.
    - intros a b Ha Hb. rewrite J, J' by assumption. reflexivity.
    - intros a Ha. rewrite R, R' by assumption. rewrite (HB _ alpha), (HB _ beta), (Sum_ksum HF).
      rewrite (ksum_ext n (fun b => l_j L a b * (beta b - alpha b)) (fun b => B (unit_at b) (unit_at a) * beta b - B (unit_at b) (unit_at a) * alpha b)).
      + rewrite (ksum_sub HF). ring.
      + intros b Hb. rewrite J by assumption. ring.
  Qed.

  Lemma system_quad : forall n B l alpha L (x y : nat -> F),
    (forall y x, B x y = ksum n (fun b => B (unit_at b) y * x b)) ->
    (forall x y, B x y = ksum n (fun a => B x (unit_at a) * y a)) ->
    system_of n B l alpha L -> quad L y x = B x y.
  Proof.
    intros n B l alpha L x y H1 H2 (N & R & J). unfold quad. rewrite N, (Sum_ksum HF), H2. apply ksum_ext. intros a Ha.
    rewrite (Sum_ksum HF), (H1 (unit_at a) x).
    rewrite (ksum_ext n (fun b => l_j L a b * x b) (fun b => B (unit_at b) (unit_at a) * x b)); [ring|].
    intros b Hb. rewrite J by assumption. reflexivity.
  Qed.

  (** linearity of the building blocks *)
  Definition linear_in (n : nat) (L : (nat -> F) -> F) : Prop := forall x, L x = ksum n (fun b => L (unit_at b) * x b).
  Lemma linear_zero : forall n, linear_in n (fun _ => k0).
  Proof. intros n x. symmetry. apply (ksum_zero HF). intros; ring. Qed.
  Lemma linear_var : forall n b, b < n -> linear_in n (fun x => x b).
  Proof. intros n b Hb x. exact (proj2 (proj2 (lin_var HF n x b Hb)) x). Qed.
  Lemma linear_add : forall n L M, linear_in n L -> linear_in n M -> linear_in n (fun x => L x + M x).
  Proof. intros n L M H1 H2 x. rewrite H1, H2, <- (ksum_add HF). apply ksum_ext. intros. ring. Qed.
  Lemma linear_sub : forall n L M, linear_in n L -> linear_in n M -> linear_in n (fun x => L x - M x).
  Proof. intros n L M H1 H2 x. rewrite H1, H2, <- (ksum_sub HF). apply ksum_ext. intros. ring. Qed.
  Lemma linear_l : forall n c L, linear_in n L -> linear_in n (fun x => c * L x).
  Proof. intros n c L H x. rewrite H, <- (ksum_mul_l HF). apply ksum_ext. intros. ring. Qed.
  Lemma linear_r : forall n c L, linear_in n L -> linear_in n (fun x => L x * c).
  Proof. intros n c L H x. rewrite H, <- (ksum_mul_r HF). apply ksum_ext. intros. ring. Qed.
  Lemma linear_sum : forall n m (L : nat -> (nat -> F) -> F), (forall i, i < m -> linear_in n (L i)) -> linear_in n (fun x => Sum m (fun i => L i x)).
  Proof.
    intros n m L H x. rewrite (Sum_ksum HF). rewrite (ksum_ext m _ (fun i => ksum n (fun b => L i (unit_at b) * x b))).
    2:{ intros i Hi. apply H. exact Hi. }
    rewrite (ksum_swap HF). apply ksum_ext. intros b Hb. rewrite (Sum_ksum HF), (ksum_mul_r HF). reflexivity.
  Qed.
  Lemma linear_integral : forall n e w (L : nat -> (nat -> F) -> F), (forall i, i < length w -> linear_in n (L i)) ->
    linear_in n (fun x => integral e w (fun i => L i x)).
  Proof. intros n e w L H. unfold integral. apply linear_sum. intros i Hi. apply linear_l. apply H. exact Hi. Qed.
End Units.

Section LaplaceProof.
  Context {F : scalar} (HF : is_ring F).
  Let HR : ring_theory (@k0 F) k1 kadd kmul ksub kopp eq := HF.
  Add Ring KringC : HR.
  Local Open Scope num_scope.

  Section Data.
    Variable d : lap_data F.
    Hypothesis Hfit : lap_fits d.
    Let nu := lp_nu d.
    Let np := lp_np d.
    Let ut := e_tab (lp_ue d).
    Let pt := e_tab (lp_pe d).

    Definition lap_div_psi (i k : nat) : F :=
      kdiv (ksum (Nat.min (t_nder ut) (Nat.min (lp_dim d) (t_vs ut))) (fun dir => t_val ut (S dir) i k dir)) (e_det (lp_ue d) i).
    Definition lap_row (i a : nat) (x : nat -> F) : F :=
      if a <? nu then
        ksum (Nat.min (lp_dim d) (t_vs ut)) (fun dir => t_val ut 0 i a dir * (kdiv k1 (lp_kappa d i) * ksum nu (fun l => t_val ut 0 i l dir * x l)))
        - lap_div_psi i a * ksum np (fun l => t_val pt 0 i l 0 * x (nu + l)%nat)
      else t_val pt 0 i (a - nu) 0 * ksum nu (fun l => lap_div_psi i l * x l).

    Lemma lap_integrand_lin : forall alpha i a, a < nu + np ->
      lin (nu + np) alpha (laplace_integrand (lp_dim d) ut pt (e_det (lp_ue d)) (lp_kappa d) nu (dvar alpha) i a) (lap_row i a).
    Proof.
      intros alpha i a Ha. unfold laplace_integrand, lap_row.
      destruct (a <? nu) eqn:E.
      - apply (lin_sub HF).
        + apply (lin_sum HF). intros dir _. apply (lin_scale HF). apply (lin_scale HF). apply (lin_sum HF). intros l Hl.
          apply (lin_scale HF). apply (lin_var HF). unfold nu, np, lp_nu, lp_np, ut, pt in *; lia.
        + apply (lin_scale HF). apply (lin_sum HF). intros l Hl. apply (lin_scale HF). apply (lin_var HF). unfold nu, np, lp_nu, lp_np, ut, pt in *; lia.
      - apply (lin_scale HF). apply (lin_sum HF). intros l Hl. apply (lin_scale HF). apply (lin_var HF). unfold nu, np, lp_nu, lp_np, ut, pt in *; lia.
    Qed.

    Lemma lap_row_ok : forall a x, a < nu + np ->
      lap_form d x (unit_at a) = ksum (length (lp_w d)) (fun i => (e_det (lp_ue d) i * weight (lp_w d) i) * lap_row i a x).
    Proof.
      destruct Hfit as (U1 & P1 & V & D & D1 & V'). fold ut in V, D.
      intros a x Ha. unfold lap_form, integral. rewrite (Sum_ksum HF). apply ksum_ext. intros i Hi.
      assert (DP : forall l, (Sum (lp_dim d) (fun dir => t_val ut (S dir) i l dir) * kinv (e_det (lp_ue d) i)) = lap_div_psi i l).
      { intros l. unfold lap_div_psi, kdiv. rewrite V, D, !Nat.min_id, (Sum_ksum HF). reflexivity. }
      assert (DV : lap_div d x i = ksum nu (fun l => lap_div_psi i l * x l)).
      { unfold lap_div. rewrite (Sum_ksum HF). apply ksum_ext. intros l Hl. fold ut. rewrite DP. ring. }
      assert (PT : lap_pot d x i = ksum np (fun l => t_val pt 0 i l 0 * x (nu + l)%nat)).
      { unfold lap_pot. rewrite (Sum_ksum HF). apply ksum_ext. intros l Hl. fold nu pt. ring. }
      unfold lap_row. change (weight (lp_w d) i) with (nth i (lp_w d) k0). destruct (Nat.ltb_spec a nu) as [H|H].
      - assert (PU : lap_pot d (unit_at a) i = k0) by (apply (sum_unit_out HF); intros; unfold nu, np, lp_nu, lp_np in *; lia).
        assert (DU : lap_div d (unit_at a) i = lap_div_psi i a).
        { unfold lap_div. rewrite (sum_unit_in HF) by exact H. fold ut. apply DP. }
        rewrite PU, DU, PT, V, Nat.min_id, (Sum_ksum HF).
        rewrite (ksum_ext (lp_dim d) _ (fun dir => t_val ut 0 i a dir * (kdiv k1 (lp_kappa d i) * ksum nu (fun l => t_val ut 0 i l dir * x l)))).
        + ring.
        + intros dir Hd. unfold lap_flux at 2. rewrite (sum_unit_in HF) by exact H. unfold lap_flux. rewrite (Sum_ksum HF). fold ut nu.
          rewrite (ksum_ext nu _ (fun l => t_val ut 0 i l dir * x l)) by (intros; ring). unfold kdiv. ring.
      - assert (DU : lap_div d (unit_at a) i = k0).
        { unfold lap_div. apply (sum_unit_out HF _ _ (fun k => k)). intros; unfold nu, np, lp_nu, lp_np in *; lia. }
        assert (PU : lap_pot d (unit_at a) i = t_val pt 0 i (a - nu) 0).
        { pose proof (sum_unit_shift HF np nu (a - nu) (fun k => t_val pt 0 i k 0)) as SU. replace (nu + (a - nu))%nat with a in SU by lia. apply SU. lia. }
        rewrite DU, PU, DV, (Sum_ksum HF).
        rewrite (ksum_zero HF).
        + ring.
        + intros dir Hd. unfold lap_flux at 2. rewrite (sum_unit_out HF _ _ (fun k => k)) by (intros; unfold nu, np, lp_nu, lp_np in *; lia). ring.
    Qed.

    Lemma lap_load_unit : forall a, a < nu + np ->
      lap_load d (unit_at a) = if a <? nu then k0
        else - ksum (length (lp_w d)) (fun i => (e_det (lp_ue d) i * weight (lp_w d) i * t_val pt 0 i (a - nu) 0) * nth 0 (lp_f d) (fun _ => k0) i).
    Proof.
      intros a Ha. unfold lap_load, integral. rewrite (Sum_ksum HF). destruct (Nat.ltb_spec a nu) as [H|H].
      - rewrite (ksum_zero HF); [ring|]. intros i Hi. unfold lap_pot. rewrite (sum_unit_out HF) by (intros; unfold nu, np, lp_nu, lp_np in *; lia). ring.
      - f_equal. apply ksum_ext. intros i Hi. pose proof (sum_unit_shift HF np nu (a - nu) (fun k => t_val pt 0 i k 0)) as SU. replace (nu + (a - nu))%nat with a in SU by lia.
        unfold lap_pot, weight. fold nu np pt. rewrite SU by lia. ring.
    Qed.

    Lemma lap_linear_1 : forall y, linear_in (nu + np) (fun x => lap_form d x y).
    Proof.
      intros y. unfold lap_form. apply (linear_integral HF). intros i Hi. apply (linear_add HF); [apply (linear_sub HF)|].
      - apply (linear_sum HF). intros dir Hd. apply (linear_r HF). apply (linear_l HF). unfold lap_flux. apply (linear_sum HF).
        intros k Hk. apply (linear_r HF). apply (linear_var HF). unfold nu, np, lp_nu, lp_np in *; lia.
      - apply (linear_r HF). unfold lap_pot. apply (linear_sum HF). intros k Hk. apply (linear_r HF).
        apply (linear_var HF _ (lp_nu d + k)). unfold nu, np, lp_nu, lp_np in *; lia.
      - apply (linear_r HF). unfold lap_div. apply (linear_sum HF). intros k Hk. apply (linear_r HF).
        apply (linear_var HF). unfold nu, np, lp_nu, lp_np in *; lia.
    Qed.
    Lemma lap_linear_2 : forall x, linear_in (nu + np) (fun y => lap_form d x y).
    Proof.
      intros x. unfold lap_form. apply (linear_integral HF). intros i Hi. apply (linear_add HF); [apply (linear_sub HF)|].
      - apply (linear_sum HF). intros dir Hd. apply (linear_l HF). unfold lap_flux. apply (linear_sum HF).
        intros k Hk. apply (linear_r HF). apply (linear_var HF). unfold nu, np, lp_nu, lp_np in *; lia.
      - apply (linear_l HF). unfold lap_div. apply (linear_sum HF). intros k Hk. apply (linear_r HF).
        apply (linear_var HF). unfold nu, np, lp_nu, lp_np in *; lia.
      - apply (linear_l HF). unfold lap_pot. apply (linear_sum HF). intros k Hk. apply (linear_r HF).
        apply (linear_var HF _ (lp_nu d + k)). unfold nu, np, lp_nu, lp_np in *; lia.
    Qed.
  End Data.

  Theorem laplace_system : forall (sp : fe_space F) fn iel alpha d, lap_reads sp fn iel d -> lap_fits d ->
    exists L, laplace_dual (Some sp) (Some fn) iel alpha = Ok L /\
      system_of (lp_nu d + lp_np d) (lap_form d) (lap_load d) (fun _ => k0) L.
  Proof.
    intros sp fn iel alpha d (R1 & R2 & R3 & R4 & R5 & R6 & R7 & R8) HD. pose proof HD as (U1 & P1 & V & D & D1 & V').
    unfold laplace_dual, dindex. rewrite R1, R2, R3, R4. simpl bind.
    unfold get_at at 1. rewrite R5. simpl bind. unfold quadrature_of, get_at at 1. rewrite R6. simpl bind.
    unfold get_at at 1. rewrite R7. simpl bind.
    rewrite U1, P1.
    set (nu := lp_nu d). set (np := lp_np d).
    replace (t_nphi (e_tab (lp_ue d)) * 1)%nat with nu by (unfold nu, lp_nu; lia).
    replace (t_nphi (e_tab (lp_pe d)) * 1)%nat with (np * 1)%nat by (unfold np, lp_np; lia).
    destruct (source_loop HF true nu np 1 (lp_f d) (fun fc k => ksum (length (lp_w d)) (fun i => (e_det (lp_ue d) i * weight (lp_w d) i * t_val (e_tab (lp_pe d)) 0 i k 0) * fc i))) as [SL _].
    destruct SL as (r & S1 & S2 & S3 & S4); [rewrite <- P1; exact R8|].
    cbn [seq] in S1 |- *. rewrite S1. cbn [bind]. clear S1.
    assert (SH : laplace_shapes (e_dim (lp_ue d)) (t_nphi (e_tab (lp_ue d))) 1 (t_nphi (e_tab (lp_pe d))) 1 (t_vs (e_tab (lp_pe d))) = true).
    { unfold laplace_shapes. rewrite !Nat.mul_1_r, !Nat.eqb_refl, V'. unfold lp_dim in D1. rewrite Nat.min_r by lia. reflexivity. }
    rewrite SH.
    destruct (point_loop HF true (length (lp_w d)) (fun i a => dscale (e_det (lp_ue d) i * weight (lp_w d) i)
        (laplace_integrand (e_dim (lp_ue d)) (e_tab (lp_ue d)) (e_tab (lp_pe d)) (e_det (lp_ue d)) (lp_kappa d) nu (dvar (fun _ => k0)) i a)) r) as [PL _].
    destruct (PL eq_refl) as (r' & Q1 & Q2). rewrite Q1. cbn [bind]. clear Q1 PL. eexists. split; [reflexivity|].
    replace (np * 1)%nat with np by lia.
    apply (affine_system (nu + np) r' (fun a => du_v (r a))
      (fun a x => ksum (length (lp_w d)) (fun i => (e_det (lp_ue d) i * weight (lp_w d) i) * lap_row d i a x))).
    - intros a Ha. exists (dsum (length (lp_w d)) (fun i => dscale (e_det (lp_ue d) i * weight (lp_w d) i)
        (laplace_integrand (e_dim (lp_ue d)) (e_tab (lp_ue d)) (e_tab (lp_pe d)) (e_det (lp_ue d)) (lp_kappa d) nu (dvar (fun _ => k0)) i a))).
      split; [|].
      + apply (lin_sum HF). intros i Hi. apply (lin_scale HF). apply (lap_integrand_lin d). exact Ha.
      + destruct (Q2 a) as [Q3 Q4]. split.
        * rewrite Q3. f_equal. symmetry. apply dsum_v.
        * intros b Hb. rewrite Q4, S4, dsum_d. ring.
    - intros a Ha. rewrite (lap_load_unit d) by exact Ha. fold nu np. destruct (Nat.ltb_spec a nu) as [H|H].
      + apply S2. exact H.
      + replace a with (nu + ((a - nu) * 1 + 0))%nat at 1 by lia. rewrite S3 by lia. reflexivity.
    - intros a x Ha. apply lap_row_ok; [exact HD|exact Ha].
  Qed.
End LaplaceProof.
