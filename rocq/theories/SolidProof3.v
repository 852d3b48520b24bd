(** * The Cosserat form *)
From Coq Require Import String List Arith Bool Lia Ring Field.
From Verif Require Import Base BaseProof FormModel FormSpec FormProof FormProof2 AdModel AdModel2 AdSpec AdProof AdProof2 AdProof3 BcProof BcProof2 MixProof MixProof2 SolidSpec SolidProof SolidProof2.
Import ListNotations.
Open Scope list_scope.

Section Cosserat.
  Context {F : scalar} (HK : is_field F) (two : @kadd F k1 k1 <> k0).
  Let HF : is_ring F := field_is_ring F HK.
  Let HFd : field_theory (@k0 F) k1 kadd kmul ksub kopp (fun a b => kmul a (kinv b)) kinv eq := HK.
  Add Field KfieldQ : HFd.
  Local Open Scope num_scope.

  Lemma lt2 : forall c, c < 2 -> c = 0%nat \/ c = 1%nat.
  Proof. lia. Qed.
  Lemma lt3 : forall c, c < 3 -> c = 0%nat \/ c = 1%nat \/ c = 2%nat.
  Proof. lia. Qed.

  (** sigma : (s x .) with one entry [v] in s *)
  Definition cross (nd : nat) (T : nat -> nat -> F) (m : nat) : F :=
    if nd =? 2 then T 1%nat 0%nat - T 0%nat 1%nat
    else match m with
         | 0 => T 2%nat 1%nat - T 1%nat 2%nat
         | 1 => T 0%nat 2%nat - T 2%nat 0%nat
         | _ => T 1%nat 0%nat - T 0%nat 1%nat
         end.
  Lemma contract_spin : forall nd T m v, nd = 2%nat \/ nd = 3%nat -> m < n_rot nd ->
    contract nd nd T (spin nd (fun m' => (if m =? m' then k1 else k0) * v)) = v * cross nd T m.
  Proof.
    intros nd T m v [-> | ->] Hm; rewrite (contract_ksum HK); cbn [n_rot Nat.eqb] in Hm.
    - assert (m = 0%nat) as -> by lia. unfold spin, cross. cbn. ring.
    - destruct (lt3 m Hm) as [->|[->| ->]]; unfold spin, cross; cbn; ring.
  Qed.
  Lemma spin_ext : forall nd (s s' : nat -> F) c dir, nd = 2%nat \/ nd = 3%nat -> c < nd -> dir < nd ->
    (forall m, m < n_rot nd -> s m = s' m) -> spin nd s c dir = spin nd s' c dir.
  Proof.
    intros nd s s' c dir [-> | ->] Hc Hd H; cbn [n_rot Nat.eqb] in H.
    - destruct (lt2 c Hc) as [->| ->]; destruct (lt2 dir Hd) as [->| ->]; unfold spin; cbn; rewrite ?H by lia; reflexivity.
    - destruct (lt3 c Hc) as [->|[->| ->]]; destruct (lt3 dir Hd) as [->|[->| ->]]; unfold spin; cbn; rewrite ?H by lia; reflexivity.
  Qed.
  Lemma spin_zero : forall nd c dir, spin nd (fun _ => @k0 F) c dir = k0.
  Proof.
    intros. unfold spin. destruct (nd =? 2); destruct (dir =? _); [ring| |ring|]; destruct (c =? _); reflexivity.
  Qed.
  Lemma theta_lin : forall n alpha nd (th : nat -> dual F) (L : nat -> (nat -> F) -> F) c dir, nd = 2%nat \/ nd = 3%nat -> c < nd -> dir < nd ->
    (forall m, m < n_rot nd -> lin n alpha (th m) (L m)) -> lin n alpha (theta_outer nd th c dir) (fun x => spin nd (fun m => L m x) c dir).
  Proof.
    intros n alpha nd th L c dir [-> | ->] Hc Hd H; cbn [n_rot Nat.eqb] in H.
    - assert (H0 := H 0%nat ltac:(lia)).
      destruct (lt2 c Hc) as [->| ->]; destruct (lt2 dir Hd) as [->| ->]; unfold theta_outer, spin; cbn [Nat.eqb Nat.add Nat.modulo Nat.divmod fst snd Nat.sub];
        (eapply lin_eq; [first [apply (lin_scale HF); exact H0 | exact H0]|intros x; cbn; ring]).
    - assert (H0 := H 0%nat ltac:(lia)). assert (H1 := H 1%nat ltac:(lia)). assert (H2 := H 2%nat ltac:(lia)).
      destruct (lt3 c Hc) as [->|[->| ->]]; destruct (lt3 dir Hd) as [->|[->| ->]]; unfold theta_outer, spin; cbn [Nat.eqb Nat.add Nat.modulo Nat.divmod fst snd Nat.sub];
        (eapply lin_eq; [first [apply (lin_scale HF); first [exact H0|exact H1|exact H2] | first [exact H0|exact H1|exact H2]]|intros x; cbn; ring]).
  Qed.

  Section Data.
    Variable d : lce_data F.
    Let l := lc_le d.
    Let nd := le_dim l.
    Let nu := le_size l.
    Let nt := lc_nt d.
    Let nr := lc_rot d.
    Let n := lce_size d.
    Hypothesis Hdim : nd = 2%nat \/ nd = 3%nat.

    Lemma nr_rot : nr = n_rot nd.
    Proof. reflexivity. Qed.
    Lemma nr_pos : nr <> 0%nat.
    Proof. rewrite nr_rot. unfold n_rot. destruct (nd =? 2); discriminate. Qed.
    Lemma nd_pos : nd <> 0%nat.
    Proof. lia. Qed.
    Lemma low_index : forall a, a < nu -> a / nd < t_nphi (e_tab (le_e l)) /\ a mod nd < nd /\ a = (a / nd * nd + a mod nd)%nat.
    Proof.
      intros a Ha. unfold nu, le_size in Ha. fold nd in Ha. pose proof nd_pos. split; [apply Nat.div_lt_upper_bound; lia|].
      split; [apply Nat.mod_upper_bound; assumption|]. rewrite (Nat.div_mod a nd) at 1 by assumption. lia.
    Qed.
    Lemma high_index : forall a, nu <= a -> a < n -> (a - nu) / nr < nt /\ (a - nu) mod nr < nr /\ a = (nu + ((a - nu) / nr * nr + (a - nu) mod nr))%nat.
    Proof.
      intros a H Ha. unfold n, lce_size in Ha. fold l nu nt nr in Ha. pose proof nr_pos. split; [apply Nat.div_lt_upper_bound; lia|].
      split; [apply Nat.mod_upper_bound; assumption|]. pose proof (Nat.div_mod (a - nu) nr). lia.
    Qed.

    Definition lc_gt (i k dir : nat) : F := ksum (t_nder (e_tab (lc_te d))) (fun r => e_inv (le_e l) i r dir * t_val (e_tab (lc_te d)) (S r) i k 0).
    Lemma angle_sum : forall x i m, lce_angle d x i m = ksum nt (fun k => t_val (e_tab (lc_te d)) 0 i k 0 * x (nu + (k * nr + m))%nat).
    Proof. intros. unfold lce_angle. rewrite (Sum_ksum HF). apply ksum_ext. intros. fold l nu nr. ring. Qed.
    Lemma curv_sum : forall x i m dir, lce_curv d x i m dir = ksum nt (fun k => lc_gt i k dir * x (nu + (k * nr + m))%nat).
    Proof. intros. unfold lce_curv. rewrite (Sum_ksum HF). apply ksum_ext. intros. rewrite (Sum_ksum HF). fold l nu nr. unfold lc_gt. ring. Qed.

    Lemma rot_unit : forall (f : nat -> F) k m m', k < nt -> m < nr -> m' < nr ->
      ksum nt (fun k' => f k' * unit_at (nu + (k * nr + m))%nat (nu + (k' * nr + m'))%nat) = (if m =? m' then k1 else k0) * f k.
    Proof.
      intros f k m m' Hk Hm Hm'. destruct (Nat.eqb_spec m m') as [<-|N].
      - rewrite (ksum_single HF _ k); [rewrite unit_same; ring|exact Hk|]. intros j Hj Hn. rewrite unit_other; [ring|]. nia.
      - rewrite (ksum_zero HF); [ring|]. intros j Hj. rewrite unit_other; [ring|]. intros E. assert (j = k) by nia. subst. lia.
    Qed.
    Lemma angle_unit : forall i k m m', k < nt -> m < nr -> m' < nr ->
      lce_angle d (unit_at (nu + (k * nr + m))%nat) i m' = (if m =? m' then k1 else k0) * t_val (e_tab (lc_te d)) 0 i k 0.
    Proof. intros. rewrite angle_sum. apply (rot_unit (fun k => t_val (e_tab (lc_te d)) 0 i k 0)); assumption. Qed.
    Lemma curv_unit : forall i k m m' dir, k < nt -> m < nr -> m' < nr ->
      lce_curv d (unit_at (nu + (k * nr + m))%nat) i m' dir = (if m =? m' then k1 else k0) * lc_gt i k dir.
    Proof. intros. rewrite curv_sum. apply (rot_unit (fun k => lc_gt i k dir)); assumption. Qed.
    Lemma angle_low : forall a i m, a < nu -> lce_angle d (unit_at a) i m = k0.
    Proof. intros. rewrite angle_sum. apply (ksum_zero HF). intros. rewrite unit_other by lia. ring. Qed.
    Lemma curv_low : forall a i m dir, a < nu -> lce_curv d (unit_at a) i m dir = k0.
    Proof. intros. rewrite curv_sum. apply (ksum_zero HF). intros. rewrite unit_other by lia. ring. Qed.

    Definition lce_stress (x : nat -> F) (i c dir : nat) : F :=
      ((k1 + k1) * le_mu l i * sym_part (lce_strain d x i) c dir + (k1 + k1) * lc_kappa d i * skew_part (lce_strain d x i) c dir)
      + (if c =? dir then k1 else k0) * (le_lambda l i * trace_of nd (lce_strain d x i)).

    Lemma lce_form_stress : forall x y, lce_form d x y = integral (le_e l) (le_w l) (fun i =>
      contract nd nd (lce_stress x i) (lce_strain d y i) + lc_gamma d i * contract nr nd (lce_curv d x i) (lce_curv d y i)).
    Proof.
      intros x y. unfold lce_form. fold l nd nr. apply (integral_ext HF). intros i Hi. unfold lce_stress.
      rewrite !(contract_add_l HK), !(contract_mul_l HK).
      rewrite (contract_sym HK two), (contract_skew HK two).
      - rewrite (contract_ext HK nd nd (fun c dir => (if c =? dir then k1 else k0) * (le_lambda l i * trace_of nd (lce_strain d x i)))
           (fun c dir => if c =? dir then le_lambda l i * trace_of nd (lce_strain d x i) else k0) (lce_strain d y i) (lce_strain d y i)).
        + rewrite (contract_diag HK). ring.
        + intros c dir _ _. destruct (c =? dir); ring.
        + reflexivity.
      - intros c dir _ _. unfold skew_part. ring.
      - intros c dir _ _. unfold sym_part. ring.
    Qed.

    Definition lce_row (i a : nat) (x : nat -> F) : F :=
      if a <? nu then ksum nd (fun dir => le_g l i (a / nd) dir * lce_stress x i (a mod nd) dir)
      else ksum nd (fun dir => lc_gt i ((a - nu) / nr) dir * (lc_gamma d i * lce_curv d x i ((a - nu) mod nr) dir))
           + t_val (e_tab (lc_te d)) 0 i ((a - nu) / nr) 0 * cross nd (lce_stress x i) ((a - nu) mod nr).

    Lemma lce_row_ok : forall a x, a < n -> lce_form d x (unit_at a) = integral (le_e l) (le_w l) (fun i => lce_row i a x).
    Proof.
      intros a x Ha. rewrite lce_form_stress. apply (integral_ext HF). intros i Hi. unfold lce_row, lce_strain. fold l nd.
      rewrite (contract_add_r HK). destruct (Nat.ltb_spec a nu) as [H|H].
      - destruct (low_index a H) as (I1 & I2 & I3).
        rewrite (contract_zero_r HK nr nd) by (intros; apply curv_low; exact H).
        rewrite (contract_zero_r HK nd nd _ (spin nd (lce_angle d (unit_at a) i))).
        + rewrite I3 at 1. unfold nd at 1 2 3. rewrite (contract_unit HK l) by assumption. fold nd. ring.
        + intros c dir Hc Hd. rewrite (spin_ext nd _ (fun _ => k0)); [apply spin_zero|exact Hdim|exact Hc|exact Hd|]. intros. apply angle_low. exact H.
      - destruct (high_index a H Ha) as (I1 & I2 & I3).
        rewrite (contract_zero_r HK nd nd _ (le_grad l (unit_at a) i)).
        + set (k := ((a - nu) / nr)%nat) in *. set (m := ((a - nu) mod nr)%nat) in *.
          rewrite (contract_ext HK nd nd _ (lce_stress x i) (spin nd (lce_angle d (unit_at a) i)) (spin nd (fun m' => (if m =? m' then k1 else k0) * t_val (e_tab (lc_te d)) 0 i k 0))); [|reflexivity|].
          * rewrite (contract_spin nd _ m) by assumption.
            rewrite (contract_ksum HK), (ksum_single HF _ m); [|exact I2|].
            -- rewrite (ksum_ext nd (fun dir => lc_gt i k dir * (lc_gamma d i * lce_curv d x i m dir)) (fun dir => lc_gamma d i * (lc_gt i k dir * lce_curv d x i m dir))) by (intros; ring).
               rewrite (ksum_mul_l HF). rewrite (ksum_ext nd (fun dir => lce_curv d x i m dir * lce_curv d (unit_at a) i m dir) (fun dir => lc_gt i k dir * lce_curv d x i m dir)); [ring|].
               intros dir Hd. rewrite I3 at 1. rewrite curv_unit by assumption. rewrite Nat.eqb_refl. ring.
            -- intros j Hj Hn. apply (ksum_zero HF). intros dir Hd. rewrite I3 at 1. rewrite curv_unit by assumption.
               replace (m =? j) with false by (symmetry; apply Nat.eqb_neq; congruence). ring.
          * intros c dir Hc Hd. apply spin_ext; [exact Hdim|exact Hc|exact Hd|]. intros m' Hm'. rewrite I3 at 1. apply angle_unit; assumption.
        + intros c dir Hc Hd. apply (le_grad_out HK l a i); [exact H|exact Hc].
    Qed.

    Lemma lce_integrand_lin : forall alpha i a, a < n ->
      lin n alpha (lce_integrand nd (le_e l) (e_tab (lc_te d)) (le_lambda l) (le_mu l) (lc_kappa d) (lc_gamma d) nu (dvar alpha) i a) (lce_row i a).
    Proof.
      intros alpha i a Ha.
      assert (Hn : t_nphi (e_tab (le_e l)) * le_dim l <= n) by (unfold n, lce_size, le_size; fold l; lia).
      assert (HN : forall k m, k < nt -> m < nr -> nu + (k * nr + m) < n).
      { intros k m Hk Hm. unfold n, lce_size. fold l nu nt nr. nia. }
      assert (GL := fun c dir => grad_lin HK l n alpha i c dir Hn). fold nd in GL.
      assert (AL : forall m, m < nr -> lin n alpha (dsum nt (fun k => dscale (t_val (e_tab (lc_te d)) 0 i k 0) (dvar alpha (nu + (k * nr + m))%nat))) (fun x => lce_angle d x i m)).
      { intros m Hm. eapply lin_eq; [|intros x; symmetry; apply angle_sum]. apply (lin_sum HF). intros k Hk. apply (lin_scale HF). apply (lin_var HF). apply HN; assumption. }
      assert (CL : forall m dir, m < nr -> lin n alpha (dsum nt (fun k => dscale (lc_gt i k dir) (dvar alpha (nu + (k * nr + m))%nat))) (fun x => lce_curv d x i m dir)).
      { intros m dir Hm. eapply lin_eq; [|intros x; symmetry; apply curv_sum]. apply (lin_sum HF). intros k Hk. apply (lin_scale HF). apply (lin_var HF). apply HN; assumption. }
      assert (EL : forall c dir, c < nd -> dir < nd -> lin n alpha
        (dadd (dsum (t_nphi (e_tab (le_e l))) (fun l' => dscale (grad_phi (le_e l) i l' dir) (dvar alpha (l' * nd + c)%nat)))
              (theta_outer nd (fun m => dsum nt (fun k => dscale (t_val (e_tab (lc_te d)) 0 i k 0) (dvar alpha (nu + (k * nr + m))%nat))) c dir))
        (fun x => lce_strain d x i c dir)).
      { intros c dir Hc Hd. unfold lce_strain. fold l nd. apply (lin_add HF); [apply GL; exact Hc|].
        apply (theta_lin n alpha nd _ (fun m x => lce_angle d x i m)); [exact Hdim|exact Hc|exact Hd|]. intros m Hm. apply AL. exact Hm. }
      assert (TL : lin n alpha (dsum nd (fun dir => dadd (dsum (t_nphi (e_tab (le_e l))) (fun l' => dscale (grad_phi (le_e l) i l' dir) (dvar alpha (l' * nd + dir)%nat)))
              (theta_outer nd (fun m => dsum nt (fun k => dscale (t_val (e_tab (lc_te d)) 0 i k 0) (dvar alpha (nu + (k * nr + m))%nat))) dir dir)))
        (fun x => trace_of nd (lce_strain d x i))).
      { apply (lin_eq _ _ _ (fun x => ksum nd (fun dir => lce_strain d x i dir dir))).
        - apply (lin_sum HF). intros dir Hd. apply EL; exact Hd.
        - intros x. unfold trace_of. rewrite (Sum_ksum HF). reflexivity. }
      set (EH := fun c dir => dadd (dsum (t_nphi (e_tab (le_e l))) (fun l' => dscale (grad_phi (le_e l) i l' dir) (dvar alpha (l' * nd + c)%nat)))
              (theta_outer nd (fun m => dsum nt (fun k => dscale (t_val (e_tab (lc_te d)) 0 i k 0) (dvar alpha (nu + (k * nr + m))%nat))) c dir)) in *.
      set (SH := fun c dir => dadd (dadd (dscale (k2 * le_mu l i) (dscale khalf (dadd (EH c dir) (EH dir c)))) (dscale (k2 * lc_kappa d i) (dscale khalf (dsub (EH c dir) (EH dir c)))))
                     (dscale (if c =? dir then k1 else k0) (dscale (le_lambda l i) (dsum nd (fun dir => EH dir dir))))).
      assert (SL : forall c dir, c < nd -> dir < nd -> lin n alpha (SH c dir) (fun x => lce_stress x i c dir)).
      { intros c dir Hc Hd. unfold SH, lce_stress. apply (lin_add HF); [apply (lin_add HF)|].
        - apply (lin_scale HF). apply (lin_scale HF). apply (lin_add HF); apply EL; assumption.
        - apply (lin_scale HF). apply (lin_scale HF). apply (lin_sub HF); apply EL; assumption.
        - apply (lin_scale HF). apply (lin_scale HF). exact TL. }
      unfold lce_row. destruct (Nat.ltb_spec a nu) as [H|H].
      - destruct (low_index a H) as (I1 & I2 & _).
        assert (E : lce_integrand nd (le_e l) (e_tab (lc_te d)) (le_lambda l) (le_mu l) (lc_kappa d) (lc_gamma d) nu (dvar alpha) i a =
                    dsum nd (fun dir => dscale (grad_phi (le_e l) i (a / nd) dir) (SH (a mod nd)%nat dir))).
        { unfold lce_integrand. replace (a <? nu) with true by (symmetry; apply Nat.ltb_lt; exact H). reflexivity. }
        rewrite E. apply (lin_sum HF). intros dir Hd. apply (lin_scale HF). apply SL; assumption.
      - destruct (high_index a H Ha) as (I1 & I2 & _).
        assert (E : lce_integrand nd (le_e l) (e_tab (lc_te d)) (le_lambda l) (le_mu l) (lc_kappa d) (lc_gamma d) nu (dvar alpha) i a =
                    dadd (dsum nd (fun dir => dscale (lc_gt i ((a - nu) / nr) dir) (dscale (lc_gamma d i)
                            (dsum nt (fun k => dscale (lc_gt i k dir) (dvar alpha (nu + (k * nr + (a - nu) mod nr))%nat))))))
                         (dscale (t_val (e_tab (lc_te d)) 0 i ((a - nu) / nr) 0) (s_cross nd (fun c dir => dscale khalf (dsub (SH c dir) (SH dir c))) ((a - nu) mod nr)))).
        { unfold lce_integrand. replace (a <? nu) with false by (symmetry; apply Nat.ltb_ge; exact H). reflexivity. }
        rewrite E. apply (lin_add HF).
        + apply (lin_sum HF). intros dir Hd. apply (lin_scale HF). apply (lin_scale HF). apply CL. exact I2.
        + apply (lin_scale HF). set (m := ((a - nu) mod nr)%nat) in *.
          assert (KL : forall c dir, c < nd -> dir < nd -> lin n alpha (dscale khalf (dsub (SH c dir) (SH dir c))) (fun x => khalf * (lce_stress x i c dir - lce_stress x i dir c))).
          { intros c dir Hc Hd. apply (lin_scale HF). apply (lin_sub HF); apply SL; assumption. }
          assert (K2 : forall c dir, c < nd -> dir < nd -> lin n alpha (dsub (dscale khalf (dsub (SH c dir) (SH dir c))) (dscale khalf (dsub (SH dir c) (SH c dir)))) (fun x => lce_stress x i c dir - lce_stress x i dir c)).
          { intros c dir Hc Hd. apply (lin_eq _ _ _ (fun x => khalf * (lce_stress x i c dir - lce_stress x i dir c) - khalf * (lce_stress x i dir c - lce_stress x i c dir))).
            - apply (lin_sub HF); apply KL; assumption.
            - intros x. unfold khalf, kdiv, k2. field. exact two. }
          unfold s_cross, cross. clearbody SH EH. rewrite nr_rot in I2. clearbody m. clear - I2 K2 Hdim.
          destruct Hdim as [E|E]; rewrite E in *; cbn [Nat.eqb n_rot] in *.
          * apply K2; lia.
          * destruct (lt3 m I2) as [->|[->| ->]]; apply K2; lia.
    Qed.

    Lemma lce_form_sym : forall x y, lce_form d x y = lce_form d y x.
    Proof.
      intros x y. unfold lce_form. apply (integral_ext HF). intros i Hi.
      rewrite (contract_comm HK _ _ (sym_part (lce_strain d x i))), (contract_comm HK _ _ (skew_part (lce_strain d x i))), (contract_comm HK _ _ (lce_curv d x i)). ring.
    Qed.
    Lemma lce_linear_2 : forall x, linear_in n (fun y => lce_form d x y).
    Proof.
      intros x. assert (Hn : nu <= n) by (unfold n, lce_size; fold l nu; lia).
      assert (HN : forall k m, k < nt -> m < nr -> nu + (k * nr + m) < n).
      { intros k m Hk Hm. unfold n, lce_size. fold l nu nt nr. nia. }
      assert (AL : forall i m, m < nr -> linear_in n (fun y => lce_angle d y i m)).
      { intros i m Hm. unfold lce_angle. apply (linear_sum HF). intros k Hk. apply (linear_r HF). apply (linear_var HF _ (le_size (lc_le d) + (k * lc_rot d + m))). apply HN; assumption. }
      assert (SL : forall i c dir, c < nd -> dir < nd -> linear_in n (fun y => lce_strain d y i c dir)).
      { intros i c dir Hc Hd. unfold lce_strain. apply (linear_add HF).
        - unfold le_grad. apply (linear_sum HF). intros k Hk. apply (linear_r HF). apply (linear_var HF). fold l nd. fold l in Hk. unfold nu, le_size in Hn. fold nd in Hn. nia.
        - fold l nd. unfold spin. assert (A0 : linear_in n (fun y => lce_angle d y i 0)) by (apply AL; pose proof nr_pos; lia).
          assert (OPP : forall L : (nat -> F) -> F, linear_in n L -> linear_in n (fun y => - L y)).
          { intros L HL y. rewrite HL, <- (ksum_opp HF). apply ksum_ext. intros. ring. }
          destruct (nd =? 2) eqn:E2.
          + destruct (dir =? _); [apply OPP; exact A0|]. destruct (c =? _); [exact A0|apply (linear_zero HF)].
          + assert (E3 : nr = 3%nat) by (unfold nr, lc_rot; fold l nd; rewrite E2; reflexivity).
            destruct (dir =? _); [apply OPP; apply AL; rewrite E3; apply Nat.mod_upper_bound; discriminate|].
            destruct (c =? _); [apply AL; rewrite E3; apply Nat.mod_upper_bound; discriminate|apply (linear_zero HF)]. }
      unfold lce_form. fold l nd nr. apply (linear_integral HF). intros i Hi. apply (linear_add HF); [apply (linear_add HF); [apply (linear_add HF)|]|].
      - apply (linear_l HF). unfold contract. apply (linear_sum HF). intros c Hc. apply (linear_sum HF). intros dir Hd. apply (linear_l HF). unfold sym_part.
        apply (linear_l HF). apply (linear_add HF); apply SL; assumption.
      - apply (linear_l HF). unfold contract. apply (linear_sum HF). intros c Hc. apply (linear_sum HF). intros dir Hd. apply (linear_l HF). unfold skew_part.
        apply (linear_l HF). apply (linear_sub HF); apply SL; assumption.
      - apply (linear_l HF). apply (linear_l HF). unfold trace_of. apply (linear_sum HF). intros c Hc. apply SL; assumption.
      - apply (linear_l HF). unfold contract. apply (linear_sum HF). intros m Hm. apply (linear_sum HF). intros dir Hd. apply (linear_l HF).
        unfold lce_curv. apply (linear_sum HF). intros k Hk. apply (linear_r HF). apply (linear_var HF _ (le_size (lc_le d) + (k * lc_rot d + m))). apply HN; assumption.
    Qed.
    Lemma lce_linear_1 : forall y, linear_in n (fun x => lce_form d x y).
    Proof. intros y x. rewrite lce_form_sym, lce_linear_2. apply ksum_ext. intros. rewrite (lce_form_sym y). reflexivity. Qed.
    Lemma lce_rigid_form : forall x y, lce_rigid d x -> lce_form d x y = k0.
    Proof.
      intros x y H. rewrite lce_form_sym, lce_form_stress. unfold integral. rewrite (Sum_ksum HF). apply (ksum_zero HF). intros i Hi.
      destruct (H i Hi) as [H1 H2]. rewrite (contract_zero_r HK), (contract_zero_r HK); [ring| |]; assumption.
    Qed.
  End Data.

  Theorem lce_system : forall (sp : fe_space F) fn iel alpha d, lce_reads sp fn iel d -> lce_fits d ->
    exists L, lce_primal (Some sp) (Some fn) iel alpha = Ok L /\ system_of (lce_size d) (lce_form d) (lce_load d) alpha L.
  Proof.
    intros sp fn iel alpha d ((R1 & R2 & R3 & R4 & R5 & R6 & R7) & R8 & R9 & R10 & R11 & R12) ((U1 & U2) & V1 & V2).
    unfold lce_primal, dindex. rewrite R1, R8, R2, R3, R4, R9, R10. simpl bind.
    unfold get_at at 1. rewrite R5. simpl bind. unfold quadrature_of, get_at at 1. rewrite R6. simpl bind.
    unfold get_at at 1. rewrite R11. simpl bind. rewrite U1, V1, V2 in *.
    set (l := lc_le d) in *. change (e_dim (le_e l)) with (le_dim l). set (nd := le_dim l) in *. set (nr := lc_rot d) in *.
    set (np := t_nphi (e_tab (le_e l))). set (nt := t_nphi (e_tab (lc_te d))).
    assert (NU : le_size l = (np * nd)%nat) by reflexivity.
    destruct (source_loop_add HF 0 0 np nd (le_f l) (fun fc k => ksum (length (le_w l)) (fun i => (e_det (le_e l) i * weight (le_w l) i * t_val (e_tab (le_e l)) 0 i k 0) * fc i)) (fun _ => dzero) R7)
      as (r & S1 & S2 & S3 & S4).
    match goal with |- context [foldM ?g (seq 0 nd) ?z] => replace (foldM g (seq 0 nd) z) with (Ok r) end.
    2:{ symmetry. etransitivity; [|exact S1]. apply foldM_ext. intros r0 c. rewrite !Nat.add_0_r. reflexivity. }
    cbn [bind]. clear S1.
    destruct (source_loop_add HF nd (np * nd) nt nr (le_f l) (fun fc k => ksum (length (le_w l)) (fun i => (e_det (le_e l) i * weight (le_w l) i * t_val (e_tab (lc_te d)) 0 i k 0) * fc i)) r R12)
      as (rr & T1 & T2 & T3 & T4).
    rewrite T1. cbn [bind]. clear T1.
    assert (OK : lce_shapes nd nd nr 1 = true).
    { unfold lce_shapes. change nr with (n_rot nd). rewrite !Nat.eqb_refl. destruct U2 as [E2|E2]; fold nd in E2; rewrite E2; reflexivity. }
    rewrite OK.
    edestruct (form_loop HF (le_e l) (le_w l) (lce_size d)
      (lce_integrand nd (le_e l) (e_tab (lc_te d)) (le_lambda l) (le_mu l) (lc_kappa d) (lc_gamma d) (np * nd) (dvar alpha)) rr alpha (lce_row d) (lce_load d) (lce_form d)) as (r' & Q1 & Q2).
    5:{ rewrite Q1. cbn [bind]. eexists. split; [reflexivity|exact Q2]. }
    - intros a Ha. destruct (le_lt_dec (le_size l) a) as [H|H].
      + destruct (high_index d U2 a H Ha) as (I1 & I2 & I3). fold l nr in I1, I2, I3. rewrite NU in I1, I2, I3.
        set (k := ((a - np * nd) / nr)%nat) in *. set (m := ((a - np * nd) mod nr)%nat) in *.
        rewrite I3 at 1. rewrite T3 by assumption. rewrite S2 by (right; lia). simpl du_v.
        unfold lce_load, integral. rewrite (Sum_ksum HF). fold l. etransitivity; [apply (Radd_0_l HF)|]. apply ksum_ext. intros i Hi.
        rewrite !(Sum_ksum HF), (ksum_zero HF (le_dim l)) by (intros c Hc; rewrite (le_disp_out HK l); [ring|exact H|exact Hc]).
        fold nr nd. rewrite (ksum_ext nr _ (fun m' => (if m =? m' then k1 else k0) * (nth (nd + m') (le_f l) (fun _ => k0) i * t_val (e_tab (lc_te d)) 0 i k 0))).
        * rewrite (ksum_scaled_unit HK) by exact I2. unfold weight. ring.
        * intros m' Hm'. rewrite I3 at 1. pose proof (angle_unit d U2 i k m m' I1 I2 Hm') as AU. fold l nr in AU. rewrite NU in AU. rewrite AU. ring.
      + rewrite T2 by (left; rewrite <- NU; exact H).
        destruct (low_index d U2 a H) as (I1 & I2 & I3). fold l in I1, I2, I3. fold nd in I1, I2, I3.
        rewrite I3 at 1. pose proof (S3 (a / nd)%nat (a mod nd)%nat I1 I2) as S5. rewrite !Nat.add_0_l in S5. rewrite S5. cbn [du_v dzero].
        transitivity (ksum (length (le_w l)) (fun i => e_det (le_e l) i * weight (le_w l) i * t_val (e_tab (le_e l)) 0 i (a / nd) 0 * nth (a mod nd) (le_f l) (fun _ => k0) i)); [ring|].
        transitivity (le_load l (unit_at a)).
        * pose proof (le_load_unit HK l (a / nd) (a mod nd) I1 I2) as LU. fold nd in LU. rewrite <- I3 in LU. rewrite LU. reflexivity.
        * unfold le_load, lce_load. fold l. apply (integral_ext HF). intros i Hi. rewrite !(Sum_ksum HF), (ksum_zero HF (lc_rot d)); [ring|].
          intros m Hm. rewrite (angle_low d U2 a i m H). ring.
    - intros a b Ha. rewrite T4, S4. reflexivity.
    - intros i a Hi Ha. exact (lce_integrand_lin d U2 alpha i a Ha).
    - intros a x Ha. exact (lce_row_ok d U2 a x Ha).
  Qed.

  Theorem lce_exact : forall (sp : fe_space F) fn iel d, lce_reads sp fn iel d -> lce_fits d ->
    exact_jacobian (lce_primal (Some sp) (Some fn) iel).
  Proof.
    intros sp fn iel d HR' HD. pose proof HD as ((_ & U2) & _). apply (system_exact HF _ (lce_size d) (lce_form d) (lce_load d)).
    - intros y x. exact (lce_linear_1 d U2 y x).
    - intros alpha L H. destruct (lce_system sp fn iel alpha d HR' HD) as (L' & E & S). rewrite H in E. injection E as <-. exact S.
  Qed.
  Theorem lce_symmetric : forall (sp : fe_space F) fn iel alpha d L, lce_reads sp fn iel d -> lce_fits d ->
    lce_primal (Some sp) (Some fn) iel alpha = Ok L -> forall a b, a < l_n L -> b < l_n L -> l_j L a b = l_j L b a.
  Proof.
    intros sp fn iel alpha d L HR' HD H a b. destruct (lce_system sp fn iel alpha d HR' HD) as (L' & E & N & _ & J).
    rewrite H in E. injection E as <-. rewrite N. intros Ha Hb. rewrite !J by assumption. apply lce_form_sym.
  Qed.
  Theorem lce_rigid_zero : forall (sp : fe_space F) fn iel alpha d L x, lce_reads sp fn iel d -> lce_fits d ->
    lce_primal (Some sp) (Some fn) iel alpha = Ok L -> lce_rigid d x ->
    forall a, a < l_n L -> Sum (l_n L) (fun b => l_j L a b * x b) = k0.
  Proof.
    intros sp fn iel alpha d L x HR' HD H HX a. pose proof HD as ((_ & U2) & _). destruct (lce_system sp fn iel alpha d HR' HD) as (L' & E & N & _ & J).
    rewrite H in E. injection E as <-. rewrite N. intros Ha. rewrite (Sum_ksum HF).
    rewrite (ksum_ext _ _ (fun b => lce_form d (unit_at b) (unit_at a) * x b)).
    - etransitivity; [symmetry; exact (lce_linear_1 d U2 (unit_at a) x)|]. apply (lce_rigid_form d). exact HX.
    - intros b Hb. rewrite J by assumption. reflexivity.
  Qed.
  (** quadratic form *)
  Theorem lce_matrix : forall (sp : fe_space F) fn iel alpha d L, lce_reads sp fn iel d -> lce_fits d ->
    lce_primal (Some sp) (Some fn) iel alpha = Ok L -> forall x y, quad L y x = lce_form d x y.
  Proof.
    intros sp fn iel alpha d L HR' HD H x y. pose proof HD as ((_ & U2) & _). destruct (lce_system sp fn iel alpha d HR' HD) as (L' & E & S).
    rewrite H in E. injection E as <-. apply (system_quad HF _ _ _ _ _ x y) in S; [exact S| |].
    - intros y' x'. exact (lce_linear_1 d U2 y' x').
    - intros x' y'. exact (lce_linear_2 d U2 x' y').
  Qed.
  (** without kappa the displacement rows are those of classical elasticity, whatever the rotations *)
  Lemma spin_skew : forall nd (s : nat -> F) c dir, nd = 2%nat \/ nd = 3%nat -> c < nd -> dir < nd -> spin nd s c dir + spin nd s dir c = k0.
  Proof.
    intros nd s c dir [-> | ->] Hc Hd.
    - destruct (lt2 c Hc) as [->| ->]; destruct (lt2 dir Hd) as [->| ->]; unfold spin; cbn; ring.
    - destruct (lt3 c Hc) as [->|[->| ->]]; destruct (lt3 dir Hd) as [->|[->| ->]]; unfold spin; cbn; ring.
  Qed.
  Lemma spin_diag : forall nd (s : nat -> F) c, nd = 2%nat \/ nd = 3%nat -> c < nd -> spin nd s c c = k0.
  Proof.
    intros nd s c [-> | ->] Hc.
    - destruct (lt2 c Hc) as [->| ->]; unfold spin; cbn; ring.
    - destruct (lt3 c Hc) as [->|[->| ->]]; unfold spin; cbn; ring.
  Qed.
  Theorem lce_no_kappa : forall (sp : fe_space F) fn iel alpha d L, lce_reads sp fn iel d -> lce_fits d ->
    (forall i, i < length (le_w (lc_le d)) -> lc_kappa d i = k0) ->
    lce_primal (Some sp) (Some fn) iel alpha = Ok L ->
    exists P, le_primal (Some sp) (Some fn) iel alpha = Ok P /\ forall a, a < l_n P -> l_r L a = l_r P a.
  Proof.
    intros sp fn iel alpha d L HR' HD HK0 H. pose proof HD as (HL & _). pose proof HL as (_ & U2). set (l := lc_le d) in *.
    destruct (lce_system sp fn iel alpha d HR' HD) as (L' & E & N & S & _). rewrite H in E. injection E as <-.
    destruct HR' as (HLR & _). fold l in HLR. destruct (le_system HK two sp fn iel alpha l HLR HL) as (P & EP & NP & SP & _).
    exists P. split; [exact EP|]. rewrite NP. intros a Ha.
    assert (Ha' : a < lce_size d) by (unfold lce_size; fold l; lia).
    rewrite S, SP by assumption. f_equal; cycle 1.
    - rewrite (le_form_stress HK two l), (lce_row_ok d U2 a alpha Ha'). fold l. apply (integral_ext HF). intros i Hi.
      unfold lce_row. fold l. replace (a <? le_size l) with true by (symmetry; apply Nat.ltb_lt; exact Ha).
      destruct (low_index d U2 a Ha) as (I1 & I2 & I3). fold l in I1, I2, I3.
      pose proof (contract_unit HK l (le_stress l alpha i) i (a / le_dim l) (a mod le_dim l) I1 I2) as CU. rewrite <- I3 in CU. rewrite CU. apply ksum_ext. intros dir Hd. f_equal.
      assert (TR : trace_of (le_dim l) (lce_strain d alpha i) = le_trace l alpha i).
      { unfold trace_of, le_trace. rewrite !(Sum_ksum HF). apply ksum_ext. intros c Hc. unfold lce_strain. fold l. rewrite (spin_diag _ _ c U2 Hc). ring. }
      unfold lce_stress, le_stress. fold l. rewrite TR, (HK0 i Hi).
      set (c := (a mod le_dim l)%nat) in *.
      replace (sym_part (lce_strain d alpha i) c dir) with (le_strain l alpha i c dir).
      + destruct (c =? dir); ring.
      + unfold sym_part, lce_strain, le_strain. fold l. pose proof (spin_skew _ (lce_angle d alpha i) c dir U2 I2 Hd) as SS. fold l in SS.
        f_equal. transitivity (le_grad l alpha i c dir + le_grad l alpha i dir c + (spin (le_dim l) (lce_angle d alpha i) c dir + spin (le_dim l) (lce_angle d alpha i) dir c)); [rewrite SS; ring|ring].
    - unfold le_load, lce_load. fold l. apply (integral_ext HF). intros i Hi. rewrite !(Sum_ksum HF), (ksum_zero HF (lc_rot d)); [ring|].
      intros m Hm. rewrite (angle_low d U2 a i m Ha). ring.
  Qed.
End Cosserat.
