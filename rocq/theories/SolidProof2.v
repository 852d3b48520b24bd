(** * Source terms of several fields; the Taylor-Hood form *)
From Coq Require Import String List Arith Bool Lia Ring Field.
From Verif Require Import Base BaseProof FormModel FormSpec FormProof FormProof2 AdModel AdModel2 AdSpec AdProof AdProof2 AdProof3 BcProof BcProof2 MixProof MixProof2 SolidSpec SolidProof.
Import ListNotations.
Open Scope list_scope.

Section Sources.
  Context {F : scalar} (HF : is_ring F).
  Let HR : ring_theory (@k0 F) k1 kadd kmul ksub kopp eq := HF.
  Add Ring KringO : HR.
  Local Open Scope num_scope.

  Lemma in_slice_above : forall c n m a, c < m -> n * m <= a -> in_slice c (c + n * m) m a = None.
  Proof.
    intros c n m a Hc Ha. destruct (in_slice c (c + n * m) m a) as [k|] eqn:E; [|reflexivity].
    apply (in_slice_inv c (n * m) m n) in E; [|lia|reflexivity]. destruct E as [E1 E2]. nia.
  Qed.

  Lemma source_loop_add : forall (off base n m : nat) (f : list (nat -> F)) (v : (nat -> F) -> nat -> F) r0, off + m <= length f ->
    exists r, foldM (fun r c => do fc <- get_at f (c + off);
         Ok (dadd_slice (c + base)%nat (c + base + n * m)%nat m (fun k => dconst (v fc k)) r)) (seq 0 m) r0 = Ok r /\
       (forall a, a < base \/ base + n * m <= a -> du_v (r a) = du_v (r0 a)) /\
       (forall k c, k < n -> c < m ->
          du_v (r (base + (k * m + c))%nat) = du_v (r0 (base + (k * m + c))%nat) + v (nth (off + c) f (fun _ => k0)) k) /\
       (forall a b, du_d (r a) b = du_d (r0 a) b).
  Proof.
    intros off base n m f v r0 Hm.
    assert (G : forall j, j <= m -> exists r, foldM (fun r c => do fc <- get_at f (c + off);
         Ok (dadd_slice (c + base)%nat (c + base + n * m)%nat m (fun k => dconst (v fc k)) r)) (seq 0 j) r0 = Ok r /\
       (forall a, a < base \/ base + n * m <= a -> du_v (r a) = du_v (r0 a)) /\
       (forall k c, k < n -> c < m ->
          du_v (r (base + (k * m + c))%nat) = du_v (r0 (base + (k * m + c))%nat) + if c <? j then v (nth (off + c) f (fun _ => k0)) k else k0) /\
       (forall a b, du_d (r a) b = du_d (r0 a) b)).
    { induction j; intros Hj.
      - exists r0. split; [reflexivity|]. split; [reflexivity|]. split; [|reflexivity].
        intros k c Hk Hc. simpl. ring.
      - destruct IHj as (r & R1 & R2 & R3 & R4); [lia|]. rewrite seq_S, foldM_app_res, R1. simpl.
        unfold get_at. destruct (nth_error f (j + off)) as [fj|] eqn:E; [|apply nth_error_None in E; lia]. simpl.
        assert (NJ : nth (off + j) f (fun _ => k0) = fj) by (apply nth_error_nth; rewrite Nat.add_comm; exact E).
        eexists. split; [reflexivity|]. split; [|split].
        + intros a Ha. unfold dadd_slice. destruct Ha as [Ha|Ha].
          * rewrite in_slice_below by exact Ha. apply R2. left. exact Ha.
          * replace a with (base + (a - base))%nat at 1 by lia. rewrite in_slice_shift, in_slice_above by lia. apply R2. right. exact Ha.
        + intros k c Hk Hc. assert (Hc' : j < m) by lia.
          unfold dadd_slice; rewrite in_slice_shift, (in_slice_grid n m j k c Hk Hc' Hc).
          destruct (Nat.eqb_spec c j) as [->|N].
          * simpl. rewrite R3 by assumption. rewrite Nat.ltb_irrefl. replace (j <? S j) with true by (symmetry; apply Nat.ltb_lt; lia). rewrite NJ. ring.
          * rewrite R3 by assumption. replace (c <? S j) with (c <? j) by (destruct (Nat.ltb_spec c j); symmetry; [apply Nat.ltb_lt|apply Nat.ltb_ge]; lia). reflexivity.
        + intros a b. unfold dadd_slice. destruct (in_slice _ _ _ a); simpl; rewrite ?R4; [ring|reflexivity]. }
    destruct (G m (le_n m)) as (r & R1 & R2 & R3 & R4). exists r. split; [exact R1|]. split; [exact R2|]. split; [|exact R4].
    intros k c Hk Hc. rewrite R3 by assumption. replace (c <? m) with true by (symmetry; apply Nat.ltb_lt; lia). reflexivity.
  Qed.
End Sources.

Section TaylorHood.
  Context {F : scalar} (HK : is_field F) (two : @kadd F k1 k1 <> k0).
  Let HF : is_ring F := field_is_ring F HK.
  Let HFd : field_theory (@k0 F) k1 kadd kmul ksub kopp (fun a b => kmul a (kinv b)) kinv eq := HK.
  Add Field KfieldP : HFd.
  Local Open Scope num_scope.

  Section Data.
    Variable d : th_data F.
    Let l := th_le d.
    Let nu := le_size l.
    Let np := th_np d.
    Hypothesis Hdim : le_dim l = 2%nat.

    Definition th_row (i a : nat) (x : nat -> F) : F :=
      if a <? nu then
        ksum 2 (fun dir => le_g l i (a / 2) dir *
          ((k1 + k1) * le_mu l i * dev_part (le_strain l x i) (a mod 2) dir + (if a mod 2 =? dir then k1 else k0) * th_press d x i))
      else t_val (e_tab (th_pe d)) 0 i (a - nu) 0 * le_trace l x i
           - (kinv (le_lambda l i + le_mu l i) * t_val (e_tab (th_pe d)) 0 i (a - nu) 0) * th_press d x i.

    Lemma th_index : forall a, a < nu -> a / 2 < t_nphi (e_tab (le_e l)) /\ a mod 2 < 2 /\ a = (a / 2 * 2 + a mod 2)%nat.
    Proof.
      intros a Ha. unfold nu, le_size in Ha. rewrite Hdim in Ha. split; [apply Nat.div_lt_upper_bound; lia|].
      split; [apply Nat.mod_upper_bound; discriminate|]. pose proof (Nat.div_mod a 2). lia.
    Qed.
    Lemma press_sum : forall x i, th_press d x i = ksum np (fun k => t_val (e_tab (th_pe d)) 0 i k 0 * x (nu + k)%nat).
    Proof. intros. unfold th_press. rewrite (Sum_ksum HF). apply ksum_ext. intros. fold l nu. ring. Qed.
    Lemma press_low : forall a i, a < nu -> th_press d (unit_at a) i = k0.
    Proof. intros. apply (sum_unit_out HF). intros. fold l nu. lia. Qed.
    Lemma press_high : forall a i, nu <= a -> a < nu + np -> th_press d (unit_at a) i = t_val (e_tab (th_pe d)) 0 i (a - nu) 0.
    Proof.
      intros a i H H'. pose proof (sum_unit_shift HF np nu (a - nu) (fun k => t_val (e_tab (th_pe d)) 0 i k 0)) as SU.
      replace (nu + (a - nu))%nat with a in SU by lia. apply SU. lia.
    Qed.
    Lemma trace_out : forall a i, nu <= a -> le_trace l (unit_at a) i = k0.
    Proof.
      intros a i H. unfold le_trace. rewrite (Sum_ksum HF). apply (ksum_zero HF). intros c Hc.
      apply (le_grad_out HK l a i c c); [exact H|exact Hc].
    Qed.
    Lemma strain_out : forall a i c dir, nu <= a -> c < 2 -> dir < 2 -> le_strain l (unit_at a) i c dir = k0.
    Proof.
      intros a i c dir H Hc Hd. unfold le_strain. rewrite <- Hdim in Hc, Hd.
      rewrite !(le_grad_out HK l a i); [ring|exact H|assumption|exact H|assumption].
    Qed.

    (** dev eps : dev eps' = dev eps : grad v *)
    Lemma dev_contract : forall x y i, contract 2 2 (dev_part (le_strain l x i)) (dev_part (le_strain l y i)) =
      contract 2 2 (dev_part (le_strain l x i)) (le_grad l y i).
    Proof.
      intros x y i. rewrite <- (contract_sym HK two 2 _ (le_grad l y i)).
      - rewrite !(contract_ksum HK). cbn [ksum]. unfold dev_part, trace_of, sym_part, le_strain. rewrite !(Sum_ksum HF). cbn [ksum Nat.eqb].
        field. exact two.
      - intros c dir Hc Hd. unfold dev_part. rewrite (le_strain_sym HK l), (Nat.eqb_sym c dir). reflexivity.
    Qed.

    Lemma th_row_ok : forall a x, a < nu + np -> th_form d x (unit_at a) = integral (le_e l) (le_w l) (fun i => th_row i a x).
    Proof.
      intros a x Ha. unfold th_form. fold l. apply (integral_ext HF). intros i Hi. unfold th_row. rewrite dev_contract.
      destruct (Nat.ltb_spec a nu) as [H|H].
      - destruct (th_index a H) as (I1 & I2 & I3). rewrite press_low by exact H.
        assert (CU : forall T, contract 2 2 T (le_grad l (unit_at a) i) = ksum 2 (fun dir => le_g l i (a / 2) dir * T (a mod 2)%nat dir)).
        { intros T. pose proof (contract_unit HK l T i (a / 2) (a mod 2)) as E. rewrite Hdim in E. rewrite <- E by assumption.
          rewrite <- I3. reflexivity. }
        assert (TR : le_trace l (unit_at a) i = le_g l i (a / 2) (a mod 2)).
        { unfold le_trace. rewrite Hdim.
          transitivity (contract 2 2 (fun c dir => if c =? dir then k1 else k0) (le_grad l (unit_at a) i)).
          - rewrite (contract_diag HK). unfold trace_of. ring.
          - rewrite CU. rewrite (ksum_single HF 2 (a mod 2)); [rewrite Nat.eqb_refl; ring|exact I2|].
            intros j Hj Hn. replace (a mod 2 =? j) with false by (symmetry; apply Nat.eqb_neq; congruence). ring. }
        rewrite CU, TR.
        rewrite (ksum_ext 2 (fun dir => le_g l i (a / 2) dir * ((k1 + k1) * le_mu l i * dev_part (le_strain l x i) (a mod 2) dir + (if a mod 2 =? dir then k1 else k0) * th_press d x i))
          (fun dir => (k1 + k1) * le_mu l i * (le_g l i (a / 2) dir * dev_part (le_strain l x i) (a mod 2) dir) + (if a mod 2 =? dir then k1 else k0) * (le_g l i (a / 2) dir * th_press d x i))) by (intros; ring).
        rewrite (ksum_add HF), (ksum_mul_l HF), (ksum_scaled_unit HK) by exact I2. ring.
      - rewrite press_high by assumption. rewrite trace_out by exact H.
        rewrite (contract_zero_r HK); [ring|]. intros c dir Hc Hd. apply (le_grad_out HK l a i); [exact H|rewrite Hdim; exact Hc].
    Qed.

    Lemma th_integrand_lin : forall alpha i a, a < nu + np ->
      lin (nu + np) alpha (taylor_hood_integrand (le_e l) (e_tab (th_pe d)) (le_lambda l) (le_mu l) nu (dvar alpha) i a) (th_row i a).
    Proof.
      intros alpha i a Ha.
      assert (Hn : t_nphi (e_tab (le_e l)) * le_dim l <= nu + np) by (unfold nu, le_size; lia).
      assert (GL : forall c dir, c < 2 -> lin (nu + np) alpha (dsum (t_nphi (e_tab (le_e l))) (fun l' => dscale (grad_phi (le_e l) i l' dir) (dvar alpha (l' * 2 + c)%nat))) (fun x => le_grad l x i c dir)).
      { intros c dir Hc. pose proof (grad_lin HK l (nu + np) alpha i c dir Hn) as G. rewrite Hdim in G. apply G. exact Hc. }
      assert (SL : forall c dir, c < 2 -> dir < 2 -> lin (nu + np) alpha
        (dscale khalf (dadd (dsum (t_nphi (e_tab (le_e l))) (fun l' => dscale (grad_phi (le_e l) i l' dir) (dvar alpha (l' * 2 + c)%nat)))
           (dsum (t_nphi (e_tab (le_e l))) (fun l' => dscale (grad_phi (le_e l) i l' c) (dvar alpha (l' * 2 + dir)%nat))))) (fun x => le_strain l x i c dir)).
      { intros c dir Hc Hd. apply (lin_scale HF). apply (lin_add HF); apply GL; assumption. }
      assert (PL : lin (nu + np) alpha (dsum (t_nphi (e_tab (th_pe d))) (fun k => dscale (t_val (e_tab (th_pe d)) 0 i k 0) (dvar alpha (nu + k)%nat))) (fun x => th_press d x i)).
      { eapply (lin_eq (nu + np)); [|intros x; symmetry; apply press_sum]. apply (lin_sum HF). intros k Hk. apply (lin_scale HF). apply (lin_var HF).
        unfold np, th_np in *. lia. }
      unfold taylor_hood_integrand, th_row. destruct (Nat.ltb_spec a nu) as [H|H].
      - destruct (th_index a H) as (I1 & I2 & _). apply (lin_sum HF). intros dir Hd. apply (lin_scale HF). apply (lin_add HF).
        + set (c := (a mod 2)%nat) in *.
          apply (lin_eq _ _ _ (fun x => ((k1 + k1) * le_mu l i * le_strain l x i c dir + (if c =? dir then k1 else k0) * (le_lambda l i * ksum 2 (fun d' => le_strain l x i d' d')))
            - (if c =? dir then k1 else k0) * (kdiv k1 (k1 + k1) * ksum 2 (fun d' => (k1 + k1) * le_mu l i * le_strain l x i d' d' + (if d' =? d' then k1 else k0) * (le_lambda l i * ksum 2 (fun d'' => le_strain l x i d'' d'')))))).
          * apply (lin_sub HF).
            -- apply (lin_add HF); [apply (lin_scale HF); apply SL; assumption|]. apply (lin_scale HF). apply (lin_scale HF). apply (lin_sum HF). intros d' Hd'. apply SL; assumption.
            -- apply (lin_scale HF). apply (lin_scale HF). apply (lin_sum HF). intros d' Hd'.
               apply (lin_add HF); [apply (lin_scale HF); apply SL; assumption|]. apply (lin_scale HF). apply (lin_scale HF). apply (lin_sum HF). intros d'' Hd''. apply SL; assumption.
          * intros x. unfold dev_part, trace_of, kdiv. rewrite (Sum_ksum HF). cbn [ksum Nat.eqb]. destruct (c =? dir); field; exact two.
        + apply (lin_scale HF). exact PL.
      - apply (lin_sub HF).
        + apply (lin_scale HF). eapply (lin_eq (nu + np)); [apply (lin_sum HF); intros d' Hd'; apply (GL d' d'); exact Hd'|].
          intros x. unfold le_trace. rewrite (Sum_ksum HF), Hdim. reflexivity.
        + apply (lin_eq _ _ _ (fun x => (kdiv k1 (le_lambda l i + le_mu l i) * t_val (e_tab (th_pe d)) 0 i (a - nu) 0) * th_press d x i)).
          * apply (lin_scale HF). exact PL.
          * intros x. unfold kdiv. ring.
    Qed.

    Lemma th_form_sym : forall x y, th_form d x y = th_form d y x.
    Proof.
      intros x y. unfold th_form. apply (integral_ext HF). intros i Hi.
      rewrite (contract_comm HK _ _ (dev_part (le_strain (th_le d) x i))). ring.
    Qed.
    Lemma th_linear_1 : forall y, linear_in (nu + np) (fun x => th_form d x y).
    Proof.
      intros y.
      assert (GL : forall i c dir, c < 2 -> linear_in (nu + np) (fun x => le_grad l x i c dir)).
      { intros i c dir Hc. unfold le_grad. apply (linear_sum HF). intros k Hk. apply (linear_r HF). apply (linear_var HF). unfold nu, le_size. rewrite Hdim. lia. }
      assert (SL : forall i c dir, c < 2 -> dir < 2 -> linear_in (nu + np) (fun x => le_strain l x i c dir)).
      { intros. unfold le_strain. apply (linear_l HF). apply (linear_add HF); apply GL; assumption. }
      assert (TL : forall i, linear_in (nu + np) (fun x => le_trace l x i)).
      { intros. unfold le_trace. rewrite Hdim. apply (linear_sum HF). intros. apply GL. assumption. }
      assert (PL : forall i, linear_in (nu + np) (fun x => th_press d x i)).
      { intros. unfold th_press. apply (linear_sum HF). intros. apply (linear_r HF). apply (linear_var HF _ (le_size (th_le d) + i0)). fold l nu. unfold np. lia. }
      unfold th_form. apply (linear_integral HF). intros i Hi. apply (linear_sub HF); [apply (linear_add HF); [apply (linear_add HF)|]|].
      - apply (linear_l HF). unfold contract. apply (linear_sum HF). intros c Hc. apply (linear_sum HF). intros dir Hd. apply (linear_r HF). unfold dev_part.
        apply (linear_sub HF); [apply SL; assumption|]. destruct (c =? dir); [|apply (linear_zero HF)]. apply (linear_l HF). unfold trace_of. apply (linear_sum HF).
        intros c' Hc'. apply SL; assumption.
      - apply (linear_r HF). apply PL.
      - apply (linear_r HF). apply TL.
      - apply (linear_l HF). apply (linear_r HF). apply PL.
    Qed.
    Lemma th_linear_2 : forall x, linear_in (nu + np) (fun y => th_form d x y).
    Proof.
      intros x y. rewrite th_form_sym, th_linear_1. apply ksum_ext. intros. rewrite (th_form_sym x). reflexivity.
    Qed.
  End Data.

  Theorem th_system : forall (sp : fe_space F) fn iel alpha d, th_reads sp fn iel d -> th_fits d ->
    exists L, taylor_hood (Some sp) (Some fn) iel alpha = Ok L /\
      system_of (le_size (th_le d) + th_np d) (th_form d) (le_load (th_le d)) alpha L.
  Proof.
    intros sp fn iel alpha d ((R1 & R2 & R3 & R4 & R5 & R6 & R7) & R8 & R9) (U1 & U2 & V).
    unfold taylor_hood, dindex. rewrite R1, R8, R2, R3, R4. simpl bind.
    unfold get_at at 1. rewrite R5. simpl bind. unfold get_at at 1. rewrite R9. simpl bind.
    unfold quadrature_of, get_at at 1. rewrite R6. simpl bind. rewrite U1 in *.
    set (l := th_le d) in *. change (e_dim (le_e l)) with (le_dim l). rewrite U2, V. cbn [Nat.eqb Nat.leb Nat.min andb]. rewrite orb_true_r.
    set (n := t_nphi (e_tab (le_e l))). set (np := t_nphi (e_tab (th_pe d))).
    assert (NU : le_size l = (n * 2)%nat) by (unfold le_size; rewrite U2; reflexivity).
    destruct (source_loop_add HF 0 0 n 2 (le_f l) (fun fc k => ksum (length (le_w l)) (fun i => (e_det (le_e l) i * weight (le_w l) i * t_val (e_tab (le_e l)) 0 i k 0) * fc i)) (fun _ => dzero) R7)
      as (r & S1 & S2 & S3 & S4).
    match goal with |- context [foldM ?g (seq 0 2) ?z] => replace (foldM g (seq 0 2) z) with (Ok r) end.
    cbn [bind]. clear S1.
    edestruct (form_loop HF (le_e l) (le_w l) (le_size l + np)
      (taylor_hood_integrand (le_e l) (e_tab (th_pe d)) (le_lambda l) (le_mu l) (n * 2) (dvar alpha)) r alpha (th_row d) (le_load l) (th_form d)) as (r' & Q1 & Q2).
    5:{ cbn [andb]. rewrite Q1. cbn [bind]. rewrite <- NU. eexists. split; [reflexivity|exact Q2]. }
    - intros a Ha. destruct (le_lt_dec (le_size l) a) as [H|H].
      + rewrite S2 by (right; rewrite NU in H; simpl; lia). simpl. unfold le_load, integral. rewrite (Sum_ksum HF). symmetry. apply (ksum_zero HF). intros i Hi.
        rewrite (Sum_ksum HF), (ksum_zero HF); [ring|]. intros c Hc. rewrite (le_disp_out HK l); [ring|exact H|exact Hc].
      + destruct (th_index d U2 a H) as (I1 & I2 & I3). fold l in I1.
        pose proof (le_load_unit HK l (a / 2) (a mod 2) I1) as LU. rewrite U2 in LU. rewrite <- I3 in LU. rewrite LU by exact I2.
        rewrite I3 at 1. pose proof (S3 (a / 2)%nat (a mod 2)%nat I1 I2) as S5. rewrite !Nat.add_0_l in S5. rewrite S5. cbn [du_v dzero]. ring.
    - intros a b Ha. rewrite S4. reflexivity.
    - intros i a Hi Ha. pose proof (th_integrand_lin d U2 alpha i a Ha) as TL. fold l in TL. rewrite NU in TL at 2. rewrite NU in *. exact TL.
    - intros a x Ha. apply (th_row_ok d U2 a x Ha).
  Qed.

  Theorem th_exact : forall (sp : fe_space F) fn iel d, th_reads sp fn iel d -> th_fits d ->
    exact_jacobian (taylor_hood (Some sp) (Some fn) iel).
  Proof.
    intros sp fn iel d HR' HD. pose proof HD as (_ & U2 & _). apply (system_exact HF _ (le_size (th_le d) + th_np d) (th_form d) (le_load (th_le d))).
    - intros y x. exact (th_linear_1 d U2 y x).
    - intros alpha L H. destruct (th_system sp fn iel alpha d HR' HD) as (L' & E & S). rewrite H in E. injection E as <-. exact S.
  Qed.
  Theorem th_symmetric : forall (sp : fe_space F) fn iel alpha d L, th_reads sp fn iel d -> th_fits d ->
    taylor_hood (Some sp) (Some fn) iel alpha = Ok L -> forall a b, a < l_n L -> b < l_n L -> l_j L a b = l_j L b a.
  Proof.
    intros sp fn iel alpha d L HR' HD H a b. destruct (th_system sp fn iel alpha d HR' HD) as (L' & E & N & _ & J).
    rewrite H in E. injection E as <-. rewrite N. intros Ha Hb. rewrite !J by assumption. apply th_form_sym.
  Qed.

  (** with p = (lambda + mu) div u at the points, the displacement rows are those of the primal
      form and the pressure rows vanish *)
  Theorem th_consistent : forall (sp : fe_space F) fn iel alpha d L, th_reads sp fn iel d -> th_fits d ->
    (forall i, i < length (le_w (th_le d)) -> le_lambda (th_le d) i + le_mu (th_le d) i <> k0 /\
       th_press d alpha i = (le_lambda (th_le d) i + le_mu (th_le d) i) * le_trace (th_le d) alpha i) ->
    taylor_hood (Some sp) (Some fn) iel alpha = Ok L ->
    exists P, le_primal (Some sp) (Some fn) iel alpha = Ok P /\
      (forall a, a < l_n P -> l_r L a = l_r P a) /\ (forall a, l_n P <= a -> a < l_n L -> l_r L a = k0).
  Proof.
    intros sp fn iel alpha d L HR' HD HP H. pose proof HD as (U1 & U2 & V). set (l := th_le d) in *.
    destruct (th_system sp fn iel alpha d HR' HD) as (L' & E & N & S & _). rewrite H in E. injection E as <-. fold l in N, S.
    destruct HR' as (HL & _). fold l in HL. destruct (le_system HK two sp fn iel alpha l HL) as (P & EP & NP & SP & _).
    { split; [rewrite U1; symmetry; exact U2|left; exact U2]. }
    exists P. split; [exact EP|]. rewrite N, NP. split.
    - intros a Ha. rewrite S, SP by lia. f_equal. rewrite (le_form_stress HK two l). unfold th_form. fold l. apply (integral_ext HF). intros i Hi.
      destruct (HP i Hi) as [HN HE]. pose proof (dev_contract d alpha (unit_at a) i) as DC. fold l in DC. rewrite DC, (press_low d U2 a i Ha), HE, U2.
      assert (TR : forall y, le_trace l y i = trace_of 2 (le_grad l y i)) by (intros; unfold le_trace, trace_of; rewrite U2; reflexivity).
      rewrite !TR. rewrite !(contract_ksum HK). cbn [ksum]. unfold le_stress, dev_part, trace_of, le_strain. rewrite TR. unfold trace_of. rewrite !(Sum_ksum HF). cbn [ksum Nat.eqb].
      field. try split; first [exact two|exact HN].
    - intros a H1 Ha. rewrite S by exact Ha.
      assert (LZ : le_load l (unit_at a) = k0).
      { unfold le_load, integral. rewrite (Sum_ksum HF). apply (ksum_zero HF). intros i Hi.
        rewrite (Sum_ksum HF), (ksum_zero HF); [ring|]. intros c Hc. rewrite (le_disp_out HK l); [ring|exact H1|exact Hc]. }
      rewrite LZ. rewrite (th_row_ok d U2 a alpha) by exact Ha. unfold integral. rewrite (Sum_ksum HF), (ksum_zero HF); [ring|].
      intros i Hi. destruct (HP i Hi) as [HN HE]. unfold th_row. replace (a <? le_size (th_le d)) with false by (symmetry; apply Nat.ltb_ge; exact H1). fold l. rewrite HE.
      field. exact HN.
  Qed.
End TaylorHood.
