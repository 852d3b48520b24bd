(** * Contractions; the stress constraint *)
From Coq Require Import String List Arith Bool Lia Ring Field.
From Verif Require Import Base BaseProof FormModel FormSpec FormProof FormProof2 AdModel AdModel2 AdSpec AdProof AdProof2 AdProof3 BcProof2 MixProof MixProof2 SolidSpec.
Import ListNotations.
Open Scope list_scope.

Section SolidProof.
  Context {F : scalar} (HK : is_field F) (two : @kadd F k1 k1 <> k0).
  Let HF : is_ring F := field_is_ring F HK.
  Let HFd : field_theory (@k0 F) k1 kadd kmul ksub kopp (fun a b => kmul a (kinv b)) kinv eq := HK.
  Add Field KfieldN : HFd.
  Local Open Scope num_scope.

  Lemma contract_ksum : forall n m (T S : nat -> nat -> F), contract n m T S = ksum n (fun c => ksum m (fun dir => T c dir * S c dir)).
  Proof. intros. unfold contract. rewrite (Sum_ksum HF). apply ksum_ext. intros. apply (Sum_ksum HF). Qed.
  Lemma contract_ext : forall n m (T T' S S' : nat -> nat -> F),
    (forall c dir, c < n -> dir < m -> T c dir = T' c dir) -> (forall c dir, c < n -> dir < m -> S c dir = S' c dir) ->
    contract n m T S = contract n m T' S'.
  Proof. intros. rewrite !contract_ksum. apply ksum_ext. intros. apply ksum_ext. intros. rewrite H, H0 by assumption. reflexivity. Qed.
  Lemma contract_comm : forall n m (T S : nat -> nat -> F), contract n m T S = contract n m S T.
  Proof. intros. rewrite !contract_ksum. apply ksum_ext. intros. apply ksum_ext. intros. ring. Qed.
  Lemma contract_add_l : forall n m (T T' S : nat -> nat -> F), contract n m (fun c dir => T c dir + T' c dir) S = contract n m T S + contract n m T' S.
  Proof.
    intros. rewrite !contract_ksum, <- (ksum_add HF). apply ksum_ext. intros. rewrite <- (ksum_add HF). apply ksum_ext. intros. ring.
  Qed.
  Lemma contract_add_r : forall n m (T S S' : nat -> nat -> F), contract n m T (fun c dir => S c dir + S' c dir) = contract n m T S + contract n m T S'.
  Proof. intros. rewrite (contract_comm _ _ T), contract_add_l, (contract_comm _ _ S), (contract_comm _ _ S'). reflexivity. Qed.
  Lemma contract_mul_l : forall n m a (T S : nat -> nat -> F), contract n m (fun c dir => a * T c dir) S = a * contract n m T S.
  Proof.
    intros. rewrite !contract_ksum, <- (ksum_mul_l HF). apply ksum_ext. intros. rewrite <- (ksum_mul_l HF). apply ksum_ext. intros. ring.
  Qed.
  Lemma contract_zero_r : forall n m (T S : nat -> nat -> F), (forall c dir, c < n -> dir < m -> S c dir = k0) -> contract n m T S = k0.
  Proof. intros. rewrite contract_ksum. apply (ksum_zero HF). intros. apply (ksum_zero HF). intros. rewrite H by assumption. ring. Qed.
  Lemma contract_diag : forall n t (S : nat -> nat -> F), contract n n (fun c dir => if c =? dir then t else k0) S = t * trace_of n S.
  Proof.
    intros. rewrite contract_ksum. unfold trace_of. rewrite (Sum_ksum HF), <- (ksum_mul_l HF). apply ksum_ext. intros c Hc.
    rewrite (ksum_single HF _ c); [rewrite Nat.eqb_refl; reflexivity|exact Hc|].
    intros j Hj Hn. replace (c =? j) with false by (symmetry; apply Nat.eqb_neq; congruence). ring.
  Qed.
  Lemma contract_sym : forall n (S B : nat -> nat -> F), (forall c dir, c < n -> dir < n -> S c dir = S dir c) ->
    contract n n S (sym_part B) = contract n n S B.
  Proof.
    intros n S B H. rewrite <- (half_twice HK two (contract n n S B)).
    assert (T : contract n n S (fun c dir => B dir c) = contract n n S B).
    { rewrite !contract_ksum, (ksum_swap HF). apply ksum_ext. intros c Hc. apply ksum_ext. intros dir Hd. rewrite (H dir c) by assumption. reflexivity. }
    rewrite <- T at 2. rewrite <- contract_add_r, (contract_comm _ _ S (fun c dir => B c dir + B dir c)), <- contract_mul_l, contract_comm. reflexivity.
  Qed.
  Lemma contract_skew : forall n (S B : nat -> nat -> F), (forall c dir, c < n -> dir < n -> S c dir = - S dir c) ->
    contract n n S (skew_part B) = contract n n S B.
  Proof.
    intros n S B H. rewrite <- (half_twice HK two (contract n n S B)).
    assert (T : contract n n S (fun c dir => - B dir c) = contract n n S B).
    { rewrite !contract_ksum, (ksum_swap HF). apply ksum_ext. intros c Hc. apply ksum_ext. intros dir Hd. rewrite (H dir c) by assumption. ring. }
    rewrite <- T at 2. rewrite <- contract_add_r, (contract_comm _ _ S (fun c dir => B c dir + - B dir c)), <- contract_mul_l, contract_comm.
    apply contract_ext; intros; try reflexivity; unfold skew_part; ring.
  Qed.

  Section Data.
    Variable d : le_data F.
    Let nd := le_dim d.
    Let np := t_nphi (e_tab (le_e d)).

    Lemma contract_unit : forall T i k c, k < np -> c < nd ->
      contract nd nd T (le_grad d (unit_at (k * nd + c)%nat) i) = ksum nd (fun dir => le_g d i k dir * T c dir).
    Proof.
      intros T i k c Hk Hc. rewrite contract_ksum. rewrite (ksum_single HF _ c); [|exact Hc|].
      - apply ksum_ext. intros dir Hd. rewrite (le_grad_unit HK d) by assumption. rewrite Nat.eqb_refl. ring.
      - intros j Hj Hn. apply (ksum_zero HF). intros dir Hd. rewrite (le_grad_unit HK d) by assumption.
        replace (c =? j) with false by (symmetry; apply Nat.eqb_neq; congruence). ring.
    Qed.
    Lemma le_grad_out : forall a i c dir, np * nd <= a -> c < nd -> le_grad d (unit_at a) i c dir = k0.
    Proof.
      intros a i c dir H Hc. unfold le_grad. apply (sum_unit_out HF). intros k Hk. unfold np, nd in *. nia.
    Qed.
    Lemma le_disp_unit : forall i k c c', k < np -> c < nd -> c' < nd ->
      le_disp d (unit_at (k * nd + c)%nat) i c' = (if c =? c' then k1 else k0) * t_val (e_tab (le_e d)) 0 i k 0.
    Proof.
      intros i k c c' Hk Hc Hc'. unfold le_disp. fold nd np. destruct (Nat.eqb_spec c c') as [<-|N].
      - rewrite (Sum_ksum HF), (ksum_single HF _ k); [|exact Hk|].
        + rewrite unit_same. ring.
        + intros l Hl Hn. rewrite unit_other; [ring|]. unfold nd in *. nia.
      - rewrite (sum_unit_out HF _ _ (fun l => (l * nd + c')%nat)); [ring|]. intros l Hl E. assert (l = k) by nia. subst. lia.
    Qed.
    Lemma le_disp_out : forall a i c, np * nd <= a -> c < nd -> le_disp d (unit_at a) i c = k0.
    Proof. intros a i c H Hc. unfold le_disp. apply (sum_unit_out HF). intros k Hk. unfold np, nd in *. nia. Qed.

    Lemma grad_lin : forall n alpha i c dir, np * nd <= n -> c < nd ->
      lin n alpha (dsum np (fun l => dscale (grad_phi (le_e d) i l dir) (dvar alpha (l * nd + c)%nat))) (fun x => le_grad d x i c dir).
    Proof.
      intros n alpha i c dir Hn Hc. eapply (lin_eq n); [|intros x; symmetry; apply (le_grad_sum HK)].
      apply (lin_sum HF). intros l Hl. apply (lin_scale HF). apply (lin_var HF). fold nd. unfold np in *. nia.
    Qed.
    Lemma strain_lin : forall n alpha i c dir, np * nd <= n -> c < nd -> dir < nd -> lin n alpha
      (dscale khalf (dadd (dsum np (fun l => dscale (grad_phi (le_e d) i l dir) (dvar alpha (l * nd + c)%nat)))
                          (dsum np (fun l => dscale (grad_phi (le_e d) i l c) (dvar alpha (l * nd + dir)%nat)))))
      (fun x => le_strain d x i c dir).
    Proof. intros. apply (lin_scale HF). apply (lin_add HF); apply grad_lin; assumption. Qed.

    Lemma le_form_stress : forall x y, le_form d x y = integral (le_e d) (le_w d) (fun i => contract nd nd (le_stress d x i) (le_grad d y i)).
    Proof.
      intros x y. unfold le_form. apply (integral_ext HF). intros i Hi. unfold le_stress.
      rewrite contract_add_l, contract_mul_l, contract_diag. fold nd.
      change (Sum nd (fun c => Sum nd (fun dir => le_strain d x i c dir * le_strain d y i c dir))) with (contract nd nd (le_strain d x i) (sym_part (le_grad d y i))).
      rewrite contract_sym by (intros; apply (le_strain_sym HK)).
      unfold trace_of. fold nd. change (Sum nd (fun c => le_grad d y i c c)) with (le_trace d y i). ring.
    Qed.
  End Data.

  (** ** Stress constraint *)
  Theorem stress_system : forall beta target (sp : fe_space F) fn iel alpha d, sc_reads sp fn iel d -> le_fits d ->
    exists L, stress_constraint beta target (Some sp) (Some fn) iel alpha = Ok L /\
      system_of (le_size d) (fun x y => beta * le_form d x y) (sc_load beta target d) alpha L.
  Proof.
    intros beta target sp fn iel alpha d (R1 & R3 & R4 & R5 & R6) HD. pose proof HD as (U1 & U2).
    unfold stress_constraint, dindex. rewrite R1, R3, R4. simpl bind.
    unfold get_at at 1. rewrite R5. simpl bind. unfold quadrature_of, get_at at 1. rewrite R6. simpl bind.
    rewrite U1 in *. set (nd := le_dim d) in *. set (np := t_nphi (e_tab (le_e d))). change (e_dim (le_e d)) with nd.
    assert (OK : ((nd =? 2) || (nd =? 3)) && (1 <=? nd) && ((np =? 0) || (nd =? nd)) = true).
    { rewrite Nat.eqb_refl, orb_true_r, andb_true_r. destruct U2 as [U2|U2]; rewrite U2; reflexivity. }
    change (match nd with 0 => false | S _ => true end) with (1 <=? nd).
    rewrite OK.
    assert (ND : nd <> 0%nat) by (destruct U2 as [U2|U2]; rewrite U2; discriminate).
    assert (IX : forall a, a < np * nd -> a / nd < np /\ a mod nd < nd /\ a = (a / nd * nd + a mod nd)%nat).
    { intros a Ha. split; [apply Nat.div_lt_upper_bound; lia|]. split; [apply Nat.mod_upper_bound; exact ND|].
      rewrite (Nat.div_mod a nd) at 1 by exact ND. lia. }
    edestruct (form_loop' HF (le_e d) (le_w d) (np * nd)
      (fun i a => stress_energy beta nd (le_e d) (le_lambda d) (le_mu d) target (dvar alpha) i (a / nd)%nat (a mod nd)%nat) alpha
      (fun i a => - (beta * ksum nd (fun dir => le_g d i (a / nd) dir * target (a mod nd)%nat dir i)))
      (fun i a x => beta * le_row d i (a / nd)%nat (a mod nd)%nat x) (sc_load beta target d) (fun x y => beta * le_form d x y)) as (r' & Q1 & Q2).
    4:{ rewrite Q1. cbn [bind]. eexists. split; [reflexivity|exact Q2]. }
    - intros a Ha. destruct (IX a Ha) as (I1 & I2 & I3). unfold sc_load, integral. rewrite (Sum_ksum HF), <- (ksum_opp HF). apply ksum_ext. intros i Hi.
      replace (@unit_at F a) with (@unit_at F (a / nd * nd + a mod nd)%nat) by (rewrite <- I3; reflexivity). fold nd. rewrite (contract_unit d) by assumption. unfold weight. fold nd. ring.
    - intros i a Hi Ha. destruct (IX a Ha) as (I1 & I2 & I3).
      exists (dscale beta (le_strain_energy nd (le_e d) (le_lambda d) (le_mu d) (dvar alpha) i (a / nd)%nat (a mod nd)%nat)).
      split; [apply (lin_scale HF); apply (le_energy_lin HK two d); assumption|]. unfold stress_energy, le_strain_energy. split.
      + cbn [du_v dscale]. rewrite !dsum_v, <- !(ksum_mul_l HF), <- (ksum_opp HF), <- (ksum_add HF). apply ksum_ext. intros dir Hd. simpl. unfold le_g. ring.
      + intros b Hb. cbn [du_d dscale]. rewrite !dsum_d, <- !(ksum_mul_l HF). apply ksum_ext. intros dir Hd. simpl. ring.
    - intros a x Ha. destruct (IX a Ha) as (I1 & I2 & I3). rewrite I3 at 1. rewrite (le_row_ok HK two d) by assumption. unfold integral.
      rewrite (Sum_ksum HF), <- (ksum_mul_l HF). apply ksum_ext. intros. unfold weight. ring.
  Qed.

  Theorem stress_exact : forall beta target (sp : fe_space F) fn iel d, sc_reads sp fn iel d -> le_fits d ->
    exact_jacobian (stress_constraint beta target (Some sp) (Some fn) iel).
  Proof.
    intros beta target sp fn iel d HR' HD. apply (system_exact HF _ (le_size d) (fun x y => beta * le_form d x y) (sc_load beta target d)).
    - intros y x. exact (linear_l HF (le_size d) beta (fun x => le_form d x y) (le_linear_1 HK d y) x).
    - intros alpha L H. destruct (stress_system beta target sp fn iel alpha d HR' HD) as (L' & E & S). rewrite H in E. injection E as <-. exact S.
  Qed.
  (** a state with the target stress satisfies the constraint *)
  Theorem stress_met : forall beta target (sp : fe_space F) fn iel alpha d, sc_reads sp fn iel d -> le_fits d ->
    (forall i c dir, i < length (le_w d) -> c < le_dim d -> dir < le_dim d -> target c dir i = le_stress d alpha i c dir) ->
    exists L, stress_constraint beta target (Some sp) (Some fn) iel alpha = Ok L /\ forall a, a < l_n L -> l_r L a = k0.
  Proof.
    intros beta target sp fn iel alpha d HR' HD HT. destruct (stress_system beta target sp fn iel alpha d HR' HD) as (L & E & N & S & _).
    exists L. split; [exact E|]. intros a Ha. rewrite N in Ha. rewrite S by exact Ha. rewrite le_form_stress. unfold sc_load, integral.
    rewrite !(Sum_ksum HF), <- (ksum_mul_l HF), <- (ksum_opp HF), <- (ksum_add HF). apply (ksum_zero HF). intros i Hi.
    rewrite (contract_ext _ _ (fun c dir => target c dir i) (le_stress d alpha i) _ (le_grad d (unit_at a) i)); [ring| |reflexivity].
    intros. apply HT; assumption.
  Qed.
End SolidProof.
