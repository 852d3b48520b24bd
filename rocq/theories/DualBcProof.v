(** * The boundary forms of the dual problems *)
From Coq Require Import String List Arith Bool Lia Ring Field.
From Verif Require Import Base BaseProof FormModel FormSpec FormProof FormProof2 AdModel AdModel2 AdSpec AdProof AdProof2 AdProof3 BcSpec BcProof BcProof2 BcProof3 DualBcModel DualBcSpec.
Import ListNotations.
Open Scope list_scope.

Section DualBc.
  Context {F : scalar} (HF : is_ring F).
  Let HR : ring_theory (@k0 F) k1 kadd kmul ksub kopp eq := HF.
  Add Ring KringS : HR.

  Lemma comp_vec_at : forall n m base (step : (nat -> F) -> nat -> res (nat -> F)) (R : nat -> nat -> F) (r0 : nat -> F),
    (forall r c, c < m -> exists rb, step r c = Ok (add_slice (c + base) (c + base + n * m) m rb r) /\ (forall k, k < n -> rb k = R c k)) ->
    exists r, foldM step (seq 0 m) r0 = Ok r /\
      (forall a, a < base \/ base + n * m <= a -> r a = r0 a) /\
      (forall k c, k < n -> c < m -> r (base + (k * m + c)) = kadd (r0 (base + (k * m + c))) (R c k)).
  Proof.
    intros n m base step R r0 H.
    assert (G : forall j, j <= m -> exists r, foldM step (seq 0 j) r0 = Ok r /\
      (forall a, a < base \/ base + n * m <= a -> r a = r0 a) /\
      (forall k c, k < n -> c < m -> r (base + (k * m + c)) = if c <? j then kadd (r0 (base + (k * m + c))) (R c k) else r0 (base + (k * m + c)))).
    { induction j; intros Hj.
      - exists r0. split; [reflexivity|]. split; reflexivity.
      - destruct IHj as (r & S1 & S2 & S3); [lia|]. destruct (H r j Hj) as (rb & E & ER). assert (Hm : 0 < m) by lia.
        assert (OUT : forall a, a < base \/ base + n * m <= a -> in_slice (j + base) (j + base + n * m) m a = None).
        { intros a Ha. destruct (in_slice (j + base) (j + base + n * m) m a) as [k|] eqn:E'; [|reflexivity].
          apply (in_slice_inv _ (n * m) m n) in E'; [|assumption|reflexivity]. nia. }
        rewrite seq_S, foldM_app_res, S1. simpl. rewrite E. simpl. eexists. split; [reflexivity|]. split.
        + intros a Ha. unfold add_slice. rewrite OUT by exact Ha. apply S2. exact Ha.
        + intros k c Hk Hc. unfold add_slice. rewrite in_slice_shift, (in_slice_grid n m j k c Hk Hj Hc), S3 by assumption.
          destruct (Nat.eqb_spec c j) as [->|N].
          * rewrite Nat.ltb_irrefl. replace (j <? S j) with true by (symmetry; apply Nat.ltb_lt; lia). rewrite ER by exact Hk. reflexivity.
          * replace (c <? S j) with (c <? j) by (destruct (Nat.ltb_spec c j); symmetry; [apply Nat.ltb_lt|apply Nat.ltb_ge]; lia). reflexivity. }
    destruct (G m (le_n m)) as (r & S1 & S2 & S3). exists r. split; [exact S1|]. split; [exact S2|]. intros k c Hk Hc. rewrite S3 by assumption.
    replace (c <? m) with true by (symmetry; apply Nat.ltb_lt; lia). reflexivity.
  Qed.

  (** the normal trace of one basis function *)
  Lemma f_normal_unit : forall (d : flux_data F) k c i c', flux_fits d -> k < f_phi d -> c < f_comp d -> c' < f_comp d ->
    f_normal d (unit_at (k * f_comp d + c)) i c' = kmul (if c =? c' then k1 else k0) (trace_phi (f_trace d) i k).
  Proof.
    intros d k c i c' (X1 & X2 & X3) Hk Hc Hc'. unfold f_normal. rewrite (grid_unit HF (f_phi d) (f_comp d) k c c') by assumption.
    unfold trace_phi. rewrite X1, Nat.min_id, (Sum_ksum HF). reflexivity.
  Qed.
  Lemma f_normal_zero : forall (d : flux_data F) i c, f_normal d (fun _ => k0) i c = k0.
  Proof. intros. unfold f_normal. rewrite (Sum_ksum HF). apply (ksum_zero HF). intros. ring. Qed.
  Lemma f_normal_local : forall (d : flux_data F) x y i c, c < f_comp d -> (forall a, a < f_phi d * f_comp d -> x a = y a) ->
    f_normal d x i c = f_normal d y i c.
  Proof.
    intros d x y i c Hc H. unfold f_normal. apply (Sum_ext HF). intros k Hk. rewrite H; [reflexivity|]. nia.
  Qed.
  Lemma fits_test : forall (d : flux_data F), flux_fits d -> trace_fits (f_trace d) && (length (tr_dofs (f_trace d)) =? f_phi d) = true.
  Proof. intros d (X1 & X2 & X3). unfold trace_fits. rewrite X1, X3, Nat.min_id, Nat.min_l, !Nat.eqb_refl by exact X2. reflexivity. Qed.

  Lemma value_ok : forall (d : flux_data F) base (value : nat -> nat -> res F) r0, flux_fits d ->
    (forall c i, c < f_comp d -> i < length (f_w d) -> value c i = Ok (f_value d c i)) ->
    exists r, value_loop (f_e d) (f_w d) base (f_comp d) (f_phi d) (f_trace d) value r0 = Ok r /\
      (forall a, a < base \/ base + f_phi d * f_comp d <= a -> r a = r0 a) /\
      (forall a, a < f_phi d * f_comp d -> r (base + a) = kadd (r0 (base + a)) (kopp (flux_load d (unit_at a)))).
  Proof.
    intros d base value r0 HX HV. unfold value_loop. cbv zeta.
    destruct (comp_vec_at (f_phi d) (f_comp d) base (fun r c =>
      do block <- foldM (fun blk i =>
        do pc <- value c i;
        if trace_fits (f_trace d) && (length (tr_dofs (f_trace d)) =? f_phi d) then
          Ok (fun k => ksub (blk k) (kmul (kmul (kmul (e_det (f_e d) i) (weight (f_w d) i)) pc) (trace_phi (f_trace d) i k)))
        else Err ValueError)
        (seq 0 (length (f_w d))) (fun _ => k0);
      Ok (add_slice (c + base) (c + base + f_phi d * f_comp d) (f_comp d) block r))
      (fun c k => kopp (ksum (length (f_w d)) (fun i => kmul (kmul (kmul (e_det (f_e d) i) (weight (f_w d) i)) (f_value d c i)) (trace_phi (f_trace d) i k)))) r0) as (r & E & E1 & E2).
    - intros r c Hc.
      destruct (vec_points HF (length (f_w d)) (fun i => value c i)
        (fun t i k => kmul (kmul (kmul (e_det (f_e d) i) (weight (f_w d) i)) t) (trace_phi (f_trace d) i k)) (fun i => f_value d c i) true) as (b & B1 & B2).
      { intros i Hi. apply HV; assumption. }
      exists b. split; [|intros; apply B2].
      rewrite (foldM_ext _ (fun b0 i => do t <- value c i; Ok (fun k => ksub (b0 k) (kmul (kmul (kmul (e_det (f_e d) i) (weight (f_w d) i)) t) (trace_phi (f_trace d) i k))))).
      + rewrite B1. reflexivity.
      + intros b0 i. rewrite (fits_test d HX). reflexivity.
    - exists r. split; [exact E|]. split; [exact E1|]. intros a Ha. destruct (grid_index (f_phi d) (f_comp d) a Ha) as (A1 & A2 & A3).
      rewrite A3 at 1 2 3. rewrite E2 by assumption. do 2 f_equal. unfold flux_load, integral. rewrite (Sum_ksum HF). apply ksum_ext. intros i Hi.
      rewrite (Sum_ext HF (f_comp d) _ (fun c' => kmul (if a mod f_comp d =? c' then k1 else k0) (kmul (f_value d c' i) (trace_phi (f_trace d) i (a / f_comp d))))).
      + rewrite (sum_pick HF (f_comp d) (a mod f_comp d) (fun c' => kmul (f_value d c' i) (trace_phi (f_trace d) i (a / f_comp d)))) by exact A2. unfold weight. ring.
      + intros c' Hc'. rewrite f_normal_unit by assumption. ring.
  Qed.

  Lemma traction_ok : forall beta (d : flux_data F) base (value : nat -> nat -> res F) rj, flux_fits d ->
    (forall c i, c < f_comp d -> i < length (f_w d) -> value c i = Ok (f_value d c i)) ->
    exists rj', traction_loop beta (f_e d) (f_w d) base (f_comp d) (f_phi d) (f_trace d) value rj = Ok rj' /\
      (forall a, a < base \/ base + f_phi d * f_comp d <= a -> fst rj' a = fst rj a) /\
      (forall a a', a < base \/ base + f_phi d * f_comp d <= a \/ a' < base \/ base + f_phi d * f_comp d <= a' -> snd rj' a a' = snd rj a a') /\
      (forall a, a < f_phi d * f_comp d -> fst rj' (base + a) = kadd (fst rj (base + a)) (traction_load beta d (unit_at a))) /\
      (forall a b, a < f_phi d * f_comp d -> b < f_phi d * f_comp d ->
         snd rj' (base + a) (base + b) = kadd (snd rj (base + a) (base + b)) (traction_form beta d (unit_at b) (unit_at a))).
  Proof.
    intros beta d base value rj HX HV. unfold traction_loop. cbv zeta.
    destruct (comp_loop (f_phi d) (f_comp d) base (fun rj c =>
      do block <- foldM (fun blk i =>
        do v <- value c i;
        if trace_fits (f_trace d) && (length (tr_dofs (f_trace d)) =? f_phi d) then
          Ok (fun k => ksub (blk k) (kmul (kmul (kmul (kmul beta (e_det (f_e d) i)) (weight (f_w d) i)) v) (trace_phi (f_trace d) i k)))
        else Err ValueError)
        (seq 0 (length (f_w d))) (fun _ => k0);
      Ok (add_slice (c + base) (c + base + f_phi d * f_comp d) (f_comp d) block (fst rj),
          add_block (c + base) (c + base + f_phi d * f_comp d) (f_comp d) (c + base) (c + base + f_phi d * f_comp d) (f_comp d)
            (trace_block beta (f_e d) (f_w d) (f_trace d)) (snd rj)))
      (fun c k => kopp (ksum (length (f_w d)) (fun i => kmul (kmul (kmul (kmul beta (e_det (f_e d) i)) (weight (f_w d) i)) (f_value d c i)) (trace_phi (f_trace d) i k))))
      (fun c k l => trace_block beta (f_e d) (f_w d) (f_trace d) k l) rj) as (rj' & R1 & R2 & R3 & R4 & R5).
    - intros s c Hc.
      destruct (vec_points HF (length (f_w d)) (fun i => value c i)
        (fun t i k => kmul (kmul (kmul (kmul beta (e_det (f_e d) i)) (weight (f_w d) i)) t) (trace_phi (f_trace d) i k)) (fun i => f_value d c i) true) as (b & B1 & B2).
      { intros i Hi. apply HV; assumption. }
      exists b, (trace_block beta (f_e d) (f_w d) (f_trace d)). split; [|split; [intros; apply B2|reflexivity]].
      rewrite (foldM_ext _ (fun b0 i => do t <- value c i; Ok (fun k => ksub (b0 k) (kmul (kmul (kmul (kmul beta (e_det (f_e d) i)) (weight (f_w d) i)) t) (trace_phi (f_trace d) i k))))).
      + rewrite B1. reflexivity.
      + intros b0 i. rewrite (fits_test d HX). reflexivity.
    - exists rj'. split; [exact R1|]. split; [exact R2|]. split; [exact R3|]. split.
      + intros a Ha. destruct (grid_index (f_phi d) (f_comp d) a Ha) as (A1 & A2 & A3). rewrite A3 at 1 2 3. rewrite R4 by assumption.
        f_equal. unfold traction_load. f_equal. unfold integral. rewrite (Sum_ksum HF), <- (ksum_mul_l HF). apply ksum_ext. intros i Hi.
        rewrite (Sum_ext HF (f_comp d) _ (fun c' => kmul (if a mod f_comp d =? c' then k1 else k0) (kmul (f_value d c' i) (trace_phi (f_trace d) i (a / f_comp d))))).
        * rewrite (sum_pick HF (f_comp d) (a mod f_comp d) (fun c' => kmul (f_value d c' i) (trace_phi (f_trace d) i (a / f_comp d)))) by exact A2. unfold weight. ring.
        * intros c' Hc'. rewrite f_normal_unit by assumption. ring.
      + intros a b Ha Hb. destruct (grid_index (f_phi d) (f_comp d) a Ha) as (A1 & A2 & A3). destruct (grid_index (f_phi d) (f_comp d) b Hb) as (B1 & B2 & B3).
        rewrite A3 at 1 2 3. rewrite B3 at 1 2 3. rewrite R5 by assumption.
        set (c := a mod f_comp d) in *. set (c' := b mod f_comp d) in *. set (k := a / f_comp d) in *. set (l := b / f_comp d) in *.
        assert (E : traction_form beta d (unit_at (l * f_comp d + c')) (unit_at (k * f_comp d + c)) =
                    if c =? c' then trace_block beta (f_e d) (f_w d) (f_trace d) k l else k0).
        { unfold traction_form.
          rewrite (integral_ext HF _ _ _ (fun i => kmul (if c' =? c then k1 else k0) (kmul (trace_phi (f_trace d) i k) (trace_phi (f_trace d) i l)))).
          - rewrite (integral_mul HF), (Nat.eqb_sym c' c). destruct (c =? c'); [|ring]. unfold trace_block, integral. rewrite (Sum_ksum HF).
            transitivity (kmul beta (ksum (length (f_w d)) (fun i => kmul (kmul (nth i (f_w d) k0) (e_det (f_e d) i)) (kmul (trace_phi (f_trace d) i k) (trace_phi (f_trace d) i l))))); [ring|].
            rewrite <- (ksum_mul_l HF). apply ksum_ext. intros. unfold weight. ring.
          - intros i Hi. rewrite (Sum_ext HF (f_comp d) _ (fun c0 => kmul (if c' =? c0 then k1 else k0) (kmul (if c =? c0 then k1 else k0) (kmul (trace_phi (f_trace d) i k) (trace_phi (f_trace d) i l))))).
            + rewrite (sum_pick HF (f_comp d) c' (fun c0 => kmul (if c =? c0 then k1 else k0) (kmul (trace_phi (f_trace d) i k) (trace_phi (f_trace d) i l)))) by exact B2.
              rewrite (Nat.eqb_sym c c'). reflexivity.
            + intros c0 Hc0. rewrite !f_normal_unit by assumption. ring. }
        rewrite E. destruct (c =? c'); [reflexivity|ring].
  Qed.

  (** ** Two blocks *)
  Definition local_form n (B : (nat -> F) -> (nat -> F) -> F) : Prop :=
    (forall x x' y y', (forall a, a < n -> x a = x' a) -> (forall a, a < n -> y a = y' a) -> B x y = B x' y') /\
    (forall y, B (fun _ => k0) y = k0) /\ (forall x, B x (fun _ => k0) = k0).
  Definition local_load n (l : (nat -> F) -> F) : Prop :=
    (forall y y', (forall a, a < n -> y a = y' a) -> l y = l y') /\ l (fun _ => k0) = k0.

  Lemma pair_system : forall n1 n2 B1 B2 l1 l2 (r : nat -> F) (j : nat -> nat -> F),
    local_form n1 B1 -> local_form n2 B2 -> local_load n1 l1 -> local_load n2 l2 ->
    (forall a, a < n1 -> r a = l1 (unit_at a)) -> (forall a, a < n2 -> r (n1 + a) = l2 (unit_at a)) ->
    (forall a b, a < n1 -> b < n1 -> j a b = B1 (unit_at b) (unit_at a)) ->
    (forall a b, a < n2 -> b < n2 -> j (n1 + a) (n1 + b) = B2 (unit_at b) (unit_at a)) ->
    (forall a b, a < n1 -> b < n2 -> j a (n1 + b) = k0) -> (forall a b, a < n2 -> b < n1 -> j (n1 + a) b = k0) ->
    system_of (n1 + n2) (fun x y => kadd (B1 x y) (B2 (after n1 x) (after n1 y))) (fun y => kadd (l1 y) (l2 (after n1 y))) (fun _ => k0)
      (mk_local (n1 + n2) r j).
  Proof.
    intros n1 n2 B1 B2 l1 l2 r j (L1 & Z1 & Y1) (L2 & Z2 & Y2) (M1 & N1) (M2 & N2) Hr1 Hr2 J11 J22 J12 J21.
    assert (UL : forall a b, a < n1 -> after n1 (@unit_at F a) b = k0) by (intros; unfold after; apply unit_other; lia).
    assert (UR : forall a b, b < n1 -> @unit_at F (n1 + a) b = k0) by (intros; apply unit_other; lia).
    assert (US : forall a b, after n1 (@unit_at F (n1 + a)) b = unit_at a b) by (intros; unfold after; apply unit_shift).
    split; [reflexivity|]. split.
    - intros a Ha. cbn [l_r l_n]. rewrite Z1. rewrite (L2 _ (fun _ => k0) _ (after n1 (unit_at a))) by (intros; reflexivity). rewrite Z2.
      destruct (Nat.lt_ge_cases a n1) as [H|H].
      + rewrite Hr1 by exact H. rewrite (M2 _ (fun _ => k0)) by (intros; apply UL; assumption). rewrite N2. ring.
      + replace a with (n1 + (a - n1)) by lia. rewrite Hr2 by lia. rewrite (M1 _ (fun _ => k0)) by (intros; apply UR; assumption).
        rewrite N1, (M2 (after n1 (unit_at (n1 + (a - n1)))) (unit_at (a - n1))) by (intros; apply US). ring.
    - intros a b Ha Hb. cbn [l_j]. destruct (Nat.lt_ge_cases a n1) as [H|H]; destruct (Nat.lt_ge_cases b n1) as [H'|H'].
      + rewrite J11 by assumption. rewrite (L2 _ (fun _ => k0) _ (fun _ => k0)) by (intros; apply UL; assumption). rewrite Z2. ring.
      + replace b with (n1 + (b - n1)) by lia. rewrite J12 by lia. rewrite (L1 _ (fun _ => k0) _ (unit_at a)) by (intros; try reflexivity; apply UR; assumption).
        rewrite Z1. rewrite (L2 _ (after n1 (unit_at (n1 + (b - n1)))) _ (fun _ => k0)) by (intros; try reflexivity; apply UL; assumption). rewrite Y2. ring.
      + replace a with (n1 + (a - n1)) by lia. rewrite J21 by lia. rewrite (L1 _ (unit_at b) _ (fun _ => k0)) by (intros; try reflexivity; apply UR; assumption).
        rewrite Y1. rewrite (L2 _ (fun _ => k0) _ (after n1 (unit_at (n1 + (a - n1))))) by (intros; try reflexivity; apply UL; assumption). rewrite Z2. ring.
      + replace a with (n1 + (a - n1)) by lia. replace b with (n1 + (b - n1)) by lia. rewrite J22 by lia.
        rewrite (L1 _ (fun _ => k0) _ (fun _ => k0)) by (intros; apply UR; assumption). rewrite Z1.
        rewrite (L2 (after n1 (unit_at (n1 + (b - n1)))) (unit_at (b - n1)) (after n1 (unit_at (n1 + (a - n1)))) (unit_at (a - n1))) by (intros; apply US). ring.
  Qed.

  Lemma traction_form_local : forall beta (d : flux_data F), local_form (f_phi d * f_comp d) (traction_form beta d).
  Proof.
    intros. split; [|split].
    - intros x x' y y' Hx Hy. unfold traction_form. f_equal. apply (integral_ext HF). intros. apply (Sum_ext HF). intros c Hc.
      rewrite (f_normal_local d x x'), (f_normal_local d y y') by assumption. reflexivity.
    - intros. unfold traction_form. rewrite (integral_zero HF); [ring|]. intros. rewrite (Sum_ksum HF). apply (ksum_zero HF). intros. rewrite f_normal_zero. ring.
    - intros. unfold traction_form. rewrite (integral_zero HF); [ring|]. intros. rewrite (Sum_ksum HF). apply (ksum_zero HF). intros. rewrite f_normal_zero. ring.
  Qed.
  Lemma traction_load_local : forall beta (d : flux_data F), local_load (f_phi d * f_comp d) (traction_load beta d).
  Proof.
    intros. split.
    - intros y y' Hy. unfold traction_load. do 2 f_equal. apply (integral_ext HF). intros. apply (Sum_ext HF). intros c Hc.
      rewrite (f_normal_local d y y') by assumption. reflexivity.
    - unfold traction_load. rewrite (integral_zero HF); [ring|]. intros. rewrite (Sum_ksum HF). apply (ksum_zero HF). intros. rewrite f_normal_zero. ring.
  Qed.
  Lemma flux_load_local : forall (d : flux_data F), local_load (f_phi d * f_comp d) (fun y => kopp (flux_load d y)).
  Proof.
    intros. split.
    - intros y y' Hy. unfold flux_load. f_equal. apply (integral_ext HF). intros. apply (Sum_ext HF). intros c Hc.
      rewrite (f_normal_local d y y') by assumption. reflexivity.
    - unfold flux_load. rewrite (integral_zero HF); [ring|]. intros. rewrite (Sum_ksum HF). apply (ksum_zero HF). intros. rewrite f_normal_zero. ring.
  Qed.
  Lemma zero_form_local : forall n, local_form n (fun _ _ => k0).
  Proof. intros. split; [|split]; reflexivity. Qed.
End DualBc.
