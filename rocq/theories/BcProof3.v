(** * Boundary forms: flux, displacement with rotation *)
From Coq Require Import String List Arith Bool Lia Ring Field.
From Verif Require Import Base BaseProof FormModel FormSpec FormProof FormProof2 AdModel AdModel2 AdSpec AdProof AdProof2 AdProof3 BcSpec BcProof BcProof2.
Import ListNotations.
Open Scope list_scope.

Section BcSystems2.
  Context {F : scalar} (HF : is_ring F).
  Let HR : ring_theory (@k0 F) k1 kadd kmul ksub kopp eq := HF.
  Add Ring KringH : HR.

  (** ** Displacement and rotation of a Cosserat body *)
  Lemma b_val_local : forall (d : bc_data F) x y i c, c < b_comp d -> (forall a, a < b_size d -> x a = y a) -> b_val d x i c = b_val d y i c.
  Proof.
    intros d x y i c Hc H. unfold b_val. apply (Sum_ext HF). intros k Hk. rewrite H; [reflexivity|]. unfold b_size. nia.
  Qed.
  Lemma dirichlet_form_local : forall beta (d : bc_data F) x x' y y', (forall a, a < b_size d -> x a = x' a) -> (forall a, a < b_size d -> y a = y' a) ->
    dirichlet_form beta d x y = dirichlet_form beta d x' y'.
  Proof.
    intros. unfold dirichlet_form. f_equal. apply (integral_ext HF). intros. apply (Sum_ext HF). intros c Hc.
    rewrite (b_val_local d x x'), (b_val_local d y y') by assumption. reflexivity.
  Qed.
  Lemma dirichlet_load_local : forall beta (d : bc_data F) y y', (forall a, a < b_size d -> y a = y' a) ->
    dirichlet_load beta d y = dirichlet_load beta d y'.
  Proof.
    intros. unfold dirichlet_load. do 2 f_equal. apply (integral_ext HF). intros. apply (Sum_ext HF). intros c Hc.
    rewrite (b_val_local d y y') by assumption. reflexivity.
  Qed.
  Lemma dirichlet_form_sym : forall beta (d : bc_data F) x y, dirichlet_form beta d x y = dirichlet_form beta d y x.
  Proof. intros. unfold dirichlet_form. f_equal. apply (integral_ext HF). intros. apply (Sum_ext HF). intros. ring. Qed.
  Lemma dirichlet_zero_2 : forall beta (d : bc_data F) x, dirichlet_form beta d x (fun _ => k0) = k0.
  Proof. intros. rewrite dirichlet_form_sym. apply (dirichlet_zero HF). Qed.
  Lemma dirichlet_load_zero : forall beta (d : bc_data F), dirichlet_load beta d (fun _ => k0) = k0.
  Proof.
    intros. unfold dirichlet_load. rewrite (integral_zero HF); [ring|]. intros. rewrite (Sum_ksum HF). apply (ksum_zero HF). intros.
    rewrite (b_val_zero HF). ring.
  Qed.

  (** the data of the rotation with the determinant and the weights the code uses *)
  Definition with_points (d dt : bc_data F) : bc_data F :=
    mk_bc (b_u dt) (mk_element (e_dim (b_e dt)) (e_tab (b_e dt)) (e_det (b_e d)) (e_inv (b_e dt))) (b_w d) (b_g dt).
  Lemma with_form : forall beta d dt x y, b_w dt = b_w d -> (forall i, i < length (b_w d) -> e_det (b_e dt) i = e_det (b_e d) i) ->
    dirichlet_form beta (with_points d dt) x y = dirichlet_form beta dt x y.
  Proof.
    intros beta d dt x y Hw He. unfold dirichlet_form. f_equal. unfold integral. simpl. rewrite Hw. apply (Sum_ext HF). intros i Hi.
    rewrite He by exact Hi. reflexivity.
  Qed.
  Lemma with_load : forall beta d dt y, b_w dt = b_w d -> (forall i, i < length (b_w d) -> e_det (b_e dt) i = e_det (b_e d) i) ->
    dirichlet_load beta (with_points d dt) y = dirichlet_load beta dt y.
  Proof.
    intros beta d dt y Hw He. unfold dirichlet_load. do 2 f_equal. unfold integral. simpl. rewrite Hw. apply (Sum_ext HF). intros i Hi.
    rewrite He by exact Hi. reflexivity.
  Qed.

  Lemma unit_shift : forall n a b, @unit_at F (n + a) (n + b) = unit_at a b.
  Proof.
    intros. unfold unit_at. replace (n + b =? n + a) with (b =? a); [reflexivity|].
    destruct (Nat.eqb_spec b a); symmetry; [apply Nat.eqb_eq|apply Nat.eqb_neq]; lia.
  Qed.

  Theorem lce_dirichlet_system : forall beta (sp : fe_space F) fn iel alpha du dt,
    bc_reads sp fn "u" "u" iel du -> bc_reads sp fn "t" "t" iel dt -> b_comp du <= length (b_g du) -> b_comp dt <= length (b_g dt) ->
    b_w dt = b_w du -> (forall i, i < length (b_w du) -> e_det (b_e dt) i = e_det (b_e du) i) ->
    exists L, lce_bc_dirichlet beta sp fn iel alpha = Ok L /\
      system_of (b_size du + b_size dt) (pair_form beta du dt) (pair_load beta du dt) (fun _ => k0) L.
  Proof.
    intros beta sp fn iel alpha du dt (R1 & R2 & R3 & R4) (T1 & T2 & T3 & _) Hu Ht Hw He.
    unfold lce_bc_dirichlet, dindex. rewrite R1, R2, T1, T2. simpl bind. unfold get_at at 1. rewrite R3. simpl bind.
    unfold get_at at 1. rewrite T3. simpl bind. unfold quadrature_of, get_at at 1. rewrite R4. simpl bind.
    destruct (penalty_ok HF beta du 0 ((fun _ => k0), (fun _ _ => k0)) Hu) as (rj & P1 & P2 & P3 & P4 & P5).
    match goal with |- context [penalty_loop ?a ?b ?c ?d ?e ?f ?g ?z] => replace (penalty_loop a b c d e f g z) with (Ok rj) by (symmetry; exact P1) end.
    cbn [bind].
    destruct (penalty_ok HF beta (with_points du dt) (b_size du) rj Ht) as (rj' & Q1 & Q2 & Q3 & Q4 & Q5).
    match goal with |- context [penalty_loop ?a ?b ?c ?d ?e ?f ?g ?z] => replace (penalty_loop a b c d e f g z) with (Ok rj') by (symmetry; exact Q1) end.
    cbn [bind]. eexists. split; [reflexivity|].
    change (b_comp (with_points du dt)) with (b_comp dt) in *. change (b_phi (with_points du dt)) with (b_phi dt) in *.
    change (b_size (with_points du dt)) with (b_size dt) in *.
    set (nu := b_size du) in *. set (nt := b_size dt) in *.
    assert (Z : forall y, pair_form beta du dt (fun _ => k0) y = k0).
    { intros. unfold pair_form. rewrite !(dirichlet_zero HF). ring. }
    assert (UL : forall a, a < nu -> forall b, b < nt -> @unit_at F a (nu + b) = k0) by (intros; apply unit_other; lia).
    assert (UR : forall a, a < nt -> forall b, b < nu -> @unit_at F (nu + a) b = k0) by (intros; apply unit_other; lia).
    split; [reflexivity|]. split.
    - intros a Ha. cbn [l_r l_n]. rewrite Z. destruct (Nat.lt_ge_cases a nu) as [H|H].
      + rewrite Q2 by (left; exact H). destruct (grid_index (b_phi du) (b_comp du) a H) as (A1 & A2 & A3).
        pose proof (P4 _ _ A1 A2) as E. simpl in E. rewrite <- A3 in E. rewrite E. unfold pair_load. fold nu.
        rewrite (dirichlet_load_local beta dt (fun b => unit_at a (nu + b)) (fun _ => k0)) by (intros; apply UL; assumption).
        rewrite dirichlet_load_zero. ring.
      + replace a with (nu + (a - nu)) by lia. assert (Ha' : a - nu < nt) by lia.
        destruct (grid_index (b_phi dt) (b_comp dt) (a - nu) Ha') as (A1 & A2 & A3). remember (a - nu) as a'.
        pose proof (Q4 _ _ A1 A2) as E. rewrite <- A3 in E. rewrite E, P2 by (right; simpl; lia). rewrite (with_load beta du dt) by assumption.
        unfold pair_load. fold nu. rewrite (dirichlet_load_local beta du (unit_at (nu + a')) (fun _ => k0)) by (intros; apply UR; assumption).
        rewrite dirichlet_load_zero, (dirichlet_load_local beta dt (fun b => unit_at (nu + a') (nu + b)) (unit_at a')) by (intros; apply unit_shift).
        simpl fst. ring.
    - intros a b Ha Hb. cbn [l_j]. unfold pair_form. fold nu.
      destruct (Nat.lt_ge_cases a nu) as [H|H]; destruct (Nat.lt_ge_cases b nu) as [H'|H'].
      + rewrite Q3 by (left; exact H).
        destruct (grid_index (b_phi du) (b_comp du) a H) as (A1 & A2 & A3). destruct (grid_index (b_phi du) (b_comp du) b H') as (B1 & B2 & B3).
        pose proof (P5 _ _ _ _ A1 A2 B1 B2) as E. simpl in E. rewrite <- A3, <- B3 in E. rewrite E.
        rewrite (dirichlet_form_local beta dt _ (fun _ => k0) (fun b => unit_at a (nu + b)) (fun b => unit_at a (nu + b))) by (intros; try reflexivity; apply UL; assumption).
        rewrite (dirichlet_zero HF). ring.
      + rewrite Q3 by (left; exact H). rewrite P3 by (right; right; right; simpl; lia). simpl snd.
        replace b with (nu + (b - nu)) by lia.
        rewrite (dirichlet_form_local beta du (unit_at (nu + (b - nu))) (fun _ => k0) (unit_at a) (unit_at a)) by (intros; try reflexivity; apply UR; lia).
        rewrite (dirichlet_form_local beta dt (fun b0 => unit_at (nu + (b - nu)) (nu + b0)) (fun b0 => unit_at (nu + (b - nu)) (nu + b0)) (fun b => unit_at a (nu + b)) (fun _ => k0)) by (intros; try reflexivity; apply UL; assumption).
        rewrite (dirichlet_zero HF), dirichlet_zero_2. ring.
      + rewrite Q3 by (right; right; left; exact H'). rewrite P3 by (right; left; simpl; lia). simpl snd.
        replace a with (nu + (a - nu)) by lia.
        rewrite (dirichlet_form_local beta du (unit_at b) (unit_at b) (unit_at (nu + (a - nu))) (fun _ => k0)) by (intros; try reflexivity; apply UR; lia).
        rewrite (dirichlet_form_local beta dt (fun b0 => unit_at b (nu + b0)) (fun _ => k0) (fun b0 => unit_at (nu + (a - nu)) (nu + b0)) (fun b0 => unit_at (nu + (a - nu)) (nu + b0))) by (intros; try reflexivity; apply UL; assumption).
        rewrite (dirichlet_zero HF), dirichlet_zero_2. ring.
      + replace a with (nu + (a - nu)) by lia. replace b with (nu + (b - nu)) by lia.
        assert (Ha' : a - nu < nt) by lia. assert (Hb' : b - nu < nt) by lia. remember (a - nu) as a'. remember (b - nu) as b'.
        destruct (grid_index (b_phi dt) (b_comp dt) a' Ha') as (A1 & A2 & A3). destruct (grid_index (b_phi dt) (b_comp dt) b' Hb') as (B1 & B2 & B3).
        pose proof (Q5 _ _ _ _ A1 A2 B1 B2) as E. rewrite <- A3, <- B3 in E. rewrite E, P3 by (right; left; simpl; lia). simpl snd.
        rewrite (with_form beta du dt) by assumption.
        rewrite (dirichlet_form_local beta du (unit_at (nu + b')) (fun _ => k0) (unit_at (nu + a')) (fun _ => k0)) by (intros; apply UR; assumption).
        rewrite (dirichlet_form_local beta dt (fun b0 => unit_at (nu + b') (nu + b0)) (unit_at b') (fun b0 => unit_at (nu + a') (nu + b0)) (unit_at a')) by (intros; apply unit_shift).
        rewrite (dirichlet_zero HF). ring.
  Qed.

  (** ** Flux *)
  Lemma comp_vec : forall n m (step : (nat -> F) -> nat -> res (nat -> F)) (R : nat -> nat -> F),
    (forall r c, c < m -> exists rb, step r c = Ok (add_slice c (c + n * m) m rb r) /\ (forall k, k < n -> rb k = R c k)) ->
    exists r, foldM step (seq 0 m) (fun _ => k0) = Ok r /\ (forall k c, k < n -> c < m -> r (k * m + c) = R c k).
  Proof.
    intros n m step R H.
    assert (G : forall j, j <= m -> exists r, foldM step (seq 0 j) (fun _ => k0) = Ok r /\
      (forall k c, k < n -> c < m -> r (k * m + c) = if c <? j then R c k else k0)).
    { induction j; intros Hj.
      - exists (fun _ => k0). split; reflexivity.
      - destruct IHj as (r & S1 & S2); [lia|]. destruct (H r j Hj) as (rb & E & ER).
        rewrite seq_S, foldM_app_res, S1. simpl. rewrite E. simpl. eexists. split; [reflexivity|].
        intros k c Hk Hc. unfold add_slice. rewrite (in_slice_grid n m j k c Hk Hj Hc), S2 by assumption.
        destruct (Nat.eqb_spec c j) as [->|N].
        + rewrite Nat.ltb_irrefl. replace (j <? S j) with true by (symmetry; apply Nat.ltb_lt; lia). rewrite ER by exact Hk. ring.
        + replace (c <? S j) with (c <? j) by (destruct (Nat.ltb_spec c j); symmetry; [apply Nat.ltb_lt|apply Nat.ltb_ge]; lia). reflexivity. }
    destruct (G m (le_n m)) as (r & S1 & S2). exists r. split; [exact S1|]. intros k c Hk Hc. rewrite S2 by assumption.
    replace (c <? m) with true by (symmetry; apply Nat.ltb_lt; lia). reflexivity.
  Qed.

  Lemma flux_ok : forall (d : flux_data F) (value : nat -> nat -> res F), flux_fits d ->
    (forall c i, c < f_comp d -> i < length (f_w d) -> value c i = Ok (f_value d c i)) ->
    exists r, flux_loop (f_e d) (f_w d) (f_comp d) (f_phi d) (f_trace d) value = Ok r /\
      system_of (f_phi d * f_comp d) (fun _ _ => k0) (flux_load d) (fun _ => k0) (mk_local (f_phi d * f_comp d) r (fun _ _ => k0)).
  Proof.
    intros d value (X1 & X2 & X3) HV.
    destruct (comp_vec (f_phi d) (f_comp d) (fun r c =>
      do block <- foldM (fun blk i =>
        do pc <- value c i;
        if trace_fits (f_trace d) && (length (tr_dofs (f_trace d)) =? f_phi d) then
          Ok (fun k => kadd (blk k) (kmul (kmul (kmul (e_det (f_e d) i) (weight (f_w d) i)) pc) (trace_phi (f_trace d) i k)))
        else Err ValueError)
        (seq 0 (length (f_w d))) (fun _ => k0);
      Ok (add_slice c (c + f_phi d * f_comp d) (f_comp d) block r))
      (fun c k => ksum (length (f_w d)) (fun i => kmul (kmul (kmul (e_det (f_e d) i) (weight (f_w d) i)) (f_value d c i)) (trace_phi (f_trace d) i k)))) as (r & E & ER).
    - intros r c Hc.
      destruct (vec_points HF (length (f_w d)) (fun i => value c i)
        (fun t i k => kmul (kmul (kmul (e_det (f_e d) i) (weight (f_w d) i)) t) (trace_phi (f_trace d) i k)) (fun i => f_value d c i) false) as (b & B1 & B2).
      { intros i Hi. apply HV; assumption. }
      exists b. split; [|intros; apply B2].
      rewrite (foldM_ext _ (fun b0 i => do t <- value c i; Ok (fun k => kadd (b0 k) (kmul (kmul (kmul (e_det (f_e d) i) (weight (f_w d) i)) t) (trace_phi (f_trace d) i k))))).
      + rewrite B1. reflexivity.
      + intros b0 i. destruct (value c i); [|reflexivity]. simpl. unfold trace_fits. rewrite X1, X3, Nat.min_id, Nat.min_l, !Nat.eqb_refl by exact X2. reflexivity.
    - exists r. split; [exact E|]. apply (grid_system HF); [| |reflexivity].
      + intros k c Hk Hc. rewrite ER by assumption. unfold flux_load, integral. rewrite (Sum_ksum HF). apply ksum_ext. intros i Hi.
        rewrite (Sum_ext HF (f_comp d) _ (fun c' => kmul (if c =? c' then k1 else k0) (kmul (f_value d c' i) (trace_phi (f_trace d) i k)))).
        * rewrite (sum_pick HF (f_comp d) c (fun c' => kmul (f_value d c' i) (trace_phi (f_trace d) i k))) by exact Hc. unfold weight. ring.
        * intros c' Hc'. unfold f_normal. rewrite (grid_unit HF (f_phi d) (f_comp d) k c c') by assumption.
          unfold trace_phi. rewrite X1, Nat.min_id, (Sum_ksum HF). ring.
      + reflexivity.
  Qed.

  Theorem laplace_bc_system : forall (sp : fe_space F) fn trace iel alpha d tr,
    bc_reads sp fn "u" "p" iel d -> trace iel = Ok tr -> b_comp d <= length (b_g d) ->
    flux_fits (mk_flux (b_e d) (b_w d) (b_comp d) (b_phi d) tr (fun c i => b_given d i c)) ->
    exists L, laplace_bc sp fn trace iel alpha = Ok L /\
      system_of (b_size d) (fun _ _ => k0)
        (flux_load (mk_flux (b_e d) (b_w d) (b_comp d) (b_phi d) tr (fun c i => b_given d i c))) (fun _ => k0) L.
  Proof.
    intros sp fn trace iel alpha d tr (R1 & R2 & R3 & R4) HT Hl HX.
    destruct (flux_ok _ (fun c i => do pc <- get_at (b_g d) c; Ok (pc i)) HX) as (r & E & S).
    { intros c i Hc Hi. unfold get_at. simpl in *. unfold b_given. destruct (nth_error (b_g d) c) as [g|] eqn:G; [|apply nth_error_None in G; lia].
      simpl. rewrite (nth_error_nth _ _ _ G). reflexivity. }
    unfold laplace_bc, dindex. rewrite R1, R2. simpl bind. unfold get_at at 1. rewrite R3. simpl bind.
    unfold quadrature_of, get_at at 1. rewrite R4. simpl bind. rewrite HT. cbn [bind].
    match goal with |- context [flux_loop ?a ?b ?c ?d ?e ?f] => replace (flux_loop a b c d e f) with (Ok r) by (symmetry; exact E) end.
    cbn [bind]. eexists. split; [reflexivity|]. exact S.
  Qed.

  Theorem unscaled_bc_system : forall (sp : fe_space F) fn trace iel alpha d tr,
    bc_reads sp fn "u" "p" iel d -> trace iel = Ok tr -> b_comp d <= length (b_g d) ->
    flux_fits (mk_flux (b_e d) (b_w d) (b_comp d) (length (tr_dofs tr)) tr (fun c i => b_given d i c)) ->
    exists L, unscaled_bc sp fn trace iel alpha = Ok L /\
      system_of (length (tr_dofs tr) * b_comp d) (fun _ _ => k0)
        (flux_load (mk_flux (b_e d) (b_w d) (b_comp d) (length (tr_dofs tr)) tr (fun c i => b_given d i c))) (fun _ => k0) L.
  Proof.
    intros sp fn trace iel alpha d tr (R1 & R2 & R3 & R4) HT Hl HX.
    destruct (flux_ok _ (fun c i => do pc <- get_at (b_g d) c; Ok (pc i)) HX) as (r & E & S).
    { intros c i Hc Hi. unfold get_at. simpl in *. unfold b_given. destruct (nth_error (b_g d) c) as [g|] eqn:G; [|apply nth_error_None in G; lia].
      simpl. rewrite (nth_error_nth _ _ _ G). reflexivity. }
    unfold unscaled_bc, dindex. rewrite R1, R2. simpl bind. unfold get_at at 1. rewrite R3. simpl bind.
    unfold quadrature_of, get_at at 1. rewrite R4. simpl bind. rewrite HT. cbn [bind].
    match goal with |- context [flux_loop ?a ?b ?c ?d ?e ?f] => replace (flux_loop a b c d e f) with (Ok r) by (symmetry; exact E) end.
    cbn [bind]. eexists. split; [reflexivity|]. exact S.
  Qed.

  Theorem degenerate_bc_system : forall (ksqrt : F -> F) (positive : F -> bool) (sp : fe_space F) fn trace iel alpha d phi delta tr,
    bc_reads sp fn "v" "q" iel d -> dget (scal_of fn) "d_phi"%string = Some delta -> dget (scal_of fn) "porosity"%string = Some phi ->
    trace iel = Ok tr -> b_comp d <= length (b_g d) ->
    let value := fun c i : nat => if positive (phi i) then kmul (b_given d i c) (kmul (delta i) (kinv (ksqrt (phi i)))) else b_given d i c in
    flux_fits (mk_flux (b_e d) (b_w d) (b_comp d) (length (tr_dofs tr)) tr value) ->
    exists L, degenerate_bc ksqrt positive sp fn trace iel alpha = Ok L /\
      system_of (length (tr_dofs tr) * b_comp d) (fun _ _ => k0)
        (flux_load (mk_flux (b_e d) (b_w d) (b_comp d) (length (tr_dofs tr)) tr value)) (fun _ => k0) L.
  Proof.
    intros ksqrt positive sp fn trace iel alpha d phi delta tr (R1 & R2 & R3 & R4) D1 D2 HT Hl value HX.
    destruct (flux_ok _ (fun c i => do qc <- get_at (b_g d) c; Ok (if positive (phi i) then kmul (qc i) (kdiv (delta i) (ksqrt (phi i))) else qc i)) HX) as (r & E & S).
    { intros c i Hc Hi. unfold get_at. simpl in *. unfold value, b_given. destruct (nth_error (b_g d) c) as [g|] eqn:G; [|apply nth_error_None in G; lia].
      simpl. rewrite (nth_error_nth _ _ _ G). unfold kdiv. reflexivity. }
    unfold degenerate_bc, dindex. rewrite R1, R2, D1, D2. simpl bind. unfold get_at at 1. rewrite R3. simpl bind.
    unfold quadrature_of, get_at at 1. rewrite R4. simpl bind. rewrite HT. cbn [bind].
    match goal with |- context [flux_loop ?a ?b ?c ?d ?e ?f] => replace (flux_loop a b c d e f) with (Ok r) by (symmetry; exact E) end.
    cbn [bind]. eexists. split; [reflexivity|]. exact S.
  Qed.
End BcSystems2.
