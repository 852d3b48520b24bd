(** * Boundary forms: systems *)
From Coq Require Import String List Arith Bool Lia Ring Field.
From Verif Require Import Base BaseProof FormModel FormSpec FormProof FormProof2 AdModel AdModel2 AdSpec AdProof AdProof2 AdProof3 BcSpec BcProof.
Import ListNotations.
Open Scope list_scope.

Section BcSystems.
  Context {F : scalar} (HF : is_ring F).
  Let HR : ring_theory (@k0 F) k1 kadd kmul ksub kopp eq := HF.
  Add Ring KringG : HR.

  Lemma grid_index : forall n m a, a < n * m -> a / m < n /\ a mod m < m /\ a = a / m * m + a mod m.
  Proof.
    intros n m a H. assert (m <> 0) by nia. split; [apply Nat.div_lt_upper_bound; lia|]. split; [apply Nat.mod_upper_bound; assumption|].
    rewrite (Nat.div_mod a m) at 1 by assumption. lia.
  Qed.
  Lemma grid_inj : forall m k c l c', c < m -> c' < m -> l * m + c' = k * m + c -> l = k /\ c' = c.
  Proof. intros m k c l c' H H' E. assert (l = k) by nia. subst. split; [reflexivity|lia]. Qed.
  Lemma grid_lt : forall n m k c, k < n -> c < m -> k * m + c < n * m.
  Proof. intros. nia. Qed.

  (** selecting with the coefficients of one function *)
  Lemma grid_unit : forall n m k c c' (f : nat -> F), k < n -> c < m -> c' < m ->
    Sum n (fun l => kmul (unit_at (k * m + c) (l * m + c')) (f l)) = kmul (if c =? c' then k1 else k0) (f k).
  Proof.
    intros n m k c c' f Hk Hc Hc'. rewrite (Sum_ksum HF). destruct (Nat.eqb_spec c c') as [<-|N].
    - rewrite (ksum_single HF _ k); [|exact Hk|].
      + rewrite unit_same. ring.
      + intros l Hl Hn. rewrite unit_other; [ring|]. intros E. apply grid_inj in E; [|assumption|assumption]. destruct E; congruence.
    - rewrite (ksum_zero HF); [ring|]. intros l Hl. rewrite unit_other; [ring|].
      intros E. apply grid_inj in E; [|assumption|assumption]. destruct E; congruence.
  Qed.
  Lemma sum_pick : forall m c (f : nat -> F), c < m -> Sum m (fun c' => kmul (if c =? c' then k1 else k0) (f c')) = f c.
  Proof.
    intros m c f H. rewrite (Sum_ksum HF), (ksum_single HF m c); [|exact H|].
    - rewrite Nat.eqb_refl. ring.
    - intros j Hj Hn. replace (c =? j) with false by (symmetry; apply Nat.eqb_neq; congruence). ring.
  Qed.

  Lemma grid_system : forall n m (B : (nat -> F) -> (nat -> F) -> F) l (r : nat -> F) (j : nat -> nat -> F),
    (forall k c, k < n -> c < m -> r (k * m + c) = l (unit_at (k * m + c))) ->
    (forall k c k' c', k < n -> c < m -> k' < n -> c' < m ->
       j (k * m + c) (k' * m + c') = B (unit_at (k' * m + c')) (unit_at (k * m + c))) ->
    (forall y, B (fun _ => k0) y = k0) ->
    system_of (n * m) B l (fun _ => k0) (mk_local (n * m) r j).
  Proof.
    intros n m B l r j Hr Hj Hz. split; [reflexivity|]. split.
    - intros a Ha. destruct (grid_index n m a Ha) as (A1 & A2 & A3). simpl. rewrite Hz, A3, Hr by assumption. ring.
    - intros a b Ha Hb. destruct (grid_index n m a Ha) as (A1 & A2 & A3). destruct (grid_index n m b Hb) as (B1 & B2 & B3).
      simpl. rewrite A3, B3. apply Hj; assumption.
  Qed.

  Lemma b_val_unit : forall d k c i c', k < b_phi d -> c < b_comp d -> c' < b_comp d ->
    b_val d (unit_at (k * b_comp d + c)) i c' = kmul (if c =? c' then k1 else k0) (t_val (e_tab (@b_e F d)) 0 i k 0).
  Proof. intros. unfold b_val. rewrite (grid_unit (b_phi d) (b_comp d) k c c') by assumption. reflexivity. Qed.
  Lemma b_val_zero : forall d i c, b_val d (fun _ => @k0 F) i c = k0.
  Proof. intros. unfold b_val. rewrite (Sum_ksum HF). apply (ksum_zero HF). intros. ring. Qed.

  Lemma integral_mul : forall e w c (f : nat -> F), integral e w (fun i => kmul c (f i)) = kmul c (integral e w f).
  Proof. intros. unfold integral. rewrite !(Sum_ksum HF). rewrite <- (ksum_mul_l HF). apply ksum_ext. intros. ring. Qed.
  Lemma integral_zero : forall e w (f : nat -> F), (forall i, i < length w -> f i = k0) -> integral e w f = k0.
  Proof. intros. unfold integral. rewrite (Sum_ksum HF). apply (ksum_zero HF). intros. rewrite H by assumption. ring. Qed.

  Lemma penalty_ok : forall beta (d : bc_data F) base rj, b_comp d <= length (b_g d) ->
    exists rj', penalty_loop beta (b_e d) (b_w d) (e_tab (b_e d)) base (b_comp d) (b_g d) rj = Ok rj' /\
      (forall a, a < base \/ base + b_size d <= a -> fst rj' a = fst rj a) /\
      (forall a a', a < base \/ base + b_size d <= a \/ a' < base \/ base + b_size d <= a' -> snd rj' a a' = snd rj a a') /\
      (forall k c, k < b_phi d -> c < b_comp d ->
         fst rj' (base + (k * b_comp d + c)) = kadd (fst rj (base + (k * b_comp d + c))) (dirichlet_load beta d (unit_at (k * b_comp d + c)))) /\
      (forall k c l c', k < b_phi d -> c < b_comp d -> l < b_phi d -> c' < b_comp d ->
         snd rj' (base + (k * b_comp d + c)) (base + (l * b_comp d + c')) =
         kadd (snd rj (base + (k * b_comp d + c)) (base + (l * b_comp d + c')))
              (dirichlet_form beta d (unit_at (l * b_comp d + c')) (unit_at (k * b_comp d + c)))).
  Proof.
    intros beta d base rj Hl. unfold penalty_loop.
    destruct (comp_loop (b_phi d) (b_comp d) base
      (fun rj c => do blk <- foldM (fun res i => do uc <- get_at (b_g d) c;
          Ok (fun k => ksub (res k) (kmul (kmul (kmul (kmul beta (e_det (b_e d) i)) (weight (b_w d) i)) (uc i)) (t_val (e_tab (b_e d)) 0 i k 0))))
          (seq 0 (length (b_w d))) (fun _ => k0);
        Ok (add_slice (c + base) (c + base + b_phi d * b_comp d) (b_comp d) blk (fst rj),
            add_block (c + base) (c + base + b_phi d * b_comp d) (b_comp d) (c + base) (c + base + b_phi d * b_comp d) (b_comp d)
              (penalty_block beta (b_e d) (b_w d) (e_tab (b_e d))) (snd rj)))
      (fun c k => kopp (ksum (length (b_w d)) (fun i => kmul (kmul (kmul (kmul beta (e_det (b_e d) i)) (weight (b_w d) i)) (b_given d i c)) (t_val (e_tab (b_e d)) 0 i k 0))))
      (fun c k l => penalty_block beta (b_e d) (b_w d) (e_tab (b_e d)) k l) rj) as (rj' & R1 & R2 & R3 & R4 & R5).
    - intros s c Hc.
      destruct (vec_points HF (length (b_w d)) (fun i => do uc <- get_at (b_g d) c; Ok (uc i))
        (fun t i k => kmul (kmul (kmul (kmul beta (e_det (b_e d) i)) (weight (b_w d) i)) t) (t_val (e_tab (b_e d)) 0 i k 0))
        (fun i => b_given d i c) true) as (b & B1 & B2).
      { intros i Hi. unfold get_at, b_given. destruct (nth_error (b_g d) c) as [g|] eqn:E; [|apply nth_error_None in E; lia].
        simpl. rewrite (nth_error_nth _ _ _ E). reflexivity. }
      exists b, (penalty_block beta (b_e d) (b_w d) (e_tab (b_e d))). split.
      + rewrite (foldM_ext _ (fun b0 i => do t <- (do uc <- get_at (b_g d) c; Ok (uc i));
           Ok (fun k => ksub (b0 k) (kmul (kmul (kmul (kmul beta (e_det (b_e d) i)) (weight (b_w d) i)) t) (t_val (e_tab (b_e d)) 0 i k 0))))).
        2:{ intros b0 i. destruct (get_at (b_g d) c); reflexivity. }
        rewrite B1. reflexivity.
      + split; [intros; apply B2|reflexivity].
    - exists rj'. split; [exact R1|]. split; [exact R2|]. split; [exact R3|]. split.
      + intros k c Hk Hc. rewrite R4 by assumption. f_equal. unfold dirichlet_load. f_equal.
        unfold integral. rewrite (Sum_ksum HF), <- (ksum_mul_l HF). apply ksum_ext. intros i Hi.
        rewrite (Sum_ext HF (b_comp d) _ (fun c' => kmul (if c =? c' then k1 else k0) (kmul (t_val (e_tab (b_e d)) 0 i k 0) (b_given d i c')))).
        * rewrite (sum_pick (b_comp d) c (fun c' => kmul (t_val (e_tab (b_e d)) 0 i k 0) (b_given d i c'))) by exact Hc. unfold weight. ring.
        * intros c' Hc'. rewrite b_val_unit by assumption. ring.
      + intros k c l c' Hk Hc Hl' Hc'. rewrite R5 by assumption.
        assert (E : dirichlet_form beta d (unit_at (l * b_comp d + c')) (unit_at (k * b_comp d + c)) =
                    if c =? c' then penalty_block beta (b_e d) (b_w d) (e_tab (b_e d)) k l else k0).
        { unfold dirichlet_form.
          rewrite (integral_ext HF _ _ _ (fun i => kmul (if c' =? c then k1 else k0) (kmul (t_val (e_tab (b_e d)) 0 i k 0) (t_val (e_tab (b_e d)) 0 i l 0)))).
          - rewrite integral_mul, (Nat.eqb_sym c' c). destruct (c =? c'); [|ring]. unfold penalty_block, integral.
            rewrite (Sum_ksum HF). transitivity (kmul beta (ksum (length (b_w d)) (fun i => kmul (kmul (nth i (b_w d) k0) (e_det (b_e d) i)) (kmul (t_val (e_tab (b_e d)) 0 i k 0) (t_val (e_tab (b_e d)) 0 i l 0))))); [ring|].
            rewrite <- (ksum_mul_l HF). apply ksum_ext. intros. unfold weight. ring.
          - intros i Hi. rewrite (Sum_ext HF (b_comp d) _ (fun c0 => kmul (if c' =? c0 then k1 else k0) (kmul (if c =? c0 then k1 else k0) (kmul (t_val (e_tab (b_e d)) 0 i k 0) (t_val (e_tab (b_e d)) 0 i l 0))))).
            + rewrite (sum_pick (b_comp d) c' (fun c0 => kmul (if c =? c0 then k1 else k0) (kmul (t_val (e_tab (b_e d)) 0 i k 0) (t_val (e_tab (b_e d)) 0 i l 0)))) by exact Hc'.
              rewrite (Nat.eqb_sym c c'). reflexivity.
            + intros c0 Hc0. rewrite !b_val_unit by assumption. ring. }
        rewrite E. destruct (c =? c'); [reflexivity|ring].
  Qed.

  Lemma dirichlet_zero : forall beta (d : bc_data F) y, dirichlet_form beta d (fun _ => k0) y = k0.
  Proof.
    intros. unfold dirichlet_form. rewrite integral_zero; [ring|]. intros. rewrite (Sum_ksum HF). apply (ksum_zero HF). intros.
    rewrite b_val_zero. ring.
  Qed.

  Theorem dirichlet_system : forall beta (sp : fe_space F) fn iel alpha d,
    bc_reads sp fn "u" "u" iel d -> b_comp d <= length (b_g d) ->
    exists L, le_bc_dirichlet beta sp fn iel alpha = Ok L /\
      system_of (b_size d) (dirichlet_form beta d) (dirichlet_load beta d) (fun _ => k0) L.
  Proof.
    intros beta sp fn iel alpha d (R1 & R2 & R3 & R4) Hl.
    unfold le_bc_dirichlet, dindex. rewrite R1, R2. simpl bind. unfold get_at at 1. rewrite R3. simpl bind.
    unfold quadrature_of, get_at at 1. rewrite R4. simpl bind.
    destruct (penalty_ok beta d 0 ((fun _ => k0), (fun _ _ => k0)) Hl) as (rj & P1 & _ & _ & P4 & P5).
    match goal with |- context [penalty_loop ?a ?b ?c ?d ?e ?f ?g ?z] => replace (penalty_loop a b c d e f g z) with (Ok rj) by (symmetry; exact P1) end. cbn [bind]. eexists. split; [reflexivity|].
    apply (grid_system (b_phi d) (b_comp d)).
    - intros k c Hk Hc. pose proof (P4 k c Hk Hc) as E. simpl in E. rewrite E. ring.
    - intros k c l c' Hk Hc Hl' Hc'. pose proof (P5 k c l c' Hk Hc Hl' Hc') as E. simpl in E. rewrite E. ring.
    - intros. apply dirichlet_zero.
  Qed.

  Theorem neumann_system : forall (sp : fe_space F) fn iel alpha d,
    bc_reads sp fn "u" "t" iel d -> b_comp d <= length (b_g d) ->
    exists L, le_bc_neumann sp fn iel alpha = Ok L /\
      system_of (b_size d) (fun _ _ => k0) (neumann_load d) alpha L.
  Proof.
    intros sp fn iel alpha d (R1 & R2 & R3 & R4) Hl.
    unfold le_bc_neumann, dindex. rewrite R1, R2. simpl bind. unfold get_at at 1. rewrite R3. simpl bind.
    unfold quadrature_of, get_at at 1. rewrite R4. simpl bind.
    match goal with |- context [foldM ?st0 (seq 0 (fe_comp (b_u d))) ?z] =>
    destruct (comp_loop (b_phi d) (b_comp d) 0 st0
      (fun c k => ksum (length (b_w d)) (fun i => kmul (kmul (kmul (e_det (b_e d) i) (weight (b_w d) i)) (b_given d i c)) (t_val (e_tab (b_e d)) 0 i k 0)))
      (fun c k l => k0) z) as (rj & P1 & _ & _ & P4 & P5) end.
    { intros s c Hc. rewrite !Nat.add_0_r.
      destruct (vec_points HF (length (b_w d)) (fun i => do uc <- get_at (b_g d) c; Ok (uc i))
        (fun t i k => kmul (kmul (kmul (e_det (b_e d) i) (weight (b_w d) i)) t) (t_val (e_tab (b_e d)) 0 i k 0))
        (fun i => b_given d i c) false) as (b & B1 & B2).
      { intros i Hi. unfold get_at, b_given. destruct (nth_error (b_g d) c) as [g|] eqn:E; [|apply nth_error_None in E; lia].
        simpl. rewrite (nth_error_nth _ _ _ E). reflexivity. }
      exists b, (fun _ _ => k0). split.
      - rewrite (foldM_ext _ (fun b0 i => do t <- (do uc <- get_at (b_g d) c; Ok (uc i));
           Ok (fun k => kadd (b0 k) (kmul (kmul (kmul (e_det (b_e d) i) (weight (b_w d) i)) t) (t_val (e_tab (b_e d)) 0 i k 0))))).
        2:{ intros b0 i. destruct (get_at (b_g d) c); reflexivity. }
        rewrite B1. reflexivity.
      - split; [intros; apply B2|reflexivity]. }
    match goal with |- context [foldM ?f (seq 0 (fe_comp (b_u d))) ?z] => replace (foldM f (seq 0 (fe_comp (b_u d))) z) with (@Ok st rj) by (symmetry; exact P1) end. cbn [bind]. eexists. split; [reflexivity|].
    assert (G : system_of (b_phi d * b_comp d) (fun _ _ => k0) (neumann_load d) (fun _ => k0) (mk_local (b_phi d * b_comp d) (fst rj) (snd rj))).
    { apply (grid_system (b_phi d) (b_comp d)); [| |reflexivity].
      - intros k c Hk Hc. pose proof (P4 k c Hk Hc) as E. simpl in E. rewrite E. unfold neumann_load, integral.
        rewrite (Sum_ksum HF). transitivity (ksum (length (b_w d)) (fun i => kmul (kmul (kmul (e_det (b_e d) i) (weight (b_w d) i)) (b_given d i c)) (t_val (e_tab (b_e d)) 0 i k 0))); [ring|].
        apply ksum_ext. intros i Hi.
        rewrite (Sum_ext HF (b_comp d) _ (fun c' => kmul (if c =? c' then k1 else k0) (kmul (t_val (e_tab (b_e d)) 0 i k 0) (b_given d i c')))).
        + rewrite (sum_pick (b_comp d) c (fun c' => kmul (t_val (e_tab (b_e d)) 0 i k 0) (b_given d i c'))) by exact Hc. unfold weight. ring.
        + intros c' Hc'. rewrite b_val_unit by assumption. ring.
      - intros k c l c' Hk Hc Hl' Hc'. pose proof (P5 k c l c' Hk Hc Hl' Hc') as E. simpl in E. rewrite E. destruct (c =? c'); [ring|reflexivity]. }
    exact G.
  Qed.

  (** ** Normal displacement *)
  Lemma normal_ok : forall beta (sp : fe_space F) fn normal iel alpha d n,
    bc_reads sp fn "u" "u" iel d -> normal iel = Ok n ->
    b_comp d = e_dim (b_e d) + 1 -> b_comp d = length (b_g d) -> b_comp d <= length n ->
    exists L, le_bc_normal beta sp fn normal iel alpha = Ok L /\
      system_of (b_size d) (diagonal_form beta n d) (normal_load beta n d) (fun _ => k0) L.
  Proof.
    intros beta sp fn normal iel alpha d n (R1 & R2 & R3 & R4) Hn Hm Hg Hle.
    unfold le_bc_normal, dindex. rewrite R1, R2. simpl bind. unfold get_at at 1. rewrite R3. simpl bind.
    unfold quadrature_of, get_at at 1. rewrite R4. simpl bind. rewrite Hn. simpl bind.
    set (nn := firstn (e_dim (b_e d) + 1) n).
    assert (LN : length nn = b_comp d) by (unfold nn; rewrite firstn_length, <- Hm; lia).
    assert (NN : forall c, c < b_comp d -> nth c nn k0 = nth c n k0).
    { intros c Hc. unfold nn. rewrite <- Hm. clear - Hc Hle. revert n Hle c Hc. induction (b_comp d) as [|m IH]; intros [|a n] Hle [|c] Hc; simpl in *; try lia; try reflexivity.
      apply IH; lia. }
    assert (GN : forall c, c < b_comp d -> get_at n c = Ok (nth c n k0)).
    { intros c Hc. unfold get_at. destruct (nth_error n c) eqn:E; [|apply nth_error_None in E; lia]. rewrite (nth_error_nth _ _ _ E). reflexivity. }
    set (un i := ksum (length nn) (fun dd => kmul (nth dd (b_g d) (fun _ => k0) i) (nth dd nn k0))).
    assert (UN : forall i, un i = along n (b_comp d) (b_given d i)).
    { intros i. unfold un, along, b_given. rewrite LN, (Sum_ksum HF). apply ksum_ext. intros c Hc. rewrite NN by exact Hc. reflexivity. }
    match goal with |- context [foldM ?st0 (seq 0 (fe_comp (b_u d))) ?z] =>
    destruct (comp_loop (b_phi d) (b_comp d) 0 st0
      (fun c k => kopp (ksum (length (b_w d)) (fun i => kmul (kmul (kmul (kmul beta (e_det (b_e d) i)) (weight (b_w d) i)) (un i)) (kmul (t_val (e_tab (b_e d)) 0 i k 0) (nth c n k0)))))
      (fun c k l => ksum (length (b_w d)) (fun i => kmul (kmul (kmul beta (e_det (b_e d) i)) (weight (b_w d) i))
           (kmul (kmul (t_val (e_tab (b_e d)) 0 i k 0) (nth c n k0)) (kmul (t_val (e_tab (b_e d)) 0 i l 0) (nth c n k0))))) z) as (rj & P1 & _ & _ & P4 & P5) end.
    { intros s c Hc. rewrite !Nat.add_0_r.
      destruct (mat_points (length (b_w d)) (fun i => get_at n c)
        (fun t i k l => kmul (kmul (kmul beta (e_det (b_e d) i)) (weight (b_w d) i)) (kmul (kmul (t_val (e_tab (b_e d)) 0 i k 0) t) (kmul (t_val (e_tab (b_e d)) 0 i l 0) t)))
        (fun i => nth c n k0)) as (jb & J1 & J2); [intros; apply GN; exact Hc|].
      destruct (vec_points HF (length (b_w d)) (fun i => get_at n c)
        (fun t i k => kmul (kmul (kmul (kmul beta (e_det (b_e d) i)) (weight (b_w d) i)) (un i)) (kmul (t_val (e_tab (b_e d)) 0 i k 0) t))
        (fun i => nth c n k0) true) as (b & B1 & B2); [intros; apply GN; exact Hc|].
      exists b, jb. split.
      - rewrite J1. cbn [bind].
        match goal with |- context [foldM ?g (seq 0 (length (b_w d))) (fun _ => k0)] =>
          rewrite (foldM_ext g (fun b0 i => do t <- get_at n c; Ok (fun k => ksub (b0 k) (kmul (kmul (kmul (kmul beta (e_det (b_e d) i)) (weight (b_w d) i)) (un i)) (kmul (t_val (e_tab (b_e d)) 0 i k 0) t))))) end.
        + rewrite B1. reflexivity.
        + intros b0 i. destruct (get_at n c); [|reflexivity]. simpl. rewrite <- Hg, LN, Nat.eqb_refl. simpl. rewrite <- LN. reflexivity.
      - split; [intros; apply B2|intros; apply J2]. }
    match goal with |- context [foldM ?f (seq 0 (fe_comp (b_u d))) ?z] => replace (foldM f (seq 0 (fe_comp (b_u d))) z) with (@Ok st rj) by (symmetry; exact P1) end. cbn [bind]. eexists. split; [reflexivity|].
    apply (grid_system (b_phi d) (b_comp d)).
    - intros k c Hk Hc. pose proof (P4 k c Hk Hc) as E. simpl in E. rewrite E. unfold normal_load, integral. rewrite (Sum_ksum HF).
      match goal with |- kadd k0 (kopp ?u) = kopp ?v => assert (X : u = v); [|rewrite X; ring] end.
      rewrite <- (ksum_mul_l HF). apply ksum_ext. intros i Hi. rewrite UN.
      assert (A : along n (b_comp d) (b_val d (unit_at (k * b_comp d + c)) i) = kmul (t_val (e_tab (b_e d)) 0 i k 0) (nth c n k0)).
      { unfold along. rewrite (Sum_ext HF (b_comp d) _ (fun c' => kmul (if c =? c' then k1 else k0) (kmul (t_val (e_tab (b_e d)) 0 i k 0) (nth c' n k0)))).
        - apply (sum_pick (b_comp d) c (fun c' => kmul (t_val (e_tab (b_e d)) 0 i k 0) (nth c' n k0))). exact Hc.
        - intros c' Hc'. rewrite b_val_unit by assumption. ring. }
      rewrite A. unfold weight. ring.
    - intros k c l c' Hk Hc Hl' Hc'. pose proof (P5 k c l c' Hk Hc Hl' Hc') as E. simpl in E. rewrite E. unfold diagonal_form.
      rewrite (integral_ext HF _ _ _ (fun i => kmul (if c' =? c then k1 else k0) (kmul (kmul (nth c n k0) (nth c n k0)) (kmul (t_val (e_tab (b_e d)) 0 i k 0) (t_val (e_tab (b_e d)) 0 i l 0))))).
      + rewrite integral_mul, (Nat.eqb_sym c' c). destruct (c =? c'); [|ring]. unfold integral.
        rewrite (Sum_ksum HF).
        match goal with |- kadd k0 ?u = kmul beta (kmul k1 ?v) => assert (X : u = kmul beta v); [|rewrite X; ring] end.
        rewrite <- (ksum_mul_l HF). apply ksum_ext. intros. unfold weight. ring.
      + intros i Hi. rewrite (Sum_ext HF (b_comp d) _ (fun c0 => kmul (if c' =? c0 then k1 else k0) (kmul (if c =? c0 then k1 else k0) (kmul (kmul (nth c0 n k0) (nth c0 n k0)) (kmul (t_val (e_tab (b_e d)) 0 i k 0) (t_val (e_tab (b_e d)) 0 i l 0)))))).
        * rewrite (sum_pick (b_comp d) c' (fun c0 => kmul (if c =? c0 then k1 else k0) (kmul (kmul (nth c0 n k0) (nth c0 n k0)) (kmul (t_val (e_tab (b_e d)) 0 i k 0) (t_val (e_tab (b_e d)) 0 i l 0))))) by exact Hc'.
          rewrite (Nat.eqb_sym c c'). destruct (Nat.eqb_spec c' c) as [->|]; [reflexivity|ring].
        * intros c0 Hc0. rewrite !b_val_unit by assumption. ring.
    - intros y. unfold diagonal_form. rewrite integral_zero; [ring|]. intros. rewrite (Sum_ksum HF). apply (ksum_zero HF). intros. rewrite b_val_zero. ring.
  Qed.

  (** the two forms agree for a normal along an axis *)
  Lemma diagonal_is_normal : forall beta n (d : bc_data F) x y, axis_aligned n (b_comp d) ->
    diagonal_form beta n d x y = normal_form beta n d x y.
  Proof.
    intros beta n d x y H. unfold diagonal_form, normal_form. f_equal. apply (integral_ext HF). intros i Hi.
    unfold along. rewrite !(Sum_ksum HF). rewrite <- (ksum_mul_r HF). apply ksum_ext. intros c Hc.
    rewrite <- (ksum_mul_l HF). symmetry. rewrite (ksum_single HF (b_comp d) c); [|exact Hc|].
    - ring.
    - intros c' Hc' Hn. transitivity (kmul (kmul (nth c n k0) (nth c' n k0)) (kmul (b_val d x i c) (b_val d y i c'))); [ring|].
      rewrite H by (try assumption; congruence). ring.
  Qed.
  Lemma normal_form_zero : forall beta n (d : bc_data F) y, normal_form beta n d (fun _ => k0) y = k0.
  Proof.
    intros. unfold normal_form. rewrite integral_zero; [ring|]. intros. unfold along at 1. rewrite (Sum_ksum HF), (ksum_zero HF); [ring|]. intros. rewrite b_val_zero. ring.
  Qed.
  Theorem normal_axis : forall beta (sp : fe_space F) fn normal iel alpha d n,
    bc_reads sp fn "u" "u" iel d -> normal iel = Ok n ->
    b_comp d = e_dim (b_e d) + 1 -> b_comp d = length (b_g d) -> b_comp d <= length n -> axis_aligned n (b_comp d) ->
    exists L, le_bc_normal beta sp fn normal iel alpha = Ok L /\
      system_of (b_size d) (normal_form beta n d) (normal_load beta n d) (fun _ => k0) L.
  Proof.
    intros beta sp fn normal iel alpha d n R1 R2 R3 R4 R5 HA.
    destruct (normal_ok beta sp fn normal iel alpha d n R1 R2 R3 R4 R5) as (L & L1 & N & R & J). exists L. split; [exact L1|].
    split; [exact N|]. split.
    - intros a Ha. rewrite R, (diagonal_is_normal beta n d) by assumption. reflexivity.
    - intros a b Ha Hb. rewrite J, (diagonal_is_normal beta n d) by assumption. reflexivity.
  Qed.
End BcSystems.
