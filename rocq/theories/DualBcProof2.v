(** * The boundary forms of the dual problems: the systems *)
From Coq Require Import String List ZArith Arith Bool Lia Ring Field.
From Verif Require Import Base BaseProof FormModel FormSpec FormProof FormProof2 AdModel AdModel2 AdSpec AdProof AdProof2 AdProof3 BcSpec BcProof BcProof2 BcProof3 DualModel DualBcModel DualBcSpec DualBcProof.
Import ListNotations.
Open Scope list_scope.
Open Scope nat_scope.

Section DualBc2.
  Context {F : scalar} (HF : is_ring F).
  Let HR : ring_theory (@k0 F) k1 kadd kmul ksub kopp eq := HF.
  Add Ring KringT : HR.

  Lemma component_ok : forall (d : bc_data F) c i, b_comp d <= length (b_g d) -> c < b_comp d -> component (b_g d) c i = Ok (b_given d i c).
  Proof.
    intros d c i H Hc. unfold component, get_at, b_given. destruct (nth_error (b_g d) c) as [g|] eqn:G; [|apply nth_error_None in G; lia].
    simpl. rewrite (nth_error_nth _ _ _ G). reflexivity.
  Qed.

  Theorem le_dual_bc_system : forall (sp : fe_space F) fn trace iel alpha d tr,
    bc_reads sp fn "s" "u" iel d -> trace iel = Ok tr -> b_comp d <= length (b_g d) -> flux_fits (flux_of d tr) ->
    exists L, le_dual_bc sp fn trace iel alpha = Ok L /\
      system_of (b_size d) (fun _ _ => k0) (fun y => kopp (flux_load (flux_of d tr) y)) alpha L.
  Proof.
    intros sp fn trace iel alpha d tr (R1 & R2 & R3 & R4) HT Hl HX.
    destruct (value_ok HF (flux_of d tr) 0 (component (b_g d)) (fun _ => k0) HX) as (r & E & _ & E2).
    { intros c i Hc Hi. apply component_ok; assumption. }
    unfold le_dual_bc, dindex. rewrite R1, R2. simpl bind. unfold get_at at 1. rewrite R3. simpl bind.
    unfold quadrature_of, get_at at 1. rewrite R4. simpl bind. rewrite HT. cbn [bind].
    match goal with |- context [value_loop ?a ?b ?c ?d ?e ?f ?g ?h] => replace (value_loop a b c d e f g h) with (Ok r) by (symmetry; exact E) end.
    cbn [bind]. eexists. split; [reflexivity|]. split; [reflexivity|]. split; [|reflexivity].
    intros a Ha. cbn [l_r]. pose proof (E2 a Ha) as G. simpl in G. rewrite G. ring.
  Qed.

  Lemma traces_same : forall ds dm (ts tm : trace_data F), same_facet ds dm ts tm -> first_trace ts tm = ts /\ second_trace ts tm = tm.
  Proof.
    intros ds dm [a b c d] [a' b' c' d'] (H1 & H2 & _). simpl in *. subst. split; reflexivity.
  Qed.
  Lemma facet_integral : forall ds dm (ts tm : trace_data F) f, same_facet ds dm ts tm ->
    integral (b_e (with_points ds dm)) (b_w ds) f = integral (b_e dm) (b_w dm) f.
  Proof.
    intros ds dm ts tm f (_ & _ & H3 & H4). unfold integral. rewrite H3. apply (Sum_ext HF). intros i Hi. simpl. rewrite H4 by exact Hi. reflexivity.
  Qed.

  Theorem lce_dual_bc_system : forall (sp : fe_space F) fn trace_s trace_m iel alpha ds dm ts tm,
    bc_reads sp fn "s" "u" iel ds -> bc_reads sp fn "m" "t" iel dm -> trace_s iel = Ok ts -> trace_m iel = Ok tm ->
    b_comp ds <= length (b_g ds) -> b_comp dm <= length (b_g dm) -> same_facet ds dm ts tm ->
    flux_fits (flux_of ds ts) -> flux_fits (flux_of dm tm) ->
    exists L, lce_dual_bc sp fn trace_s trace_m iel alpha = Ok L /\
      system_of (b_size ds + b_size dm) (fun _ _ => k0)
        (fun y => kadd (kopp (flux_load (flux_of ds ts) y)) (kopp (flux_load (flux_of dm tm) (after (b_size ds) y)))) alpha L.
  Proof.
    intros sp fn trace_s trace_m iel alpha ds dm ts tm (R1 & R2 & R3 & R4) (T1 & T2 & T3 & _) HS HM Hs Hm HC XS XM.
    destruct (traces_same _ _ _ _ HC) as (C1 & C2).
    unfold lce_dual_bc, dindex. rewrite R1, R2, T1, T2. simpl bind. unfold get_at at 1. rewrite R3. simpl bind.
    unfold get_at at 1. rewrite T3. simpl bind. unfold quadrature_of, get_at at 1. rewrite R4. simpl bind. rewrite HS, HM. cbn [bind].
    rewrite C1, C2.
    destruct (value_ok HF (flux_of ds ts) 0 (component (b_g ds)) (fun _ => k0) XS) as (r & E & E1 & E2).
    { intros c i Hc Hi. apply component_ok; assumption. }
    match goal with |- context [value_loop ?a ?b 0 ?d ?e ?f ?g ?h] => replace (value_loop a b 0 d e f g h) with (Ok r) by (symmetry; exact E) end.
    cbn [bind].
    destruct (value_ok HF (flux_of (with_points ds dm) tm) (b_size ds) (component (b_g dm)) r XM) as (r' & G & G1 & G2).
    { intros c i Hc Hi. apply (component_ok dm); assumption. }
    match goal with |- context [value_loop ?a ?b ?c ?d ?e ?f ?g ?h] => replace (value_loop a b c d e f g h) with (Ok r') by (symmetry; exact G) end.
    cbn [bind]. eexists. split; [reflexivity|].
    destruct (pair_system HF (b_size ds) (b_size dm) (fun _ _ => k0) (fun _ _ => k0)
      (fun y => kopp (flux_load (flux_of ds ts) y)) (fun y => kopp (flux_load (flux_of dm tm) y)) r' (fun _ _ => k0)) as (_ & S2 & _); try reflexivity.
    - apply zero_form_local.
    - apply zero_form_local.
    - exact (flux_load_local HF (flux_of ds ts)).
    - exact (flux_load_local HF (flux_of dm tm)).
    - intros a Ha. rewrite G1 by (left; exact Ha). pose proof (E2 a Ha) as H. simpl in H. rewrite H. ring.
    - intros a Ha. rewrite (G2 a Ha), E1 by (right; simpl; unfold b_size; lia).
      replace (flux_load (flux_of (with_points ds dm) tm) (unit_at a)) with (flux_load (flux_of dm tm) (unit_at a)); [ring|].
      symmetry. exact (facet_integral ds dm ts tm _ HC).
    - split; [reflexivity|]. split; [|intros; reflexivity]. intros a Ha. pose proof (S2 a Ha) as Q. simpl in Q |- *. rewrite Q. ring.
  Qed.

  Theorem lce_scaled_dual_bc_system : forall eps (sp : fe_space F) fn trace_s trace_m iel alpha ds dm ts tm l g,
    bc_reads sp fn "s" "u" iel ds -> bc_reads sp fn "m" "t" iel dm -> trace_s iel = Ok ts -> trace_m iel = Ok tm ->
    dget (scal_of fn) "l"%string = Some l -> dget (vec_of fn) "grad_l"%string = Some g ->
    b_comp ds <= length (b_g ds) -> b_comp dm <= length (b_g dm) -> same_facet ds dm ts tm ->
    flux_fits (flux_of ds ts) -> flux_fits (flux_of dm tm) ->
    exists L, lce_scaled_dual_bc eps sp fn trace_s trace_m iel alpha = Ok L /\
      system_of (b_size ds + b_size dm) (fun _ _ => k0)
        (fun y => kadd (kopp (flux_load (flux_of ds ts) y))
                       (kopp (flux_load (flux_times (fun i => kadd (l i) eps) dm tm) (after (b_size ds) y)))) alpha L.
  Proof.
    intros eps sp fn trace_s trace_m iel alpha ds dm ts tm l g (R1 & R2 & R3 & R4) (T1 & T2 & T3 & _) HS HM Hl Hg Hs Hm HC XS XM.
    destruct (traces_same _ _ _ _ HC) as (C1 & C2).
    unfold lce_scaled_dual_bc, dindex. rewrite R1, R2, T1, T2, Hl, Hg. simpl bind. unfold get_at at 1. rewrite R3. simpl bind.
    unfold get_at at 1. rewrite T3. simpl bind. unfold quadrature_of, get_at at 1. rewrite R4. simpl bind. rewrite HS, HM. cbn [bind].
    rewrite C1, C2.
    destruct (value_ok HF (flux_of ds ts) 0 (component (b_g ds)) (fun _ => k0) XS) as (r & E & E1 & E2).
    { intros c i Hc Hi. apply component_ok; assumption. }
    match goal with |- context [value_loop ?a ?b 0 ?d ?e ?f ?g ?h] => replace (value_loop a b 0 d e f g h) with (Ok r) by (symmetry; exact E) end.
    cbn [bind].
    destruct (value_ok HF (flux_times (fun i => kadd (l i) eps) (with_points ds dm) tm) (b_size ds)
      (fun c i => do v <- component (b_g dm) c i; Ok (kmul v (kadd (l i) eps))) r XM) as (r' & G & G1 & G2).
    { intros c i Hc Hi. rewrite (component_ok dm) by assumption. cbn [bind]. f_equal. simpl. change (b_given (with_points ds dm)) with (b_given dm). ring. }
    match goal with |- context [value_loop ?a ?b ?c ?d ?e ?f ?g ?h] => replace (value_loop a b c d e f g h) with (Ok r') by (symmetry; exact G) end.
    cbn [bind]. eexists. split; [reflexivity|].
    destruct (pair_system HF (b_size ds) (b_size dm) (fun _ _ => k0) (fun _ _ => k0)
      (fun y => kopp (flux_load (flux_of ds ts) y)) (fun y => kopp (flux_load (flux_times (fun i => kadd (l i) eps) dm tm) y)) r' (fun _ _ => k0)) as (_ & S2 & _); try reflexivity.
    - apply zero_form_local.
    - apply zero_form_local.
    - exact (flux_load_local HF (flux_of ds ts)).
    - exact (flux_load_local HF (flux_times (fun i => kadd (l i) eps) dm tm)).
    - intros a Ha. rewrite G1 by (left; exact Ha). pose proof (E2 a Ha) as H. simpl in H. rewrite H. ring.
    - intros a Ha. rewrite (G2 a Ha), E1 by (right; simpl; unfold b_size; lia).
      replace (flux_load (flux_times (fun i => kadd (l i) eps) (with_points ds dm) tm) (unit_at a)) with (flux_load (flux_times (fun i => kadd (l i) eps) dm tm) (unit_at a)); [ring|].
      symmetry. exact (facet_integral ds dm ts tm _ HC).
    - split; [reflexivity|]. split; [|intros; reflexivity]. intros a Ha. pose proof (S2 a Ha) as Q. simpl in Q |- *. rewrite Q. ring.
  Qed.

  Theorem lce_dual_bc_neumann_system : forall beta (sp : fe_space F) fn trace_s trace_m iel alpha ds dm ts tm,
    bc_reads sp fn "s" "s" iel ds -> bc_reads sp fn "m" "m" iel dm -> trace_s iel = Ok ts -> trace_m iel = Ok tm ->
    b_comp ds <= length (b_g ds) -> b_comp dm <= length (b_g dm) -> same_facet ds dm ts tm ->
    flux_fits (flux_of ds ts) -> flux_fits (flux_of dm tm) ->
    exists L, lce_dual_bc_neumann beta sp fn trace_s trace_m iel alpha = Ok L /\
      system_of (b_size ds + b_size dm)
        (fun x y => kadd (traction_form beta (flux_of ds ts) x y) (traction_form beta (flux_of dm tm) (after (b_size ds) x) (after (b_size ds) y)))
        (fun y => kadd (traction_load beta (flux_of ds ts) y) (traction_load beta (flux_of dm tm) (after (b_size ds) y))) (fun _ => k0) L.
  Proof.
    intros beta sp fn trace_s trace_m iel alpha ds dm ts tm (R1 & R2 & R3 & R4) (T1 & T2 & T3 & _) HS HM Hs Hm HC XS XM.
    destruct (traces_same _ _ _ _ HC) as (C1 & C2).
    unfold lce_dual_bc_neumann, dindex. rewrite R1, R2, T1, T2. simpl bind. unfold get_at at 1. rewrite R3. simpl bind.
    unfold get_at at 1. rewrite T3. simpl bind. unfold quadrature_of, get_at at 1. rewrite R4. simpl bind. rewrite HS, HM. cbn [bind].
    rewrite C1, C2.
    destruct (traction_ok HF beta (flux_of ds ts) 0 (component (b_g ds)) ((fun _ => k0), (fun _ _ => k0)) XS) as (r & E & E1 & E2 & E3 & E4).
    { intros c i Hc Hi. apply component_ok; assumption. }
    match goal with |- context [traction_loop ?y ?a ?b 0 ?d ?e ?f ?g ?h] => replace (traction_loop y a b 0 d e f g h) with (Ok r) by (symmetry; exact E) end.
    cbn [bind].
    destruct (traction_ok HF beta (flux_of (with_points ds dm) tm) (b_size ds) (component (b_g dm)) r XM) as (r' & G & G1 & G2 & G3 & G4).
    { intros c i Hc Hi. apply (component_ok dm); assumption. }
    match goal with |- context [traction_loop ?y ?a ?b ?c ?d ?e ?f ?g ?h] => replace (traction_loop y a b c d e f g h) with (Ok r') by (symmetry; exact G) end.
    cbn [bind]. eexists. split; [reflexivity|].
    apply (pair_system HF (b_size ds) (b_size dm)).
    - exact (traction_form_local HF beta (flux_of ds ts)).
    - exact (traction_form_local HF beta (flux_of dm tm)).
    - exact (traction_load_local HF beta (flux_of ds ts)).
    - exact (traction_load_local HF beta (flux_of dm tm)).
    - intros a Ha. rewrite G1 by (left; exact Ha). pose proof (E3 a Ha) as H. simpl in H. rewrite H. ring.
    - intros a Ha. rewrite (G3 a Ha), E1 by (right; simpl; unfold b_size; lia). simpl fst.
      replace (traction_load beta (flux_of (with_points ds dm) tm) (unit_at a)) with (traction_load beta (flux_of dm tm) (unit_at a)); [ring|].
      unfold traction_load. do 2 f_equal. symmetry. exact (facet_integral ds dm ts tm _ HC).
    - intros a b Ha Hb. rewrite G2 by (left; exact Ha). pose proof (E4 a b Ha Hb) as H. simpl in H. rewrite H. ring.
    - intros a b Ha Hb. rewrite (G4 a b Ha Hb), E2 by (right; left; simpl; unfold b_size; lia). simpl snd.
      replace (traction_form beta (flux_of (with_points ds dm) tm) (unit_at b) (unit_at a)) with (traction_form beta (flux_of dm tm) (unit_at b) (unit_at a)); [ring|].
      unfold traction_form. f_equal. symmetry. exact (facet_integral ds dm ts tm _ HC).
    - intros a b Ha Hb. rewrite G2 by (left; exact Ha). rewrite E2 by (right; right; right; simpl; unfold b_size; lia). reflexivity.
    - intros a b Ha Hb. rewrite G2 by (right; right; left; exact Hb). rewrite E2 by (right; left; simpl; unfold b_size; lia). reflexivity.
  Qed.

  (** ** Forms that cannot be evaluated *)
  Lemma bind_never : forall {A B} (r : res A) (k : A -> res B) v, (forall a, k a <> Ok v) -> bind r k <> Ok v.
  Proof. intros A B [a|e] k v H; simpl; [apply H|discriminate]. Qed.

  Theorem old_neumann_never : forall names (sp : fe_space F) fn iel alpha L, old_bc_neumann names sp fn iel alpha <> Ok L.
  Proof. intros. unfold old_bc_neumann. do 3 (apply bind_never; intros ?). discriminate. Qed.

  Theorem laplace_primal_never : forall rest (space : option (fe_space F)) fn iel alpha L,
    (forall sp, space = Some sp -> length (fs_quadrature sp) = 4) -> laplace_primal rest space fn iel alpha <> Ok L.
  Proof.
    intros rest [sp|] [fn|] iel alpha L H; try discriminate. unfold laplace_primal. do 4 (apply bind_never; intros ?).
    rewrite (H sp eq_refl). discriminate.
  Qed.
  Theorem laplace_primal_bc_never : forall rest (sp : fe_space F) fn iel alpha L,
    length (fs_quadrature sp) = 4 -> laplace_primal_bc rest sp fn iel alpha <> Ok L.
  Proof.
    intros rest sp fn iel alpha L H. unfold laplace_primal_bc. do 3 (apply bind_never; intros ?). rewrite H. discriminate.
  Qed.
  Theorem le_ad_never : forall needs_rhs rest (space : option (fe_space F)) fn iel alpha L,
    (forall sp, space = Some sp -> length (fs_quadrature sp) = 4) -> le_ad_form needs_rhs rest space fn iel alpha <> Ok L.
  Proof.
    intros needs rest [sp|] [fn|] iel alpha L H; try discriminate. unfold le_ad_form. do 9 (apply bind_never; intros ?).
    rewrite (H sp eq_refl). discriminate.
  Qed.
End DualBc2.

(** the lists ProductSpace builds have four entries *)
From Verif Require Import SpaceModel SpaceProof.
Theorem quadrature_lists_four : forall fields q b, define_quadrature fields = Ok (q, b) -> length q = 4 /\ length b = 4.
Proof.
  assert (S4 : forall {A} (l : list A) i v l', set4 l i v = Ok l' -> length l' = length l).
  { intros A l i v l'. unfold set4. intros E. repeat match type of E with context [if ?c then _ else _] => destruct c end; try discriminate;
    injection E as <-; apply length_set_at. }
  assert (FL : forall order ds (q q' : list (option quadrature)), foldM (fun q d => do r <- quadrature_for d order; set4 q d (Some r)) ds q = Ok q' -> length q' = length q).
  { intros order ds. induction ds as [|d ds IH]; intros q q' E; simpl in E; [injection E as <-; reflexivity|].
    destruct (quadrature_for d order); [|discriminate]. simpl in E. destruct (set4 q d (Some q0)) eqn:E'; [|discriminate]. simpl in E.
    rewrite (IH _ _ E). apply (S4 _ _ _ _ _ E'). }
  intros fields q b E. unfold define_quadrature in E.
  repeat (match type of E with bind ?r _ = _ => destruct r eqn:?; [|discriminate]; cbn [bind] in E end).
  injection E as <- <-. repeat match goal with H : foldM _ _ _ = Ok _ |- _ => apply FL in H end. split; assumption.
Qed.
