(** * Vocabulary for the statements about the dual forms of elasticity and their Riesz maps *)
From Coq Require Import String List Arith Bool.
From Verif Require Import Base FormModel FormSpec AdModel AdModel2 AdSpec SolidSpec DualModel.
Import ListNotations.
Open Scope list_scope.

Section DualSpec.
  Context {F : scalar}.
  Local Open Scope num_scope.

  (** Stress, couple stress, displacement and rotation on one element: for each the number of
      basis functions and their values ([i]: point, [k]: function, last: direction); an
      operator applied to the functions of stress and couple stress (their divergence); the
      moduli, a factor for the couple stress, forces followed by moments *)
  Record du_data : Type := mk_du {
    du_e : element F; du_w : list F; du_nd : nat;
    du_ns : nat; du_nm : nat; du_nu : nat; du_nt : nat;
    du_s : nat -> nat -> nat -> F; du_m : nat -> nat -> nat -> F; du_u : nat -> nat -> F; du_t : nat -> nat -> F;
    du_ds : nat -> nat -> F; du_dm : nat -> nat -> F;
    du_lambda : nat -> F; du_mu : nat -> F; du_kappa : nat -> F;
    du_lambda_o : nat -> F; du_mu_o : nat -> F; du_kappa_o : nat -> F; du_scale : nat -> F;
    du_f : list (nat -> F) }.

  (** one rotation in two dimensions, three in three *)
  Definition du_nr (d : du_data) : nat := if du_nd d =? 2 then 1%nat else 3%nat.
  (** the first local DoF of "m", "u", "t", and the number of DoFs *)
  Definition at_m (d : du_data) : nat := (du_ns d * du_nd d)%nat.
  Definition at_u (d : du_data) : nat := (at_m d + du_nm d * du_nr d)%nat.
  Definition at_t (d : du_data) : nat := (at_u d + du_nu d * du_nd d)%nat.
  Definition du_size (d : du_data) : nat := (at_t d + du_nt d * du_nr d)%nat.

  (** component [c] of a field of [m] components with DoFs from [base] and functions [g] *)
  Definition field_part (n base m : nat) (g x : nat -> F) (c : nat) : F :=
    Sum n (fun k => x (base + (k * m + c))%nat * g k).
  Definition sig (d : du_data) (x : nat -> F) (i c dir : nat) : F := field_part (du_ns d) 0 (du_nd d) (fun k => du_s d i k dir) x c.
  Definition mom (d : du_data) (x : nat -> F) (i m dir : nat) : F := field_part (du_nm d) (at_m d) (du_nr d) (fun k => du_m d i k dir) x m.
  Definition disp (d : du_data) (x : nat -> F) (i c : nat) : F := field_part (du_nu d) (at_u d) (du_nd d) (du_u d i) x c.
  Definition rot (d : du_data) (x : nat -> F) (i m : nat) : F := field_part (du_nt d) (at_t d) (du_nr d) (du_t d i) x m.
  Definition div_sig (d : du_data) (x : nat -> F) (i c : nat) : F := field_part (du_ns d) 0 (du_nd d) (du_ds d i) x c.
  Definition div_mom (d : du_data) (x : nat -> F) (i m : nat) : F := field_part (du_nm d) (at_m d) (du_nr d) (du_dm d i) x m.

  Definition dot (n : nat) (a b : nat -> F) : F := Sum n (fun c => a c * b c).
  (** n as a number *)
  Definition of_nat (n : nat) : F := Sum n (fun _ => k1).

  (** The inverse of S -> 2 mu sym S + 2 kappa skew S + lambda tr S, tested with T:
      sym S : sym T/(2 mu) + skew S : skew T/(2 kappa) - lambda/(2 mu (2 mu + n lambda)) tr S tr T *)
  Definition compliance (n : nat) (lambda mu kappa : F) (S T : nat -> nat -> F) : F :=
    kinv ((k1 + k1) * mu) * contract n n (sym_part S) (sym_part T)
    + kinv ((k1 + k1) * kappa) * contract n n (skew_part S) (skew_part T)
    - kinv ((k1 + k1) * mu) * (lambda * kinv ((k1 + k1) * mu + of_nat n * lambda)) * (trace_of n S * trace_of n T).
  (** that map *)
  Definition stiffness (n : nat) (lambda mu kappa : F) (E : nat -> nat -> F) (c dir : nat) : F :=
    (k1 + k1) * mu * sym_part E c dir + (k1 + k1) * kappa * skew_part E c dir + (if c =? dir then lambda * trace_of n E else k0).
  (** the couple stress is a vector in two dimensions *)
  Definition couple (n : nat) (lambda mu kappa : F) (S T : nat -> nat -> F) : F :=
    if n =? 2 then kinv (mu + kappa) * contract 1 2 S T else compliance n lambda mu kappa S T.

  (** the energy of stress and couple stress at point [i] *)
  Definition energy (d : du_data) (x y : nat -> F) (i : nat) : F :=
    compliance (du_nd d) (du_lambda d i) (du_mu d i) (du_kappa d i) (sig d x i) (sig d y i)
    + du_scale d i * couple (du_nd d) (du_lambda_o d i) (du_mu_o d i) (du_kappa_o d i) (mom d x i) (mom d y i).

  (** (A s, tau) + (A_o m, v) + (u, div tau) + (div s, w) + (t, div v) + (div m, q)
      - (t x ., tau) - (s, q x .), and -(f, w) - (g, q) *)
  Definition dual_form (d : du_data) (x y : nat -> F) : F :=
    integral (du_e d) (du_w d) (fun i =>
      energy d x y i
      + dot (du_nd d) (disp d x i) (div_sig d y i) + dot (du_nd d) (div_sig d x i) (disp d y i)
      + dot (du_nr d) (rot d x i) (div_mom d y i) + dot (du_nr d) (div_mom d x i) (rot d y i)
      - contract (du_nd d) (du_nd d) (spin (du_nd d) (rot d x i)) (sig d y i)
      - contract (du_nd d) (du_nd d) (sig d x i) (spin (du_nd d) (rot d y i))).
  Definition dual_load (d : du_data) (y : nat -> F) : F :=
    - integral (du_e d) (du_w d) (fun i =>
        Sum (du_nd d) (fun c => nth c (du_f d) (fun _ => k0) i * disp d y i c)
        + Sum (du_nr d) (fun m => nth (du_nd d + m) (du_f d) (fun _ => k0) i * rot d y i m)).

  (** The inner product of H(div) x H(div) x L2 x L2, with the energy for the stresses *)
  Definition riesz_form (d : du_data) (x y : nat -> F) : F :=
    integral (du_e d) (du_w d) (fun i =>
      energy d x y i
      + dot (du_nd d) (div_sig d x i) (div_sig d y i) + dot (du_nr d) (div_mom d x i) (div_mom d y i)
      + dot (du_nd d) (disp d x i) (disp d y i) + dot (du_nr d) (rot d x i) (rot d y i)).

  Definition zero_state : nat -> F := fun _ => k0.
  (** displacement and rotation negated *)
  Definition flip (d : du_data) (x : nat -> F) (a : nat) : F := if a <? at_u d then x a else - x a.

  (** the couple stress multiplied by a number *)
  Definition stretch (D : du_data) (l : F) (x : nat -> F) (a : nat) : F := if (at_m D <=? a) && (a <? at_u D) then l * x a else x a.

  (** the divergence of function [k] of a table, by the Piola map *)
  Definition piola_div (e : element F) (t : tab F) (n i k : nat) : F :=
    Sum n (fun dir => t_val t (S dir) i k dir) * kinv (e_det e i).

  (** *** What the forms read *)
  Definition lce_gets (needs_rhs needs_grad : bool) (sp : fe_space F) (fn : user_functions F) (iel : nat) (d : lce_input F) : Prop :=
    dget (fs_fields sp) "s"%string = Some (li_s d) /\ dget (fs_fields sp) "m"%string = Some (li_m d) /\
    dget (fs_fields sp) "u"%string = Some (li_u d) /\ dget (fs_fields sp) "t"%string = Some (li_t d) /\
    (if needs_rhs then dget (vec_of fn) "rhs"%string = Some (li_rhs d) else li_rhs d = []) /\
    dget (scal_of fn) "lambda_s"%string = Some (li_lambda_s d) /\ dget (scal_of fn) "mu_s"%string = Some (li_mu_s d) /\
    dget (scal_of fn) "kappa_s"%string = Some (li_kappa_s d) /\ dget (scal_of fn) "lambda_o"%string = Some (li_lambda_o d) /\
    dget (scal_of fn) "mu_o"%string = Some (li_mu_o d) /\ dget (scal_of fn) "kappa_o"%string = Some (li_kappa_o d) /\
    dget (scal_of fn) "l"%string = Some (li_l d) /\
    (if needs_grad then dget (vec_of fn) "grad_l"%string = Some (li_grad_l d) else li_grad_l d = []) /\
    nth_error (fe_elements (li_s d)) iel = Some (li_se d) /\ nth_error (fe_elements (li_m d)) iel = Some (li_me d) /\
    nth_error (fe_elements (li_u d)) iel = Some (li_ue d) /\ nth_error (fe_elements (li_t d)) iel = Some (li_te d) /\
    nth_error (fs_quadrature sp) (e_dim (li_se d)) = Some (Some (li_w d)).

  Definition li_dim (d : lce_input F) : nat := e_dim (li_se d).
  Definition li_rot (d : lce_input F) : nat := if li_dim d =? 2 then 1%nat else 3%nat.
  (** vector valued rows of stress and couple stress, scalar displacement and rotation *)
  Definition lce_dual_fits (d : lce_input F) : Prop :=
    (li_dim d = 2%nat \/ li_dim d = 3%nat) /\
    fe_comp (li_s d) = li_dim d /\ fe_comp (li_m d) = li_rot d /\ fe_comp (li_u d) = li_dim d /\ fe_comp (li_t d) = li_rot d /\
    t_vs (e_tab (li_se d)) = li_dim d /\ t_nder (e_tab (li_se d)) = li_dim d /\
    t_vs (e_tab (li_me d)) = li_dim d /\ t_nder (e_tab (li_me d)) = li_dim d /\
    t_vs (e_tab (li_ue d)) = 1%nat /\ t_vs (e_tab (li_te d)) = 1%nat.
  (** a force for each direction and a moment for each rotation *)
  Definition has_load (d : lce_input F) : Prop := li_dim d + li_rot d <= length (li_rhs d).
  Definition has_grad (d : lce_input F) : Prop := li_dim d <= length (li_grad_l d).
  (** the same data without the loads *)
  Definition no_load (d : lce_input F) : lce_input F :=
    mk_lce_input (li_s d) (li_m d) (li_u d) (li_t d) (li_se d) (li_me d) (li_ue d) (li_te d)
      (li_lambda_s d) (li_mu_s d) (li_kappa_s d) (li_lambda_o d) (li_mu_o d) (li_kappa_o d) (li_l d) [] (li_grad_l d) (li_w d).
  (** the same data with another constant length *)
  Definition with_length (l : F) (d : lce_input F) : lce_input F :=
    mk_lce_input (li_s d) (li_m d) (li_u d) (li_t d) (li_se d) (li_me d) (li_ue d) (li_te d)
      (li_lambda_s d) (li_mu_s d) (li_kappa_s d) (li_lambda_o d) (li_mu_o d) (li_kappa_o d) (fun _ => l) (li_rhs d) [] (li_w d).
  Definition regular (e : element F) (w : list F) : Prop := forall i, i < length w -> e_det e i <> k0.

  Definition li_data (d : lce_input F) (scale : nat -> F) (dm : nat -> nat -> F) : du_data :=
    mk_du (li_se d) (li_w d) (li_dim d)
      (t_nphi (e_tab (li_se d))) (t_nphi (e_tab (li_me d))) (t_nphi (e_tab (li_ue d))) (t_nphi (e_tab (li_te d)))
      (t_val (e_tab (li_se d)) 0) (t_val (e_tab (li_me d)) 0)
      (fun i k => t_val (e_tab (li_ue d)) 0 i k 0) (fun i k => t_val (e_tab (li_te d)) 0 i k 0)
      (piola_div (li_se d) (e_tab (li_se d)) (li_dim d)) dm
      (li_lambda_s d) (li_mu_s d) (li_kappa_s d) (li_lambda_o d) (li_mu_o d) (li_kappa_o d) scale (li_rhs d).
  (** couple stress with compliance 1/l and divergence div v *)
  Definition plain_data (d : lce_input F) : du_data :=
    li_data d (fun i => kinv (li_l d i)) (piola_div (li_se d) (e_tab (li_me d)) (li_dim d)).
  (** scaled couple stress: div(l v) = l div v + grad l . v *)
  Definition scaled_data (d : lce_input F) : du_data :=
    li_data d (fun _ => k1) (fun i k =>
      li_l d i * piola_div (li_se d) (e_tab (li_me d)) (li_dim d) i k
      + Sum (li_dim d) (fun dir => nth dir (li_grad_l d) (fun _ => k0) i * t_val (e_tab (li_me d)) 0 i k dir)).

  (** *** Linear elasticity: no couple stress, and kappa = mu: the compliance acts on the whole
      stress, (1/(2 mu)) S : T - ... *)
  Record ld_data : Type := mk_ld {
    ld_s : fe_field F; ld_u : fe_field F; ld_t : fe_field F; ld_se : element F; ld_ue : element F; ld_te : element F;
    ld_lambda : nat -> F; ld_mu : nat -> F; ld_rhs : list (nat -> F); ld_w : list F }.
  Definition ld_gets (sp : fe_space F) (fn : user_functions F) (iel : nat) (d : ld_data) : Prop :=
    dget (fs_fields sp) "s"%string = Some (ld_s d) /\ dget (fs_fields sp) "u"%string = Some (ld_u d) /\
    dget (fs_fields sp) "t"%string = Some (ld_t d) /\ dget (vec_of fn) "rhs"%string = Some (ld_rhs d) /\
    dget (scal_of fn) "lambda"%string = Some (ld_lambda d) /\ dget (scal_of fn) "mu"%string = Some (ld_mu d) /\
    nth_error (fe_elements (ld_s d)) iel = Some (ld_se d) /\ nth_error (fe_elements (ld_u d)) iel = Some (ld_ue d) /\
    nth_error (fe_elements (ld_t d)) iel = Some (ld_te d) /\
    nth_error (fs_quadrature sp) (e_dim (ld_se d)) = Some (Some (ld_w d)).
  Definition ld_dim (d : ld_data) : nat := e_dim (ld_se d).
  Definition ld_rot (d : ld_data) : nat := if ld_dim d =? 2 then 1%nat else 3%nat.
  Definition ld_fits (d : ld_data) : Prop :=
    (ld_dim d = 2%nat \/ ld_dim d = 3%nat) /\
    fe_comp (ld_s d) = ld_dim d /\ fe_comp (ld_u d) = ld_dim d /\ fe_comp (ld_t d) = ld_rot d /\
    t_vs (e_tab (ld_se d)) = ld_dim d /\ t_nder (e_tab (ld_se d)) = ld_dim d.
  Definition ld_has_load (d : ld_data) : Prop := ld_dim d + ld_rot d <= length (ld_rhs d).
  Definition elastic_data (d : ld_data) : du_data :=
    mk_du (ld_se d) (ld_w d) (ld_dim d)
      (t_nphi (e_tab (ld_se d))) 0 (t_nphi (e_tab (ld_ue d))) (t_nphi (e_tab (ld_te d)))
      (t_val (e_tab (ld_se d)) 0) (fun _ _ _ => k0)
      (fun i k => t_val (e_tab (ld_ue d)) 0 i k 0) (fun i k => t_val (e_tab (ld_te d)) 0 i k 0)
      (piola_div (ld_se d) (e_tab (ld_se d)) (ld_dim d)) (fun _ _ => k0)
      (ld_lambda d) (ld_mu d) (ld_mu d) (fun _ => k0) (fun _ => k0) (fun _ => k0) (fun _ => k0) (ld_rhs d).
End DualSpec.
Arguments du_data : clear implicits.
Arguments ld_data : clear implicits.
