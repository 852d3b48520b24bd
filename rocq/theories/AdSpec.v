(** * Vocabulary for the statements about forms evaluated with automatic differentiation *)
From Coq Require Import String List Arith Bool Ring Field.
From Verif Require Import Base FormModel FormSpec AdModel.
Import ListNotations.
Open Scope list_scope.

Section AdSpec.
  Context {F : scalar}.
  Local Open Scope num_scope.

  (** The coefficients of basis function [b] *)
  Definition unit_at (b : nat) : nat -> F := fun a => if a =? b then k1 else k0.

  (** The local system of a problem [B(u, v) + l(v) = 0] at the state [alpha]: the residual of
      test function [a] and the derivative in coefficient [b] *)
  Definition system_of (n : nat) (B : (nat -> F) -> (nat -> F) -> F) (l : (nat -> F) -> F) (alpha : nat -> F)
      (L : local_system F) : Prop :=
    l_n L = n /\
    (forall a, a < n -> l_r L a = l (unit_at a) + B alpha (unit_at a)) /\
    (forall a b, a < n -> b < n -> l_j L a b = B (unit_at b) (unit_at a)).

  (** The residual is affine in the state, with the returned matrix *)
  Definition exact_jacobian (form : (nat -> F) -> res (local_system F)) : Prop :=
    forall alpha beta L L', form alpha = Ok L -> form beta = Ok L' ->
      l_n L' = l_n L /\
      (forall a b, a < l_n L -> b < l_n L -> l_j L' a b = l_j L a b) /\
      (forall a, a < l_n L ->
         l_r L' a - l_r L a = Sum (l_n L) (fun b => l_j L a b * (beta b - alpha b))).

  (** [x^T J y] *)
  Definition quad (L : local_system F) (x y : nat -> F) : F :=
    Sum (l_n L) (fun a => x a * Sum (l_n L) (fun b => l_j L a b * y b)).

  (** *** Mixed Laplace problem *)
  Record lap_data : Type := mk_lap {
    lp_u : fe_field F; lp_p : fe_field F; lp_ue : element F; lp_pe : element F; lp_w : list F;
    lp_f : list (nat -> F); lp_kappa : nat -> F }.

  Definition lap_reads (sp : fe_space F) (fn : user_functions F) (iel : nat) (d : lap_data) : Prop :=
    dget (fs_fields sp) "u"%string = Some (lp_u d) /\
    dget (fs_fields sp) "p"%string = Some (lp_p d) /\
    dget (vec_of fn) "rhs"%string = Some (lp_f d) /\
    dget (scal_of fn) "kappa"%string = Some (lp_kappa d) /\
    nth_error (fe_elements (lp_u d)) iel = Some (lp_ue d) /\
    nth_error (fs_quadrature sp) (e_dim (lp_ue d)) = Some (Some (lp_w d)) /\
    nth_error (fe_elements (lp_p d)) iel = Some (lp_pe d) /\
    fe_comp (lp_p d) <= length (lp_f d).

  Definition lp_nu (d : lap_data) : nat := t_nphi (e_tab (lp_ue d)).
  Definition lp_np (d : lap_data) : nat := t_nphi (e_tab (lp_pe d)).
  Definition lp_dim (d : lap_data) : nat := e_dim (lp_ue d).

  (** One copy of a vector valued and of a scalar field *)
  Definition lap_fits (d : lap_data) : Prop :=
    fe_comp (lp_u d) = 1 /\ fe_comp (lp_p d) = 1 /\
    t_vs (e_tab (lp_ue d)) = lp_dim d /\ t_nder (e_tab (lp_ue d)) = lp_dim d /\
    1 <= lp_dim d /\ t_vs (e_tab (lp_pe d)) = 1.

  (** the flux, its divergence and the potential with coefficients [x], at point [i] *)
  Definition lap_flux (d : lap_data) (x : nat -> F) (i dir : nat) : F :=
    Sum (lp_nu d) (fun k => x k * t_val (e_tab (lp_ue d)) 0 i k dir).
  Definition lap_div (d : lap_data) (x : nat -> F) (i : nat) : F :=
    Sum (lp_nu d) (fun k => x k *
      (Sum (lp_dim d) (fun dir => t_val (e_tab (lp_ue d)) (S dir) i k dir) * kinv (e_det (lp_ue d) i))).
  Definition lap_pot (d : lap_data) (x : nat -> F) (i : nat) : F :=
    Sum (lp_np d) (fun k => x (lp_nu d + k)%nat * t_val (e_tab (lp_pe d)) 0 i k 0).

  (** (u/kappa, v) - (p, div v) + (div u, q) and -(f, q) *)
  Definition lap_form (d : lap_data) (x y : nat -> F) : F :=
    integral (lp_ue d) (lp_w d) (fun i =>
      Sum (lp_dim d) (fun dir => kinv (lp_kappa d i) * lap_flux d x i dir * lap_flux d y i dir)
      - lap_pot d x i * lap_div d y i + lap_div d x i * lap_pot d y i).
  Definition lap_load (d : lap_data) (y : nat -> F) : F :=
    - integral (lp_ue d) (lp_w d) (fun i => nth 0 (lp_f d) (fun _ => k0) i * lap_pot d y i).

  (** *** Linear elasticity *)
  Record le_data : Type := mk_le {
    le_u : fe_field F; le_e : element F; le_w : list F; le_f : list (nat -> F); le_lambda : nat -> F; le_mu : nat -> F }.

  Definition le_reads (sp : fe_space F) (fn : user_functions F) (iel : nat) (d : le_data) : Prop :=
    dget (fs_fields sp) "u"%string = Some (le_u d) /\
    dget (vec_of fn) "rhs"%string = Some (le_f d) /\
    dget (scal_of fn) "lambda"%string = Some (le_lambda d) /\
    dget (scal_of fn) "mu"%string = Some (le_mu d) /\
    nth_error (fe_elements (le_u d)) iel = Some (le_e d) /\
    nth_error (fs_quadrature sp) (e_dim (le_e d)) = Some (Some (le_w d)) /\
    fe_comp (le_u d) <= length (le_f d).

  Definition le_dim (d : le_data) : nat := e_dim (le_e d).
  Definition le_size (d : le_data) : nat := (t_nphi (e_tab (le_e d)) * le_dim d)%nat.

  (** one component per direction, in two or three dimensions *)
  Definition le_fits (d : le_data) : Prop :=
    fe_comp (le_u d) = le_dim d /\ (le_dim d = 2 \/ le_dim d = 3).

  (** component [c] of the displacement with coefficients [x] at point [i]; its derivative in
      direction [dir]; strain; trace of the strain *)
  Definition le_disp (d : le_data) (x : nat -> F) (i c : nat) : F :=
    Sum (t_nphi (e_tab (le_e d))) (fun k => x (k * le_dim d + c)%nat * t_val (e_tab (le_e d)) 0 i k 0).
  Definition le_grad (d : le_data) (x : nat -> F) (i c dir : nat) : F :=
    Sum (t_nphi (e_tab (le_e d))) (fun k => x (k * le_dim d + c)%nat *
      Sum (t_nder (e_tab (le_e d))) (fun r => e_inv (le_e d) i r dir * t_val (e_tab (le_e d)) (S r) i k 0)).
  Definition le_strain (d : le_data) (x : nat -> F) (i c dir : nat) : F :=
    kinv (k1 + k1) * (le_grad d x i c dir + le_grad d x i dir c).
  Definition le_trace (d : le_data) (x : nat -> F) (i : nat) : F :=
    Sum (le_dim d) (fun c => le_grad d x i c c).

  (** (2 mu eps(u), eps(v)) + (lambda div u, div v) and (f, v) *)
  Definition le_form (d : le_data) (x y : nat -> F) : F :=
    integral (le_e d) (le_w d) (fun i =>
      (k1 + k1) * le_mu d i * Sum (le_dim d) (fun c => Sum (le_dim d) (fun dir => le_strain d x i c dir * le_strain d y i c dir))
      + le_lambda d i * (le_trace d x i * le_trace d y i)).
  Definition le_load (d : le_data) (y : nat -> F) : F :=
    integral (le_e d) (le_w d) (fun i => Sum (le_dim d) (fun c => nth c (le_f d) (fun _ => k0) i * le_disp d y i c)).

  (** [x] moves the element rigidly: its gradient is skew at every point *)
  Definition le_rigid (d : le_data) (x : nat -> F) : Prop :=
    forall i c dir, i < length (le_w d) -> c < le_dim d -> dir < le_dim d ->
      le_grad d x i c dir = - le_grad d x i dir c.
End AdSpec.
Arguments lap_data : clear implicits.
Arguments le_data : clear implicits.
