(** * Vocabulary for the statements about solids: stress constraint, Taylor-Hood, Cosserat *)
From Coq Require Import String List Arith Bool.
From Verif Require Import Base FormModel FormSpec AdModel AdModel2 AdSpec.
Import ListNotations.
Open Scope list_scope.

Section SolidSpec.
  Context {F : scalar}.
  Local Open Scope num_scope.

  (** T : S *)
  Definition contract (n m : nat) (T S : nat -> nat -> F) : F := Sum n (fun c => Sum m (fun dir => T c dir * S c dir)).
  Definition sym_part (T : nat -> nat -> F) (c dir : nat) : F := kinv (k1 + k1) * (T c dir + T dir c).
  Definition skew_part (T : nat -> nat -> F) (c dir : nat) : F := kinv (k1 + k1) * (T c dir - T dir c).
  Definition trace_of (n : nat) (T : nat -> nat -> F) : F := Sum n (fun c => T c c).
  (** T - (tr T / n) I, in two dimensions *)
  Definition dev_part (T : nat -> nat -> F) (c dir : nat) : F :=
    T c dir - (if c =? dir then kinv (k1 + k1) * trace_of 2 T else k0).

  (** The Cauchy stress of the displacement [x] *)
  Definition le_stress (d : le_data F) (x : nat -> F) (i c dir : nat) : F :=
    (k1 + k1) * le_mu d i * le_strain d x i c dir + (if c =? dir then le_lambda d i * le_trace d x i else k0).

  (** *** Stress constraint: beta (sigma(u) - sigma_target, grad v) *)
  Definition sc_reads (sp : fe_space F) (fn : user_functions F) (iel : nat) (d : le_data F) : Prop :=
    dget (fs_fields sp) "u"%string = Some (le_u d) /\
    dget (scal_of fn) "lambda"%string = Some (le_lambda d) /\
    dget (scal_of fn) "mu"%string = Some (le_mu d) /\
    nth_error (fe_elements (le_u d)) iel = Some (le_e d) /\
    nth_error (fs_quadrature sp) (e_dim (le_e d)) = Some (Some (le_w d)).
  Definition sc_load (beta : F) (target : nat -> nat -> nat -> F) (d : le_data F) (y : nat -> F) : F :=
    - integral (le_e d) (le_w d) (fun i => beta * contract (le_dim d) (le_dim d) (fun c dir => target c dir i) (le_grad d y i)).

  (** *** Taylor-Hood in two dimensions *)
  Record th_data : Type := mk_th { th_le : le_data F; th_p : fe_field F; th_pe : element F }.
  Definition th_reads (sp : fe_space F) (fn : user_functions F) (iel : nat) (d : th_data) : Prop :=
    le_reads sp fn iel (th_le d) /\
    dget (fs_fields sp) "p"%string = Some (th_p d) /\
    nth_error (fe_elements (th_p d)) iel = Some (th_pe d).
  Definition th_fits (d : th_data) : Prop :=
    fe_comp (le_u (th_le d)) = 2 /\ le_dim (th_le d) = 2 /\ t_vs (e_tab (th_pe d)) = 1.
  Definition th_np (d : th_data) : nat := t_nphi (e_tab (th_pe d)).
  Definition th_press (d : th_data) (x : nat -> F) (i : nat) : F :=
    Sum (th_np d) (fun k => x (le_size (th_le d) + k)%nat * t_val (e_tab (th_pe d)) 0 i k 0).
  (** (2 mu dev eps(u), dev eps(v)) + (p, div v) + (div u, q) - (p/(lambda+mu), q) *)
  Definition th_form (d : th_data) (x y : nat -> F) : F :=
    let l := th_le d in
    integral (le_e l) (le_w l) (fun i =>
      (k1 + k1) * le_mu l i * contract 2 2 (dev_part (le_strain l x i)) (dev_part (le_strain l y i))
      + th_press d x i * le_trace l y i + le_trace l x i * th_press d y i
      - kinv (le_lambda l i + le_mu l i) * (th_press d x i * th_press d y i)).

  (** *** Cosserat: displacement and micro-rotation *)
  (** the matrix of s x (.): the axes are cyclic; in two dimensions the rotation is about the
      third axis *)
  Definition spin (nd : nat) (s : nat -> F) (c dir : nat) : F :=
    let s m := if nd =? 2 then s 0%nat else s m in
    if dir =? (c + 1) mod 3 then - s ((c + 2) mod 3)%nat
    else if c =? (dir + 1) mod 3 then s ((dir + 2) mod 3)%nat else k0.
  Record lce_data : Type := mk_lce {
    lc_le : le_data F; lc_t : fe_field F; lc_te : element F; lc_kappa : nat -> F; lc_gamma : nat -> F }.
  Definition lce_reads (sp : fe_space F) (fn : user_functions F) (iel : nat) (d : lce_data) : Prop :=
    le_reads sp fn iel (lc_le d) /\
    dget (fs_fields sp) "t"%string = Some (lc_t d) /\
    dget (scal_of fn) "kappa"%string = Some (lc_kappa d) /\
    dget (scal_of fn) "gamma"%string = Some (lc_gamma d) /\
    nth_error (fe_elements (lc_t d)) iel = Some (lc_te d) /\
    fe_comp (le_u (lc_le d)) + fe_comp (lc_t d) <= length (le_f (lc_le d)).
  (** one rotation in two dimensions, three in three *)
  Definition lc_rot (d : lce_data) : nat := if le_dim (lc_le d) =? 2 then 1%nat else 3%nat.
  Definition lce_fits (d : lce_data) : Prop :=
    le_fits (lc_le d) /\ fe_comp (lc_t d) = lc_rot d /\ t_vs (e_tab (lc_te d)) = 1.
  Definition lc_nt (d : lce_data) : nat := t_nphi (e_tab (lc_te d)).
  Definition lce_size (d : lce_data) : nat := (le_size (lc_le d) + lc_nt d * lc_rot d)%nat.
  Definition lce_angle (d : lce_data) (x : nat -> F) (i m : nat) : F :=
    Sum (lc_nt d) (fun k => x (le_size (lc_le d) + (k * lc_rot d + m))%nat * t_val (e_tab (lc_te d)) 0 i k 0).
  Definition lce_curv (d : lce_data) (x : nat -> F) (i m dir : nat) : F :=
    Sum (lc_nt d) (fun k => x (le_size (lc_le d) + (k * lc_rot d + m))%nat *
      Sum (t_nder (e_tab (lc_te d))) (fun r => e_inv (le_e (lc_le d)) i r dir * t_val (e_tab (lc_te d)) (S r) i k 0)).
  (** strain e = grad u + t x (.) *)
  Definition lce_strain (d : lce_data) (x : nat -> F) (i c dir : nat) : F :=
    le_grad (lc_le d) x i c dir + spin (le_dim (lc_le d)) (lce_angle d x i) c dir.
  (** (2 mu sym e, sym e') + (2 kappa skew e, skew e') + (lambda tr e, tr e') + (gamma grad t, grad t') *)
  Definition lce_form (d : lce_data) (x y : nat -> F) : F :=
    let l := lc_le d in
    let n := le_dim l in
    integral (le_e l) (le_w l) (fun i =>
      (k1 + k1) * le_mu l i * contract n n (sym_part (lce_strain d x i)) (sym_part (lce_strain d y i))
      + (k1 + k1) * lc_kappa d i * contract n n (skew_part (lce_strain d x i)) (skew_part (lce_strain d y i))
      + le_lambda l i * (trace_of n (lce_strain d x i) * trace_of n (lce_strain d y i))
      + lc_gamma d i * contract (lc_rot d) n (lce_curv d x i) (lce_curv d y i)).
  (** (f, v) + (m, s): the moments follow the forces in "rhs" *)
  Definition lce_load (d : lce_data) (y : nat -> F) : F :=
    let l := lc_le d in
    integral (le_e l) (le_w l) (fun i =>
      Sum (le_dim l) (fun c => nth c (le_f l) (fun _ => k0) i * le_disp l y i c)
      + Sum (lc_rot d) (fun m => nth (le_dim l + m) (le_f l) (fun _ => k0) i * lce_angle d y i m)).
  (** a motion without strain and curvature at the points *)
  Definition lce_rigid (d : lce_data) (x : nat -> F) : Prop :=
    forall i, i < length (le_w (lc_le d)) ->
      (forall c dir, c < le_dim (lc_le d) -> dir < le_dim (lc_le d) -> lce_strain d x i c dir = k0) /\
      (forall m dir, m < lc_rot d -> dir < le_dim (lc_le d) -> lce_curv d x i m dir = k0).
End SolidSpec.
Arguments th_data : clear implicits.
Arguments lce_data : clear implicits.
