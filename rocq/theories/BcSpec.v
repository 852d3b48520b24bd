(** * Vocabulary for the statements about boundary forms *)
From Coq Require Import String List Arith Bool.
From Verif Require Import Base FormModel FormSpec AdModel AdModel2 AdSpec.
Import ListNotations.
Open Scope list_scope.

Section BcSpec.
  Context {F : scalar}.
  Local Open Scope num_scope.

  (** What a boundary form reads for one field: the field, its boundary element, the weights
      and the components of the given function *)
  Record bc_data : Type := mk_bc { b_u : fe_field F; b_e : element F; b_w : list F; b_g : list (nat -> F) }.
  Definition bc_reads (sp : fe_space F) (fn : user_functions F) (field given : string) (iel : nat) (d : bc_data) : Prop :=
    dget (fs_fields sp) field = Some (b_u d) /\
    dget (vec_of fn) given = Some (b_g d) /\
    nth_error (fe_elements (b_u d)) iel = Some (b_e d) /\
    nth_error (fs_quadrature sp) (e_dim (b_e d)) = Some (Some (b_w d)).

  Definition b_phi (d : bc_data) : nat := t_nphi (e_tab (b_e d)).
  Definition b_comp (d : bc_data) : nat := fe_comp (b_u d).
  Definition b_size (d : bc_data) : nat := (b_phi d * b_comp d)%nat.

  (** component [c] of the function with coefficients [x] at point [i] *)
  Definition b_val (d : bc_data) (x : nat -> F) (i c : nat) : F :=
    Sum (b_phi d) (fun k => x (k * b_comp d + c)%nat * t_val (e_tab (b_e d)) 0 i k 0).
  Definition b_given (d : bc_data) (i c : nat) : F := nth c (b_g d) (fun _ => k0) i.

  (** beta (u, v) and - beta (u_D, v) *)
  Definition dirichlet_form (beta : F) (d : bc_data) (x y : nat -> F) : F :=
    beta * integral (b_e d) (b_w d) (fun i => Sum (b_comp d) (fun c => b_val d x i c * b_val d y i c)).
  Definition dirichlet_load (beta : F) (d : bc_data) (y : nat -> F) : F :=
    - (beta * integral (b_e d) (b_w d) (fun i => Sum (b_comp d) (fun c => b_given d i c * b_val d y i c))).

  (** two fields, the coefficients of the second after those of the first *)
  Definition pair_form (beta : F) (d d' : bc_data) (x y : nat -> F) : F :=
    dirichlet_form beta d x y + dirichlet_form beta d' (fun a => x (b_size d + a)%nat) (fun a => y (b_size d + a)%nat).
  Definition pair_load (beta : F) (d d' : bc_data) (y : nat -> F) : F :=
    dirichlet_load beta d y + dirichlet_load beta d' (fun a => y (b_size d + a)%nat).

  (** (t, v) *)
  Definition neumann_load (d : bc_data) (y : nat -> F) : F :=
    integral (b_e d) (b_w d) (fun i => Sum (b_comp d) (fun c => b_given d i c * b_val d y i c)).

  (** beta (u.n, v.n) and - beta (u_D.n, v.n) *)
  Definition along (n : list F) (m : nat) (v : nat -> F) : F := Sum m (fun c => v c * nth c n k0).
  Definition normal_form (beta : F) (n : list F) (d : bc_data) (x y : nat -> F) : F :=
    beta * integral (b_e d) (b_w d) (fun i => along n (b_comp d) (b_val d x i) * along n (b_comp d) (b_val d y i)).
  Definition normal_load (beta : F) (n : list F) (d : bc_data) (y : nat -> F) : F :=
    - (beta * integral (b_e d) (b_w d) (fun i => along n (b_comp d) (b_given d i) * along n (b_comp d) (b_val d y i))).
  (** what the code computes instead of [normal_form] *)
  Definition diagonal_form (beta : F) (n : list F) (d : bc_data) (x y : nat -> F) : F :=
    beta * integral (b_e d) (b_w d) (fun i => Sum (b_comp d) (fun c =>
      nth c n k0 * nth c n k0 * (b_val d x i c * b_val d y i c))).
  (** at most one component of the normal is not zero *)
  Definition axis_aligned (n : list F) (m : nat) : Prop :=
    forall c c', c < m -> c' < m -> c <> c' -> nth c n k0 * nth c' n k0 = k0.

  (** *** A scalar boundary value against the normal component of a flux *)
  Record flux_data : Type := mk_flux { f_e : element F; f_w : list F; f_comp : nat; f_phi : nat; f_trace : trace_data F;
                                       f_value : nat -> nat -> F }.
  (** normal component of copy [c] of the flux with coefficients [y] at point [i] *)
  Definition f_normal (d : flux_data) (y : nat -> F) (i c : nat) : F :=
    Sum (f_phi d) (fun k => y (k * f_comp d + c)%nat *
      Sum (tr_dim (f_trace d)) (fun dir => t_val (tr_tab (f_trace d)) 0 i (nth k (tr_dofs (f_trace d)) 0) dir *
                                         nth dir (tr_normal (f_trace d)) k0)).
  Definition flux_load (d : flux_data) (y : nat -> F) : F :=
    integral (f_e d) (f_w d) (fun i => Sum (f_comp d) (fun c => f_value d c i * f_normal d y i c)).
  (** vector values with as many entries as the dimension of the neighbour; one DoF per function *)
  Definition flux_fits (d : flux_data) : Prop :=
    t_vs (tr_tab (f_trace d)) = tr_dim (f_trace d) /\ tr_dim (f_trace d) <= length (tr_normal (f_trace d)) /\
    length (tr_dofs (f_trace d)) = f_phi d.
End BcSpec.
Arguments bc_data : clear implicits.
Arguments flux_data : clear implicits.
