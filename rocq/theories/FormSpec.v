(** * Vocabulary for the statements about local systems of weak forms *)
From Coq Require Import String List Arith Bool Ring Field.
From Verif Require Import Base FormModel.
Import ListNotations.
Open Scope list_scope.

(** The laws of numbers used *)
Definition is_ring (F : scalar) : Prop :=
  ring_theory (@k0 F) k1 kadd kmul ksub kopp eq.
Definition is_field (F : scalar) : Prop :=
  field_theory (@k0 F) k1 kadd kmul ksub kopp (fun a b => kmul a (kinv b)) kinv eq.

Section Spec.
  Context {F : scalar}.
  Local Open Scope num_scope.

  (** The sum of a list, and of the numbers [f 0 .. f (n-1)] *)
  Definition total (l : list F) : F := fold_right kadd k0 l.
  Definition Sum (n : nat) (f : nat -> F) : F := total (map f (seq 0 n)).

  (** The quadrature of a function given at the points *)
  Definition integral (e : element F) (w : list F) (f : nat -> F) : F :=
    Sum (length w) (fun i => nth i w k0 * e_det e i * f i).

  (** *** L2 projection *)

  (** What the form reads for one field: the field, its element, the weights, the function *)
  Record l2_data : Type := mk_l2 { d_field : fe_field F; d_elem : element F; d_w : list F; d_fun : values F }.

  Definition reads (sp : fe_space F) (fn : dict string (values F)) (iel : nat)
      (item : string * fe_field F) (d : l2_data) : Prop :=
    d_field d = snd item /\
    dget fn (fst item) = Some (d_fun d) /\
    nth_error (fe_elements (snd item)) iel = Some (d_elem d) /\
    nth_error (fs_quadrature sp) (e_dim (d_elem d)) = Some (Some (d_w d)) /\
    fe_comp (snd item) <= length (d_fun d).

  Definition d_phi (d : l2_data) : nat := t_nphi (e_tab (d_elem d)).
  Definition d_comp (d : l2_data) : nat := fe_comp (d_field d).
  Definition d_size (d : l2_data) : nat := (d_phi d * d_comp d)%nat.
  (** number of directions of a value: one for Lagrange functions, else the dimension *)
  Definition d_dirs (d : l2_data) : nat := if fe_lagrange (d_field d) then 1 else e_dim (d_elem d).

  (** The local number of component [c] of function [k] of field [p] *)
  Definition l2_dof (ds : list l2_data) (p k c : nat) : nat :=
    (list_sum (map d_size (firstn p ds)) + k * match nth_error ds p with Some d => d_comp d | None => 0 end + c)%nat.

  (** value of function [k] at point [i] in direction [dir], component [c] of the given function *)
  Definition d_val (d : l2_data) (i k dir : nat) : F := t_val (e_tab (d_elem d)) 0 i k dir.
  Definition d_rhs (d : l2_data) (c dir i : nat) : F := nth c (d_fun d) (fun _ _ => k0) dir i.

  (** (f_c, phi_k) and (phi_k, phi_l) *)
  Definition l2_load (d : l2_data) (c k : nat) : F :=
    integral (d_elem d) (d_w d) (fun i => Sum (d_dirs d) (fun dir => d_rhs d c dir i * d_val d i k dir)).
  Definition l2_mass (d : l2_data) (k l : nat) : F :=
    integral (d_elem d) (d_w d) (fun i => Sum (d_dirs d) (fun dir => d_val d i k dir * d_val d i l dir)).

  (** the function with coefficients [alpha]: component [c], direction [dir], at point [i] *)
  Definition l2_state (ds : list l2_data) (p : nat) (d : l2_data) (alpha : nat -> F) (c dir i : nat) : F :=
    Sum (d_phi d) (fun l => alpha (l2_dof ds p l c) * d_val d i l dir).
End Spec.
Arguments l2_data : clear implicits.
