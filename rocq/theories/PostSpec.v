(** * Vocabulary for the statements about errors and norms of solutions *)
From Coq Require Import String List Arith Bool.
From Verif Require Import Base FormModel FormSpec PostModel.
Import ListNotations.
Open Scope list_scope.

Section PostSpec.
  Context {F : scalar}.
  Local Open Scope num_scope.

  (** The fields that are not to be skipped *)
  Definition kept (skip : list string) (fields : dict string (post_field F)) : dict string (post_field F) :=
    filter (fun nf => if in_dec string_dec (fst nf) skip then false else true) fields.
  (** The elements of a field on cells of dimension [dim] *)
  Definition on_dim (dim : nat) (fld : post_field F) : list (post_element F) :=
    filter (fun pe => e_dim (pe_el pe) =? dim) (pf_elements fld).
  Definition dofs_of (pe : post_element F) : list nat := match pe_dest pe with Ok d => d | Err _ => [] end.

  (** The discrete function with coefficients [alpha] (those of the field start at [shift]):
      component [c], direction [d], at point [i] of an element; DoFs are ordered by function, then
      component *)
  Definition coefficient (alpha : list F) (shift m : nat) (pe : post_element F) (k c : nat) : F :=
    nth (nth (k * m + c) (dofs_of pe) 0 + shift)%nat alpha k0.
  Definition discrete (alpha : list F) (shift m : nat) (pe : post_element F) (i c d : nat) : F :=
    Sum (t_nphi (e_tab (pe_el pe))) (fun k => coefficient alpha shift m pe k c * t_val (e_tab (pe_el pe)) 0 i k d).
  (** Its divergence, from the divergence in the reference cell (Piola), and the divergence of
      l times it *)
  Definition discrete_div (alpha : list F) (m dim : nat) (pe : post_element F) (i c : nat) : F :=
    Sum (t_nphi (e_tab (pe_el pe))) (fun k => coefficient alpha 0 m pe k c *
      (Sum dim (fun d => t_val (e_tab (pe_el pe)) (S d) i k d) * kinv (e_det (pe_el pe) i))).
  Definition discrete_div_l (l : nat -> nat -> F) (grad_l : nat -> nat -> nat -> F) (alpha : list F) (m dim : nat)
      (pe : post_element F) (i c : nat) : F :=
    l (pe_cell pe) i * discrete_div alpha m dim pe i c +
    Sum dim (fun d => grad_l (pe_cell pe) d i * discrete alpha 0 m pe i c d).

  (** The squared norm, over the cells of dimension [dim], of a function with values
      [v pe i c d] *)
  Definition norm2 (dim : nat) (w : list F) (fld : post_field F) (m dirs : nat) (v : post_element F -> nat -> nat -> nat -> F) : F :=
    total (map (fun pe => integral (pe_el pe) w (fun i => Sum m (fun c => Sum dirs (fun d => v pe i c d * v pe i c d))))
               (on_dim dim fld)).

  (** Lagrange fields; fields of functions with a divergence; those div_error is about *)
  Definition lagrange (fld : post_field F) : bool := match pf_family fld with FLagrange => true | FRT | FBDM | FN1E => false end.
  Definition has_div (fld : post_field F) : bool := match pf_family fld with FRT | FBDM => true | FLagrange | FN1E => false end.
  Definition div_fields (dim : nat) (fields : dict string (post_field F)) : dict string (post_field F) :=
    filter (fun nf => if dim =? 1 then lagrange (snd nf) else has_div (snd nf)) fields.

  (** Components have one entry for Lagrange elements and [dim] entries for the others *)
  Definition dirs_of (dim : nat) (fld : post_field F) : nat := if lagrange fld then 1 else dim.

  (** The coefficients of a field can be read on every cell of dimension [dim]: every field of the
      space has an element of that index, and the DoFs exist *)
  Definition readable (sp : post_space F) (alpha : list F) (shift dim : nat) (fld : post_field F) : Prop :=
    forall i pe, nth_error (pf_elements fld) i = Some pe -> e_dim (pe_el pe) = dim ->
      0 < t_nphi (e_tab (pe_el pe)) /\
      length (dofs_of pe) = (t_nphi (e_tab (pe_el pe)) * pf_comp fld)%nat /\
      (forall d, In d (dofs_of pe) -> (d + shift < length alpha)%nat) /\
      (forall nf, In nf (ps_fields sp) -> exists e d, nth_error (pf_elements (snd nf)) i = Some e /\ pe_dest e = Ok d).

  (** The shape of the exact function and of the table fit the field.  A Lagrange field must not
      have more components than the dimension. *)
  Definition shape_fits (dim : nat) (fld : post_field F) (f : exact_fun F) : Prop :=
    x_rows f = pf_comp fld /\
    if lagrange fld then pf_comp fld <= dim
    else 0 < pf_comp fld /\ dim <= x_cols f /\ forall pe, In pe (on_dim dim fld) -> dim <= t_vs (e_tab (pe_el pe)).
  Definition div_fits (dim : nat) (fld : post_field F) : Prop :=
    forall pe, In pe (on_dim dim fld) -> dim <= t_vs (e_tab (pe_el pe)) /\ dim <= t_nder (e_tab (pe_el pe)).
End PostSpec.
