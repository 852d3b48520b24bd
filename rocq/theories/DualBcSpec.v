(** * Vocabulary for the statements about the boundary forms of the dual problems *)
From Coq Require Import String List Arith Bool.
From Verif Require Import Base FormModel FormSpec AdModel AdModel2 AdSpec BcSpec.
Import ListNotations.
Open Scope list_scope.

Section DualBcSpec.
  Context {F : scalar}.
  Local Open Scope num_scope.

  (** the given vector function against the normal traces of a field on a facet *)
  Definition flux_of (d : bc_data F) (tr : trace_data F) : flux_data F :=
    mk_flux (b_e d) (b_w d) (b_comp d) (b_phi d) tr (fun c i => b_given d i c).
  (** the same with the given values multiplied by a length at each point *)
  Definition flux_times (l : nat -> F) (d : bc_data F) (tr : trace_data F) : flux_data F :=
    mk_flux (b_e d) (b_w d) (b_comp d) (b_phi d) tr (fun c i => l i * b_given d i c).

  (** beta (s n, tau n) and - beta (s_N, tau n) over the facet *)
  Definition traction_form (beta : F) (d : flux_data F) (x y : nat -> F) : F :=
    beta * integral (f_e d) (f_w d) (fun i => Sum (f_comp d) (fun c => f_normal d x i c * f_normal d y i c)).
  Definition traction_load (beta : F) (d : flux_data F) (y : nat -> F) : F :=
    - (beta * integral (f_e d) (f_w d) (fun i => Sum (f_comp d) (fun c => f_value d c i * f_normal d y i c))).

  (** coefficients after the first [n] *)
  Definition after (n : nat) (x : nat -> F) : nat -> F := fun a => x (n + a)%nat.

  (** Both fields see the same facet: dimension of the neighbour, normal, weights, determinants *)
  Definition same_facet (ds dm : bc_data F) (ts tm : trace_data F) : Prop :=
    tr_dim tm = tr_dim ts /\ tr_normal tm = tr_normal ts /\ b_w dm = b_w ds /\
    (forall i, i < length (b_w ds) -> e_det (b_e dm) i = e_det (b_e ds) i).
End DualBcSpec.
