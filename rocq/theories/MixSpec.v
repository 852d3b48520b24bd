(** * Vocabulary for the statements about mixed elliptic forms *)
From Coq Require Import String List Arith Bool.
From Verif Require Import Base FormModel FormSpec AdModel AdModel2 AdSpec.
Import ListNotations.
Open Scope list_scope.

Section MixSpec.
  Context {F : scalar}.
  Local Open Scope num_scope.

  (** A flux field and a scalar field on one element: basis values, an operator applied to the
      flux ([m_op i k]: its value at point [i] for function [k]), two coefficients, a source *)
  Record mix_data : Type := mk_mix {
    m_e : element F; m_w : list F; m_dim : nat; m_nu : nat; m_np : nat;
    m_psi : nat -> nat -> nat -> F; m_op : nat -> nat -> F; m_chi : nat -> nat -> F;
    m_a : nat -> F; m_c : nat -> F; m_src : nat -> F }.

  Definition m_flux (d : mix_data) (x : nat -> F) (i dir : nat) : F := Sum (m_nu d) (fun k => x k * m_psi d i k dir).
  Definition m_div (d : mix_data) (x : nat -> F) (i : nat) : F := Sum (m_nu d) (fun k => x k * m_op d i k).
  Definition m_pot (d : mix_data) (x : nat -> F) (i : nat) : F := Sum (m_np d) (fun k => x (m_nu d + k)%nat * m_chi d i k).

  (** (a u, v) - (p, op v) + (op u, q) + (c p, q) and -(s, q) *)
  Definition mix_form (d : mix_data) (x y : nat -> F) : F :=
    integral (m_e d) (m_w d) (fun i =>
      Sum (m_dim d) (fun dir => m_a d i * (m_flux d x i dir * m_flux d y i dir))
      - m_pot d x i * m_div d y i + m_div d x i * m_pot d y i + m_c d i * (m_pot d x i * m_pot d y i)).
  Definition mix_load (d : mix_data) (y : nat -> F) : F :=
    - integral (m_e d) (m_w d) (fun i => m_src d i * m_pot d y i).

  (** What the two elliptic forms read *)
  Record por_data : Type := mk_por {
    po_u : fe_field F; po_p : fe_field F; po_ue : element F; po_pe : element F; po_w : list F;
    po_f : list (nat -> F); po_phi : nat -> F; po_delta : nat -> F; po_grad : list (nat -> F) }.
  Definition por_reads (fu fp : string) (sp : fe_space F) (fn : user_functions F) (iel : nat) (d : por_data) : Prop :=
    dget (fs_fields sp) fu = Some (po_u d) /\
    dget (fs_fields sp) fp = Some (po_p d) /\
    dget (vec_of fn) "rhs"%string = Some (po_f d) /\
    dget (scal_of fn) "porosity"%string = Some (po_phi d) /\
    dget (scal_of fn) "d_phi"%string = Some (po_delta d) /\
    dget (vec_of fn) "grad_d_phi"%string = Some (po_grad d) /\
    nth_error (fe_elements (po_u d)) iel = Some (po_ue d) /\
    nth_error (fs_quadrature sp) (e_dim (po_ue d)) = Some (Some (po_w d)) /\
    nth_error (fe_elements (po_p d)) iel = Some (po_pe d) /\
    1 <= length (po_f d).
  Definition po_dim (d : por_data) : nat := e_dim (po_ue d).
  Definition por_fits (d : por_data) : Prop :=
    fe_comp (po_u d) = 1 /\ fe_comp (po_p d) = 1 /\
    t_vs (e_tab (po_ue d)) = po_dim d /\ t_nder (e_tab (po_ue d)) = po_dim d /\
    1 <= po_dim d /\ t_vs (e_tab (po_pe d)) = 1 /\ po_dim d <= length (po_grad d).

  (** the divergence of basis function [k], and grad delta . psi_k *)
  Definition po_div (d : por_data) (i k : nat) : F :=
    Sum (po_dim d) (fun dir => t_val (e_tab (po_ue d)) (S dir) i k dir) * kinv (e_det (po_ue d) i).
  Definition po_adv (d : por_data) (i k : nat) : F :=
    Sum (po_dim d) (fun dir => nth dir (po_grad d) (fun _ => k0) i * t_val (e_tab (po_ue d)) 0 i k dir).

  Definition por_mix (d : por_data) (op : nat -> nat -> F) (a c src : nat -> F) : mix_data :=
    mk_mix (po_ue d) (po_w d) (po_dim d) (t_nphi (e_tab (po_ue d))) (t_nphi (e_tab (po_pe d)))
      (fun i k dir => t_val (e_tab (po_ue d)) 0 i k dir) op (fun i k => t_val (e_tab (po_pe d)) 0 i k 0) a c src.

  (** Scaled unknowns: op v = div(delta v)/sqrt(phi) where the porosity is positive, 0 elsewhere *)
  Definition degenerate_mix (ksqrt : F -> F) (positive : F -> bool) (d : por_data) : mix_data :=
    por_mix d (fun i k => if positive (po_phi d i) then (po_delta d i * po_div d i k + po_adv d i k) * kinv (ksqrt (po_phi d i)) else k0)
      (fun _ => k1) (fun _ => k1) (nth 0 (po_f d) (fun _ => k0)).
  (** Physical unknowns, porosity and delta not below a threshold *)
  Definition unscaled_mix (ksqrt : F -> F) (small : F -> bool) (threshold : F) (d : por_data) : mix_data :=
    let cut x := if small x then threshold else x in
    por_mix d (po_div d) (fun i => kinv (cut (po_delta d i) * cut (po_delta d i))) (fun i => cut (po_phi d i))
      (fun i => ksqrt (po_phi d i) * nth 0 (po_f d) (fun _ => k0) i).

  (** Projection of the scaled unknowns [s] to the physical ones: (u, v) + (p, q) and
      -(delta v_s, v) - (q_s/sqrt(phi), q) where the porosity is positive *)
  Record phy_data : Type := mk_phy {
    ph_v : fe_field F; ph_q : fe_field F; ph_ve : element F; ph_qe : element F; ph_w : list F; ph_phi : nat -> F; ph_delta : nat -> F }.
  Definition phy_reads (sp : fe_space F) (fn : user_functions F) (iel : nat) (d : phy_data) : Prop :=
    dget (fs_fields sp) "v"%string = Some (ph_v d) /\
    dget (fs_fields sp) "q"%string = Some (ph_q d) /\
    dget (scal_of fn) "porosity"%string = Some (ph_phi d) /\
    dget (scal_of fn) "d_phi"%string = Some (ph_delta d) /\
    nth_error (fe_elements (ph_v d)) iel = Some (ph_ve d) /\
    nth_error (fs_quadrature sp) (e_dim (ph_ve d)) = Some (Some (ph_w d)) /\
    nth_error (fe_elements (ph_q d)) iel = Some (ph_qe d).
  Definition ph_dim (d : phy_data) : nat := e_dim (ph_ve d).
  Definition phy_fits (d : phy_data) : Prop :=
    fe_comp (ph_v d) = 1 /\ fe_comp (ph_q d) = 1 /\
    t_vs (e_tab (ph_ve d)) = ph_dim d /\ 1 <= ph_dim d /\ t_vs (e_tab (ph_qe d)) = 1.
  Definition ph_nv (d : phy_data) : nat := t_nphi (e_tab (ph_ve d)).
  Definition ph_nq (d : phy_data) : nat := t_nphi (e_tab (ph_qe d)).
  Definition ph_flux (d : phy_data) (x : nat -> F) (i dir : nat) : F :=
    Sum (ph_nv d) (fun k => x k * t_val (e_tab (ph_ve d)) 0 i k dir).
  Definition ph_pot (d : phy_data) (x : nat -> F) (i : nat) : F :=
    Sum (ph_nq d) (fun k => x (ph_nv d + k)%nat * t_val (e_tab (ph_qe d)) 0 i k 0).
  Definition phy_form (d : phy_data) (x y : nat -> F) : F :=
    integral (ph_ve d) (ph_w d) (fun i =>
      Sum (ph_dim d) (fun dir => ph_flux d x i dir * ph_flux d y i dir) + ph_pot d x i * ph_pot d y i).
  Definition phy_load (ksqrt : F -> F) (above : F -> bool) (d : phy_data) (s y : nat -> F) : F :=
    - integral (ph_ve d) (ph_w d) (fun i =>
        let cu := if above (ph_phi d i) then ph_delta d i else k1 in
        let cp := if above (ph_phi d i) then kinv (ksqrt (ph_phi d i)) else k1 in
        Sum (ph_dim d) (fun dir => cu * ph_flux d s i dir * ph_flux d y i dir) + cp * ph_pot d s i * ph_pot d y i).
End MixSpec.
Arguments mix_data : clear implicits.
Arguments por_data : clear implicits.
Arguments phy_data : clear implicits.

Section Scaling.
  Context {F : scalar}.
  Local Open Scope num_scope.
  (** The change of unknowns of [Arbogast-Taicher, (9)-(10)]: flux coefficients times delta,
      scalar coefficients over sqrt(phi) *)
  Definition to_physical (nu : nat) (delta root : F) (a : nat) : F := if a <? nu then delta else kinv root.
  Definition scaled_state (nu : nat) (delta root : F) (x : nat -> F) (a : nat) : F := to_physical nu delta root a * x a.
  (** porosity and delta are constant, positive and above the threshold on the element *)
  Definition constant_medium (ksqrt : F -> F) (positive small : F -> bool) (d : por_data F) (phi delta : F) : Prop :=
    (forall i, i < length (po_w d) -> po_phi d i = phi /\ po_delta d i = delta /\
       forall dir, dir < po_dim d -> nth dir (po_grad d) (fun _ => k0) i = k0) /\
    positive phi = true /\ small phi = false /\ small delta = false /\
    ksqrt phi * ksqrt phi = phi /\ phi <> k0 /\ delta <> k0.
End Scaling.
