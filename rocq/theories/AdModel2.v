(** * Model of further weak forms evaluated with automatic differentiation

    src/weak_forms: degenerate_elliptic_weak_form.py, unscaled_elliptic_weak_form.py,
    scaled_to_physical_l2_projection.py, le_primal_stress_constraint_weak_form.py,
    le_taylor_hood_weak_form.py, lce_primal_weak_form.py, and the boundary form of
    laplace_dual_weak_form.py.

    Definitions only; conventions as in AdModel.v. *)
From Coq Require Import String List Arith Bool.
From Verif Require Import Base FormModel AdModel.
Import ListNotations.
Open Scope list_scope.

Section Mixed.
  Context {F : scalar}.
  Local Open Scope num_scope.

  (** [np.sqrt] *)
  Variable ksqrt : F -> F.

  (** *** DegenerateEllipticWeakForm.evaluate_form, degenerate_elliptic_weak_form.py:42-144

      [positive phi] stands for the test of line 125, [not np.isclose(phi, 0.0) and phi > 0.0].
      The vector valued function grad_d_phi has its components in [vec_of]; at least dim of
      them are read (line 120). *)
  Variable positive : F -> bool.

  (** div_phi_h_s, lines 112-130: entry k at point i *)
  Definition degenerate_div (dim : nat) (t : tab F) (det phi delta : nat -> F) (grad_delta : nat -> nat -> F) (i k : nat) : F :=
    let mu := Nat.min dim (t_vs t) in
    let div_psi := kdiv (ksum (Nat.min (t_nder t) mu) (fun d => t_val t (S d) i k d)) (det i) in
    let dot := ksum mu (fun d => grad_delta d i * t_val t 0 i k d) in
    if positive (phi i) then kdiv (delta i * div_psi + dot) (ksqrt (phi i))
    else k0 * (delta i * div_psi + dot).

  (** lines 100-139: the integrand at point i *)
  Definition degenerate_integrand (dim : nat) (vt qt : tab F) (det phi delta : nat -> F) (grad_delta : nat -> nat -> F)
      (n_v : nat) (alpha : nat -> dual F) (i : nat) : nat -> dual F :=
    let mu := Nat.min dim (t_vs vt) in
    let psi k d := t_val vt 0 i k d in
    let w k := t_val qt 0 i k 0 in
    let v_h d := dsum (t_nphi vt) (fun l => dscale (psi l d) (alpha l)) in
    let q_h := dsum (t_nphi qt) (fun l => dscale (w l) (alpha (n_v + l)%nat)) in
    let div_s := degenerate_div dim vt det phi delta grad_delta i in
    let div_delta_v := dsum (t_nphi vt) (fun l => dscale (div_s l) (alpha l)) in
    let equ_1 k := dsub (dsum mu (fun d => dscale (psi k d) (v_h d))) (dscale (div_s k) q_h) in
    let equ_2 k := dadd (dscale (w k) div_delta_v) (dscale (w k) q_h) in
    fun a => if a <? n_v then equ_1 a else equ_2 (a - n_v)%nat.

  Definition degenerate_form (space : option (fe_space F)) (functions : option (user_functions F)) (iel : nat)
      (given_alpha : nat -> F) : res (local_system F) :=
    match space, functions with
    | Some sp, Some fn =>
        do v <- dindex (fs_fields sp) "v"%string;
        do q <- dindex (fs_fields sp) "q"%string;
        do rhs <- dindex (vec_of fn) "rhs"%string;
        do phi <- dindex (scal_of fn) "porosity"%string;
        do delta <- dindex (scal_of fn) "d_phi"%string;
        do grad_delta <- dindex (vec_of fn) "grad_d_phi"%string;
        do ve <- get_at (fe_elements v) iel;
        let dim := e_dim ve in
        do w <- quadrature_of sp dim;
        do qe <- get_at (fe_elements q) iel;
        let vt := e_tab ve in
        let qt := e_tab qe in
        let det := e_det ve in
        let n_v := (t_nphi vt * fe_comp v)%nat in
        let n_q := (t_nphi qt * fe_comp q)%nat in
        let n_dof := (n_v + n_q)%nat in
        let alpha := dvar given_alpha in
        do r <- foldM (fun r c =>
          do fc <- get_at rhs c;
          Ok (dsub_slice (c + n_v) (c + n_v + n_q) (fe_comp q)
               (fun k => dconst (ksum (length w) (fun i => (det i * weight w i * t_val qt 0 i k 0) * fc i))) r))
          (seq 0 (fe_comp q)) (fun _ => dzero);
        do r <- foldM (fun r i =>
          if laplace_shapes dim (t_nphi vt) (fe_comp v) (t_nphi qt) (fe_comp q) (t_vs qt)
             && (Nat.min dim (length grad_delta) =? Nat.min dim (t_vs vt)) then
            Ok (fun a => dadd (r a) (dscale (det i * weight w i)
                  (degenerate_integrand dim vt qt det phi delta (fun d i => nth d grad_delta (fun _ => k0) i) n_v alpha i a)))
          else Err ValueError)
          (seq 0 (length w)) r;
        Ok (of_duals n_dof r)
    | _, _ => Err ValueError
    end.

  (** *** UnscaledEllipticWeakForm, unscaled_elliptic_weak_form.py:59-153

      [small x] stands for the tests of lines 135 and 138, [np.isclose(x, 0.0) or x < 0.0]. *)
  Variable small : F -> bool.

  (** lines 118-148 *)
  Definition unscaled_integrand (threshold : F) (dim : nat) (ut pt : tab F) (det phi delta : nat -> F)
      (n_u : nat) (alpha : nat -> dual F) (i : nat) : nat -> dual F :=
    let mu := Nat.min dim (t_vs ut) in
    let psi k d := t_val ut 0 i k d in
    let w k := t_val pt 0 i k 0 in
    let u_h d := dsum (t_nphi ut) (fun l => dscale (psi l d) (alpha l)) in
    let p_h := dsum (t_nphi pt) (fun l => dscale (w l) (alpha (n_u + l)%nat)) in
    let div_psi k := kdiv (ksum (Nat.min (t_nder ut) mu) (fun d => t_val ut (S d) i k d)) (det i) in
    let ph := if small (phi i) then threshold else phi i in
    let de := if small (delta i) then threshold else delta i in
    let div_u := dsum (t_nphi ut) (fun l => dscale (div_psi l) (alpha l)) in
    let equ_1 k := dsub (dsum mu (fun d => dscale (psi k d) (dscale (kdiv k1 (de * de)) (u_h d)))) (dscale (div_psi k) p_h) in
    let equ_2 k := dadd (dscale (w k) div_u) (dscale (w k) (dscale ph p_h)) in
    fun a => if a <? n_u then equ_1 a else equ_2 (a - n_u)%nat.

  Definition unscaled_form (threshold : F) (space : option (fe_space F)) (functions : option (user_functions F)) (iel : nat)
      (given_alpha : nat -> F) : res (local_system F) :=
    match space, functions with
    | Some sp, Some fn =>
        do u <- dindex (fs_fields sp) "u"%string;
        do p <- dindex (fs_fields sp) "p"%string;
        do rhs <- dindex (vec_of fn) "rhs"%string;
        do phi <- dindex (scal_of fn) "porosity"%string;
        do delta <- dindex (scal_of fn) "d_phi"%string;
        do grad_delta <- dindex (vec_of fn) "grad_d_phi"%string;
        do ue <- get_at (fe_elements u) iel;
        let dim := e_dim ue in
        do w <- quadrature_of sp dim;
        do pe <- get_at (fe_elements p) iel;
        let ut := e_tab ue in
        let pt := e_tab pe in
        let det := e_det ue in
        let n_u := (t_nphi ut * fe_comp u)%nat in
        let n_p := (t_nphi pt * fe_comp p)%nat in
        let n_dof := (n_u + n_p)%nat in
        let alpha := dvar given_alpha in
        do r <- foldM (fun r c =>
          do fc <- get_at rhs c;
          Ok (dsub_slice (c + n_u) (c + n_u + n_p) (fe_comp p)
               (fun k => dconst (ksum (length w) (fun i => (ksqrt (phi i) * (det i * weight w i * t_val pt 0 i k 0)) * fc i))) r))
          (seq 0 (fe_comp p)) (fun _ => dzero);
        do r <- foldM (fun r i =>
          if laplace_shapes dim (t_nphi ut) (fe_comp u) (t_nphi pt) (fe_comp p) (t_vs pt) then
            Ok (fun a => dadd (r a) (dscale (det i * weight w i)
                  (unscaled_integrand threshold dim ut pt det phi delta n_u alpha i a)))
          else Err ValueError)
          (seq 0 (length w)) r;
        Ok (of_duals n_dof r)
    | _, _ => Err ValueError
    end.

  (** *** ScaledToPhysicalL2Projection.evaluate_form, scaled_to_physical_l2_projection.py:28-105

      [above phi] stands for [phi > 0.0] (line 90); [alpha_scaled] has at least n_dof entries *)
  Variable above : F -> bool.

  (** lines 73-100; v_h and q_h are plain numbers *)
  Definition physical_integrand (dim : nat) (vt qt : tab F) (phi delta : nat -> F)
      (n_v : nat) (scaled : nat -> F) (alpha : nat -> dual F) (i : nat) : nat -> dual F :=
    let mv := Nat.min dim (t_vs vt) in
    let mq := Nat.min dim (t_vs qt) in
    let psi k d := t_val vt 0 i k d in
    let w k d := t_val qt 0 i k d in
    let u_h d := dsum (t_nphi vt) (fun l => dscale (psi l d) (alpha l)) in
    let v_h d := ksum (t_nphi vt) (fun l => scaled l * psi l d) in
    let p_h d := dsum (t_nphi qt) (fun l => dscale (w l d) (alpha (n_v + l)%nat)) in
    let q_h d := ksum (t_nphi qt) (fun l => scaled (n_v + l)%nat * w l d) in
    let v_h d := if above (phi i) then v_h d * delta i else v_h d in
    let q_h d := if above (phi i) then q_h d * kdiv k1 (ksqrt (phi i)) else q_h d in
    let equ_1 k := dsum mv (fun d => dscale (psi k d) (dsub (u_h d) (dconst (v_h d)))) in
    let equ_2 k := dsum mq (fun d => dscale (w k d) (dsub (p_h d) (dconst (q_h d)))) in
    fun a => if a <? n_v then equ_1 a else equ_2 (a - n_v)%nat.

  Definition physical_form (space : option (fe_space F)) (functions : option (user_functions F)) (iel : nat)
      (given_alpha scaled : nat -> F) : res (local_system F) :=
    match space, functions with
    | Some sp, Some fn =>
        do v <- dindex (fs_fields sp) "v"%string;
        do q <- dindex (fs_fields sp) "q"%string;
        do phi <- dindex (scal_of fn) "porosity"%string;
        do delta <- dindex (scal_of fn) "d_phi"%string;
        do ve <- get_at (fe_elements v) iel;
        let dim := e_dim ve in
        do w <- quadrature_of sp dim;
        do qe <- get_at (fe_elements q) iel;
        let vt := e_tab ve in
        let qt := e_tab qe in
        let n_v := (t_nphi vt * fe_comp v)%nat in
        let n_q := (t_nphi qt * fe_comp q)%nat in
        let n_dof := (n_v + n_q)%nat in
        let alpha := dvar given_alpha in
        do r <- foldM (fun r i =>
          if (n_v =? t_nphi vt) && (n_q =? t_nphi qt) then
            Ok (fun a => dadd (r a) (dscale (e_det ve i * weight w i)
                  (physical_integrand dim vt qt phi delta n_v scaled alpha i a)))
          else Err ValueError)
          (seq 0 (length w)) (fun _ => dzero);
        Ok (of_duals n_dof r)
    | _, _ => Err ValueError
    end.

  (** *** Flux boundary conditions: LaplaceDualWeakFormBCDirichlet (laplace_dual_weak_form.py:
      90-154), UnscaledEllipticWeakFormBCDirichlet (unscaled_elliptic_weak_form.py:156-218),
      DegenerateEllipticWeakFormBCDirichlet (degenerate_elliptic_weak_form.py:147-216).

      [trace iel] is what they compute of the neighbour: its dimension, the DoFs of the facet
      (dof_n_index), its basis at the mapped points and the unit normal.  Errors of that
      computation (no neighbour, facet not found) are its errors. *)
  Record trace_data : Type := mk_trace { tr_dim : nat; tr_dofs : list nat; tr_tab : tab F; tr_normal : list F }.

  (** tab[0, i, dof_n_index, 0:dim] @ n[0:dim]: entry k *)
  Definition trace_phi (tr : trace_data) (i k : nat) : F :=
    ksum (Nat.min (tr_dim tr) (t_vs (tr_tab tr)))
      (fun d => t_val (tr_tab tr) 0 i (nth k (tr_dofs tr) 0) d * nth d (tr_normal tr) k0).
  Definition trace_fits (tr : trace_data) : bool :=
    Nat.min (tr_dim tr) (t_vs (tr_tab tr)) =? Nat.min (tr_dim tr) (length (tr_normal tr)).

  (** the loop over components and points; [value c i] is p_D_v[c] *)
  Definition flux_loop (e : element F) (w : list F) (m n_phi : nat) (tr : trace_data) (value : nat -> nat -> res F)
      : res (nat -> F) :=
    let n_dof := (n_phi * m)%nat in
    foldM (fun r c =>
      do block <- foldM (fun blk i =>
        do pc <- value c i;
        if trace_fits tr && (length (tr_dofs tr) =? n_phi) then
          Ok (fun k => blk k + e_det e i * weight w i * pc * trace_phi tr i k)
        else Err ValueError)
        (seq 0 (length w)) (fun _ => k0);
      Ok (add_slice c (c + n_dof) m block r))
      (seq 0 m) (fun _ => k0).

  Definition laplace_bc (sp : fe_space F) (fn : user_functions F) (trace : nat -> res trace_data) (iel : nat)
      (alpha : nat -> F) : res (local_system F) :=
    do p_D <- dindex (vec_of fn) "p"%string;
    do u <- dindex (fs_fields sp) "u"%string;
    do e <- get_at (fe_elements u) iel;
    do w <- quadrature_of sp (e_dim e);
    let n_phi := t_nphi (e_tab e) in
    do tr <- trace iel;
    do r <- flux_loop e w (fe_comp u) n_phi tr (fun c i => do pc <- get_at p_D c; Ok (pc i));
    Ok (mk_local (n_phi * fe_comp u)%nat r (fun _ _ => k0)).

  Definition unscaled_bc (sp : fe_space F) (fn : user_functions F) (trace : nat -> res trace_data) (iel : nat)
      (alpha : nat -> F) : res (local_system F) :=
    do p_D <- dindex (vec_of fn) "p"%string;
    do u <- dindex (fs_fields sp) "u"%string;
    do e <- get_at (fe_elements u) iel;
    do w <- quadrature_of sp (e_dim e);
    do tr <- trace iel;
    let n_phi := length (tr_dofs tr) in
    do r <- flux_loop e w (fe_comp u) n_phi tr (fun c i => do pc <- get_at p_D c; Ok (pc i));
    Ok (mk_local (n_phi * fe_comp u)%nat r (fun _ _ => k0)).

  (** here the boundary value is multiplied by d_phi / sqrt(porosity) where the porosity is
      positive, and used as it is elsewhere (lines 206-212) *)
  Definition degenerate_bc (sp : fe_space F) (fn : user_functions F) (trace : nat -> res trace_data) (iel : nat)
      (alpha : nat -> F) : res (local_system F) :=
    do q_D <- dindex (vec_of fn) "q"%string;
    do delta <- dindex (scal_of fn) "d_phi"%string;
    do phi <- dindex (scal_of fn) "porosity"%string;
    do v <- dindex (fs_fields sp) "v"%string;
    do e <- get_at (fe_elements v) iel;
    do w <- quadrature_of sp (e_dim e);
    do tr <- trace iel;
    let n_phi := length (tr_dofs tr) in
    do r <- flux_loop e w (fe_comp v) n_phi tr (fun c i => do qc <- get_at q_D c;
      Ok (if positive (phi i) then qc i * kdiv (delta i) (ksqrt (phi i)) else qc i));
    Ok (mk_local (n_phi * fe_comp v)%nat r (fun _ _ => k0)).
End Mixed.
Arguments trace_data : clear implicits.

Section Elastic2.
  Context {F : scalar}.
  Local Open Scope num_scope.

  (** *** LEPrimalStressConstraintWeakForm.evaluate_form,
      le_primal_stress_constraint_weak_form.py:13-125.  [beta] is 1.0e6 in the code; s_target
      has entries [target c d i]. *)
  Definition stress_energy (beta : F) (nd : nat) (e : element F) (lambda mu : nat -> F) (target : nat -> nat -> nat -> F)
      (alpha : nat -> dual F) (i k c : nat) : dual F :=
    let g := grad_phi e i in
    let grad_uh c d := dsum (t_nphi (e_tab e)) (fun l => dscale (g l d) (alpha (l * nd + c)%nat)) in
    let eh c d := dscale khalf (dadd (grad_uh c d) (grad_uh d c)) in
    let tr_eh := dsum nd (fun d => eh d d) in
    let sh c d := dadd (dscale (k2 * mu i) (eh c d))
                       (dscale (if c =? d then k1 else k0) (dscale (lambda i) tr_eh)) in
    dsum nd (fun d => dscale (g k d) (dscale beta (dsub (sh c d) (dconst (target c d i))))).

  Definition stress_constraint (beta : F) (target : nat -> nat -> nat -> F) (space : option (fe_space F))
      (functions : option (user_functions F)) (iel : nat) (given_alpha : nat -> F) : res (local_system F) :=
    match space, functions with
    | Some sp, Some fn =>
        do u <- dindex (fs_fields sp) "u"%string;
        do lambda <- dindex (scal_of fn) "lambda"%string;
        do mu <- dindex (scal_of fn) "mu"%string;
        do e <- get_at (fe_elements u) iel;
        let dim := e_dim e in
        do w <- quadrature_of sp dim;
        let t := e_tab e in
        let m := fe_comp u in
        let n_dof := (t_nphi t * m)%nat in
        let alpha := dvar given_alpha in
        do r <- foldM (fun r i =>
          if ((dim =? 2) || (dim =? 3)) && (1 <=? m) && ((t_nphi t =? 0) || (m =? dim)) then
            Ok (fun a => dadd (r a) (dscale (e_det e i * weight w i)
                  (stress_energy beta dim e lambda mu target alpha i (a / dim)%nat (a mod dim)%nat)))
          else Err ValueError)
          (seq 0 (length w)) (fun _ => dzero);
        Ok (of_duals n_dof r)
    | _, _ => Err ValueError
    end.

  (** *** LETaylorHoodWeakForm.evaluate_form, le_taylor_hood_weak_form.py:12-186 (two
      dimensions; line 135 raises AssertionError otherwise).  n_p_dof is n_p_phi, whatever the
      number of components of "p" (line 44). *)

  (** lines 72-131: the integrand at point i *)
  Definition taylor_hood_integrand (e : element F) (pt : tab F) (lambda mu : nat -> F) (n_u : nat)
      (alpha : nat -> dual F) (i : nat) : nat -> dual F :=
    let g := grad_phi e i in
    let phi_p k := t_val pt 0 i k 0 in
    let grad_uh c d := dsum (t_nphi (e_tab e)) (fun l => dscale (g l d) (alpha (l * 2 + c)%nat)) in
    let eh c d := dscale khalf (dadd (grad_uh c d) (grad_uh d c)) in
    let tr_eh := dsum 2 (fun d => eh d d) in
    let div_uh := dsum 2 (fun d => grad_uh d d) in
    let ph := dsum (t_nphi pt) (fun l => dscale (phi_p l) (alpha (n_u + l)%nat)) in
    let id c d := if c =? d then k1 else k0 in
    let sh c d := dadd (dscale (k2 * mu i) (eh c d)) (dscale (id c d) (dscale (lambda i) tr_eh)) in
    let tr_sh := dsum 2 (fun d => sh d d) in
    let sh_dev c d := dsub (sh c d) (dscale (id c d) (dscale (kdiv k1 k2) tr_sh)) in
    let equ_1 k c := dsum 2 (fun d => dscale (g k d) (dadd (sh_dev c d) (dscale (id c d) ph))) in
    let equ_2 k := dsub (dscale (phi_p k) div_uh) (dscale (kdiv k1 (lambda i + mu i) * phi_p k) ph) in
    fun a => if a <? n_u then equ_1 (a / 2)%nat (a mod 2)%nat else equ_2 (a - n_u)%nat.

  Definition taylor_hood (space : option (fe_space F)) (functions : option (user_functions F)) (iel : nat)
      (given_alpha : nat -> F) : res (local_system F) :=
    match space, functions with
    | Some sp, Some fn =>
        do u <- dindex (fs_fields sp) "u"%string;
        do p <- dindex (fs_fields sp) "p"%string;
        do rhs <- dindex (vec_of fn) "rhs"%string;
        do lambda <- dindex (scal_of fn) "lambda"%string;
        do mu <- dindex (scal_of fn) "mu"%string;
        do e <- get_at (fe_elements u) iel;
        do pe <- get_at (fe_elements p) iel;
        let dim := e_dim e in
        do w <- quadrature_of sp dim;
        let t := e_tab e in
        let pt := e_tab pe in
        let m := fe_comp u in
        let n_u := (t_nphi t * m)%nat in
        let n_dof := (n_u + t_nphi pt)%nat in
        let alpha := dvar given_alpha in
        do r <- foldM (fun r c =>
          do fc <- get_at rhs c;
          Ok (dadd_slice c (c + n_u) m
               (fun k => dconst (ksum (length w) (fun i => (e_det e i * weight w i * t_val t 0 i k 0) * fc i))) r))
          (seq 0 m) (fun _ => dzero);
        do r <- foldM (fun r i =>
          if dim =? 2 then
            if (1 <=? m) && ((t_nphi t =? 0) || (m =? 2)) && (Nat.min dim (t_vs pt) =? 1) then
              Ok (fun a => dadd (r a) (dscale (e_det e i * weight w i)
                    (taylor_hood_integrand e pt lambda mu n_u alpha i a)))
            else Err ValueError
          else Err AssertionError)
          (seq 0 (length w)) r;
        Ok (of_duals n_dof r)
    | _, _ => Err ValueError
    end.

  (** *** LCEPrimalWeakForm.evaluate_form, lce_primal_weak_form.py:10-220: displacement "u" and
      rotation "t" with one component in two dimensions, three in three dimensions *)

  (** Theta_outer, lines 100 and 173-179: entry c, d in the rotation components *)
  Definition theta_outer (nd : nat) (th : nat -> dual F) (c d : nat) : dual F :=
    if nd =? 2 then
      match c, d with
      | 0, 1 => dscale (- k1) (th 0)
      | 1, 0 => dscale k1 (th 0)
      | _, _ => dscale k0 (th 0)
      end
    else
      match c, d with
      | 0, 1 => dscale (- k1) (th 2)
      | 0, 2 => th 1
      | 1, 0 => th 2
      | 1, 2 => dscale (- k1) (th 0)
      | 2, 0 => dscale (- k1) (th 1)
      | 2, 1 => th 0
      | _, _ => dscale k0 (th 0)
      end.
  (** S_cross, lines 113 and 193-201 *)
  Definition s_cross (nd : nat) (sk : nat -> nat -> dual F) (m : nat) : dual F :=
    if nd =? 2 then dsub (sk 1 0) (sk 0 1)
    else match m with
         | 0 => dsub (sk 2 1) (sk 1 2)
         | 1 => dsub (sk 0 2) (sk 2 0)
         | _ => dsub (sk 1 0) (sk 0 1)
         end.
  Definition n_rot (nd : nat) : nat := if nd =? 2 then 1 else 3.

  (** lines 71-118 and 120-215: the integrand at point i.  The gradients of "t" use the inverse
      Jacobian of the element of "u" *)
  Definition lce_integrand (nd : nat) (e : element F) (tt : tab F) (lambda mu kappa gamma : nat -> F) (n_u : nat)
      (alpha : nat -> dual F) (i : nat) : nat -> dual F :=
    let g := grad_phi e i in
    let gt k d := ksum (t_nder tt) (fun r => e_inv e i r d * t_val tt (S r) i k 0) in
    let nt := n_rot nd in
    let phi_t k := t_val tt 0 i k 0 in
    let grad_uh c d := dsum (t_nphi (e_tab e)) (fun l => dscale (g l d) (alpha (l * nd + c)%nat)) in
    let grad_th m d := dsum (t_nphi tt) (fun l => dscale (gt l d) (alpha (n_u + (l * nt + m))%nat)) in
    let th m := dsum (t_nphi tt) (fun l => dscale (phi_t l) (alpha (n_u + (l * nt + m))%nat)) in
    let eh c d := dadd (grad_uh c d) (theta_outer nd th c d) in
    let symm c d := dscale khalf (dadd (eh c d) (eh d c)) in
    let skew c d := dscale khalf (dsub (eh c d) (eh d c)) in
    let tr_eh := dsum nd (fun d => eh d d) in
    let sh c d := dadd (dadd (dscale (k2 * mu i) (symm c d)) (dscale (k2 * kappa i) (skew c d)))
                       (dscale (if c =? d then k1 else k0) (dscale (lambda i) tr_eh)) in
    let skew_sh c d := dscale khalf (dsub (sh c d) (sh d c)) in
    let strain k c := dsum nd (fun d => dscale (g k d) (sh c d)) in
    let curvature k m := dadd (dsum nd (fun d => dscale (gt k d) (dscale (gamma i) (grad_th m d))))
                              (dscale (phi_t k) (s_cross nd skew_sh m)) in
    fun a => if a <? n_u then strain (a / nd)%nat (a mod nd)%nat
             else curvature ((a - n_u) / nt)%nat ((a - n_u) mod nt)%nat.

  (** a test that the shapes fit: u_components = dim, t_components as above, and scalar
      functions in the space of "t" and (lines 88-89, 141-143) any in that of "u" *)
  Definition lce_shapes (dim uc tc tvs : nat) : bool :=
    ((dim =? 2) || (dim =? 3)) && (uc =? dim) && (tc =? n_rot dim) && (tvs =? 1).

  (** For other shapes the code raises ValueError when there is a basis function; spaces
      without basis functions are not modelled *)
  Definition lce_primal (space : option (fe_space F)) (functions : option (user_functions F)) (iel : nat)
      (given_alpha : nat -> F) : res (local_system F) :=
    match space, functions with
    | Some sp, Some fn =>
        do u <- dindex (fs_fields sp) "u"%string;
        do t <- dindex (fs_fields sp) "t"%string;
        do rhs <- dindex (vec_of fn) "rhs"%string;
        do lambda <- dindex (scal_of fn) "lambda"%string;
        do mu <- dindex (scal_of fn) "mu"%string;
        do kappa <- dindex (scal_of fn) "kappa"%string;
        do gamma <- dindex (scal_of fn) "gamma"%string;
        do e <- get_at (fe_elements u) iel;
        let dim := e_dim e in
        do w <- quadrature_of sp dim;
        do te <- get_at (fe_elements t) iel;
        let ut := e_tab e in
        let tt := e_tab te in
        let uc := fe_comp u in
        let tc := fe_comp t in
        let n_u := (t_nphi ut * uc)%nat in
        let n_t := (t_nphi tt * tc)%nat in
        let n_dof := (n_u + n_t)%nat in
        let alpha := dvar given_alpha in
        do r <- foldM (fun r c =>
          do fc <- get_at rhs c;
          Ok (dadd_slice c (c + n_u) uc
               (fun k => dconst (ksum (length w) (fun i => (e_det e i * weight w i * t_val ut 0 i k 0) * fc i))) r))
          (seq 0 uc) (fun _ => dzero);
        do r <- foldM (fun r c =>
          do fc <- get_at rhs (c + uc);
          Ok (dadd_slice (c + n_u) (c + n_u + n_t) tc
               (fun k => dconst (ksum (length w) (fun i => (e_det e i * weight w i * t_val tt 0 i k 0) * fc i))) r))
          (seq 0 tc) r;
        do r <- foldM (fun r i =>
          if lce_shapes dim uc tc (t_vs tt) then
            Ok (fun a => dadd (r a) (dscale (e_det e i * weight w i)
                  (lce_integrand dim e tt lambda mu kappa gamma n_u alpha i a)))
          else Err ValueError)
          (seq 0 (length w)) r;
        Ok (of_duals n_dof r)
    | _, _ => Err ValueError
    end.

  (** *** LCEPrimalWeakFormBCDirichlet.evaluate_form, lce_primal_weak_form.py:223-297; [beta]
      is 1.0e12 in the code; the blocks jac_block_u, jac_block_t are penalty_block *)
  Definition lce_bc_dirichlet (beta : F) (sp : fe_space F) (fn : user_functions F) (iel : nat)
      (alpha : nat -> F) : res (local_system F) :=
    do u_D <- dindex (vec_of fn) "u"%string;
    do t_D <- dindex (vec_of fn) "t"%string;
    do u <- dindex (fs_fields sp) "u"%string;
    do t <- dindex (fs_fields sp) "t"%string;
    do e <- get_at (fe_elements u) iel;
    do te <- get_at (fe_elements t) iel;
    do w <- quadrature_of sp (e_dim e);
    let n_u := (t_nphi (e_tab e) * fe_comp u)%nat in
    let n_t := (t_nphi (e_tab te) * fe_comp t)%nat in
    do rj <- penalty_loop beta e w (e_tab e) 0 (fe_comp u) u_D ((fun _ => k0), (fun _ _ => k0));
    do rj <- penalty_loop beta e w (e_tab te) n_u (fe_comp t) t_D rj;
    Ok (mk_local (n_u + n_t)%nat (fst rj) (snd rj)).
End Elastic2.
