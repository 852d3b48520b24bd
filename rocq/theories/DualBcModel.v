(** * Model of the boundary forms of the dual problems and of the forms that cannot be evaluated:
    src/weak_forms/le_dual_weak_form.py, lce_dual_weak_form.py, lce_scaled_dual_weak_form.py,
    laplace_primal_weak_form.py

    Definitions only.  The conventions are those of AdModel2: the space of a boundary form holds
    the boundary elements and the boundary quadrature; [trace iel] is what the form computes of
    the neighbour of the facet (find_higher_dimension_neighs, transform_lower_to_higher,
    evaluate_mapping, evaluate_basis, the DoFs of the facet and normal), or the exception one of
    these raises.  numpy's broadcasting of a facet with a single DoF over a longer block is not
    modelled: DoFs that do not match the block raise ValueError. *)
From Coq Require Import String List Arith Bool.
From Verif Require Import Base FormModel AdModel AdModel2.
Import ListNotations.
Open Scope list_scope.

Section DualBc.
  Context {F : scalar}.
  Local Open Scope num_scope.

  (** the loop over the components of one field that subtracts the given value against the
      normal traces, le_dual_weak_form.py:563-576, lce_dual_weak_form.py:728-752; [base] is the
      first row of the field *)
  Definition value_loop (e : element F) (w : list F) (base m n_phi : nat) (tr : trace_data F)
      (value : nat -> nat -> res F) (r : nat -> F) : res (nat -> F) :=
    let n_dof := (n_phi * m)%nat in
    foldM (fun r c =>
      let b := (c + base)%nat in
      do block <- foldM (fun blk i =>
        do v <- value c i;
        if trace_fits tr && (length (tr_dofs tr) =? n_phi) then
          Ok (fun k => blk k - e_det e i * weight w i * v * trace_phi tr i k)
        else Err ValueError)
        (seq 0 (length w)) (fun _ => k0);
      Ok (add_slice b (b + n_dof) m block r))
      (seq 0 m) r.

  (** the same loop with the penalty and its matrix, lce_dual_weak_form.py:837-869 *)
  Definition trace_block (beta : F) (e : element F) (w : list F) (tr : trace_data F) (k l : nat) : F :=
    ksum (length w) (fun i => beta * e_det e i * weight w i * (trace_phi tr i k * trace_phi tr i l)).
  Definition traction_loop (beta : F) (e : element F) (w : list F) (base m n_phi : nat) (tr : trace_data F)
      (value : nat -> nat -> res F) (rj : (nat -> F) * (nat -> nat -> F)) : res ((nat -> F) * (nat -> nat -> F)) :=
    let n_dof := (n_phi * m)%nat in
    foldM (fun rj c =>
      let b := (c + base)%nat in
      do block <- foldM (fun blk i =>
        do v <- value c i;
        if trace_fits tr && (length (tr_dofs tr) =? n_phi) then
          Ok (fun k => blk k - beta * e_det e i * weight w i * v * trace_phi tr i k)
        else Err ValueError)
        (seq 0 (length w)) (fun _ => k0);
      Ok (add_slice b (b + n_dof) m block (fst rj),
          add_block b (b + n_dof) m b (b + n_dof) m (trace_block beta e w tr) (snd rj)))
      (seq 0 m) rj.

  (** u_D_v[c] at point i *)
  Definition component (g : list (nat -> F)) (c i : nat) : res F := do f <- get_at g c; Ok (f i).

  (** LEDualWeakFormBCDirichlet.evaluate_form, le_dual_weak_form.py:513-578 *)
  Definition le_dual_bc (sp : fe_space F) (fn : user_functions F) (trace : nat -> res (trace_data F)) (iel : nat)
      (alpha : nat -> F) : res (local_system F) :=
    do u_D <- dindex (vec_of fn) "u"%string;
    do s <- dindex (fs_fields sp) "s"%string;
    do e <- get_at (fe_elements s) iel;
    do w <- quadrature_of sp (e_dim e);
    let n_phi := t_nphi (e_tab e) in
    do tr <- trace iel;
    do r <- value_loop e w 0 (fe_comp s) n_phi tr (component u_D) (fun _ => k0);
    Ok (mk_local (n_phi * fe_comp s)%nat r (fun _ _ => k0)).

  (** The trace the loops of the two-field forms use for the first field: the dimension is the one
      of the neighbour found last, that of the second field (lce_dual_weak_form.py:713, 732, 845).
      For the second field: the normal is the one of the first (line 709) *)
  Definition first_trace (ts tm : trace_data F) : trace_data F :=
    mk_trace (tr_dim tm) (tr_dofs ts) (tr_tab ts) (tr_normal ts).
  Definition second_trace (ts tm : trace_data F) : trace_data F :=
    mk_trace (tr_dim tm) (tr_dofs tm) (tr_tab tm) (tr_normal ts).

  (** LCEDualWeakFormBCDirichlet.evaluate_form, lce_dual_weak_form.py:651-757.  Determinants and
      weights are those of the stress for both fields.  With no stress component the second loop
      would read the dimension of the facet; that case is not modelled. *)
  Definition lce_dual_bc (sp : fe_space F) (fn : user_functions F) (trace_s trace_m : nat -> res (trace_data F)) (iel : nat)
      (alpha : nat -> F) : res (local_system F) :=
    do u_D <- dindex (vec_of fn) "u"%string;
    do t_D <- dindex (vec_of fn) "t"%string;
    do s <- dindex (fs_fields sp) "s"%string;
    do m <- dindex (fs_fields sp) "m"%string;
    do es <- get_at (fe_elements s) iel;
    do em <- get_at (fe_elements m) iel;
    do w <- quadrature_of sp (e_dim es);
    let n_s := t_nphi (e_tab es) in
    let n_m := t_nphi (e_tab em) in
    do ts <- trace_s iel;
    do tm <- trace_m iel;
    do r <- value_loop es w 0 (fe_comp s) n_s (first_trace ts tm) (component u_D) (fun _ => k0);
    do r <- value_loop es w (n_s * fe_comp s) (fe_comp m) n_m (second_trace ts tm) (component t_D) r;
    Ok (mk_local (n_s * fe_comp s + n_m * fe_comp m)%nat r (fun _ _ => k0)).

  (** LCEScaledDualWeakFormBCDirichlet.evaluate_form, lce_scaled_dual_weak_form.py:702-812; [eps]
      is 1.0e-16; functions["grad_l"] is read and not used *)
  Definition lce_scaled_dual_bc (eps : F) (sp : fe_space F) (fn : user_functions F) (trace_s trace_m : nat -> res (trace_data F))
      (iel : nat) (alpha : nat -> F) : res (local_system F) :=
    do u_D <- dindex (vec_of fn) "u"%string;
    do t_D <- dindex (vec_of fn) "t"%string;
    do l <- dindex (scal_of fn) "l"%string;
    do _ <- dindex (vec_of fn) "grad_l"%string;
    do s <- dindex (fs_fields sp) "s"%string;
    do m <- dindex (fs_fields sp) "m"%string;
    do es <- get_at (fe_elements s) iel;
    do em <- get_at (fe_elements m) iel;
    do w <- quadrature_of sp (e_dim es);
    let n_s := t_nphi (e_tab es) in
    let n_m := t_nphi (e_tab em) in
    do ts <- trace_s iel;
    do tm <- trace_m iel;
    do r <- value_loop es w 0 (fe_comp s) n_s (first_trace ts tm) (component u_D) (fun _ => k0);
    do r <- value_loop es w (n_s * fe_comp s) (fe_comp m) n_m (second_trace ts tm)
              (fun c i => do v <- component t_D c i; Ok (v * (l i + eps))) r;
    Ok (mk_local (n_s * fe_comp s + n_m * fe_comp m)%nat r (fun _ _ => k0)).

  (** LCEDualWeakFormBCNeumann.evaluate_form, lce_dual_weak_form.py:760-871; [beta] is 1.0e12 *)
  Definition lce_dual_bc_neumann (beta : F) (sp : fe_space F) (fn : user_functions F) (trace_s trace_m : nat -> res (trace_data F))
      (iel : nat) (alpha : nat -> F) : res (local_system F) :=
    do s_N <- dindex (vec_of fn) "s"%string;
    do m_N <- dindex (vec_of fn) "m"%string;
    do s <- dindex (fs_fields sp) "s"%string;
    do m <- dindex (fs_fields sp) "m"%string;
    do es <- get_at (fe_elements s) iel;
    do em <- get_at (fe_elements m) iel;
    do w <- quadrature_of sp (e_dim es);
    let n_s := t_nphi (e_tab es) in
    let n_m := t_nphi (e_tab em) in
    do ts <- trace_s iel;
    do tm <- trace_m iel;
    do rj <- traction_loop beta es w 0 (fe_comp s) n_s (first_trace ts tm) (component s_N) ((fun _ => k0), (fun _ _ => k0));
    do rj <- traction_loop beta es w (n_s * fe_comp s) (fe_comp m) n_m (second_trace ts tm) (component m_N) rj;
    Ok (mk_local (n_s * fe_comp s + n_m * fe_comp m)%nat (fst rj) (snd rj)).

  (** *** Forms that cannot be evaluated *)

  (** Two classes named LCEDualWeakFormBCNeumann, le_dual_weak_form.py:580-644 (fields ["s"]) and
      lce_scaled_dual_weak_form.py:814-917 (fields ["s"; "m"]): after the reads they take
      s_data.mapping.x; MappingData.__init__ (element_data.py:24-38) assigns local names only and
      nothing in the library stores a mapping (finite_element.py:128-154 is always called without
      storage), so the attribute does not exist *)
  Definition old_bc_neumann (names : list string) (sp : fe_space F) (fn : user_functions F) (iel : nat)
      (alpha : nat -> F) : res (local_system F) :=
    do _ <- mapM (fun name => dindex (vec_of fn) name) names;
    do fields <- mapM (fun name => dindex (fs_fields sp) name) names;
    do _ <- mapM (fun fld => get_at (fe_elements fld) iel) fields;
    Err AttributeError.

  (** LaplacePrimalWeakForm.evaluate_form, laplace_primal_weak_form.py:11-76: line 28 unpacks the
      list self.space.quadrature into two names; [rest] stands for what would follow *)
  Definition laplace_primal (rest : res (local_system F)) (space : option (fe_space F)) (functions : option (user_functions F))
      (iel : nat) (alpha : nat -> F) : res (local_system F) :=
    match space, functions with
    | Some sp, Some fn =>
        do p <- dindex (fs_fields sp) "p"%string;
        do _ <- dindex (vec_of fn) "rhs"%string;
        do _ <- dindex (scal_of fn) "kappa"%string;
        do _ <- get_at (fe_elements p) iel;
        if length (fs_quadrature sp) =? 2 then rest else Err ValueError
    | _, _ => Err ValueError
    end.

  (** LaplacePrimalWeakFormBCDirichlet.evaluate_form, laplace_primal_weak_form.py:79-157 *)
  Definition laplace_primal_bc (rest : res (local_system F)) (sp : fe_space F) (fn : user_functions F)
      (iel : nat) (alpha : nat -> F) : res (local_system F) :=
    do _ <- dindex (vec_of fn) "p"%string;
    do p <- dindex (fs_fields sp) "p"%string;
    do _ <- get_at (fe_elements p) iel;
    if length (fs_quadrature sp) =? 2 then rest else Err ValueError.
End DualBc.
