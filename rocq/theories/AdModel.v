(** * Model of weak forms evaluated with automatic differentiation

    src/weak_forms/laplace_dual_weak_form.py, le_primal_weak_form.py.

    Definitions only.  The library auto_diff is taken to be forward differentiation: a number
    is a value with its derivatives in the entries of [alpha]; [alpha] behaves as a row.  Arrays
    are functions of their indices.  The values of the user's functions at the quadrature points
    are data. *)
From Coq Require Import String List Arith Bool.
From Verif Require Import Base FormModel.
Import ListNotations.
Open Scope list_scope.

Section Dual.
  Context {F : scalar}.
  Local Open Scope num_scope.

  (** VecValDer, one entry: value and derivatives *)
  Record dual : Type := mk_dual { du_v : F; du_d : nat -> F }.
  Definition dzero : dual := mk_dual k0 (fun _ => k0).
  Definition dadd (x y : dual) : dual := mk_dual (du_v x + du_v y) (fun b => du_d x b + du_d y b).
  Definition dsub (x y : dual) : dual := mk_dual (du_v x - du_v y) (fun b => du_d x b - du_d y b).
  (** a plain number times a dual number *)
  Definition dscale (c : F) (x : dual) : dual := mk_dual (c * du_v x) (fun b => c * du_d x b).
  (** a plain number as a dual number *)
  Definition dconst (c : F) : dual := mk_dual c (fun _ => k0).
  Fixpoint dsum (n : nat) (f : nat -> dual) : dual :=
    match n with 0 => dzero | S m => dadd (dsum m f) (f m) end.
  (** [ad.AutoDiff(alpha)] *)
  Definition dvar (alpha : nat -> F) (b : nat) : dual :=
    mk_dual (alpha b) (fun b' => if b =? b' then k1 else k0).

  (** [r[b:e:step] += v] for plain [v] and for dual [v] *)
  Definition dadd_slice (b e step : nat) (v r : nat -> dual) : nat -> dual :=
    fun a => match in_slice b e step a with Some k => dadd (r a) (v k) | None => r a end.
  Definition dsub_slice (b e step : nat) (v r : nat -> dual) : nat -> dual :=
    fun a => match in_slice b e step a with Some k => dsub (r a) (v k) | None => r a end.

  (** The user's functions by name, evaluated at the points: vector valued (one entry per
      component) and scalar *)
  Record user_functions : Type := mk_user { vec_of : dict string (list (nat -> F)); scal_of : dict string (nat -> F) }.

  (** [r_el, j_el = el_form.val, el_form.der.reshape((n_dof, n_dof))] *)
  Definition of_duals (n : nat) (r : nat -> dual) : local_system F :=
    mk_local n (fun a => du_v (r a)) (fun a b => du_d (r a) b).
End Dual.
Arguments dual : clear implicits.
Arguments user_functions : clear implicits.

Section Laplace.
  Context {F : scalar}.
  Local Open Scope num_scope.

  (** *** LaplaceDualWeakForm.evaluate_form, laplace_dual_weak_form.py:11-87

      The matrix products of lines 70-77 raise ValueError unless the shapes fit: n_q_dof =
      n_u_phi, n_p_dof = n_p_phi, and one column in w_h. *)
  Definition laplace_shapes (dim nu uc np pc pvs : nat) : bool :=
    ((nu * uc)%nat =? nu) && ((np * pc)%nat =? np) && (Nat.min dim pvs =? 1).

  (** lines 59-82: the integrand at point i *)
  Definition laplace_integrand (dim : nat) (ut pt : tab F) (det : nat -> F) (kappa : nat -> F) (n_q : nat)
      (alpha : nat -> dual F) (i : nat) : nat -> dual F :=
    let mu := Nat.min dim (t_vs ut) in
    let psi k d := t_val ut 0 i k d in
    let w k := t_val pt 0 i k 0 in
    let div_psi k := kdiv (ksum (Nat.min (t_nder ut) mu) (fun d => t_val ut (S d) i k d)) (det i) in
    let u_h d := dscale (kdiv k1 (kappa i)) (dsum (t_nphi ut) (fun l => dscale (psi l d) (alpha l))) in
    let p_h := dsum (t_nphi pt) (fun l => dscale (w l) (alpha (n_q + l)%nat)) in
    let div_uh := dsum (t_nphi ut) (fun l => dscale (div_psi l) (alpha l)) in
    let equ_1 k := dsub (dsum mu (fun d => dscale (psi k d) (u_h d))) (dscale (div_psi k) p_h) in
    let equ_2 k := dscale (w k) div_uh in
    fun a => if a <? n_q then equ_1 a else equ_2 (a - n_q)%nat.

  Definition laplace_dual (space : option (fe_space F)) (functions : option (user_functions F)) (iel : nat)
      (given_alpha : nat -> F) : res (local_system F) :=
    match space, functions with
    | Some sp, Some fn =>
        do u <- dindex (fs_fields sp) "u"%string;
        do p <- dindex (fs_fields sp) "p"%string;
        do rhs <- dindex (vec_of fn) "rhs"%string;
        do kappa <- dindex (scal_of fn) "kappa"%string;
        do ue <- get_at (fe_elements u) iel;
        let dim := e_dim ue in
        do w <- quadrature_of sp dim;
        do pe <- get_at (fe_elements p) iel;
        let ut := e_tab ue in
        let pt := e_tab pe in
        let det := e_det ue in
        let n_q := (t_nphi ut * fe_comp u)%nat in
        let n_p := (t_nphi pt * fe_comp p)%nat in
        let n_dof := (n_q + n_p)%nat in
        (* line 46: the state handed over is replaced by zeros *)
        let alpha := dvar (fun _ => k0) in
        do r <- foldM (fun r c =>
          do fc <- get_at rhs c;
          Ok (dsub_slice (c + n_q) (c + n_q + n_p) (fe_comp p)
               (fun k => dconst (ksum (length w) (fun i => (det i * weight w i * t_val pt 0 i k 0) * fc i))) r))
          (seq 0 (fe_comp p)) (fun _ => dzero);
        do r <- foldM (fun r i =>
          if laplace_shapes dim (t_nphi ut) (fe_comp u) (t_nphi pt) (fe_comp p) (t_vs pt) then
            Ok (fun a => dadd (r a) (dscale (det i * weight w i)
                  (laplace_integrand dim ut pt det kappa n_q alpha i a)))
          else Err ValueError)
          (seq 0 (length w)) r;
        Ok (of_duals n_dof r)
    | _, _ => Err ValueError
    end.
End Laplace.

Section Elastic.
  Context {F : scalar}.
  Local Open Scope num_scope.

  (** Gradients of the basis functions, le_primal_weak_form.py:60-64 and 91-96: row [d] of inv_jac_m is
      inv_jac[i] @ e_d, so grad_phi_u[k][d] *)
  Definition grad_phi (e : element F) (i k d : nat) : F :=
    ksum (t_nder (e_tab e)) (fun r => e_inv e i r d * t_val (e_tab e) (S r) i k 0).

  (** lines 66-88 (dim 2) and 98-123 (dim 3): the strain energy at point i, entry k, c *)
  Definition le_strain_energy (nd : nat) (e : element F) (lambda mu : nat -> F) (alpha : nat -> dual F)
      (i k c : nat) : dual F :=
    let g := grad_phi e i in
    let grad_uh c d := dsum (t_nphi (e_tab e)) (fun l => dscale (g l d) (alpha (l * nd + c)%nat)) in
    let eh c d := dscale khalf (dadd (grad_uh c d) (grad_uh d c)) in
    let tr_eh := dsum nd (fun d => eh d d) in
    let sh c d := dadd (dscale (k2 * mu i) (eh c d))
                       (dscale (if c =? d then k1 else k0) (dscale (lambda i) tr_eh)) in
    dsum nd (fun d => dscale (g k d) (sh c d)).

  (** *** LEPrimalWeakForm.evaluate_form, lines 13-129.  Elements of dimension 2 or 3; the
      others take the branch for 3 and are not modelled.  The slices of lines 66-69 and the
      reshape of line 88 raise ValueError unless u_components is the dimension. *)
  Definition le_primal (space : option (fe_space F)) (functions : option (user_functions F)) (iel : nat)
      (given_alpha : nat -> F) : res (local_system F) :=
    match space, functions with
    | Some sp, Some fn =>
        do u <- dindex (fs_fields sp) "u"%string;
        do rhs <- dindex (vec_of fn) "rhs"%string;
        do lambda <- dindex (scal_of fn) "lambda"%string;
        do mu <- dindex (scal_of fn) "mu"%string;
        do e <- get_at (fe_elements u) iel;
        let dim := e_dim e in
        do w <- quadrature_of sp dim;
        let t := e_tab e in
        let m := fe_comp u in
        let n_dof := (t_nphi t * m)%nat in
        let alpha := dvar given_alpha in
        do r <- foldM (fun r c =>
          do fc <- get_at rhs c;
          Ok (dadd_slice c (c + n_dof) m
               (fun k => dconst (ksum (length w) (fun i => (e_det e i * weight w i * t_val t 0 i k 0) * fc i))) r))
          (seq 0 m) (fun _ => dzero);
        do r <- foldM (fun r i =>
          if ((dim =? 2) || (dim =? 3)) && (1 <=? m) && ((t_nphi t =? 0) || (m =? dim)) then
            Ok (fun a => dadd (r a) (dscale (e_det e i * weight w i)
                  (le_strain_energy dim e lambda mu alpha i (a / dim)%nat (a mod dim)%nat)))
          else Err ValueError)
          (seq 0 (length w)) r;
        Ok (of_duals n_dof r)
    | _, _ => Err ValueError
    end.

  (** The penalty, 1.0e12 in the code, is a parameter [beta] of the boundary forms below *)

  (** jac_block_u, le_primal_weak_form.py:159-162 *)
  Definition penalty_block (beta : F) (e : element F) (w : list F) (t : tab F) (k l : nat) : F :=
    ksum (length w) (fun i => beta * e_det e i * weight w i * (t_val t 0 i k 0 * t_val t 0 i l 0)).
  (** the loop of lines 164-175 for a field whose DoFs start at [base] (0 here) *)
  Definition penalty_loop (beta : F) (e : element F) (w : list F) (t : tab F) (base m : nat) (given : list (nat -> F))
      (rj : (nat -> F) * (nat -> nat -> F)) : res ((nat -> F) * (nat -> nat -> F)) :=
    let n := (t_nphi t * m)%nat in
    foldM (fun rj c =>
      do blk <- foldM (fun res i =>
        do uc <- get_at given c;
        Ok (fun k => res k - beta * e_det e i * weight w i * uc i * t_val t 0 i k 0))
        (seq 0 (length w)) (fun _ => k0);
      Ok (add_slice (c + base) (c + base + n) m blk (fst rj),
          add_block (c + base) (c + base + n) m (c + base) (c + base + n) m (penalty_block beta e w t) (snd rj)))
      (seq 0 m) rj.

  (** *** LEPrimalWeakFormBCDirichlet.evaluate_form, lines 131-177; the same code is
      LETaylorHoodWeakFormBCDirichlet (le_taylor_hood_weak_form.py:189-237).  [sp] holds the
      boundary elements and bc_quadrature *)
  Definition le_bc_dirichlet (beta : F) (sp : fe_space F) (fn : user_functions F) (iel : nat)
      (alpha : nat -> F) : res (local_system F) :=
    do u_D <- dindex (vec_of fn) "u"%string;
    do u <- dindex (fs_fields sp) "u"%string;
    do e <- get_at (fe_elements u) iel;
    do w <- quadrature_of sp (e_dim e);
    do rj <- penalty_loop beta e w (e_tab e) 0 (fe_comp u) u_D ((fun _ => k0), (fun _ _ => k0));
    Ok (mk_local (t_nphi (e_tab e) * fe_comp u)%nat (fst rj) (snd rj)).

  (** *** LEPrimalWeakFormBCNeumann.evaluate_form, lines 179-222 *)
  Definition le_bc_neumann (sp : fe_space F) (fn : user_functions F) (iel : nat)
      (alpha : nat -> F) : res (local_system F) :=
    do t_N <- dindex (vec_of fn) "t"%string;
    do u <- dindex (fs_fields sp) "u"%string;
    do e <- get_at (fe_elements u) iel;
    do w <- quadrature_of sp (e_dim e);
    let t := e_tab e in
    let m := fe_comp u in
    let n_dof := (t_nphi t * m)%nat in
    do rj <- foldM (fun rj c =>
      do res_block <- foldM (fun res i =>
        do tc <- get_at t_N c;
        Ok (fun k => res k + e_det e i * weight w i * tc i * t_val t 0 i k 0))
        (seq 0 (length w)) (fun _ => k0);
      Ok (add_slice c (c + n_dof) m res_block (fst rj),
          add_block c (c + n_dof) m c (c + n_dof) m (fun _ _ => k0) (snd rj)))
      (seq 0 m) ((fun _ => k0), (fun _ _ => k0));
    Ok (mk_local n_dof (fst rj) (snd rj)).

  (** *** LEPrimalWeakFormBCNormalDirichlet.evaluate_form, lines 224-286.  [normal] is the
      result of lines 249-259: the unit normal (3 entries), or AssertionError without a
      neighbour.  The dot product of line 279 raises ValueError when u_D has not dim+1 entries
      (dim+1 <= 3) *)
  Definition le_bc_normal (beta : F) (sp : fe_space F) (fn : user_functions F) (normal : nat -> res (list F)) (iel : nat)
      (alpha : nat -> F) : res (local_system F) :=
    do u_D <- dindex (vec_of fn) "u"%string;
    do u <- dindex (fs_fields sp) "u"%string;
    do e <- get_at (fe_elements u) iel;
    do w <- quadrature_of sp (e_dim e);
    let t := e_tab e in
    let m := fe_comp u in
    let n_dof := (t_nphi t * m)%nat in
    do n <- normal iel;
    let nn := firstn (e_dim e + 1) n in
    do rj <- foldM (fun rj c =>
      do jac_block <- foldM (fun jb i =>
        do nc <- get_at n c;
        Ok (fun k l => jb k l + beta * e_det e i * weight w i * ((t_val t 0 i k 0 * nc) * (t_val t 0 i l 0 * nc))))
        (seq 0 (length w)) (fun _ _ => k0);
      do res_block <- foldM (fun res i =>
        do nc <- get_at n c;
        do un <- (if length u_D =? length nn
                  then Ok (ksum (length nn) (fun d => nth d u_D (fun _ => k0) i * nth d nn k0)) else Err ValueError);
        Ok (fun k => res k - beta * e_det e i * weight w i * un * (t_val t 0 i k 0 * nc)))
        (seq 0 (length w)) (fun _ => k0);
      Ok (add_slice c (c + n_dof) m res_block (fst rj),
          add_block c (c + n_dof) m c (c + n_dof) m jac_block (snd rj)))
      (seq 0 m) ((fun _ => k0), (fun _ _ => k0));
    Ok (mk_local n_dof (fst rj) (snd rj)).
End Elastic.
