(** * Model of the dual (mixed) forms of elasticity and of their Riesz maps

    src/weak_forms/le_dual_weak_form.py, lce_dual_weak_form.py, lce_scaled_dual_weak_form.py,
    le_riesz_map_weak_form.py, lce_riesz_map_weak_form.py, lce_scaled_riesz_map_weak_form.py:
    stress "s", couple stress "m", displacement "u", rotation "t".

    Definitions only.  Conventions as in FormModel and AdModel.  Cells have dimension 0 to 3.
    Not modelled: quadratures without points, spaces without basis functions, and numpy
    broadcasting a block of one row or column. *)
From Coq Require Import String List Arith Bool.
From Verif Require Import Base FormModel AdModel AdModel2.
Import ListNotations.
Open Scope list_scope.

Section Arrays.
  Context {F : scalar}.
  Local Open Scope num_scope.

  (** an integer as a number *)
  Definition knat (n : nat) : F := ksum n (fun _ => k1).
  (** number of columns of [phi_tab[0, i, :, 0:dim]] *)
  Definition cols (t : tab F) (dim : nat) : nat := Nat.min dim (t_vs t).
  (** [np.trace(phi_tab[1 : n + 2, i, :, 0:dim])] of function k, where n derivatives are asked
      for and the table holds [t_nder] *)
  Definition ref_div (t : tab F) (n dim i k : nat) : F :=
    ksum (Nat.min (Nat.min n (t_nder t)) (cols t dim)) (fun d => t_val t (S d) i k d).
  (** [np.trace(np.outer(grad_lc[:, i], phi_tab[0, i, k, 0:dim]))] *)
  Definition grad_dot (g : list (nat -> F)) (t : tab F) (dim i k : nat) : F :=
    ksum (Nat.min (length g) (cols t dim)) (fun d => nth d g (fun _ => k0) i * t_val t 0 i k d).

  (** [A.T @ c] where A[i] is a matrix for each point, lce_dual_weak_form.py:526 *)
  Definition weighted (n : nat) (A : nat -> nat -> nat -> F) (c : nat -> F) (p q : nat) : F :=
    ksum n (fun i => A i p q * c i).
  (** [np.dot(phi, phi.T)], lce_dual_weak_form.py:606 *)
  Definition inner_at (t : tab F) (dim i k l : nat) : F :=
    ksum (cols t dim) (fun d => t_val t 0 i k d * t_val t 0 i l d).
  (** [np.outer(phi, phi)] of the matrix phi: np.outer flattens, lce_dual_weak_form.py:520 *)
  Definition outer_at (t : tab F) (dim i p q : nat) : F :=
    let m := cols t dim in t_val t 0 i (p / m) (p mod m) * t_val t 0 i (q / m) (q mod m).
  (** outer_fun, transposed, lce_dual_weak_form.py:505-508 and 518 *)
  Definition gen_outer (t : tab F) (dim i p q : nat) : F :=
    let m := cols t dim in khalf * (t_val t 0 i (p / m) (q mod m) * t_val t 0 i (q / m) (p mod m)).
  (** inner_fun, transposed, lce_dual_weak_form.py:510-514 and 519 *)
  Definition gen_inner (t : tab F) (dim i p q : nat) : F :=
    let m := cols t dim in
    khalf * (inner_at t dim i (p / m) (q / m) * (if p mod m =? q mod m then k1 else k0)).

  (** vol_factor, lce_dual_weak_form.py:525 *)
  Definition vol_factor (dim : nat) (lambda mu : nat -> F) (i : nat) : F :=
    kdiv k1 (k2 * mu i) * kdiv (lambda i) (k2 * mu i + knat dim * lambda i).
  (** s_j_symm + s_j_skew + s_j_vol, lce_dual_weak_form.py:521-529; [c] is det_jac * weights
      (times lc_scale for the couple stress, lines 585-600) *)
  Definition tensor_block (t : tab F) (dim n : nat) (c lambda mu kappa : nat -> F) (p q : nat) : F :=
    (weighted n (fun i p q => gen_inner t dim i p q + gen_outer t dim i p q) (fun i => c i * kdiv k1 (k2 * mu i)) p q
     + weighted n (fun i p q => gen_inner t dim i p q - gen_outer t dim i p q) (fun i => c i * kdiv k1 (k2 * kappa i)) p q)
    + weighted n (fun i p q => - outer_at t dim i p q) (fun i => c i * vol_factor dim lambda mu i) p q.

  (** [for c in range(m): b = c + base; e = b + n; j_el[b:e:m, b:e:m] += M] *)
  Definition diag_loop (base n m : nat) (M j : nat -> nat -> F) : nat -> nat -> F :=
    fold_left (fun j c => add_block (c + base) (c + base + n) m (c + base) (c + base + n) m M j) (seq 0 m) j.

  (** the loop of lce_dual_weak_form.py:616-629 and 637-646: blocks for equal components *)
  Definition coupling_loop (ub un um sb sn sm : nat) (M j : nat -> nat -> F) : nat -> nat -> F :=
    fold_left (fun j uc =>
      fold_left (fun j sc =>
        if uc =? sc then
          add_block (sc + sb) (sc + sb + sn) sm (uc + ub) (uc + ub + un) um (fun k l => M l k)
            (add_block (uc + ub) (uc + ub + un) um (sc + sb) (sc + sb + sn) sm M j)
        else j) (seq 0 sm) j) (seq 0 um) j.

  (** t_comp_to_s_comp_map and t_comp_to_operator_map, lce_dual_weak_form.py:560-570: for a
      component of the rotation, the component of the stress, the direction of the operator
      (Asx_op: 0, Asy_op: 1, Asz_op: 2) and whether it is negated *)
  Definition rot_map (dim c : nat) : res (list (nat * nat * bool)) :=
    if dim =? 3 then
      match c with
      | 0 => Ok [(2, 1, false); (1, 2, true)]
      | 1 => Ok [(0, 2, false); (2, 0, true)]
      | 2 => Ok [(1, 0, false); (0, 1, true)]
      | _ => Err KeyError
      end
    else match c with 0 => Ok [(1, 0, false); (0, 1, true)] | _ => Err KeyError end.
  (** Asx_op, Asy_op, Asz_op, lce_dual_weak_form.py:533-558 *)
  Definition rot_op (tt st : tab F) (n : nat) (c : nat -> F) (dir k l : nat) : F :=
    weighted n (fun i k l => t_val tt 0 i k 0 * t_val st 0 i l dir) c k l.
  (** the loop of lce_dual_weak_form.py:572-579 *)
  Definition rot_loop (dim : nat) (op : nat -> nat -> nat -> F) (tb tn tm sn sm : nat) (j : nat -> nat -> F)
      : res (nat -> nat -> F) :=
    foldM (fun j c =>
      do pairs <- rot_map dim c;
      Ok (fold_left (fun j (p : nat * nat * bool) =>
            let '(cs, dir, neg) := p in
            let o k l := if neg : bool then - op dir k l else op dir k l in
            add_block cs (cs + sn) sm (c + tb) (c + tb + tn) tm (fun k l => (- k1) * o l k)
              (add_block (c + tb) (c + tb + tn) tm cs (cs + sn) sm (fun k l => (- k1) * o k l) j))
          pairs j))
      (seq 0 tm) j.

  (** rhs_u and rhs_t, lce_dual_weak_form.py:490-502: [off] is the first component of f used *)
  Definition load_loop (off base m : nat) (t : tab F) (n : nat) (c : nat -> F) (f : list (nat -> F)) (r : nat -> F)
      : res (nat -> F) :=
    let nd := (t_nphi t * m)%nat in
    foldM (fun r d =>
      do fc <- get_at f (d + off);
      Ok (add_slice (d + base) (d + base + nd) m
            (fun k => ksum n (fun i => (- k1) * (c i * t_val t 0 i k 0) * fc i)) r))
      (seq 0 m) r.

  (** [phi_star] has [m_components] columns, so that blocks of all DoFs fit *)
  Definition fits_cols (t : tab F) (dim m : nat) : res unit :=
    if cols t dim =? m then Ok tt else Err ValueError.
  (** [s_phi_star[i, :, 1]], lce_dual_weak_form.py:545 *)
  Definition second_dir (t : tab F) (dim : nat) : res unit :=
    if 2 <=? cols t dim then Ok tt else Err IndexError.
End Arrays.

Section DualForms.
  Context {F : scalar}.
  Local Open Scope num_scope.

  (** *** LEDualWeakForm.evaluate_form_vectorized, le_dual_weak_form.py:354-510 *)
  Definition le_dual_vectorized (space : option (fe_space F)) (functions : option (user_functions F)) (iel : nat)
      (alpha : nat -> F) : res (local_system F) :=
    match space, functions with
    | Some sp, Some fn =>
        do s <- dindex (fs_fields sp) "s"%string;
        do u <- dindex (fs_fields sp) "u"%string;
        do t <- dindex (fs_fields sp) "t"%string;
        do rhs <- dindex (vec_of fn) "rhs"%string;
        do lambda <- dindex (scal_of fn) "lambda"%string;
        do mu <- dindex (scal_of fn) "mu"%string;
        do se <- get_at (fe_elements s) iel;
        do ue <- get_at (fe_elements u) iel;
        do te <- get_at (fe_elements t) iel;
        let dim := e_dim se in
        do w <- quadrature_of sp dim;
        let st := e_tab se in
        let ut := e_tab ue in
        let tab_t := e_tab te in
        let n := length w in
        let c i := e_det se i * weight w i in
        let sm := fe_comp s in
        let um := fe_comp u in
        let tm := fe_comp t in
        let ns := (t_nphi st * sm)%nat in
        let nu := (t_nphi ut * um)%nat in
        let nt := (t_nphi tab_t * tm)%nat in
        do r <- load_loop 0 ns um ut n c rhs (fun _ => k0);
        do r <- load_loop um (ns + nu) tm tab_t n c rhs r;
        (* (s,s) block, lines 424-440 *)
        let j := diag_loop 0 ns sm
          (weighted n (inner_at st dim) (fun i => kdiv k1 (k2 * mu i) * c i)) (fun _ _ => k0) in
        do _ <- fits_cols st dim sm;
        let j := add_block 0 ns 1 0 ns 1
          (weighted n (fun i p q => (- k1) * outer_at st dim i p q) (fun i => vol_factor dim lambda mu i * c i)) j in
        (* (t,s) and (s,t) blocks, lines 442-490 *)
        do _ <- second_dir st dim;
        do j <- rot_loop dim (rot_op tab_t st n c) (ns + nu) nt tm ns sm j;
        (* (u,s) and (s,u) blocks, lines 492-508 *)
        let j := coupling_loop ns nu um 0 ns sm
          (fun k l => ksum n (fun i => (weight w i * t_val ut 0 i k 0) * ref_div st (t_nder st) dim i l)) j in
        Ok (mk_local (ns + nu + nt)%nat r j)
    | _, _ => Err ValueError
    end.

  (** What the forms with couple stress read *)
  Record lce_input : Type := mk_lce_input {
    li_s : fe_field F; li_m : fe_field F; li_u : fe_field F; li_t : fe_field F;
    li_se : element F; li_me : element F; li_ue : element F; li_te : element F;
    li_lambda_s : nat -> F; li_mu_s : nat -> F; li_kappa_s : nat -> F;
    li_lambda_o : nat -> F; li_mu_o : nat -> F; li_kappa_o : nat -> F; li_l : nat -> F;
    li_rhs : list (nat -> F); li_grad_l : list (nat -> F); li_w : list F }.

  (** the common beginning, e.g. lce_dual_weak_form.py:13-53; [needs_rhs], [needs_grad]: whether
      functions["rhs"], functions["grad_l"] are read.  lce_riesz_map_weak_form.py reads the
      elements of "m", "u", "t" after the quadrature: the exception may differ when both are
      missing *)
  Definition lce_read (needs_rhs needs_grad : bool) (sp : fe_space F) (fn : user_functions F) (iel : nat) : res lce_input :=
    do s <- dindex (fs_fields sp) "s"%string;
    do m <- dindex (fs_fields sp) "m"%string;
    do u <- dindex (fs_fields sp) "u"%string;
    do t <- dindex (fs_fields sp) "t"%string;
    do rhs <- (if needs_rhs then dindex (vec_of fn) "rhs"%string else Ok []);
    do lambda_s <- dindex (scal_of fn) "lambda_s"%string;
    do mu_s <- dindex (scal_of fn) "mu_s"%string;
    do kappa_s <- dindex (scal_of fn) "kappa_s"%string;
    do lambda_o <- dindex (scal_of fn) "lambda_o"%string;
    do mu_o <- dindex (scal_of fn) "mu_o"%string;
    do kappa_o <- dindex (scal_of fn) "kappa_o"%string;
    do lc <- dindex (scal_of fn) "l"%string;
    do grad <- (if needs_grad then dindex (vec_of fn) "grad_l"%string else Ok []);
    do se <- get_at (fe_elements s) iel;
    do me <- get_at (fe_elements m) iel;
    do ue <- get_at (fe_elements u) iel;
    do te <- get_at (fe_elements t) iel;
    do w <- quadrature_of sp (e_dim se);
    Ok (mk_lce_input s m u t se me ue te lambda_s mu_s kappa_s lambda_o mu_o kappa_o lc rhs grad w).

  Section Input.
    Variable d : lce_input.
    Let dim := e_dim (li_se d).
    Let st := e_tab (li_se d).
    Let mt := e_tab (li_me d).
    Let ut := e_tab (li_ue d).
    Let tab_t := e_tab (li_te d).
    Let det := e_det (li_se d).
    Let w := li_w d.
    Let n := length w.
    Let c i := det i * weight w i.
    Let sm := fe_comp (li_s d).
    Let mm := fe_comp (li_m d).
    Let um := fe_comp (li_u d).
    Let tm := fe_comp (li_t d).
    Let ns := (t_nphi st * sm)%nat.
    Let nm := (t_nphi mt * mm)%nat.
    Let nu := (t_nphi ut * um)%nat.
    Let nt := (t_nphi tab_t * tm)%nat.

    (** (s,s) block, lce_dual_weak_form.py:516-529 *)
    Definition ss_block (j : nat -> nat -> F) : res (nat -> nat -> F) :=
      do _ <- fits_cols st dim sm;
      Ok (add_block 0 ns 1 0 ns 1 (tensor_block st dim n c (li_lambda_s d) (li_mu_s d) (li_kappa_s d)) j).
    (** (m,m) block, lce_dual_weak_form.py:582-611; [scale] is lc_scale = 1/l; the scaled form
        has no such factor *)
    Definition mm_block (scale : nat -> F) (j : nat -> nat -> F) : res (nat -> nat -> F) :=
      if dim =? 3 then
        do _ <- fits_cols mt dim mm;
        Ok (add_block ns (ns + nm) 1 ns (ns + nm) 1
              (tensor_block mt dim n (fun i => c i * scale i) (li_lambda_o d) (li_mu_o d) (li_kappa_o d)) j)
      else
        Ok (diag_loop ns nm mm
              (weighted n (inner_at mt dim) (fun i => c i * scale i * kdiv k1 (li_mu_o d i + li_kappa_o d i))) j).

    (** LCEDualWeakForm.evaluate_form_vectorized, lce_dual_weak_form.py:410-648, and
        LCEScaledDualWeakForm.evaluate_form_vectorized, lce_scaled_dual_weak_form.py:445-699;
        [dv i k]: div_v_star (lines 634-635, scaled 671-686) *)
    Definition lce_dual_vec (scale : nat -> F) (dv : nat -> nat -> F) : res (local_system F) :=
      do r <- load_loop 0 (ns + nm) um ut n c (li_rhs d) (fun _ => k0);
      do r <- load_loop um (ns + nm + nu) tm tab_t n c (li_rhs d) r;
      do j <- ss_block (fun _ _ => k0);
      do _ <- second_dir st dim;
      do j <- rot_loop dim (rot_op tab_t st n c) (ns + nm + nu) nt tm ns sm j;
      do j <- mm_block scale j;
      let j := coupling_loop (ns + nm) nu um 0 ns sm
        (fun k l => ksum n (fun i => (weight w i * t_val ut 0 i k 0) * ref_div st (t_nder st) dim i l)) j in
      let j := coupling_loop (ns + nm + nu) nt tm ns nm mm
        (fun k l => ksum n (fun i => (weight w i * t_val tab_t 0 i k 0) * dv i l)) j in
      Ok (mk_local (ns + nm + nu + nt)%nat r j).

    (** LCERieszMapWeakForm.evaluate_form_vectorized, lce_riesz_map_weak_form.py:372-545, and
        LCEScaledRieszMapWeakForm.evaluate_form_vectorized; [dv i k]: div_v_star (line 519) *)
    Definition lce_riesz_vec (scale : nat -> F) (dv : nat -> nat -> F) : res (local_system F) :=
      do j <- ss_block (fun _ _ => k0);
      do j <- mm_block scale j;
      let dtau i k := ref_div st (t_nder st) dim i k * kdiv k1 (det i) in
      let j := diag_loop 0 ns sm (weighted n (fun i k l => dtau i k * dtau i l) c) j in
      let j := diag_loop ns nm mm (weighted n (fun i k l => dv i k * dv i l) c) j in
      let j := diag_loop (ns + nm) nu um (weighted n (fun i k l => t_val ut 0 i k 0 * t_val ut 0 i l 0) c) j in
      let j := diag_loop (ns + nm + nu) nt tm
        (weighted n (fun i k l => t_val tab_t 0 i k 0 * t_val tab_t 0 i l 0) c) j in
      Ok (mk_local (ns + nm + nu + nt)%nat (fun _ => k0) j).

    (** *** Automatic differentiation *)

    (** A_sh, lce_dual_weak_form.py:153-168 *)
    Definition ad_compliance (nd : nat) (lambda mu kappa : F) (h : nat -> nat -> dual F) (a b : nat) : dual F :=
      let symm := dscale khalf (dadd (h a b) (h b a)) in
      let skew := dscale khalf (dsub (h a b) (h b a)) in
      let tr := dsum nd (fun e => h e e) in
      dadd (dscale (kdiv k1 (k2 * mu))
             (dsub symm (dscale (if a =? b then k1 else k0) (dscale (kdiv lambda (k2 * mu + knat nd * lambda)) tr))))
           (dscale (kdiv k1 (k2 * kappa)) skew).

    (** the fields of the state [alpha] at point i *)
    Definition ad_s (alpha : nat -> dual F) (i a b : nat) : dual F :=
      dsum (t_nphi st) (fun k => dscale (t_val st 0 i k b) (alpha (k * sm + a)%nat)).
    Definition ad_m (alpha : nat -> dual F) (i a b : nat) : dual F :=
      dsum (t_nphi mt) (fun k => dscale (t_val mt 0 i k b) (alpha (ns + (k * mm + a))%nat)).
    Definition ad_u (alpha : nat -> dual F) (i a : nat) : dual F :=
      dsum (t_nphi ut) (fun k => dscale (t_val ut 0 i k 0) (alpha (ns + nm + (k * um + a))%nat)).
    Definition ad_t (alpha : nat -> dual F) (i a : nat) : dual F :=
      dsum (t_nphi tab_t) (fun k => dscale (t_val tab_t 0 i k 0) (alpha (ns + nm + nu + (k * tm + a))%nat)).
    (** A_mh, lce_dual_weak_form.py:170-171 and 323-338 *)
    Definition ad_am (scale : nat -> F) (alpha : nat -> dual F) (i a b : nat) : dual F :=
      if dim =? 2 then dscale (scale i) (dscale (kdiv k1 (li_mu_o d i + li_kappa_o d i)) (ad_m alpha i a b))
      else dscale (scale i) (ad_compliance dim (li_lambda_o d i) (li_mu_o d i) (li_kappa_o d i) (ad_m alpha i) a b).
    Definition div_tau (i k : nat) : F := kdiv (ref_div st (t_nder st) dim i k) (det i).

    (** the entry of equation a: DoFs are ordered by field, function, component (idx_dof, lines
        65-70, and the reshapes of lines 398-404) *)
    Definition by_field (eq1 eq2 eq3 eq4 : nat -> nat -> dual F) (a : nat) : dual F :=
      if a <? ns then eq1 (a / sm)%nat (a mod sm)%nat
      else if a <? ns + nm then eq2 ((a - ns) / mm)%nat ((a - ns) mod mm)%nat
      else if a <? ns + nm + nu then eq3 ((a - (ns + nm)) / um)%nat ((a - (ns + nm)) mod um)%nat
      else eq4 ((a - (ns + nm + nu)) / tm)%nat ((a - (ns + nm + nu)) mod tm)%nat.

    (** lce_dual_weak_form.py:96-405, the integrand at point i *)
    Definition lce_dual_integrand (scale : nat -> F) (dv : nat -> nat -> F) (alpha : nat -> dual F) (i : nat) : nat -> dual F :=
      let a_sh := ad_compliance dim (li_lambda_s d i) (li_mu_s d i) (li_kappa_s d i) (ad_s alpha i) in
      let div_sh a := dsum (t_nphi st) (fun k => dscale (div_tau i k) (alpha (k * sm + a)%nat)) in
      let div_mh a := dsum (t_nphi mt) (fun k => dscale (dv i k) (alpha (ns + (k * mm + a))%nat)) in
      by_field
        (fun k a => dsub (dadd (dsum dim (fun b => dscale (t_val st 0 i k b) (a_sh a b))) (dscale (div_tau i k) (ad_u alpha i a)))
                         (dsum dim (fun b => dscale (t_val st 0 i k b) (theta_outer dim (ad_t alpha i) a b))))
        (fun k a => dadd (dsum (cols mt dim) (fun b => dscale (t_val mt 0 i k b) (ad_am scale alpha i a b))) (dscale (dv i k) (ad_t alpha i a)))
        (fun k a => dscale (t_val ut 0 i k 0) (div_sh a))
        (fun k a => dsub (dscale (t_val tab_t 0 i k 0) (div_mh a)) (dscale (t_val tab_t 0 i k 0) (s_cross dim (ad_s alpha i) a))).

    (** lce_riesz_map_weak_form.py:64-364, the integrand at point i *)
    Definition lce_riesz_integrand (scale : nat -> F) (dv : nat -> nat -> F) (alpha : nat -> dual F) (i : nat) : nat -> dual F :=
      let a_sh := ad_compliance dim (li_lambda_s d i) (li_mu_s d i) (li_kappa_s d i) (ad_s alpha i) in
      let div_sh a := dsum (t_nphi st) (fun k => dscale (div_tau i k) (alpha (k * sm + a)%nat)) in
      let div_mh a := dsum (t_nphi mt) (fun k => dscale (dv i k) (alpha (ns + (k * mm + a))%nat)) in
      by_field
        (fun k a => dadd (dsum dim (fun b => dscale (t_val st 0 i k b) (a_sh a b))) (dscale (div_tau i k) (div_sh a)))
        (fun k a => dadd (dsum (cols mt dim) (fun b => dscale (t_val mt 0 i k b) (ad_am scale alpha i a b))) (dscale (dv i k) (div_mh a)))
        (fun k a => dscale (t_val ut 0 i k 0) (ad_u alpha i a))
        (fun k a => dscale (t_val tab_t 0 i k 0) (ad_t alpha i a)).

    (** the shapes that pass the matrix products and reshapes *)
    Definition lce_ad_shapes : bool :=
      ((dim =? 2) || (dim =? 3)) && (sm =? dim) && (um =? dim) && (mm =? n_rot dim) && (tm =? n_rot dim)
      && (cols st dim =? dim) && ((dim =? 2) || (cols mt dim =? dim)) && (cols ut dim =? 1) && (cols tab_t dim =? 1).

    (** the loop over the points, lines 96 and 405-409 *)
    Definition ad_points (integrand : nat -> nat -> dual F) (r : nat -> dual F) : res (local_system F) :=
      do r <- foldM (fun r i =>
        if lce_ad_shapes then Ok (fun a => dadd (r a) (dscale (det i * weight w i) (integrand i a)))
        else Err ValueError) (seq 0 n) r;
      Ok (of_duals (ns + nm + nu + nt)%nat r).

    (** LCEDualWeakForm.evaluate_form, lce_dual_weak_form.py:12-408 *)
    Definition lce_dual_ad (scale : nat -> F) (dv : nat -> nat -> F) (given_alpha : nat -> F) : res (local_system F) :=
      do r <- load_loop 0 (ns + nm) um ut n c (li_rhs d) (fun _ => k0);
      do r <- load_loop um (ns + nm + nu) tm tab_t n c (li_rhs d) r;
      ad_points (lce_dual_integrand scale dv (dvar given_alpha)) (fun a => dconst (r a)).
    (** LCERieszMapWeakForm.evaluate_form, lce_riesz_map_weak_form.py:10-369 *)
    Definition lce_riesz_ad (scale : nat -> F) (dv : nat -> nat -> F) (given_alpha : nat -> F) : res (local_system F) :=
      ad_points (lce_riesz_integrand scale dv (dvar given_alpha)) (fun _ => dzero).

    (** 1/l *)
    Definition one_over_l (i : nat) : F := kdiv k1 (li_l d i).
    (** div_v: in two dimensions evaluate_form of LCEDualWeakForm slices the derivatives with the
        shape of the stress table (line 178) *)
    Definition div_v (nder i k : nat) : F := kdiv (ref_div mt nder dim i k) (det i).
    (** div_v_s, lce_scaled_dual_weak_form.py:190-202 *)
    Definition div_v_s (i k : nat) : F :=
      li_l d i * div_v (t_nder mt) i k + grad_dot (li_grad_l d) mt dim i k.
  End Input.

  Definition with_input (needs_rhs needs_grad : bool) (space : option (fe_space F)) (functions : option (user_functions F))
      (iel : nat) (k : lce_input -> res (local_system F)) : res (local_system F) :=
    match space, functions with
    | Some sp, Some fn => do d <- lce_read needs_rhs needs_grad sp fn iel; k d
    | _, _ => Err ValueError
    end.

  (** *** LCEDualWeakForm, lce_dual_weak_form.py:11-648 *)
  Definition lce_dual (space : option (fe_space F)) (functions : option (user_functions F)) (iel : nat) (alpha : nat -> F) :=
    with_input true false space functions iel (fun d =>
      lce_dual_ad d (one_over_l d)
        (div_v d (if e_dim (li_se d) =? 2 then S (t_nder (e_tab (li_se d))) else t_nder (e_tab (li_me d)))) alpha).
  Definition lce_dual_vectorized (space : option (fe_space F)) (functions : option (user_functions F)) (iel : nat) (alpha : nat -> F) :=
    with_input true false space functions iel (fun d =>
      lce_dual_vec d (one_over_l d) (ref_div (e_tab (li_me d)) (t_nder (e_tab (li_me d))) (e_dim (li_se d)))).

  (** *** LCEScaledDualWeakForm, lce_scaled_dual_weak_form.py:12-699 *)
  Definition lce_scaled_dual (space : option (fe_space F)) (functions : option (user_functions F)) (iel : nat) (alpha : nat -> F) :=
    with_input true true space functions iel (fun d => lce_dual_ad d (fun _ => k1) (div_v_s d) alpha).
  Definition lce_scaled_dual_vectorized (space : option (fe_space F)) (functions : option (user_functions F)) (iel : nat) (alpha : nat -> F) :=
    with_input true true space functions iel (fun d =>
      lce_dual_vec d (fun _ => k1) (fun i k =>
        grad_dot (li_grad_l d) (e_tab (li_me d)) (e_dim (li_se d)) i k * e_det (li_se d) i
        + ref_div (e_tab (li_me d)) (t_nder (e_tab (li_me d))) (e_dim (li_se d)) i k * li_l d i)).

  (** *** LCERieszMapWeakForm, lce_riesz_map_weak_form.py:9-545 *)
  Definition lce_riesz (space : option (fe_space F)) (functions : option (user_functions F)) (iel : nat) (alpha : nat -> F) :=
    with_input false false space functions iel (fun d =>
      lce_riesz_ad d (one_over_l d) (div_v d (t_nder (e_tab (li_me d)))) alpha).
  Definition lce_riesz_vectorized (space : option (fe_space F)) (functions : option (user_functions F)) (iel : nat) (alpha : nat -> F) :=
    with_input false false space functions iel (fun d =>
      lce_riesz_vec d (one_over_l d) (fun i k =>
        ref_div (e_tab (li_me d)) (t_nder (e_tab (li_me d))) (e_dim (li_se d)) i k * kdiv k1 (e_det (li_se d) i))).

  (** *** LCEScaledRieszMapWeakForm, lce_scaled_riesz_map_weak_form.py:9-599; evaluate_form reads
      functions["rhs"] (line 20), evaluate_form_vectorized does not *)
  Definition lce_scaled_riesz (space : option (fe_space F)) (functions : option (user_functions F)) (iel : nat) (alpha : nat -> F) :=
    with_input true true space functions iel (fun d => lce_riesz_ad d (fun _ => k1) (div_v_s d) alpha).
  Definition lce_scaled_riesz_vectorized (space : option (fe_space F)) (functions : option (user_functions F)) (iel : nat) (alpha : nat -> F) :=
    with_input false true space functions iel (fun d =>
      lce_riesz_vec d (fun _ => k1) (fun i k =>
        grad_dot (li_grad_l d) (e_tab (li_me d)) (e_dim (li_se d)) i k
        + ref_div (e_tab (li_me d)) (t_nder (e_tab (li_me d))) (e_dim (li_se d)) i k * kdiv (li_l d i) (e_det (li_se d) i))).

  (** *** LERieszMapWeakForm.evaluate_form_vectorized, le_riesz_map_weak_form.py:258-370; it
      reads functions["rhs"] without using it *)
  Definition le_riesz_vectorized (space : option (fe_space F)) (functions : option (user_functions F)) (iel : nat)
      (alpha : nat -> F) : res (local_system F) :=
    match space, functions with
    | Some sp, Some fn =>
        do s <- dindex (fs_fields sp) "s"%string;
        do u <- dindex (fs_fields sp) "u"%string;
        do t <- dindex (fs_fields sp) "t"%string;
        do _ <- dindex (vec_of fn) "rhs"%string;
        do lambda <- dindex (scal_of fn) "lambda"%string;
        do mu <- dindex (scal_of fn) "mu"%string;
        do se <- get_at (fe_elements s) iel;
        do ue <- get_at (fe_elements u) iel;
        do te <- get_at (fe_elements t) iel;
        let dim := e_dim se in
        do w <- quadrature_of sp dim;
        let st := e_tab se in
        let ut := e_tab ue in
        let tab_t := e_tab te in
        let n := length w in
        let c i := e_det se i * weight w i in
        let sm := fe_comp s in
        let um := fe_comp u in
        let tm := fe_comp t in
        let ns := (t_nphi st * sm)%nat in
        let nu := (t_nphi ut * um)%nat in
        let nt := (t_nphi tab_t * tm)%nat in
        let j := diag_loop 0 ns sm
          (weighted n (inner_at st dim) (fun i => kdiv k1 (k2 * mu i) * c i)) (fun _ _ => k0) in
        do _ <- fits_cols st dim sm;
        let j := add_block 0 ns 1 0 ns 1
          (weighted n (fun i p q => (- k1) * outer_at st dim i p q) (fun i => vol_factor dim lambda mu i * c i)) j in
        let dtau i k := ref_div st (t_nder st) dim i k * kdiv k1 (e_det se i) in
        let j := diag_loop 0 ns sm (weighted n (fun i k l => dtau i k * dtau i l) c) j in
        let j := diag_loop ns nu um (weighted n (fun i k l => t_val ut 0 i k 0 * t_val ut 0 i l 0) c) j in
        let j := diag_loop (ns + nu) nt tm (weighted n (fun i k l => t_val tab_t 0 i k 0 * t_val tab_t 0 i l 0) c) j in
        Ok (mk_local (ns + nu + nt)%nat (fun _ => k0) j)
    | _, _ => Err ValueError
    end.

  (** *** LEDualWeakForm.evaluate_form (le_dual_weak_form.py:13-352) and
      LERieszMapWeakForm.evaluate_form (le_riesz_map_weak_form.py:10-256) unpack the whole
      list self.space.quadrature into two names (lines 34 and 30).  [needs_rhs]: the first reads
      functions["rhs"].  What follows a successful unpacking (a list of length two; ProductSpace
      always makes four, product_space.py:32-41) is not modelled and given by [rest] *)
  Definition le_ad_form (needs_rhs : bool) (rest : res (local_system F)) (space : option (fe_space F))
      (functions : option (user_functions F)) (iel : nat) (alpha : nat -> F) : res (local_system F) :=
    match space, functions with
    | Some sp, Some fn =>
        do s <- dindex (fs_fields sp) "s"%string;
        do u <- dindex (fs_fields sp) "u"%string;
        do t <- dindex (fs_fields sp) "t"%string;
        do _ <- (if needs_rhs then dindex (vec_of fn) "rhs"%string else Ok []);
        do _ <- dindex (scal_of fn) "lambda"%string;
        do _ <- dindex (scal_of fn) "mu"%string;
        do _ <- get_at (fe_elements s) iel;
        do _ <- get_at (fe_elements u) iel;
        do _ <- get_at (fe_elements t) iel;
        if length (fs_quadrature sp) =? 2 then rest else Err ValueError
    | _, _ => Err ValueError
    end.
End DualForms.
Arguments lce_input : clear implicits.
