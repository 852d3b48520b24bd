(** * Model of the errors and norms of solutions:
    src/postprocess/l2_error_post_processor.py, src/postprocess/solution_norms_post_processor.py

    Definitions only.  Numbers are elements of an arbitrary type with field operations; np.sqrt is
    a parameter.  Tables of basis functions, determinants and weights are data as in FormModel.
    An exact function is given by its values at the mapped quadrature points of each cell; it has
    the same shape at all points.  Not modelled: bases without functions (np.split into 0 parts)
    and rules without points. *)
From Coq Require Import String List Arith Bool.
From Verif Require Import Base FormModel DualModel.
Import ListNotations.
Open Scope list_scope.

(** basis/element_family.py:4-12 *)
Inductive fe_family : Type := FLagrange | FRT | FBDM | FN1E.
Definition is_lagrange (f : fe_family) : bool := match f with FLagrange => true | _ => false end.
(** vec_families, l2_error_post_processor.py:186-189 *)
Definition is_vector (f : fe_family) : bool := match f with FRT | FBDM => true | _ => false end.

(** numpy's rule for two axes of length a and b, and the index read on an axis of length n *)
Definition broadcast (a b : nat) : res nat :=
  if a =? b then Ok a else if a =? 1 then Ok b else if b =? 1 then Ok a else Err ValueError.
Definition axis_index (n i : nat) : nat := if n =? 1 then 0 else i.

Section Post.
  Context {F : scalar}.
  Local Open Scope num_scope.

  (** An element of a field: its cell, its data, and dof_map.destination_indices of the cell plus
      the stride of the field and the shift of the space (product_space.py:147-162), or the
      exception raised there *)
  Record post_element : Type := mk_pe { pe_cell : nat; pe_el : element F; pe_dest : res (list nat) }.
  Record post_field : Type := mk_pf { pf_family : fe_family; pf_comp : nat; pf_elements : list post_element }.
  Record post_space : Type := mk_ps { ps_fields : dict string post_field; ps_quadrature : list (option (list F)) }.

  (** A user function: rows, columns (one for vectors), value at (cell, row, column, point) *)
  Record exact_fun : Type := mk_exact { x_rows : nat; x_cols : nat; x_val : nat -> nat -> nat -> nat -> F }.

  (** points, weights = fe_space.quadrature[dim] *)
  Definition rule_of (sp : post_space) (dim : nat) : res (list F) :=
    do q <- get_at (ps_quadrature sp) dim;
    match q with Some w => Ok w | None => Err TypeError end.

  (** [i for i, element in enumerate(space.elements) if element.data.cell.dimension == dim], each
      index with its element, l2_error_post_processor.py:15-19 *)
  Definition indexes (dim : nat) (fld : post_field) : list (nat * post_element) :=
    filter (fun ie => e_dim (pe_el (snd ie)) =? dim) (combine (seq 0 (length (pf_elements fld))) (pf_elements fld)).

  (** fe_space.discrete_spaces_destination_indexes(i), product_space.py:147-162: the element of
      index i of every field is looked up *)
  Definition destinations (sp : post_space) (i : nat) : res (dict string (list nat)) :=
    mapM (fun nf => do e <- get_at (pf_elements (snd nf)) i; do d <- pe_dest e; Ok (fst nf, d)) (ps_fields sp).
  (** alpha[dest] and alpha_star = np.array(np.split(alpha_l, n_phi)): number of columns and
      entries, l2_error_post_processor.py:28-34; [shift] is dof_shift of l2_error_projected *)
  Definition local_coefficients (sp : post_space) (alpha : list F) (shift : nat) (name : string) (i n_phi : nat)
      : res (nat * (nat -> nat -> F)) :=
    do dests <- destinations sp i;
    do dest <- dindex dests name;
    do a <- mapM (fun d => get_at alpha (d + shift)) dest;
    if length a mod n_phi =? 0 then
      let m := (length a / n_phi)%nat in
      Ok (m, fun k c => nth (k * m + c) a k0)
    else Err ValueError.

  Definition dw (e : element F) (w : list F) (i : nat) : F := e_det e i * weight w i.

  (** np.sum(det_jac * weights * d * d) of an array with entry [d c i], lines 38-40 *)
  Definition sum_rows (e : element F) (w : list F) (rows : nat) (d : nat -> nat -> F) : F :=
    ksum rows (fun c => ksum (length w) (fun i => dw e w i * d c i * d c i)).
  (** np.sum(det_jac * weights * [np.trace(e.T @ e) for e in d]), entry [d i c dir], lines 56-58 *)
  Definition sum_trace (e : element F) (w : list F) (rows cs : nat) (d : nat -> nat -> nat -> F) : F :=
    ksum (length w) (fun i => dw e w i * ksum cs (fun dir => ksum rows (fun c => d i c dir * d i c dir))).

  (** (phi_tab[0, :, :, 0] @ alpha_star).T, line 37 *)
  Definition scalar_h (t : tab F) (a : nat -> nat -> F) (c i : nat) : F :=
    ksum (t_nphi t) (fun k => t_val t 0 i k 0 * a k c).
  (** np.vstack(phi_tab[0, k, :, 0:dim].T @ alpha_star[:, c] for c), lines 43-54: the number of
      rows (an empty stack is an error, so is a missing column) and the entries *)
  Definition vector_rows (n_comp m : nat) : res nat :=
    if n_comp =? 0 then Err ValueError else if m <? n_comp then Err IndexError else Ok n_comp.
  Definition vector_h (t : tab F) (a : nat -> nat -> F) (i c dir : nat) : F :=
    ksum (t_nphi t) (fun k => t_val t 0 i k dir * a k c).

  (** one element in l2_error, lines 21-58 *)
  Definition l2_error_term (dim : nat) (sp : post_space) (w : list F) (functions : dict string exact_fun) (alpha : list F)
      (name : string) (fld : post_field) (i : nat) (pe : post_element) : res F :=
    let e := pe_el pe in
    let t := e_tab e in
    do ma <- local_coefficients sp alpha 0 name i (t_nphi t);
    let m := fst ma in let a := snd ma in
    do exact <- dindex functions name;
    if is_lagrange (pf_family fld) then
      let re := Nat.min dim (x_rows exact) in
      let rh := Nat.min dim m in
      do rows <- broadcast re rh;
      Ok (sum_rows e w rows (fun c j => x_val exact (pe_cell pe) (axis_index re c) 0 j - scalar_h t a (axis_index rh c) j))
    else
      do rh <- vector_rows (pf_comp fld) m;
      let ce := Nat.min dim (x_cols exact) in
      let ch := cols t dim in
      do rows <- broadcast (x_rows exact) rh;
      do cs <- broadcast ce ch;
      Ok (sum_trace e w rows cs (fun j c dir => x_val exact (pe_cell pe) (axis_index (x_rows exact) c) (axis_index ce dir) j -
                                               vector_h t a j (axis_index rh c) (axis_index ch dir))).

  (** the loops over the fields and over the elements of dimension dim *)
  Definition skipped (skip : list string) (name : string) : bool := memb name skip.
  Definition over_elements (dim : nat) (fld : post_field) (term : nat -> post_element -> res F) : res F :=
    foldM (fun s ie => do x <- term (fst ie) (snd ie); Ok (s + x)) (indexes dim fld) k0.
  Definition over_fields {A} (sp : post_space) (keep : string -> post_field -> bool) (body : string -> post_field -> res A) : res (list A) :=
    mapM (fun nf => body (fst nf) (snd nf)) (filter (fun nf => keep (fst nf) (snd nf)) (ps_fields sp)).

  Section Root.
  Context (ksqrt : F -> F).

  (** l2_error, lines 7-62 *)
  Definition l2_error (dim : nat) (sp : post_space) (functions : dict string exact_fun) (alpha : list F) (skip : list string)
      : res (list F) :=
    do w <- rule_of sp dim;
    over_fields sp (fun name _ => negb (skipped skip name)) (fun name fld =>
      do s <- over_elements dim fld (l2_error_term dim sp w functions alpha name fld);
      Ok (ksqrt s)).

  (** l2_error_projected, lines 65-115 *)
  Definition l2_projected_term (dim : nat) (sp : post_space) (w : list F) (alpha : list F) (shift : nat)
      (name : string) (fld : post_field) (i : nat) (pe : post_element) : res F :=
    let e := pe_el pe in
    let t := e_tab e in
    do ma <- local_coefficients sp alpha shift name i (t_nphi t);
    let m := fst ma in let a := snd ma in
    if is_lagrange (pf_family fld) then Ok (sum_rows e w (Nat.min dim m) (scalar_h t a))
    else do rh <- vector_rows (pf_comp fld) m; Ok (sum_trace e w rh (cols t dim) (vector_h t a)).
  Definition l2_error_projected (dim : nat) (sp : post_space) (alpha : list F) (skip : list string) (shift : nat) : res (list F) :=
    do w <- rule_of sp dim;
    over_fields sp (fun name _ => negb (skipped skip name)) (fun name fld =>
      do s <- over_elements dim fld (l2_projected_term dim sp w alpha shift name fld);
      Ok (ksqrt s)).

  (** l2_norm, solution_norms_post_processor.py:7-39 *)
  Definition l2_norm_term (dim : nat) (w : list F) (functions : dict string exact_fun)
      (name : string) (fld : post_field) (i : nat) (pe : post_element) : res F :=
    let e := pe_el pe in
    do exact <- dindex functions name;
    Ok (if is_lagrange (pf_family fld) then sum_rows e w (Nat.min dim (x_rows exact)) (fun c j => x_val exact (pe_cell pe) c 0 j)
        else sum_trace e w (x_rows exact) (x_cols exact) (fun j c dir => x_val exact (pe_cell pe) c dir j)).
  Definition l2_norm (dim : nat) (sp : post_space) (functions : dict string exact_fun) (skip : list string) : res (list F) :=
    do w <- rule_of sp dim;
    over_fields sp (fun name _ => negb (skipped skip name)) (fun name fld =>
      do s <- over_elements dim fld (l2_norm_term dim w functions name fld);
      Ok (ksqrt s)).

  (** grad_error, l2_error_post_processor.py:120-182: evaluate_basis (finite_element.py:156) is
      called with the points only, which is a TypeError at the first element *)
  Definition grad_error (dim : nat) (sp : post_space) (functions : dict string exact_fun) (alpha : list F) : res (list F) :=
    over_fields sp (fun _ _ => true) (fun _ fld =>
      do s <- over_elements dim fld (fun _ _ => Err TypeError);
      Ok (ksqrt s)).

  (** np.sum(((f_e - f_h) * (f_e - f_h)).T @ (det_jac * weights)), line 212 *)
  Definition sum_points (e : element F) (w : list F) (rows : nat) (d : nat -> nat -> F) : F :=
    ksum rows (fun c => ksum (length w) (fun i => (d i c * d i c) * dw e w i)).
  (** the elements of one field in div_error and div_scaled_error; [dv pe i k] is the divergence of
      function k at point i (div_v_star), lines 193-213, 247-281 *)
  Definition div_term (sp : post_space) (w : list F) (exact : exact_fun) (alpha : list F) (dv : post_element -> nat -> nat -> F)
      (name : string) (i : nat) (pe : post_element) : res F :=
    let e := pe_el pe in
    let t := e_tab e in
    do ma <- local_coefficients sp alpha 0 name i (t_nphi t);
    let m := fst ma in let a := snd ma in
    do rows <- broadcast (x_rows exact) m;
    Ok (sum_points e w rows (fun j c => x_val exact (pe_cell pe) (axis_index (x_rows exact) c) 0 j -
                                        ksum (t_nphi t) (fun k => dv pe j k * a k (axis_index m c)))).
  (** np.trace(grad_m_phi_star, axis1=0, axis2=3).T * (1 / det_jac), lines 208-209 *)
  Definition div_v_star (dim : nat) (pe : post_element) (i k : nat) : F :=
    ref_div (e_tab (pe_el pe)) (t_nder (e_tab (pe_el pe))) dim i k * kdiv k1 (e_det (pe_el pe) i).
  (** lines 262-276 *)
  Definition div_v_scaled (dim : nat) (scale grad : exact_fun) (pe : post_element) (i k : nat) : F :=
    ksum (Nat.min (x_rows grad) (cols (e_tab (pe_el pe)) dim))
      (fun d => x_val grad (pe_cell pe) d 0 i * t_val (e_tab (pe_el pe)) 0 i k d) +
    ref_div (e_tab (pe_el pe)) (t_nder (e_tab (pe_el pe))) dim i k * kdiv (x_val scale (pe_cell pe) 0 0 i) (e_det (pe_el pe) i).
  (** the families div_error looks at, lines 218-225 *)
  Definition div_keep (dim : nat) (skip : list string) (name : string) (fld : post_field) : bool :=
    (if dim =? 1 then is_lagrange (pf_family fld) else is_vector (pf_family fld)) && negb (skipped skip name).

  (** div_error, lines 185-237 *)
  Definition div_error (dim : nat) (sp : post_space) (functions : dict string exact_fun) (alpha : list F) (skip : list string)
      : res (list F) :=
    do w <- rule_of sp dim;
    over_fields sp (div_keep dim skip) (fun name fld =>
      do exact <- dindex functions (String.append "div_" name);
      do s <- over_elements dim fld (div_term sp w exact alpha (div_v_star dim) name);
      Ok (ksqrt s)).

  (** div_scaled_error, lines 240-305: a field is passed over when l or grad_l is missing *)
  Definition div_scaled_error (dim : nat) (sp : post_space) (functions : dict string exact_fun) (alpha : list F) (skip : list string)
      : res (list F) :=
    do w <- rule_of sp dim;
    do r <- over_fields sp (fun name fld => is_vector (pf_family fld) && negb (skipped skip name)) (fun name fld =>
      do exact <- dindex functions (String.append "div_" name);
      match dget functions "l"%string, dget functions "grad_l"%string with
      | Some scale, Some grad =>
          do s <- over_elements dim fld (div_term sp w exact alpha (div_v_scaled dim scale grad) name);
          Ok [ksqrt s]
      | _, _ => Ok []
      end);
    Ok (concat r).

  (** div_norm, solution_norms_post_processor.py:42-77 *)
  Definition div_norm (dim : nat) (sp : post_space) (functions : dict string exact_fun) (skip : list string) : res (list F) :=
    do w <- rule_of sp dim;
    over_fields sp (fun name fld => is_vector (pf_family fld) && negb (skipped skip name)) (fun name fld =>
      do exact <- dindex functions (String.append "div_" name);
      do s <- over_elements dim fld (fun _ pe =>
        Ok (sum_points (pe_el pe) w (x_rows exact) (fun j c => x_val exact (pe_cell pe) c 0 j)));
      Ok (ksqrt s)).
  End Root.

  (** devia_l2_error, l2_error_post_processor.py:308-421, and devia_l2_norm,
      solution_norms_post_processor.py:80-147: the list fe_space.quadrature is unpacked into two
      names; [rest] stands for what would follow *)
  Definition devia (sp : post_space) (rest : res (list F)) : res (list F) :=
    if length (ps_quadrature sp) =? 2 then rest else Err ValueError.
End Post.
Arguments post_element : clear implicits.
Arguments post_field : clear implicits.
Arguments post_space : clear implicits.
Arguments exact_fun : clear implicits.
