(** * C80: errors and norms of solutions *)
From Coq Require Import String List Arith Bool ZArith QArith Qcanon Reals.
From Verif Require Import Base FormModel FormSpec FormExamples AdExamples PostModel PostSpec PostRealSpec PostProof PostProof2 PostReal PostExamples PostRefute.
Import ListNotations.
Open Scope nat_scope.
Open Scope list_scope.

(** l2_error: one number per field that is not skipped, in order: the root of the integral of the
    squared difference.  Lagrange fields may have at most [dim] components. *)
Theorem C80_l2_error_partial : forall F, is_ring F ->
  forall (ksqrt : F -> F) dim (sp : post_space F) functions alpha skip w (f : string -> exact_fun F),
  NoDup (dkeys (ps_fields sp)) -> nth_error (ps_quadrature sp) dim = Some (Some w) ->
  (forall name fld, In (name, fld) (kept skip (ps_fields sp)) ->
     readable sp alpha 0 dim fld /\ dget functions name = Some (f name) /\ shape_fits dim fld (f name)) ->
  l2_error ksqrt dim sp functions alpha skip =
  Ok (map (fun nf => ksqrt (norm2 dim w (snd nf) (pf_comp (snd nf)) (dirs_of dim (snd nf)) (fun pe i c d =>
            ksub (x_val (f (fst nf)) (pe_cell pe) c d i) (discrete alpha 0 (pf_comp (snd nf)) pe i c d)))) (kept skip (ps_fields sp))).
Proof. exact @l2_error_ok. Qed.
Print Assumptions C80_l2_error_partial.

(** l2_error_projected: the norm of the discrete function whose coefficients start at dof_shift *)
Theorem C80_projected_partial : forall F, is_ring F ->
  forall (ksqrt : F -> F) dim (sp : post_space F) alpha skip shift w,
  NoDup (dkeys (ps_fields sp)) -> nth_error (ps_quadrature sp) dim = Some (Some w) ->
  (forall name fld, In (name, fld) (kept skip (ps_fields sp)) ->
     readable sp alpha shift dim fld /\
     if lagrange fld then pf_comp fld <= dim
     else 0 < pf_comp fld /\ forall pe, In pe (on_dim dim fld) -> dim <= t_vs (e_tab (pe_el pe))) ->
  l2_error_projected ksqrt dim sp alpha skip shift =
  Ok (map (fun nf => ksqrt (norm2 dim w (snd nf) (pf_comp (snd nf)) (dirs_of dim (snd nf)) (fun pe i c d =>
            discrete alpha shift (pf_comp (snd nf)) pe i c d))) (kept skip (ps_fields sp))).
Proof. exact @l2_projected_ok. Qed.
Print Assumptions C80_projected_partial.

(** l2_norm: the norm of the given function *)
Theorem C80_l2_norm_partial : forall F, is_ring F ->
  forall (ksqrt : F -> F) dim (sp : post_space F) functions skip w (f : string -> exact_fun F),
  nth_error (ps_quadrature sp) dim = Some (Some w) ->
  (forall name fld, In (name, fld) (kept skip (ps_fields sp)) -> dget functions name = Some (f name) /\
     x_rows (f name) = pf_comp fld /\ if lagrange fld then pf_comp fld <= dim else x_cols (f name) = dim) ->
  l2_norm ksqrt dim sp functions skip =
  Ok (map (fun nf => ksqrt (norm2 dim w (snd nf) (pf_comp (snd nf)) (dirs_of dim (snd nf)) (fun pe i c d =>
            x_val (f (fst nf)) (pe_cell pe) c d i))) (kept skip (ps_fields sp))).
Proof. exact @l2_norm_ok. Qed.
Print Assumptions C80_l2_norm_partial.

(** div_error: the fields are the RT and BDM ones, in one dimension the Lagrange ones *)
Theorem C80_div_error : forall F, is_ring F ->
  forall (ksqrt : F -> F) dim (sp : post_space F) functions alpha skip w (f : string -> exact_fun F),
  NoDup (dkeys (ps_fields sp)) -> nth_error (ps_quadrature sp) dim = Some (Some w) ->
  let fields := div_fields dim (kept skip (ps_fields sp)) in
  (forall name fld, In (name, fld) fields ->
     readable sp alpha 0 dim fld /\ dget functions (String.append "div_" name) = Some (f name) /\
     x_rows (f name) = pf_comp fld /\ div_fits dim fld) ->
  div_error ksqrt dim sp functions alpha skip =
  Ok (map (fun nf => ksqrt (norm2 dim w (snd nf) (pf_comp (snd nf)) 1 (fun pe i c _ =>
            ksub (x_val (f (fst nf)) (pe_cell pe) c 0 i) (discrete_div alpha (pf_comp (snd nf)) dim pe i c)))) fields).
Proof. exact @div_error_ok. Qed.
Print Assumptions C80_div_error.

(** div_scaled_error: the divergence of l times the discrete function *)
Theorem C80_div_scaled : forall F, is_ring F ->
  forall (ksqrt : F -> F) dim (sp : post_space F) functions alpha skip w (f : string -> exact_fun F) l g,
  NoDup (dkeys (ps_fields sp)) -> nth_error (ps_quadrature sp) dim = Some (Some w) ->
  dget functions "l"%string = Some l -> dget functions "grad_l"%string = Some g -> dim <= x_rows g ->
  let fields := filter (fun nf => has_div (snd nf)) (kept skip (ps_fields sp)) in
  (forall name fld, In (name, fld) fields ->
     readable sp alpha 0 dim fld /\ dget functions (String.append "div_" name) = Some (f name) /\
     x_rows (f name) = pf_comp fld /\ div_fits dim fld) ->
  div_scaled_error ksqrt dim sp functions alpha skip =
  Ok (map (fun nf => ksqrt (norm2 dim w (snd nf) (pf_comp (snd nf)) 1 (fun pe i c _ =>
            ksub (x_val (f (fst nf)) (pe_cell pe) c 0 i)
                 (discrete_div_l (fun cell => x_val l cell 0 0) (fun cell d => x_val g cell d 0) alpha (pf_comp (snd nf)) dim pe i c)))) fields).
Proof. exact @div_scaled_error_ok. Qed.
Print Assumptions C80_div_scaled.

Theorem C80_div_norm : forall F, is_ring F ->
  forall (ksqrt : F -> F) dim (sp : post_space F) functions skip w (f : string -> exact_fun F),
  nth_error (ps_quadrature sp) dim = Some (Some w) ->
  let fields := filter (fun nf => has_div (snd nf)) (kept skip (ps_fields sp)) in
  (forall name fld, In (name, fld) fields -> dget functions (String.append "div_" name) = Some (f name)) ->
  div_norm ksqrt dim sp functions skip =
  Ok (map (fun nf => ksqrt (norm2 dim w (snd nf) (x_rows (f (fst nf))) 1 (fun pe i c _ => x_val (f (fst nf)) (pe_cell pe) c 0 i))) fields).
Proof. exact @div_norm_ok. Qed.
Print Assumptions C80_div_norm.

(** The error of the zero solution is the norm of the function; the error with respect to zero is
    the norm of the discrete function *)
Theorem C80_error_of_zero : forall F, is_ring F ->
  forall (ksqrt : F -> F) dim (sp : post_space F) functions alpha skip w (f : string -> exact_fun F),
  NoDup (dkeys (ps_fields sp)) -> nth_error (ps_quadrature sp) dim = Some (Some w) ->
  (forall name fld, In (name, fld) (kept skip (ps_fields sp)) ->
     readable sp alpha 0 dim fld /\ dget functions name = Some (f name) /\ shape_fits dim fld (f name) /\
     (lagrange fld = false -> x_cols (f name) = dim)) ->
  (forall x, In x alpha -> x = k0) ->
  l2_error ksqrt dim sp functions alpha skip = l2_norm ksqrt dim sp functions skip.
Proof. exact @error_of_zero. Qed.
Print Assumptions C80_error_of_zero.
Theorem C80_error_to_zero : forall F, is_ring F ->
  forall (ksqrt : F -> F) dim (sp : post_space F) functions alpha skip w (f : string -> exact_fun F),
  NoDup (dkeys (ps_fields sp)) -> nth_error (ps_quadrature sp) dim = Some (Some w) ->
  (forall name fld, In (name, fld) (kept skip (ps_fields sp)) ->
     readable sp alpha 0 dim fld /\ dget functions name = Some (f name) /\ shape_fits dim fld (f name) /\
     forall cell c d i, x_val (f name) cell c d i = k0) ->
  l2_error ksqrt dim sp functions alpha skip = l2_error_projected ksqrt dim sp alpha skip 0.
Proof. exact @error_to_zero. Qed.
Print Assumptions C80_error_to_zero.

(** Over the reals, with positive weights and determinants, an error is zero exactly when the two
    functions agree at the quadrature points, and the triangle inequality holds *)
Theorem C80_zero_error : forall dim (sp : post_space Rs) functions alpha skip w (f : string -> exact_fun Rs),
  NoDup (dkeys (ps_fields sp)) -> nth_error (ps_quadrature sp) dim = Some (Some w) ->
  (forall name fld, In (name, fld) (kept skip (ps_fields sp)) ->
     readable sp alpha 0 dim fld /\ dget functions name = Some (f name) /\ shape_fits dim fld (f name) /\ positive dim w fld) ->
  exists errors, l2_error (F := Rs) sqrt dim sp functions alpha skip = Ok errors /\
    Forall2 (fun nf err => (0 <= err)%R /\ (err = 0%R <->
      agree dim w (snd nf) (pf_comp (snd nf)) (dirs_of dim (snd nf))
        (fun pe i c d => x_val (f (fst nf)) (pe_cell pe) c d i) (fun pe i c d => discrete alpha 0 (pf_comp (snd nf)) pe i c d)))
      (kept skip (ps_fields sp)) errors.
Proof. exact l2_error_zero. Qed.
Print Assumptions C80_zero_error.
Theorem C80_triangle : forall dim (sp : post_space Rs) functions (alpha beta diff : list Rs) skip w (f : string -> exact_fun Rs),
  NoDup (dkeys (ps_fields sp)) -> nth_error (ps_quadrature sp) dim = Some (Some w) ->
  (forall name fld, In (name, fld) (kept skip (ps_fields sp)) ->
     readable sp alpha 0 dim fld /\ dget functions name = Some (f name) /\ shape_fits dim fld (f name) /\ positive dim w fld) ->
  length beta = length alpha -> length diff = length alpha -> (forall j, nth j diff R0 = (nth j alpha R0 - nth j beta R0)%R) ->
  exists ea eb ed, l2_error (F := Rs) sqrt dim sp functions alpha skip = Ok ea /\ l2_error (F := Rs) sqrt dim sp functions beta skip = Ok eb /\
    l2_error_projected (F := Rs) sqrt dim sp diff skip 0 = Ok ed /\
    length ea = length (kept skip (ps_fields sp)) /\ length eb = length ea /\ length ed = length ea /\
    forall j, (nth j ea R0 <= nth j eb R0 + nth j ed R0)%R.
Proof. exact l2_error_triangle. Qed.
Print Assumptions C80_triangle.

(** A Lagrange field with more components than the dimension: only the first [dim] are compared,
    so on points the error is that of the exact solution whatever the coefficients are *)
Theorem C80_components_refuted : exists (sp : post_space Zs) name fld f alpha w,
  ps_fields sp = [(name, fld)] /\ nth_error (ps_quadrature sp) 1 = Some (Some w) /\
  readable sp alpha 0 1 fld /\ lagrange fld = true /\ x_rows f = pf_comp fld /\
  l2_error (F := Zs) px_id 1 sp [(name, f)] alpha [] = Ok [0%Z] /\
  norm2 1 w fld (pf_comp fld) 1 (fun pe i c d => ksub (x_val f (pe_cell pe) c d i) (discrete alpha 0 (pf_comp fld) pe i c d)) = 81%Z.
Proof. exact components_cut. Qed.
Print Assumptions C80_components_refuted.
Theorem C80_points : forall F, is_ring F -> forall (ksqrt : F -> F) (sp : post_space F) functions alpha skip w,
  NoDup (dkeys (ps_fields sp)) -> nth_error (ps_quadrature sp) 0 = Some (Some w) ->
  (forall name fld, In (name, fld) (kept skip (ps_fields sp)) ->
     readable sp alpha 0 0 fld /\ (exists f, dget functions name = Some f) /\ lagrange fld = true) ->
  l2_error ksqrt 0 sp functions alpha skip = Ok (map (fun _ => ksqrt k0) (kept skip (ps_fields sp))).
Proof. exact @error_at_points. Qed.
Print Assumptions C80_points.
(** l2_error cuts a function with more columns than the dimension, l2_norm does not *)
Theorem C80_columns_refuted : exists (sp : post_space Zs) functions alpha,
  (forall x, In x alpha -> x = 0%Z) /\
  (exists e, l2_error (F := Zs) px_id 2 sp functions alpha ["u"%string] = Ok [e] /\ e = 62%Z) /\
  l2_norm (F := Zs) px_id 2 sp functions ["u"%string] = Ok [65%Z].
Proof. exact columns_kept. Qed.
Print Assumptions C80_columns_refuted.
(** In one dimension div_norm leaves out the fields div_error reports *)
Theorem C80_div_norm_refuted : exists (sp : post_space Zs) functions alpha e,
  div_error (F := Zs) px_id 1 sp functions alpha [] = Ok [e] /\ div_norm (F := Zs) px_id 1 sp functions [] = Ok [].
Proof. exact div_norm_missing. Qed.
Print Assumptions C80_div_norm_refuted.

(** Calls that fail or say nothing: an element whose index some other field does not have, even a
    skipped one; a Lagrange field without given divergence in one dimension; no l or grad_l;
    grad_error; devia_l2_error and devia_l2_norm with the four rules of a space *)
Theorem C80_uneven_never : forall (F : scalar) (ksqrt : F -> F) dim (sp : post_space F) alpha skip name fld i pe other,
  In (name, fld) (kept skip (ps_fields sp)) -> nth_error (pf_elements fld) i = Some pe -> e_dim (pe_el pe) = dim ->
  In other (ps_fields sp) -> length (pf_elements (snd other)) <= i ->
  (forall functions r, l2_error ksqrt dim sp functions alpha skip <> Ok r) /\
  (forall shift r, l2_error_projected ksqrt dim sp alpha skip shift <> Ok r).
Proof. exact @uneven_fails. Qed.
Print Assumptions C80_uneven_never.
Theorem C80_div_needs : forall (F : scalar) (ksqrt : F -> F) (sp : post_space F) functions alpha skip name fld,
  In (name, fld) (kept skip (ps_fields sp)) -> lagrange fld = true ->
  dget functions (String.append "div_" name) = None -> forall r, div_error ksqrt 1 sp functions alpha skip <> Ok r.
Proof. exact @div_error_needs. Qed.
Print Assumptions C80_div_needs.
Theorem C80_div_scaled_nothing : forall (F : scalar) (ksqrt : F -> F) dim (sp : post_space F) functions alpha skip r,
  dget functions "l"%string = None \/ dget functions "grad_l"%string = None ->
  div_scaled_error ksqrt dim sp functions alpha skip = Ok r -> r = [].
Proof. exact @div_scaled_nothing. Qed.
Print Assumptions C80_div_scaled_nothing.
Theorem C80_grad_never : forall (F : scalar) (ksqrt : F -> F) dim (sp : post_space F) functions alpha nf pe,
  In nf (ps_fields sp) -> In pe (on_dim dim (snd nf)) -> grad_error ksqrt dim sp functions alpha = Err TypeError.
Proof. exact @grad_error_never. Qed.
Print Assumptions C80_grad_never.
Theorem C80_devia_never : forall (F : scalar) (sp : post_space F) rest, length (ps_quadrature sp) = 4 -> devia sp rest = Err ValueError.
Proof. exact @devia_never. Qed.
Print Assumptions C80_devia_never.

Example C80_l2_case :
  l2_error (F := Zs) px_id 2 px_space px_funs (px_alpha ++ [4%Z]) [] = Ok [165; 251]%Z /\
  l2_error (F := Zs) px_id 2 px_space px_funs (px_alpha ++ [4%Z]) ["u"%string] = Ok [251]%Z /\
  l2_error_projected (F := Zs) px_id 2 px_space (px_alpha ++ [4%Z]) [] 1 = Ok [536; 172]%Z /\
  l2_norm (F := Zs) px_id 2 px_space px_funs [] = Ok [218; 62]%Z /\
  NoDup (dkeys (ps_fields px_space)) /\
  (forall name fld, In (name, fld) (ps_fields px_space) ->
     readable px_space (px_alpha ++ [4%Z]) 0 2 fld /\ dget px_funs name = Some (px_f name) /\ shape_fits 2 fld (px_f name)).
Proof.
  repeat (split; [vm_compute; reflexivity|]). split; [exact px_names|]. intros name fld I.
  exact (conj (px_readable 0 name fld (or_introl eq_refl) I) (conj (px_funs_f name fld I) (px_shape name fld I))).
Qed.
Example C80_div_case :
  py_show (div_error (F := Qs) py_id 2 py_space py_funs py_alpha []) = Some [65%Q] /\
  py_show (div_scaled_error (F := Qs) py_id 2 py_space py_funs py_alpha []) = Some [(4645 # 2)%Q] /\
  py_show (div_norm (F := Qs) py_id 2 py_space py_funs []) = Some [338%Q] /\
  NoDup (dkeys (ps_fields py_space)) /\
  (forall name fld, In (name, fld) (ps_fields py_space) ->
     readable py_space py_alpha 0 2 fld /\ dget py_funs (String.append "div_" name) = Some (py_f name) /\
     x_rows (py_f name) = pf_comp fld /\ div_fits 2 fld).
Proof. repeat (split; [vm_compute; reflexivity|]). exact (conj py_names py_fits). Qed.
Example C80_real_case :
  (forall a : Rs, l2_error (F := Rs) sqrt 1 pr_space pr_funs [a] [] = Ok [(2 * Rabs (3 - a))%R]) /\
  (forall (alpha : list Rs) name fld, length alpha = 1 -> In (name, fld) (ps_fields pr_space) ->
     readable pr_space alpha 0 1 fld /\ dget pr_funs name = Some (pr_f name) /\ shape_fits 1 fld (pr_f name) /\ positive 1 pr_w fld).
Proof. exact (conj pr_error pr_fits). Qed.
Example C80_failing_case :
  grad_error (F := Zs) px_id 2 px_space px_funs px_alpha = Err TypeError /\
  l2_error (F := Zs) px_id 2 (mk_ps (F := Zs) [("u"%string, px_u); ("s"%string, mk_pf (F := Zs) FRT 1 (firstn 2 (pf_elements px_s)))] (ps_quadrature px_space))
    px_funs px_alpha ["s"%string] = Err IndexError /\
  div_error (F := Zs) px_id 1 pz_space [] pz_alpha [] = Err KeyError /\
  devia (F := Zs) px_space (Ok []) = Err ValueError.
Proof. vm_compute. repeat split. Qed.
