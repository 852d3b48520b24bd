(** * Model of the local systems of weak forms: common part and
    src/weak_forms/l2_projector_weak_form.py

    Definitions only.  Numbers are elements of an arbitrary type with field operations (exact
    arithmetic).  A numpy array is a function of its indices; its shape is given where the code
    looks at it.  Tabulated basis functions, Jacobian determinants, inverse Jacobians and the
    values of the user's functions at the quadrature points are data: any numbers.  Shapes that
    basix and the mapping guarantee (e.g. the number of points) are not checked. *)
From Coq Require Import String List Arith Bool.
From Verif Require Import Base.
Import ListNotations.
Open Scope list_scope.

#[export] Instance EqDec_string : EqDec string := string_dec.

(** Numbers *)
Record scalar : Type := mk_scalar {
  K :> Type; k0 : K; k1 : K; kadd : K -> K -> K; kmul : K -> K -> K; ksub : K -> K -> K;
  kopp : K -> K; kinv : K -> K }.
Arguments k0 {_}. Arguments k1 {_}.
Arguments kadd {_} _ _. Arguments kmul {_} _ _. Arguments ksub {_} _ _.
Arguments kopp {_} _. Arguments kinv {_} _.

Declare Scope num_scope.
Delimit Scope num_scope with num.
Infix "+" := kadd : num_scope.
Infix "*" := kmul : num_scope.
Infix "-" := ksub : num_scope.
Notation "- x" := (kopp x) : num_scope.

Section Forms.
  Context {F : scalar}.
  Local Open Scope num_scope.

  (** [a / b] *)
  Definition kdiv (a b : F) : F := a * kinv b.
  (** the literals 2.0 and 0.5 *)
  Definition k2 : F := k1 + k1.
  Definition khalf : F := kinv k2.

  (** A sum over the indices 0 .. n-1 *)
  Fixpoint ksum (n : nat) (f : nat -> F) : F :=
    match n with 0 => k0 | S m => ksum m f + f m end.

  (** The position of an index in the slice [b:e:step] *)
  Definition in_slice (b e step a : nat) : option nat :=
    if (b <=? a) && (a <? e) && ((a - b) mod step =? 0) then Some ((a - b) / step) else None.

  (** [r[b:e:step] += v] *)
  Definition add_slice (b e step : nat) (v r : nat -> F) : nat -> F :=
    fun a => match in_slice b e step a with Some k => r a + v k | None => r a end.
  (** [r[b:e:step] -= v] *)
  Definition sub_slice (b e step : nat) (v r : nat -> F) : nat -> F :=
    fun a => match in_slice b e step a with Some k => r a - v k | None => r a end.
  (** [j[b:e:step, c:f:step'] += m] *)
  Definition add_block (b e step c f step' : nat) (m j : nat -> nat -> F) : nat -> nat -> F :=
    fun a a' => match in_slice b e step a, in_slice c f step' a' with
                | Some k, Some l => j a a' + m k l
                | _, _ => j a a'
                end.

  (** Tabulated basis functions, the array of FiniteElement.evaluate_basis
      (finite_element.py:156-186): indices derivative (0: value, 1..: derivatives in the
      reference coordinates), point, function, component; [t_nphi] is shape[2], [t_nder] is
      shape[0] - 1, [t_vs] is shape[3] *)
  Record tab : Type := mk_tab { t_nphi : nat; t_nder : nat; t_vs : nat; t_val : nat -> nat -> nat -> nat -> F }.

  (** What evaluate_form reads of an element: the dimension of its cell, the basis and the
      result of evaluate_mapping (finite_element.py:128-154) at the quadrature points: det_jac
      and inv_jac (indices point, row, column) *)
  Record element : Type := mk_element {
    e_dim : nat; e_tab : tab; e_det : nat -> F; e_inv : nat -> nat -> nat -> F }.

  (** A discrete space: n_comp, [family is Lagrange], elements *)
  Record fe_field : Type := mk_fe_field { fe_comp : nat; fe_lagrange : bool; fe_elements : list element }.

  (** A product space: discrete_spaces in order and the weights of quadrature by dimension
      (product_space.py:32-41) *)
  Record fe_space : Type := mk_fe_space {
    fs_fields : dict string fe_field; fs_quadrature : list (option (list F)) }.

  (** A local system: the number of DoFs, r_el and j_el *)
  Record local_system : Type := mk_local { l_n : nat; l_r : nat -> F; l_j : nat -> nat -> F }.

  (** [points, weights = self.space.quadrature[dim]]: None cannot be unpacked *)
  Definition quadrature_of (sp : fe_space) (dim : nat) : res (list F) :=
    do q <- get_at (fs_quadrature sp) dim;
    match q with Some w => Ok w | None => Err TypeError end.

  Definition weight (w : list F) (i : nat) : F := nth i w k0.

  (** The value of a user function at the quadrature points: one entry per component; an
      entry has indices direction and point (direction 0 for scalar components) *)
  Definition values : Type := list (nat -> nat -> F).

  (** *** L2ProjectorWeakForm.evaluate_form, l2_projector_weak_form.py:9-93 *)

  (** the residual of one field, lines 36-55 *)
  Definition l2_residual (f : fe_field) (e : element) (w : list F) (fv : values) : res (nat -> F) :=
    let t := e_tab e in
    let n_comp := fe_comp f in
    let n_dof := (t_nphi t * n_comp)%nat in
    foldM (fun r c =>
      do fc <- get_at fv c;
      Ok (if fe_lagrange f then
            sub_slice c (c + n_dof) n_comp
              (fun k => ksum (length w) (fun i => (e_det e i * weight w i * t_val t 0 i k 0) * fc 0 i)) r
          else
            fold_left (fun r i =>
              sub_slice c (c + n_dof) n_comp
                (fun k => ksum (e_dim e) (fun d => (e_det e i * weight w i * t_val t 0 i k d) * fc d i)) r)
              (seq 0 (length w)) r))
      (seq 0 n_comp) (fun _ => k0).

  (** the matrix of one field, lines 57-73 *)
  Definition l2_matrix (f : fe_field) (e : element) (w : list F) : nat -> nat -> F :=
    let t := e_tab e in
    let n_comp := fe_comp f in
    let n_dof := (t_nphi t * n_comp)%nat in
    fold_left (fun j c =>
      fold_left (fun j i =>
        if fe_lagrange f then
          add_block c (c + n_dof) n_comp c (c + n_dof) n_comp
            (fun k l => (e_det e i * weight w i) * (t_val t 0 i k 0 * t_val t 0 i l 0)) j
        else
          fold_left (fun j d =>
            add_block c (c + n_dof) n_comp c (c + n_dof) n_comp
              (fun k l => (e_det e i * weight w i) * (t_val t 0 i k d * t_val t 0 i l d)) j)
            (seq 0 (e_dim e)) j)
        (seq 0 (length w)) j)
      (seq 0 n_comp) (fun _ _ => k0).

  (** the loop over the fields, lines 17-75: (n_dof, r_el, j_el) of each *)
  Definition l2_fields (sp : fe_space) (functions : dict string values) (iel : nat)
      : res (list (nat * (nat -> F) * (nat -> nat -> F))) :=
    mapM (fun item =>
      do fv <- dindex functions (fst item);
      do e <- get_at (fe_elements (snd item)) iel;
      do w <- quadrature_of sp (e_dim e);
      do r <- l2_residual (snd item) e w fv;
      Ok ((t_nphi (e_tab e) * fe_comp (snd item))%nat, r, l2_matrix (snd item) e w)) (fs_fields sp).

  (** the whole form, lines 11-12 and 77-93; [alpha] is not used *)
  Definition l2_form (space : option fe_space) (functions : option (dict string values)) (iel : nat)
      (alpha : nat -> F) : res local_system :=
    match space, functions with
    | Some sp, Some fn =>
        do parts <- l2_fields sp fn iel;
        let n_dofs := map (fun p => fst (fst p)) parts in
        let strides := accumulate (0 :: n_dofs) in
        let n_dof := last strides 0 in
        let rj := fold_left (fun rj bp =>
          let '(b, (n, r, j)) := bp in
          (add_slice b (b + n) 1 r (fst rj), add_block b (b + n) 1 b (b + n) 1 j (snd rj)))
          (combine (removelast strides) parts) ((fun _ => k0), (fun _ _ => k0)) in
        Ok (mk_local n_dof (fst rj) (snd rj))
    | _, _ => Err ValueError
    end.
End Forms.
Arguments tab : clear implicits.
Arguments element : clear implicits.
Arguments fe_field : clear implicits.
Arguments fe_space : clear implicits.
Arguments local_system : clear implicits.
Arguments values : clear implicits.
