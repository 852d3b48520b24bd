(** * Model of FiniteElement: src/basis/finite_element.py, src/basis/element_family.py:4-16, and
    of src/basis/permute_and_transform.py:22-36, 115-149 on whole tables

    Definitions only.  basix is a parameter: [create] is basix.create_element, and a
    [generator] is what the code reads from the element it returns.  push_forward is the map
    documented by basix for the map type of the element (identity, contravariant Piola,
    covariant Piola).  A numpy array is its shape and a function of its indices.  Arithmetic is
    exact; [np.linalg.qr] and [np.linalg.inv] are parameters as in MapModel.  basix's
    RuntimeError for points of the wrong width is represented by ValueError.  The attributes
    data.mapping written by evaluate_mapping are left out. *)
From Coq Require Import String List Arith ZArith Bool Reals.
From Verif Require Import Base MeshModel GraphModel OrientModel VecBase MapModel SpaceModel.
Import ListNotations.
Local Open Scope R_scope.

#[export] Instance EqDec_string : EqDec string := string_dec.

(** basix.ElementFamily and family_by_name, element_family.py:4-12 *)
Inductive family : Type := FP | FBDM | FRT | FN1E.
#[export] Instance EqDec_family : EqDec family.
Proof. intros x y; decide equality. Defined.
Definition family_by_name (name : string) : res family :=
  dindex [("Lagrange", FP); ("BDM", FBDM); ("RT", FRT); ("N1E", FN1E); ("N2E", FN1E)]%string name.


(** [self.generator_family in [family_by_name("RT"), ...]], finite_element.py:26-31 *)
Definition vector_family (g : family) : res bool :=
  do rt <- family_by_name "RT"; do bdm <- family_by_name "BDM";
  do n1 <- family_by_name "N1E"; do n2 <- family_by_name "N2E";
  Ok (memb g [rt; bdm; n1; n2]).
(** The property family, finite_element.py:24-35 (discrete_space.py:38-49 with the dimension of
    the space) *)
Definition effective_family (dim : nat) (g : family) : res family :=
  do v <- vector_family g;
  if ((dim =? 1)%nat && v) || (dim =? 0)%nat then family_by_name "Lagrange" else Ok g.

(** ** Tables *)
(** [phi_tab] of shape (derivatives, points, functions, components) *)
Record table : Type := mk_table { tb_der : nat; tb_pts : nat; tb_dof : nat; tb_vs : nat; tb_val : nat -> nat -> nat -> nat -> R }.
(** [phi_mapped] of shape (points, functions, components) *)
Record slice : Type := mk_slice { sl_pts : nat; sl_dof : nat; sl_vs : nat; sl_val : nat -> nat -> nat -> R }.

(** What is read from a basix element; [gen_interval] is entity_transformations()["interval"][0]
    and [gen_triangle] entity_transformations()["triangle"], with their sizes *)
Inductive map_kind : Type := MIdentity | MContravariant | MCovariant.
Record generator : Type := mk_generator {
  gen_entity_dofs : list (list (list nat)); gen_num_entity_dofs : list (list nat); gen_identity : bool;
  gen_interval : nat * matrix; gen_triangle : nat * (matrix * matrix);
  gen_map : map_kind; gen_tabulate : list (list R) -> res table }.

(** FiniteElement and its ElementData, finite_element.py:12-22 and element_data.py:117-125 *)
Record element : Type := mk_element {
  el_cell : cell; el_generator_family : family; el_order : Z; el_discontinuous : bool;
  el_integration_order : Z; el_generator : generator; el_n_dof : nat; el_bc_entities : list bool }.

(** _set_integration_order, finite_element.py:121-123 *)
Definition set_integration_order (k order : Z) : Z := if (order =? 0)%Z then (2 * k + 1)%Z else order.
(** The sum of _fill_element_dof_data, finite_element.py:109-110 *)
Definition count_dofs (num_entity_dofs : list (list nat)) : nat :=
  fold_left (fun n l => n + fold_left Nat.add l 0)%nat num_entity_dofs 0%nat.
(** _fill_element_bc_entity_data, finite_element.py:112-119; [l[-1]] is the last entry *)
Definition fill_bc_entities (cs : cells) (c : cell) : res (list bool) :=
  do subs <- match c_dim c with 0%nat => get_at (rev (c_sub c)) 0 | S d => get_at (c_sub c) d end;
  mapM (fun id => do f <- cell_of cs id; Ok (match c_mat f with Some _ => true | None => false end)) subs.

(** FiniteElement.__init__ and _build_structures, finite_element.py:12-22, 37-42, 84-94;
    [create] receives family, cell type, degree and the flag discontinuous (the variant is
    always gll_centroid, element_family.py:15-16) *)
Definition new_element (create : family -> cell_type -> Z -> bool -> res generator) (cs : cells)
    (cell_id : nat) (fam : family) (k : Z) (discontinuous : bool) (integration_order : Z) : res element :=
  do c <- cell_of cs cell_id;
  do f <- effective_family (c_dim c) fam;
  do ct <- type_by_dimension (Z.of_nat (c_dim c));
  do g <- create f ct k discontinuous;
  do bc <- fill_bc_entities cs c;
  Ok (mk_element c fam k discontinuous (set_integration_order k integration_order) g
        (count_dofs (gen_num_entity_dofs g)) bc).

(** ** The mapping *)
(** Results of evaluate_mapping, one entry per point; a Jacobian is a matrix of 3 rows *)
Record mapping : Type := mk_mapping { mp_x : list vec; mp_jac : list matrix; mp_det : list R; mp_inv : list matrix }.

Section Mapping.
  Variable qr : nat -> matrix -> matrix * matrix.
  Variable inv : nat -> matrix -> matrix.
  Variable mesh_points : list vec.

  (** FiniteElement.evaluate_mapping, finite_element.py:128-154, with evaluate_mapping,
      mapping.py:38-54.  In dimension 0 the Jacobian, its determinant and its inverse are
      [np.array([1.0])].  Without points [zip] gives nothing to unpack. *)
  Definition element_mapping (c : cell) (points : list (list R)) : res mapping :=
    do xs <- mapM (get_at mesh_points) (c_nodes c);
    match c_dim c with
    | 0%nat => Ok (mk_mapping xs [fun _ _ => 1] [1] [fun _ _ => 1])
    | d =>
        if negb (forallb (fun p => List.length p =? d)%nat points) then Err ValueError
        else if negb (List.length xs =? d + 1)%nat then Err ValueError
        else match points with
             | [] => Err ValueError
             | _ =>
                 let jac := of_columns (jac_columns d xs) in
                 let out := det_and_pseudo_inverse qr inv d jac in
                 Ok (mk_mapping (map (map_x d xs) points) (map (fun _ => jac) points)
                       (map (fun _ => fst out) points) (map (fun _ => snd out) points))
             end
    end.
End Mapping.

(** ** The basis *)
Definition first_slice (t : table) : slice := mk_slice (tb_pts t) (tb_dof t) (tb_vs t) (tb_val t 0).
Definition no_matrix : matrix := fun _ _ => 0.
(** basix push_forward of a slice on a cell of dimension [d]; physical vectors have 3 components *)
Definition push_forward (kind : map_kind) (d : nat) (s : slice) (m : mapping) : slice :=
  match kind with
  | MIdentity => s
  | MContravariant =>
      mk_slice (sl_pts s) (sl_dof s) 3
        (fun i a r => / nth i (mp_det m) 0 * rsum d (fun c => nth i (mp_jac m) no_matrix r c * sl_val s i a c))
  | MCovariant =>
      mk_slice (sl_pts s) (sl_dof s) 3
        (fun i a r => rsum d (fun c => nth i (mp_inv m) no_matrix c r * sl_val s i a c))
  end.
(** [phi_tab[0] = s] *)
Definition set_first (t : table) (s : slice) : table :=
  mk_table (tb_der t) (tb_pts t) (tb_dof t) (tb_vs t)
    (fun k i a c => if (k =? 0)%nat then sl_val s i a c else tb_val t k i a c).
Definition same_shape (t : table) (s : slice) : bool :=
  ((tb_pts t =? sl_pts s) && (tb_dof t =? sl_dof s) && (tb_vs t =? sl_vs s))%nat.
(** [np.insert(phi_tab, 2, 0, axis=3)] *)
Definition insert_component (t : table) : res table :=
  if (tb_vs t <? 2)%nat then Err IndexError
  else Ok (mk_table (tb_der t) (tb_pts t) (tb_dof t) (tb_vs t + 1)
             (fun k i a c => if (c <? 2)%nat then tb_val t k i a c else if (c =? 2)%nat then 0 else tb_val t k i a (c - 1)%nat)).
(** finite_element.py:166-170 *)
Definition store_mapped (t : table) (s : slice) : res table :=
  if same_shape t s then Ok (set_first t s)
  else
    do t' <- insert_component t;
    if same_shape t' s then Ok (set_first t' s) else Err ValueError.

(** [(1.0 / det_jac) * phi_mapped[:, :, 0] * (jac[:, :, 0] @ np.array([1.0, 0.0, 0.0]))] stored in
    [phi_mapped[:, :, 0]], finite_element.py:180-181: the vectors of one number per point are
    broadcast along the last axis, which counts the functions *)
Definition scale_line (s : slice) (m : mapping) : res slice :=
  let n := sl_pts s in
  let jx := map (fun J : matrix => J 0%nat 0%nat * 1 + J 1%nat 0%nat * 0 + J 2%nat 0%nat * 0) (mp_jac m) in
  let factor := fun k => / nth k (mp_det m) 0 in
  if negb (List.length (mp_det m) =? n)%nat then Err ValueError
  else if (n =? sl_dof s)%nat || (n =? 1)%nat then
    let at_ := fun a => if (n =? 1)%nat then 0%nat else a in
    Ok (mk_slice n (sl_dof s) (sl_vs s)
          (fun i a c => if (c =? 0)%nat then factor (at_ a) * sl_val s i a 0%nat * nth (at_ a) jx 0 else sl_val s i a c))
  else Err ValueError.

(** ** permute_and_transform on tables *)
(** the last position of [a] in [l]: the one whose value remains after [x[l] = v] *)
Fixpoint last_index (a : nat) (l : list nat) : option nat :=
  match l with
  | [] => None
  | x :: l' => match last_index a l' with Some k => Some (S k) | None => if (a =? x)%nat then Some 0%nat else None end
  end.
(** [phi[d, :, dofs, dim] = t @ phi[d, :, dofs, dim]] for all [d] and [dim],
    permute_and_transform.py:32-34, 128-130, 141-143 *)
Definition transform_dofs (t : nat * matrix) (dofs : list nat) (phi : table) : res table :=
  if negb (forallb (fun j => j <? tb_dof phi)%nat dofs) then Err IndexError
  else if negb (List.length dofs =? fst t)%nat then Err ValueError
  else Ok (mk_table (tb_der phi) (tb_pts phi) (tb_dof phi) (tb_vs phi)
         (fun k i a c => match last_index a dofs with
                         | Some r => rsum (fst t) (fun s => snd t r s * tb_val phi k i (nth s dofs 0%nat) c)
                         | None => tb_val phi k i a c
                         end)).
Definition entity_dofs (g : generator) (d i : nat) : res (list nat) :=
  do l <- get_at (gen_entity_dofs g) d; get_at l i.
(** permute_and_transform.py:27-34, 134-143 *)
Definition transform_edges (g : generator) (oriented : list bool) (phi : table) : res table :=
  foldM (fun (phi : table) (ic : nat * bool) => if snd ic then Ok phi
                       else do dofs <- entity_dofs g 1 (fst ic); transform_dofs (gen_interval g) dofs phi)
        (enumerate oriented) phi.
Definition identity : matrix := fun i j => if (i =? j)%nat then 1 else 0.
(** permute_and_transform.py:122-126 *)
Definition face_matrix (g : generator) (rotations reflections : nat) : nat * matrix :=
  let n := fst (gen_triangle g) in
  let rotate_t := fst (snd (gen_triangle g)) in
  let reflect_t := snd (snd (gen_triangle g)) in
  (n, times matrix (mmul n) reflections reflect_t (times matrix (mmul n) rotations rotate_t identity)).
(** permute_and_transform.py:118-130 *)
Definition transform_faces (g : generator) (q : list (bool * nat * nat)) (phi : table) : res table :=
  foldM (fun (phi : table) (iq : nat * (bool * nat * nat)) => let '(oriented, r, s) := snd iq in
                       if oriented then Ok phi
                       else do dofs <- entity_dofs g 2 (fst iq); transform_dofs (face_matrix g r s) dofs phi)
        (enumerate q) phi.
(** permute_and_transform, permute_and_transform.py:22-36, 115-149 *)
Definition permute_table (cs : cells) (c : cell) (g : generator) (bc : list bool) (phi : table) : res table :=
  if (c_dim c =? 2)%nat then
    if gen_identity g then Ok phi
    else do q <- edge_orientation_2d cs c; transform_edges g q phi
  else if (c_dim c =? 3)%nat then
    if gen_identity g then Ok phi
    else
      do qf <- face_orientation_3d (c_nodes c) bc;
      do phi1 <- transform_faces g qf phi;
      do qe <- edge_orientation_3d cs c;
      transform_edges g qe phi1
  else Ok phi.

(** FiniteElement.evaluate_basis, finite_element.py:156-186; [m] are the arguments jac, det_jac
    and inv_jac *)
Definition evaluate_basis (cs : cells) (el : element) (points : list (list R)) (m : mapping) : res table :=
  let c := el_cell el in
  let g := el_generator el in
  if (c_dim c =? 0)%nat then Ok (mk_table 1 1 1 1 (fun _ _ _ _ => 1))
  else
    do phi <- gen_tabulate g points;
    let mapped := push_forward (gen_map g) (c_dim c) (first_slice phi) m in
    do phi1 <- store_mapped phi mapped;
    do v <- vector_family (el_generator_family el);
    do phi2 <- (if (c_dim c =? 1)%nat && v then
                  do scaled <- scale_line mapped m;
                  Ok (if same_shape phi1 scaled then set_first phi1 scaled else phi1)
                else Ok phi1);
    permute_table cs c g (el_bc_entities el) phi2.
