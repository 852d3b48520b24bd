(** * Model of src/basis/basis_trace.py:9-69 and of the boundary elements of a space,
      src/spaces/discrete_space.py:163-211

    Definitions only.  The mapping and the basis are those of ElementModel (basix, QR and the
    inverse are parameters there).  A space is given by its topology, its dictionary
    id_to_element and its list of elements. *)
From Coq Require Import String List Arith ZArith Bool Reals.
From Verif Require Import Base MeshModel GraphModel OrientModel VecBase MapModel SpaceModel ShapeModel ElementModel.
Import ListNotations.
Local Open Scope R_scope.

(** [phi[:, :, index, :]] for a list of positions *)
Definition take_functions (t : table) (l : list nat) : res table :=
  if negb (forallb (fun a => a <? tb_dof t)%nat l) then Err IndexError
  else Ok (mk_table (tb_der t) (tb_pts t) (List.length l) (tb_vs t) (fun k i a c => tb_val t k i (nth a l 0%nat) c)).

(** Keys of a Python dictionary: the cell ids are integers, the neighbours found by
    topological_queries.py:5-8 are pairs.  A pair equals no integer. *)
Inductive pykey : Type := KInt (n : nat) | KPair (v : vid).
#[export] Instance EqDec_pykey : EqDec pykey.
Proof. intros x y; repeat decide equality. Defined.
(** [id_to_element[key]] *)
Definition element_index (ids : dict nat nat) (key : pykey) : res nat :=
  dindex (map (fun kv => (KInt (fst kv), snd kv)) ids) key.

Section Trace.
  Variable qr : nat -> matrix -> matrix * matrix.
  Variable inv : nat -> matrix -> matrix.
  Variable mesh_points : list vec.
  Variable cs : cells.

  (** _trace, basis_trace.py:9-28; without mapped points (a facet of dimension 3) evaluate_mapping
      gets None *)
  Definition trace (points : list (list R)) (c1 : cell) (el : element) (return_all_dof : bool) : res table :=
    do mapped <- transform_lower_to_higher points c1 (el_cell el);
    match mapped with
    | None => Err TypeError
    | Some q =>
        do m <- element_mapping qr inv mesh_points (el_cell el) q;
        do t <- evaluate_basis cs el q m;
        if return_all_dof then Ok t
        else
          do subs <- get_at (c_sub (el_cell el)) (c_dim c1);
          do i <- index_of (c_id c1) subs;
          do l <- entity_dofs (el_generator el) (c_dim c1) i;
          take_functions t l
    end.

  (** A DiscreteSpace as read by trace_discrete_space *)
  Record trace_space : Type := mk_trace_space { ts_topology : topology; ts_ids : dict nat nat; ts_elements : list element }.

  (** trace_discrete_space, basis_trace.py:31-50 *)
  Definition trace_discrete_space (s : trace_space) (points : list (list R)) (c1 : cell) (return_all_dof : bool)
      (neigh_idx : Z) : res table :=
    do neighs <- find_higher_dimension_neighs c1 (ts_topology s);
    if negb (0 <? List.length neighs)%nat then Err AssertionError
    else
      do n <- py_index (List.length neighs) neigh_idx;
      do c0_cell_id <- get_at neighs n;
      do c0_element_idx <- element_index (ts_ids s) (KPair c0_cell_id);
      do el <- get_at (ts_elements s) c0_element_idx;
      trace points c1 el return_all_dof.

  (** trace_product_space, basis_trace.py:53-69; [spaces] is [space.discrete_spaces] by field *)
  Definition trace_product_space (fields : list nat) (spaces : dict nat trace_space) (points : list (list R)) (c1 : cell)
      (return_all_dof : bool) (neigh_idx : Z) : res (dict nat table) :=
    do sub <- foldM (fun (d : dict nat trace_space) f => do s <- dindex spaces f; Ok (dset d f s)) fields [];
    foldM (fun (d : dict nat table) (fs : nat * trace_space) =>
             do t <- trace_discrete_space (snd fs) points c1 return_all_dof neigh_idx; Ok (dset d (fst fs) t)) sub [].
End Trace.

(** ** Boundary elements: family, degree and flag given to FiniteElement by
    _build_bc_elements, discrete_space.py:177-194 *)
Definition bc_request (dim : nat) (fam : family) (k : Z) (discontinuous : bool) : res (family * Z * bool) :=
  do f <- effective_family dim fam;
  do lagrange <- family_by_name "Lagrange"; do bdm <- family_by_name "BDM"; do rt <- family_by_name "RT";
  let r0 := (f, k, discontinuous) in
  let r1 := if (Z.of_nat dim - 1 <? 2)%Z
            then (lagrange, (if (Z.of_nat dim - 1 <? 1)%Z then 0%Z else k), discontinuous) else r0 in
  let r2 := if eqb bdm f then (lagrange, k, true) else r1 in
  Ok (if eqb rt f then (lagrange, (k - 1)%Z, true) else r2).
