(** * Model of DiscreteSpace and ProductSpace:
    src/spaces/discrete_space.py, src/spaces/product_space.py, src/basis/element_type.py

    Definitions only.  Simplifications: a finite element is represented by the mesh cell it
    is built on ([element.data.cell], finite_element.py:21); its basis tables are not
    modelled.  basix.create_element is represented by the DoF layout it returns
    ([sp_layout], depending on the discontinuous flag), basix.make_quadrature by the pair
    of its arguments.  Printing and timing are left out.  The state of an object after
    an exception is not modelled.  Field names are natural numbers. *)
From Coq Require Import List Arith ZArith Bool.
From Verif Require Import Base MeshModel GraphModel DofModel.
Import ListNotations.

(** basix.CellType and type_by_dimension, element_type.py:4-11 *)
Inductive cell_type : Type := CPoint | CInterval | CTriangle | CTetrahedron.
Definition type_by_dimension (d : Z) : res cell_type :=
  dindex [(0, CPoint); (1, CInterval); (2, CTriangle); (3, CTetrahedron)]%Z d.

(** ** DiscreteSpace *)

(** DiscreteSpace.__init__ attributes, discrete_space.py:15-36.  [sp_mesh_dim] is
    [mesh.dimension]; [sp_map = None] before _build_dof_map. *)
Record space : Type := mk_space {
  sp_cells : cells; sp_mesh_dim : nat; sp_dim : nat; sp_comps : nat;
  sp_layout : bool -> list (list nat); sp_disc : bool;
  sp_map : option dofmap;
  sp_elements : list cell; sp_element_ids : list nat; sp_id_to_element : dict nat nat;
  sp_bc_elements : list cell; sp_bc_ids : list nat; sp_id_to_bc : dict nat nat }.

(** DiscreteSpace.__init__, discrete_space.py:15-36 (the MeshTopology constructor raises
    ValueError when the mesh has a smaller dimension, mesh_topology.py:5-9) *)
Definition new_space (cs : cells) (mesh_dim dim comps : nat) (layout : bool -> list (list nat))
  : res space :=
  if mesh_dim <? dim then Err ValueError else
  Ok (mk_space cs mesh_dim dim comps layout false None [] [] [] [] [] []).

(** DiscreteSpace.make_discontinuous, discrete_space.py:54-55 *)
Definition make_discontinuous (s : space) : space :=
  mk_space (sp_cells s) (sp_mesh_dim s) (sp_dim s) (sp_comps s) (sp_layout s) true
           (sp_map s) (sp_elements s) (sp_element_ids s) (sp_id_to_element s)
           (sp_bc_elements s) (sp_bc_ids s) (sp_id_to_bc s).

(** DiscreteSpace._build_dof_map and _build_elements, discrete_space.py:66-98, 100-160 as
    called by build_structures, lines 57-59 (the tags arrive in _build_elements as
    [timing_q], which only controls printing). *)
Definition build_structures (fuel : nat) (s : space) (tags : list (option Z)) : res space :=
  do t <- build_data_on_physical_tags fuel (sp_cells s) (sp_mesh_dim s) (sp_dim s) tags;
  do _ <- type_by_dimension (Z.of_nat (sp_dim s));
  do m <- build_entity_maps t (sp_layout s (sp_disc s)) (sp_dim s) (sp_comps s) 0;
  do ids <- entities_by_dimension t (sp_dim s);
  do elements <- mapM (cell_of (sp_cells s)) ids;
  Ok (mk_space (sp_cells s) (sp_mesh_dim s) (sp_dim s) (sp_comps s) (sp_layout s) (sp_disc s)
        (Some m) elements ids (dict_of (combine ids (seq 0 (length ids))))
        (sp_bc_elements s) (sp_bc_ids s) (sp_id_to_bc s)).

(** [[x for x in l if p(x)]] whose condition may raise *)
Fixpoint filterM {A} (p : A -> res bool) (l : list A) : res (list A) :=
  match l with
  | [] => Ok []
  | x :: l' => do b <- p x; do r <- filterM p l'; Ok (if b then x :: r else r)
  end.

(** DiscreteSpace.build_boundary_structures and _build_bc_elements,
    discrete_space.py:61-64, 162-224.  Before build_structures, and for a space of
    dimension 0, the entity ids of dimension [dim - 1] are missing: KeyError. *)
Definition build_boundary_structures (s : space) (btags : list (option Z)) : res space :=
  match btags with
  | [] => Ok s
  | _ =>
      do all_ids <- match sp_dim s, sp_map s with
                    | S d, Some m => entities_by_dimension (dm_topo m) d
                    | _, _ => Err KeyError
                    end;
      do ids <- filterM (fun id => do c <- cell_of (sp_cells s) id; Ok (memb (c_mat c) btags)) all_ids;
      do elements <- mapM (cell_of (sp_cells s)) ids;
      Ok (mk_space (sp_cells s) (sp_mesh_dim s) (sp_dim s) (sp_comps s) (sp_layout s) (sp_disc s)
            (sp_map s) (sp_elements s) (sp_element_ids s) (sp_id_to_element s)
            elements ids (dict_of (combine ids (seq 0 (length ids)))))
  end.

(** ** ProductSpace *)

(** [ps_dofs] = discrete_spaces_dofs, [ps_n] = n_dof, [ps_shift] = _dof_shift *)
Record product : Type := mk_product {
  ps_spaces : dict nat space; ps_dofs : dict nat Z; ps_n : Z; ps_shift : Z }.

(** Python values an assignment to dof_shift may carry *)
Inductive pyval : Type :=
| PyInt (z : Z) | NpInteger (z : Z) | PyBool (b : bool) | NpBool (b : bool)
| PyFloat | PyStr | PyNone.
(** [isinstance(value, (int, np.integer))] with its integer value: bool is a subclass of
    int, numpy's bool is not an np.integer *)
Definition as_int (v : pyval) : option Z :=
  match v with
  | PyInt z | NpInteger z => Some z
  | PyBool b => Some (if b then 1 else 0)%Z
  | _ => None
  end.
(** ProductSpace.dof_shift setter, product_space.py:89-96: new value of _dof_shift *)
Definition set_dof_shift (v : pyval) : res Z :=
  match as_int v with
  | None => Err TypeError
  | Some z => if (z <? 0)%Z then Err ValueError else Ok z
  end.
(** A sequence of assignments, each guarded by the caller's [try]: the shift in force
    afterwards and the outcome of each assignment. *)
Fixpoint assign_shifts (shift : Z) (vs : list pyval) : Z * list (res Z) :=
  match vs with
  | [] => (shift, [])
  | v :: vs' => let r := set_dof_shift v in
                let (s, rs) := assign_shifts (match r with Ok z => z | Err _ => shift end) vs' in
                (s, r :: rs)
  end.

(** A quadrature rule: one point with weight one, or basix.make_quadrature of a cell type
    and an order *)
Inductive quadrature : Type := QPoint | QBasix (t : cell_type) (order : nat).

(** Assignment into a four-element list, product_space.py:34-50 (negative indices
    count from the end, IndexError outside) *)
Definition set4 {A} (l : list A) (i : Z) (v : A) : res (list A) :=
  let j := (if i <? 0 then i + Z.of_nat (length l) else i)%Z in
  if ((0 <=? j) && (j <? Z.of_nat (length l)))%Z then Ok (set_at l (Z.to_nat j) v) else Err IndexError.

Definition quadrature_for (d : Z) (order : nat) : res quadrature :=
  if (d =? 0)%Z then Ok QPoint else do t <- type_by_dimension d; Ok (QBasix t order).

(** ProductSpace._define_integration_order_and_quadrature, product_space.py:23-50.
    [fields] gives (dimension, order) of the fields. *)
Definition define_quadrature (fields : list (nat * nat))
  : res (list (option quadrature) * list (option quadrature)) :=
  do k <- np_max (map snd fields);
  let order := 2 * k + 1 in
  do dmax <- np_max (map fst fields);
  let none4 := [None; None; None; None] in
  do q <- foldM (fun q d => do r <- quadrature_for d order; set4 q d (Some r))
                (map Z.of_nat (seq 0 (dmax + 1))) none4;
  do b <- foldM (fun b d => do r <- quadrature_for d order; set4 b d (Some r))
                (map (fun f => Z.of_nat (fst f) - 1)%Z fields) none4;
  Ok (q, b).

(** The data of one field: (dimension, components, family, k_order, mesh), the family
    standing for the DoF layouts basix gives. *)
Record field : Type := mk_field {
  f_dim : nat; f_comps : nat; f_layout : bool -> list (list nat); f_order : nat;
  f_cells : cells; f_mesh_dim : nat }.

(** ProductSpace.__init__, product_space.py:11-15 with _define_discrete_spaces, 52-66 *)
Definition new_product (fields : dict nat field) : res product :=
  do _ <- define_quadrature (map (fun nf => (f_dim (snd nf), f_order (snd nf))) fields);
  do spaces <- mapM (fun nf =>
      do s <- new_space (f_cells (snd nf)) (f_mesh_dim (snd nf)) (f_dim (snd nf)) (f_comps (snd nf))
                        (f_layout (snd nf));
      Ok (fst nf, s)) fields;
  Ok (mk_product (dict_of spaces) [] 0 0).

(** ProductSpace.make_subspaces_discontinuous, product_space.py:106-110 *)
Definition make_subspaces_discontinuous (p : product) (disc : dict nat bool) : product :=
  mk_product
    (map (fun ns => (fst ns, match dget disc (fst ns) with
                             | Some true => make_discontinuous (snd ns)
                             | _ => snd ns
                             end)) (ps_spaces p))
    (ps_dofs p) (ps_n p) (ps_shift p).

(** [space.dof_map]: AttributeError before it has been built *)
Definition dof_map_of (s : space) : res dofmap :=
  match sp_map s with Some m => Ok m | None => Err AttributeError end.

(** ProductSpace.build_structures, product_space.py:112-122 with
    _define_discrete_spaces_dof and _define_n_dof, 68-79 *)
Definition build_product (fuel : nat) (p : product)
    (tags btags : dict nat (list (option Z))) : res product :=
  do spaces <- mapM (fun ns =>
      do s1 <- build_structures fuel (snd ns)
                 (match dget tags (fst ns) with Some l => l | None => [None] end);
      do s2 <- build_boundary_structures s1
                 (match dget btags (fst ns) with Some l => l | None => [] end);
      Ok (fst ns, s2)) (ps_spaces p);
  do dofs <- mapM (fun ns => do m <- dof_map_of (snd ns); Ok (fst ns, dof_number m)) spaces;
  let dofs := dict_of dofs in
  Ok (mk_product spaces dofs (fold_left Z.add (dvals dofs) 0%Z) (ps_shift p)).

(** [np.add.accumulate] on integers *)
Fixpoint zaccumulate_from (acc : Z) (l : list Z) : list Z :=
  match l with
  | [] => []
  | x :: l' => (acc + x)%Z :: zaccumulate_from (acc + x) l'
  end.
Definition zaccumulate (l : list Z) : list Z := zaccumulate_from 0 l.

(** ProductSpace._retrieve_space_destination_indexes, product_space.py:124-129 *)
Definition retrieve_destination (s : space) (i : nat) : res (list Z) :=
  do c <- get_at (sp_elements s) i;
  do m <- dof_map_of s;
  destination_indices m (c_id c).

(** ProductSpace._retrieve_space_bc_destination_indexes, product_space.py:131-145 *)
Definition retrieve_bc_destination (s : space) (i : nat) : res (list Z) :=
  do c <- get_at (sp_bc_elements s) i;
  do m <- dof_map_of s;
  do g <- entity_map_by_dimension (dm_topo m) (c_dim c);
  do neigh <- predecessors g (index c);
  match neigh with
  | [] => Err AssertionError
  | n :: _ => bc_destination_indices m (snd n) (c_id c)
  end.

(** The loop shared by discrete_spaces_destination_indexes (product_space.py:147-162) and
    discrete_spaces_bc_destination_indexes (173-193): field [i] gets stride
    [accumulate([0] + dofs)[i]]; [skip] are the fields passed over by [continue]. *)
Fixpoint collect_destinations (skip : space -> bool) (get : space -> res (list Z)) (strides : list Z)
    (shift : Z) (i : nat) (spaces : list (nat * space)) (acc : dict nat (list Z))
  : res (dict nat (list Z)) :=
  match spaces with
  | [] => Ok acc
  | (name, s) :: rest =>
      if skip s then collect_destinations skip get strides shift (i + 1) rest acc
      else
        do stride <- get_at strides i;
        do d <- get s;
        collect_destinations skip get strides shift (i + 1) rest
          (dset acc name (map (fun x => x + stride + shift)%Z d))
  end.

Definition discrete_spaces_destination_indexes (p : product) (i : nat) : res (dict nat (list Z)) :=
  collect_destinations (fun _ => false) (fun s => retrieve_destination s i)
    (zaccumulate (0%Z :: dvals (ps_dofs p))) (ps_shift p) 0 (ps_spaces p) [].
Definition discrete_spaces_bc_destination_indexes (p : product) (i : nat) : res (dict nat (list Z)) :=
  collect_destinations (fun s => length (sp_bc_elements s) =? 0) (fun s => retrieve_bc_destination s i)
    (zaccumulate (0%Z :: dvals (ps_dofs p))) (ps_shift p) 0 (ps_spaces p) [].

(** destination_indexes, product_space.py:164-170, and bc_destination_indexes, 195-203 *)
Definition destination_indexes (p : product) (i : nat) (name : option nat) : res (list Z) :=
  do d <- discrete_spaces_destination_indexes p i;
  match name with None => np_concatenate (dvals d) | Some n => dindex d n end.
Definition bc_destination_indexes (p : product) (i : nat) (name : option nat) : res (list Z) :=
  do d <- discrete_spaces_bc_destination_indexes p i;
  match name with None => np_concatenate (dvals d) | Some n => dindex d n end.
