(** * Model of src/basis/element_data.py and of store_mapping, src/geometry/mapping.py:58-65

    Definitions only.  An object is its class and the dictionary of its attributes; [D] are the
    data (arrays, numbers, cells, meshes).  A class has the attributes __init__ and copy and
    those of [object], none of which is read here.  Objects are values: that default arguments
    are shared is not modelled. *)
From Coq Require Import String List Arith Bool.
From Verif Require Import Base.
Import ListNotations.
Open Scope string_scope.

Inductive cls : Type := QuadratureData | MappingData | DoFData | BCEntities | BasisData | ElementData.

Section Data.
  Context {D : Type}.
  Variables empty zero true_ no_transformations none : D.   (* np.empty(0), 0, True, {} and None *)
  Variable evaluate_mapping : D -> D -> D -> res (D * D * D * D).   (* of the cell, phi, cell_points *)

  Inductive value : Type := Datum (d : D) | Object (c : cls) (attributes : list (string * value)).

  (** Attribute of an object (not a method): the last one assigned *)
  Fixpoint find_attr (name : string) (l : list (string * value)) : option value :=
    match l with [] => None | (n, v) :: l' => if String.eqb n name then Some v else find_attr name l' end.
  Definition get_attr (x : value) (name : string) : res value :=
    match x with
    | Datum _ => Err AttributeError
    | Object _ l => match find_attr name l with Some v => Ok v | None => Err AttributeError end
    end.
  Definition set_attr (x : value) (name : string) (v : value) : res value :=
    match x with Datum _ => Err AttributeError | Object c l => Ok (Object c ((name, v) :: l)) end.
  (** Attribute of a class *)
  Definition class_attr (c : cls) (name : string) : res value :=
    if existsb (String.eqb name) ["__init__"; "copy"] then Ok (Datum none) else Err AttributeError.

  (** The parameters of __init__ with their defaults: lines 8-10, 23-30, 50-57, 90-93, 104-107, 118 *)
  Definition parameters (c : cls) : list (string * D) :=
    match c with
    | QuadratureData => [("points", empty); ("weights", empty)]
    | MappingData => [("phi", empty); ("x", empty); ("jac", empty); ("det_jac", empty); ("inv_jac", empty)]
    | DoFData => [("n_dof", zero); ("entity_dofs", empty); ("transformations_are_identity", true_); ("transformations", no_transformations); ("num_entity_dofs", empty)]
    | BCEntities => [("bc_entities", empty)]
    | BasisData => [("phi", empty)]
    | ElementData => [("cell", none); ("mesh", none)]
    end.
  (** Binding of positional arguments *)
  Fixpoint bind_args (ps : list (string * D)) (args : list value) : res (list (string * value)) :=
    match ps, args with
    | [], [] => Ok []
    | [], _ => Err TypeError
    | (n, d) :: ps, [] => do l <- bind_args ps []; Ok ((n, Datum d) :: l)
    | (n, _) :: ps, a :: args => do l <- bind_args ps args; Ok ((n, a) :: l)
    end.
  (** Calls of the classes other than ElementData, lines 7-13, 22-36, 49-71, 89-95, 103-109.
      MappingData.__init__ assigns local variables. *)
  Definition new_part (c : cls) (args : list value) : res value :=
    do l <- bind_args (parameters c) args;
    Ok (Object c (match c with MappingData => [] | _ => l end)).
  (** ElementData(...), lines 117-125 *)
  Definition new_data (args : list value) : res value :=
    do l <- bind_args (parameters ElementData) args;
    do q <- new_part QuadratureData [];
    do m <- new_part MappingData [];
    do d <- new_part DoFData [];
    do b <- new_part BCEntities [];
    do f <- new_part BasisData [];
    Ok (Object ElementData (l ++ [("quadrature", q); ("mapping", m); ("dof", d); ("bc_entities", b); ("basis", f)])).

  (** copy is a classmethod: [self] is the class, lines 15-19, 38-46, 73-86, 97-100, 111-114 *)
  Definition copy_part (c : cls) : res value :=
    match c with
    | QuadratureData =>
        do points <- class_attr c "points"; do weights <- class_attr c "weights";
        new_part c [points; weights]
    | MappingData =>
        do phi <- class_attr c "phi";
        new_part c [phi; Datum empty; Datum empty; Datum empty; Datum empty; Datum empty]
    | DoFData =>
        do n_dof <- class_attr c "n_dof"; do entity_dofs <- class_attr c "entity_dofs";
        do identity <- class_attr c "transformations_are_identity"; do transformations <- class_attr c "transformations";
        do num_entity_dofs <- class_attr c "num_entity_dofs";
        new_part c [n_dof; entity_dofs; identity; transformations; num_entity_dofs]
    | BCEntities | BasisData => new_part c [Datum empty]
    | ElementData => Err AttributeError   (* see call_copy *)
    end.
  (** [x.copy()]; that of ElementData, lines 127-135, asks the class for its parts *)
  Definition call_copy (x : value) : res value :=
    match x with
    | Datum _ => Err AttributeError
    | Object ElementData _ =>
        let part name := do p <- class_attr ElementData name; match p with Object c _ => copy_part c | Datum _ => Err AttributeError end in
        do q <- part "quadrature"; do m <- part "mapping"; do d <- part "dof"; do b <- part "basis";
        new_data [Datum none; Datum none; q; m; d; b]
    | Object c _ => copy_part c
    end.

  (** store_mapping, mapping.py:58-65 *)
  Definition datum (v : value) : res D := match v with Datum d => Ok d | Object _ _ => Err TypeError end.
  Definition store_mapping (data : value) : res value :=
    do cell <- get_attr data "cell"; do cell <- datum cell;
    do mapping <- get_attr data "mapping";
    do phi <- get_attr mapping "phi"; do phi <- datum phi;
    do mapping' <- get_attr data "mapping";
    do points <- get_attr mapping' "cell_points"; do points <- datum points;
    do r <- evaluate_mapping cell phi points;
    let '(x, jac, det_jac, inv_jac) := r in
    do mapping <- get_attr data "mapping";
    do mapping <- set_attr mapping "x" (Datum x);
    do mapping <- set_attr mapping "jac" (Datum jac);
    do mapping <- set_attr mapping "det_jac" (Datum det_jac);
    do mapping <- set_attr mapping "inv_jac" (Datum inv_jac);
    set_attr data "mapping" mapping.

  (** Assignments to attributes of an element's data and of its parts, as in
      finite_element.py:99-110, 114, 136-152 *)
  Inductive assignment : Type :=
  | Own (name : string) (v : value)                    (* data.name = v *)
  | Part (part name : string) (v : value).             (* data.part.name = v *)
  Definition assign (x : value) (a : assignment) : res value :=
    match a with
    | Own name v => set_attr x name v
    | Part part name v => do p <- get_attr x part; do p <- set_attr p name v; set_attr x part p
    end.
  Definition assign_all (l : list assignment) (x : value) : res value := foldM assign l x.
End Data.
Arguments value : clear implicits.
Arguments assignment : clear implicits.
