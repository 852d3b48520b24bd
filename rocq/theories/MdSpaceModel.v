(** * Model of MDProductSpace, src/spaces/md_product_space.py

    Definitions only.  Spaces, fields and quadrature rules are those of SpaceModel; field names
    are natural numbers.  An attribute is None before its first assignment.  Since a method can
    raise after it has assigned attributes, each gives the object afterwards and its outcome. *)
From Coq Require Import String List Arith ZArith Bool.
From Verif Require Import Base MeshModel GraphModel DofModel SpaceModel CutModel.
Import ListNotations.
Local Open Scope list_scope.

(** Names of the module: imported at md_product_space.py:1-5 and defined at line 8; a name
    which is none of these is not a builtin here. *)
Definition md_module_names : list string := ["np"; "basix"; "ProductSpace"; "type_by_dimension"; "MDProductSpace"]%string.
(** Reading a global name *)
Definition md_global {A : Type} (name : string) (value : A) : res A :=
  if existsb (String.eqb name) md_module_names then Ok value else Err NameError.

(** A loop which stops at the first exception and keeps what has been done *)
Fixpoint run_loop {S A : Type} (f : S -> A -> res S) (l : list A) (s : S) : S * res unit :=
  match l with
  | [] => (s, Ok tt)
  | x :: l => match f s x with Ok s => run_loop f l s | Err e => (s, Err e) end
  end.
(** Reading an attribute *)
Definition attr {A : Type} (a : option A) : res A := match a with Some x => Ok x | None => Err AttributeError end.

Section MdSpace.
  Context {T : Type}.       (* product spaces *)

  (** product_spaces_by_dim, integration_order, quadrature, bc_quadrature, discrete_spaces,
      discrete_spaces_dofs, n_dof *)
  Record md : Type := mk_md {
    md_products : list T; md_order : option nat;
    md_quadrature : option (list (option quadrature)); md_bc_quadrature : option (list (option quadrature));
    md_spaces : option (dict nat space); md_dofs : option (dict nat Z); md_n : option Z }.

  (** __init__ and _define_product_spaces_by_dimension, md_product_space.py:10-16 *)
  Definition new_md (products : list T) : res md :=
    if 3 <? length products then Err ValueError else Ok (mk_md products None None None None None None).
  Definition define_products (o : md) (products : list T) : md * res unit :=
    if 3 <? length products then (o, Err ValueError)
    else (mk_md products (md_order o) (md_quadrature o) (md_bc_quadrature o) (md_spaces o) (md_dofs o) (md_n o), Ok tt).

  (** The body of both loops, lines 29-36 and 38-46 *)
  Definition fill (order : nat) (q : list (option quadrature)) (d : Z) : res (list (option quadrature)) :=
    do r <- quadrature_for d order; set4 q d (Some r).
  (** _define_integration_order_and_quadrature, md_product_space.py:18-46 *)
  Definition md_define_quadrature (o : md) (fields : dict nat field) : md * res unit :=
    match np_max (map (fun nf => f_order (snd nf)) fields) with
    | Err e => (o, Err e)
    | Ok k =>
        let order := 2 * k + 1 in
        let dims := map Z.of_nat (np_unique (map (fun nf => f_dim (snd nf)) fields)) in
        let none4 := [None; None; None; None] in
        let (q, r) := run_loop (fill order) dims none4 in
        match r with
        | Err e => (mk_md (md_products o) (Some order) (Some q) (md_bc_quadrature o) (md_spaces o) (md_dofs o) (md_n o), Err e)
        | Ok _ =>
            let (b, r) := run_loop (fun b d => fill order b (d - 1)%Z) dims none4 in
            (mk_md (md_products o) (Some order) (Some q) (Some b) (md_spaces o) (md_dofs o) (md_n o), r)
        end
    end.

  (** _define_discrete_spaces, md_product_space.py:48-62: the class is looked up before the
      arguments are evaluated *)
  Definition space_step (order : option nat) (spaces : dict nat space) (nf : nat * field) : res (dict nat space) :=
    let (name, f) := nf in
    do new <- md_global "DiscreteSpace"%string new_space;
    do _ <- attr order;
    do s <- new (f_cells f) (f_mesh_dim f) (f_dim f) (f_comps f) (f_layout f);
    Ok (dset spaces name s).
  Definition md_define_spaces (o : md) (fields : dict nat field) : md * res unit :=
    let (spaces, r) := run_loop (space_step (md_order o)) fields [] in
    (mk_md (md_products o) (md_order o) (md_quadrature o) (md_bc_quadrature o) (Some spaces) (md_dofs o) (md_n o), r).

  (** _define_discrete_spaces_dof, md_product_space.py:64-69 *)
  Definition dof_step (dofs : dict nat Z) (ns : nat * space) : res (dict nat Z) :=
    do m <- dof_map_of (snd ns); Ok (dset dofs (fst ns) (dof_number m)).
  Definition md_define_dofs (o : md) : md * res unit :=
    let (dofs, r) := match attr (md_spaces o) with Err e => ([], Err e) | Ok spaces => run_loop dof_step spaces [] end in
    (mk_md (md_products o) (md_order o) (md_quadrature o) (md_bc_quadrature o) (md_spaces o) (Some dofs) (md_n o), r).
  (** _define_n_dof, md_product_space.py:71-75 *)
  Definition md_define_n (o : md) : md * res unit :=
    let (n, r) := match attr (md_dofs o) with Err e => (0%Z, Err e) | Ok dofs => (fold_left Z.add (dvals dofs) 0%Z, Ok tt) end in
    (mk_md (md_products o) (md_order o) (md_quadrature o) (md_bc_quadrature o) (md_spaces o) (md_dofs o) (Some n), r).

  (** discrete_spaces_destination_indexes, md_product_space.py:100-114, and
      discrete_spaces_bc_destination_indexes, 121-139; the methods of lines 77-98 have the body
      of those of product_space.py:124-145 *)
  Definition md_destinations (o : md) (i : nat) : res (dict nat (list Z)) :=
    do dofs <- attr (md_dofs o);
    do spaces <- attr (md_spaces o);
    collect_destinations (fun _ => false) (fun s => retrieve_destination s i) (zaccumulate (0%Z :: dvals dofs)) 0 0 spaces [].
  Definition md_bc_destinations (o : md) (i : nat) : res (dict nat (list Z)) :=
    do dofs <- attr (md_dofs o);
    do spaces <- attr (md_spaces o);
    collect_destinations (fun s => length (sp_bc_elements s) =? 0) (fun s => retrieve_bc_destination s i) (zaccumulate (0%Z :: dvals dofs)) 0 0 spaces [].
  (** destination_indexes, md_product_space.py:116-119, and bc_destination_indexes, 141-144 *)
  Definition md_destination_indexes (o : md) (i : nat) : res (list Z) := do d <- md_destinations o i; np_concatenate (dvals d).
  Definition md_bc_destination_indexes (o : md) (i : nat) : res (list Z) := do d <- md_bc_destinations o i; np_concatenate (dvals d).

  (** Calls of the methods that assign attributes, each guarded by the caller's [try] *)
  Inductive call : Type :=
  | DefineProducts (products : list T) | DefineQuadrature (fields : dict nat field) | DefineSpaces (fields : dict nat field)
  | DefineDofs | DefineN.
  Definition perform (o : md) (c : call) : md * res unit :=
    match c with
    | DefineProducts products => define_products o products
    | DefineQuadrature fields => md_define_quadrature o fields
    | DefineSpaces fields => md_define_spaces o fields
    | DefineDofs => md_define_dofs o
    | DefineN => md_define_n o
    end.
  Definition perform_all (o : md) (calls : list call) : md := fold_left (fun o c => fst (perform o c)) calls o.
End MdSpace.
Arguments md : clear implicits.
Arguments call : clear implicits.
