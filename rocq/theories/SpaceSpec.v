(** * Specification vocabulary for discrete and product spaces *)
From Coq Require Import List Arith ZArith Bool.
From Verif Require Import Base MeshModel MeshSpec GraphModel DofModel DofSpec SpaceModel.
Import ListNotations.

(** A space on a good mesh of sufficient dimension with a regular DoF layout. *)
Definition good_field (s : space) : Prop :=
  good_mesh (sp_cells s) /\ sp_dim s <= sp_mesh_dim s /\ sp_dim s <= 3 /\
  exists dofs, length (sp_layout s (sp_disc s)) = sp_dim s + 1 /\
               uniform_layout (sp_layout s (sp_disc s)) dofs.

(** Nothing has been built on it yet. *)
Definition fresh_field (s : space) : Prop := sp_map s = None /\ sp_bc_elements s = [].

(** A product space after build_structures and an arbitrary dof_shift. *)
Definition built_product (q : product) : Prop :=
  exists fuel p tags btags q0,
    NoDup (map fst (ps_spaces p)) /\
    (forall n s, In (n, s) (ps_spaces p) -> good_field s /\ fresh_field s) /\
    build_product (S fuel) p tags btags = Ok q0 /\
    ps_spaces q = ps_spaces q0 /\ ps_dofs q = ps_dofs q0 /\ ps_n q = ps_n q0.

(** Number of DoFs of the [k]-th field and of the fields before it. *)
Definition field_n (q : product) (k : nat) : Z :=
  match nth_error (ps_spaces q) k with
  | Some (_, s) => match sp_map s with Some m => dof_number m | None => 0%Z end
  | None => 0%Z
  end.
Definition before (q : product) (k : nat) : Z :=
  fold_right Z.add 0%Z (map (field_n q) (seq 0 k)).

(** The quadrature rule of a given order for dimension [d]. *)
Definition rule_for (d order : nat) : option quadrature :=
  match d with
  | 0 => Some QPoint | 1 => Some (QBasix CInterval order)
  | 2 => Some (QBasix CTriangle order) | 3 => Some (QBasix CTetrahedron order) | _ => None
  end.
