(** * Specification vocabulary for degrees of freedom *)
From Coq Require Import List Arith ZArith Bool.
From Verif Require Import Base MeshModel MeshSpec GraphModel DofModel.
Import ListNotations.

(** [layout] (basix: num_entity_dofs) gives every [d]-dimensional sub-entity of the
    reference cell the same number [nth d dofs] of DoFs. *)
Definition uniform_layout (layout : list (list nat)) (dofs : list nat) : Prop :=
  Forall2 (fun l e => l <> [] /\ forall x, In x l -> x = e) layout dofs.

(** The situation after DiscreteSpace has built its DoF map: a good mesh, the topology of
    the cells of dimension [dim] with the given physical tags, a DoF layout for that
    dimension and the entity maps. *)
Definition numbered_space (cs : cells) (dim : nat) (tags : list (option Z)) (dofs : list nat)
    (comps : nat) (shift : Z) (m : dofmap) : Prop :=
  exists fuel mesh_dim t layout,
    good_mesh cs /\
    build_data_on_physical_tags (S fuel) cs mesh_dim dim tags = Ok t /\
    length layout = dim + 1 /\ uniform_layout layout dofs /\
    build_entity_maps t layout dim comps shift = Ok m.

(** a cell of the space *)
Definition space_cell (cs : cells) (dim : nat) (tags : list (option Z)) (i : nat) (c : cell) : Prop :=
  cell_at cs i c /\ c_dim c = dim /\ In (c_mat c) tags.

(** an entity of the space: a [d]-dimensional sub-cell of one of its cells *)
Definition space_entity (cs : cells) (dim : nat) (tags : list (option Z)) (d j : nat) : Prop :=
  d <= dim /\ exists i c, space_cell cs dim tags i c /\ In j (nth d (c_sub c) []).

(** number of DoFs of the reference simplex *)
Definition reference_dofs (dim : nat) (dofs : list nat) : nat :=
  list_sum (map (fun d => length (ref_sub dim d) * nth d dofs 0) (seq 0 (dim + 1))).
