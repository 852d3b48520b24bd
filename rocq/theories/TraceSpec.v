(** * Specification vocabulary for traces and boundary elements *)
From Coq Require Import List Arith ZArith Bool Reals Permutation.
From Verif Require Import Base MeshModel MeshSpec OrientSpec VecBase MapModel MapSpec ElementModel ElementSpec.
Import ListNotations.
Local Open Scope R_scope.

(** Cell [c1] is facet [i] of the cell of the element, with the nodes that facet has. *)
Definition facet_of (c1 : cell) (el : element) (i : nat) : Prop :=
  is_facet c1 (el_cell el) i /\ Permutation (c_nodes c1) (facet_nodes (c_dim (el_cell el)) (c_nodes (el_cell el)) i).
(** Points of the facet: at least one; the point of dimension 0 is written 1. *)
Definition facet_points (c1 : cell) (points : list (list R)) : Prop := points <> [] /\ Forall (reference_point (c_dim c1)) points.
(** Weights of the nodes at a point of a cell of dimension [d] *)
Definition weights (d : nat) (p : list R) : list R := match d with 0%nat => [1] | _ => linear_shapes p end.
(** Point [q] of the cell with nodes [nodes0] is point [p] of the facet with nodes [nodes1], of
    dimension [d]: the same weights on the nodes of the facet, weight 0 on the others. *)
Definition same_point (nodes0 : list nat) (q : list R) (d : nat) (nodes1 : list nat) (p : list R) : Prop :=
  forall j, (j < length nodes0)%nat ->
    (forall k, nth_error nodes1 k = Some (nth j nodes0 0%nat) -> nth j (linear_shapes q) 0 = nth k (weights d p) 0) /\
    (~ In (nth j nodes0 0%nat) nodes1 -> nth j (linear_shapes q) 0 = 0).

(** ** Numbers of functions documented by basix, degree [k >= 1] *)
(** functions of one sub-entity of dimension [d] of the simplex of dimension [dim] ([d < dim]) *)
Definition per_entity (f : family) (dim : nat) (k : Z) (d : nat) : Z :=
  match f, d, dim with
  | FP, 0%nat, _ => 1 | FP, 1%nat, _ => k - 1 | FP, 2%nat, _ => (k - 1) * (k - 2) / 2
  | FRT, 1%nat, 2%nat => k | FRT, 2%nat, 3%nat => k * (k + 1) / 2
  | FBDM, 1%nat, 2%nat => k + 1 | FBDM, 2%nat, 3%nat => (k + 1) * (k + 2) / 2
  | FN1E, 1%nat, _ => k | FN1E, 2%nat, 3%nat => k * (k - 1)
  | _, _, _ => 0
  end%Z.
(** functions of an element on a point, an interval or a triangle ([k >= 0] for FP) *)
Definition functions_on (f : family) (d : nat) (k : Z) : Z :=
  match f, d with
  | FP, 0%nat => 1 | FP, 1%nat => k + 1 | FP, 2%nat => (k + 1) * (k + 2) / 2
  | FN1E, 2%nat => k * (k + 2) | FRT, 2%nat => k * (k + 2) | FBDM, 2%nat => (k + 1) * (k + 2)
  | _, _ => 0
  end%Z.
(** A layout of functions with these numbers on the facets and below *)
Definition documented (dofs : list nat) (f : family) (dim : nat) (k : Z) : Prop :=
  forall d, (d < dim)%nat -> Z.of_nat (nth d dofs 0%nat) = per_entity (asked dim f) dim k d.
