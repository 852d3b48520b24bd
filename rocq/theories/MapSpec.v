(** * Specification vocabulary for traces and Jacobians *)
From Coq Require Import List Arith Bool Reals.
From Verif Require Import Base MeshModel OrientSpec VecBase MapModel.
Import ListNotations.
Local Open Scope R_scope.

(** Nodes of facet [i] of a simplex of dimension [d]: end [i] of a line, all nodes but the
    [i]-th otherwise. *)
Definition facet_nodes (d : nat) (nodes : list nat) (i : nat) : list nat :=
  match d with 1%nat => firstn 1 (skipn i nodes) | _ => face_of nodes i end.

(** Cell [c1] is facet [i] of [c0]. *)
Definition is_facet (c1 c0 : cell) (i : nat) : Prop :=
  c_dim c0 = (c_dim c1 + 1)%nat /\ (c_dim c1 <= 2)%nat /\ length (c_nodes c0) = (c_dim c0 + 1)%nat /\ NoDup (c_nodes c0) /\
  (i <= c_dim c0)%nat /\ exists subs, nth_error (c_sub c0) (c_dim c1) = Some subs /\ nth_error subs i = Some (c_id c1) /\
  forall k, (k < i)%nat -> nth_error subs k <> Some (c_id c1).

(** Reference points of the facet: [d] coordinates (the point of dimension 0 is written 1). *)
Definition reference_point (d : nat) (p : list R) : Prop := match d with 0%nat => p = [1] | _ => length p = d end.

(** [A] has orthonormal columns, [n] of length 3 *)
Definition orthonormal (n : nat) (A : matrix) : Prop :=
  forall i j, (i < n)%nat -> (j < n)%nat -> rsum 3 (fun k => A k i * A k j) = if (i =? j)%nat then 1 else 0.
Definition upper_triangular (n : nat) (A : matrix) : Prop := forall i j, (j < i)%nat -> (i < n)%nat -> A i j = 0.
(** [Q] and [T] are a QR factorisation of the 3 x n matrix [A] (no sign convention). *)
Definition factorises (n : nat) (A : matrix) (QT : matrix * matrix) : Prop :=
  orthonormal n (fst QT) /\ upper_triangular n (snd QT) /\
  forall i j, (i < 3)%nat -> (j < n)%nat -> A i j = mmul n (fst QT) (snd QT) i j.
(** [inv] inverts n x n matrices of non-zero determinant. *)
Definition is_inverse (inv : nat -> matrix -> matrix) : Prop := forall n A, (1 <= n <= 3)%nat -> det n A <> 0 ->
  forall i j, (i < n)%nat -> (j < n)%nat -> mmul n (inv n A) A i j = if (i =? j)%nat then 1 else 0.
(** Length, area or volume of the parallelepiped spanned by the edge vectors. *)
Definition measure (cols : list vec) : R :=
  match cols with
  | [u] => norm u
  | [u; v] => norm (cross u v)
  | [u; v; w] => Rabs (dot (cross u v) w)
  | _ => 0
  end.
