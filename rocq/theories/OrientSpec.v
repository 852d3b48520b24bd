(** * Specification vocabulary for orientations of edges and faces *)
From Coq Require Import List Arith Bool.
From Verif Require Import Base MeshModel MeshSpec OrientModel.
Import ListNotations.

(** The two generators of the permutations of a triangle. *)
Definition rotated (f : list nat) : list nat := match f with [a; b; c] => [b; c; a] | _ => f end.
Definition reflected (f : list nat) : list nat := match f with [a; b; c] => [a; c; b] | _ => f end.
Definition swapped (e : list nat) : list nat := match e with [a; b] => [b; a] | _ => e end.
(** reflect [s] times, then rotate [r] times *)
Definition moved (r s : nat) (f : list nat) : list nat := Nat.iter r rotated (Nat.iter s reflected f).
(** Face [i] is treated as a tagged face. *)
Definition overridden (bc : list bool) (i : nat) : bool := nth i bc false && ((i =? 1) || (i =? 3)).

(** Face [i] of a tetrahedron lists all nodes but the [i]-th, in order. *)
Definition face_of (nodes : list nat) (i : nat) : list nat := firstn i nodes ++ skipn (i + 1) nodes.
(** Edge [i] of a triangle likewise. *)
Definition edge_of (nodes : list nat) (i : nat) : list nat := firstn i nodes ++ skipn (i + 1) nodes.
(** Edges of a tetrahedron: edges opposite to edges 01, 02, 03, 12, 13, 23. *)
Definition tetra_edge_of (nodes : list nat) (i : nat) : list nat :=
  match nodes, i with
  | [a; b; c; d], 0 => [c; d] | [a; b; c; d], 1 => [b; d] | [a; b; c; d], 2 => [b; c]
  | [a; b; c; d], 3 => [a; d] | [a; b; c; d], 4 => [a; c] | [a; b; c; d], 5 => [a; b]
  | _, _ => []
  end.

(** [l] is in increasing order *)
Inductive increasing : list nat -> Prop :=
| inc_nil : increasing []
| inc_one x : increasing [x]
| inc_cons x y l : x < y -> increasing (y :: l) -> increasing (x :: y :: l).

(** The sub-edge [i] of cell [c] is stored with the nodes [e]. *)
Definition stored_edge (cs : cells) (c : cell) (i : nat) (e : list nat) : Prop :=
  exists subs id k, nth_error (c_sub c) 1 = Some subs /\ nth_error subs i = Some id /\ cell_at cs id k /\ c_nodes k = e.

Section Bases.
  Variable M E F : Type.
  Variable act_e : M -> E -> E.
  Variable act_f : M -> F -> F.
  (** A family of bases on an edge (face), one per order of its nodes, such that the matrices
      undo one swap (rotation, reflection) of the nodes. *)
  Definition edge_bases (reflect_e : M) (B : list nat -> E) : Prop :=
    forall e, length e = 2 -> act_e reflect_e (B (swapped e)) = B e.
  Definition face_bases (rotate_t reflect_t : M) (B : list nat -> F) : Prop :=
    forall f, length f = 3 -> act_f rotate_t (B (rotated f)) = B f /\ act_f reflect_t (B (reflected f)) = B f.
  (** [act] is an action of the matrices *)
  Definition action {A} (mul : M -> M -> M) (one : M) (act : M -> A -> A) : Prop :=
    (forall x, act one x = x) /\ forall m n x, act (mul m n) x = act m (act n x).
  (** The rows of a cell before the transformation: the bases for the node orders of the cell. *)
  Definition tetra_rows (Be : list nat -> E) (Bf : list nat -> F) (nodes : list nat) : rows E F :=
    mk_rows E F (map (fun i => Be (tetra_edge_of nodes i)) (seq 0 6)) (map (fun i => Bf (face_of nodes i)) (seq 0 4)).
  Definition triangle_rows (Be : list nat -> E) (nodes : list nat) (faces : list F) : rows E F :=
    mk_rows E F (map (fun i => Be (edge_of nodes i)) (seq 0 3)) faces.
End Bases.
