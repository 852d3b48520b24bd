(** * Concrete facets and Jacobians *)
From Coq Require Import List Arith Bool Reals Lra Lia Permutation.
From Verif Require Import Base MeshModel VecBase VecProof MapModel MapSpec JacProof.
Import ListNotations.
Local Open Scope R_scope.

(** The tetrahedron 7, 2, 9, 4 and its face 1 stored as 4, 7, 9. *)
Definition trace_tetra : cell := mk_cell 3 12 [7; 2; 9; 4]%nat None [[]; []; [20; 21; 22; 23]; []]%nat.
Definition trace_face : cell := mk_cell 2 21 [4; 7; 9]%nat None [[]; []; []].
Lemma trace_is_facet : is_facet trace_face trace_tetra 1 /\ Permutation (c_nodes trace_face) (facet_nodes 3 (c_nodes trace_tetra) 1) /\
  Forall (reference_point 2) [[1 / 3; 1 / 5]].
Proof.
  split; [|split].
  - repeat split; simpl; auto; try lia; [repeat constructor; simpl; intuition discriminate|].
    exists [20; 21; 22; 23]%nat. repeat split. intros k Hk. assert (k = 0)%nat by lia. subst. simpl. discriminate.
  - change (Permutation [4; 7; 9]%nat [7; 9; 4]%nat). apply (Permutation_cons_app [7; 9]%nat []). rewrite app_nil_r. reflexivity.
  - repeat constructor.
Qed.

(** Edge vectors (0,3,4) and (1,0,0) with a factorisation having a negative diagonal entry. *)
Definition two_edges : list vec := [mk_vec 0 3 4; mk_vec 1 0 0].
Definition negative_qr (n : nat) (A : matrix) : matrix * matrix :=
  (of_columns [mk_vec 0 (-3 / 5) (-4 / 5); mk_vec 1 0 0],
   fun i j => match i, j with 0%nat, 0%nat => -5 | 1%nat, 1%nat => 1 | _, _ => 0 end).
Lemma two_edges_ok : factorises 2 (of_columns two_edges) (negative_qr 2 (of_columns two_edges)) /\ measure two_edges <> 0 /\
  snd (negative_qr 2 (of_columns two_edges)) 0%nat 0%nat < 0.
Proof.
  split; [|split].
  - repeat split.
    + intros i j Hi Hj. destruct i as [|[|i]], j as [|[|j]]; try lia; unfold negative_qr, of_columns; simpl; lra.
    + intros i j Hj Hi. destruct i as [|[|i]], j as [|[|j]]; try lia; reflexivity.
    + intros i j Hi Hj. destruct i as [|[|[|i]]], j as [|[|j]]; try lia; unfold mmul, negative_qr, of_columns, two_edges; simpl; lra.
  - unfold measure, two_edges. intros H. apply norm_zero in H. apply (f_equal vy) in H. unfold cross in H. simpl in H. lra.
  - simpl. lra.
Qed.
