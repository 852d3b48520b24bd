(** * Concrete tetrahedra *)
From Coq Require Import List Arith ZArith Bool Lia Permutation.
From Verif Require Import Base MeshModel MeshSpec OrientModel OrientSpec.
Import ListNotations.

(** Two tetrahedra 4, 1, 9, 6 and 6, 9, 4, 2 with the common face 4, 6, 9: face 1 of the first,
    face 3 of the second.  Cells 0-8 are the edges. *)
Definition edge_cell (id a b : nat) : option cell := Some (mk_cell 1 id [a; b] None [[]; []]).
Definition two_tetra : cells :=
  [ edge_cell 0 9 6; edge_cell 1 1 6; edge_cell 2 1 9; edge_cell 3 4 6; edge_cell 4 9 4; edge_cell 5 1 4;
    edge_cell 6 4 2; edge_cell 7 9 2; edge_cell 8 2 6 ].
Definition tetra_a : cell := mk_cell 3 20 [4; 1; 9; 6] None [[]; [0; 1; 2; 3; 4; 5]; []; []].
Definition tetra_b : cell := mk_cell 3 21 [6; 9; 4; 2] None [[]; [6; 7; 4; 8; 3; 0]; []; []].

(** Orders of nodes as rows; matrices are functions that undo the moves. *)
Definition undo (m : list nat -> list nat) (f : list nat) : list nat := m f.
Definition compose (m n : list nat -> list nat) (f : list nat) : list nat := m (n f).
Definition unrotate (f : list nat) : list nat := rotated (rotated f).
Definition run (cs : cells) (c : cell) (bc : list bool) : res (rows (list nat) (list nat)) :=
  permute_and_transform (list nat -> list nat) (list nat) (list nat) compose (fun f => f) undo undo unrotate reflected swapped
    false cs c bc (tetra_rows (list nat) (list nat) (fun e => e) (fun f => f) (c_nodes c)).

Lemma orders_are_bases : action (list nat -> list nat) compose (fun f => f) undo /\
  face_bases (list nat -> list nat) (list nat) undo unrotate reflected (fun f => f) /\
  edge_bases (list nat -> list nat) (list nat) undo swapped (fun e => e).
Proof.
  split; [split; reflexivity|]. split.
  - intros [|a [|b [|c [|]]]] H; try discriminate. split; reflexivity.
  - intros [|a [|b [|]]] H; try discriminate. reflexivity.
Qed.
Lemma two_tetra_edges : forall c, c = tetra_a \/ c = tetra_b -> forall i, i < 6 ->
  exists e, stored_edge two_tetra c i e /\ Permutation e (tetra_edge_of (c_nodes c) i).
Proof.
  intros c [->| ->] i Hi; destruct i as [|[|[|[|[|[|i]]]]]]; try lia;
    (eexists; split; [do 3 eexists; split; [reflexivity|]; split; [reflexivity|]; split; reflexivity|]);
    simpl; (apply Permutation_refl || apply perm_swap).
Qed.

(** A triangle 5, 3, 8 with edges stored in different orders. *)
Definition triangle_cells : cells := [ edge_cell 0 8 3; edge_cell 1 5 8; edge_cell 2 3 5 ].
Definition triangle_c : cell := mk_cell 2 3 [5; 3; 8] None [[]; [0; 1; 2]; []].
Lemma triangle_edges_stored : forall i, i < 3 -> exists e, stored_edge triangle_cells triangle_c i e /\ Permutation e (edge_of (c_nodes triangle_c) i).
Proof.
  intros i Hi; destruct i as [|[|[|i]]]; try lia;
    (eexists; split; [do 3 eexists; split; [reflexivity|]; split; [reflexivity|]; split; reflexivity|]);
    simpl; (apply Permutation_refl || apply perm_swap).
Qed.

(** Tagged face: the second tetrahedron has its face 3 in the even order 6, 9, 4. *)
Lemma tagged_face_refuted : exists (cs : cells) (c1 c2 : cell) (bc1 bc2 : list bool) (i j : nat) phi1 phi2,
  Permutation (face_of (c_nodes c1) i) (face_of (c_nodes c2) j) /\ nth i bc1 false = true /\ nth j bc2 false = true /\
  run cs c1 bc1 = Ok phi1 /\ run cs c2 bc2 = Ok phi2 /\
  nth_error (r_faces _ _ phi1) i <> nth_error (r_faces _ _ phi2) j.
Proof.
  exists two_tetra, tetra_a, tetra_b, [false; true; false; false], [false; false; false; true], 1, 3. do 2 eexists.
  split; [simpl; apply (Permutation_trans (l' := [4; 6; 9])); [constructor; constructor|]|].
  { symmetry. change [6; 9; 4] with ([6; 9] ++ 4 :: []). symmetry. apply (Permutation_cons_app [6; 9] []). rewrite app_nil_r. apply Permutation_refl. }
  split; [reflexivity|]. split; [reflexivity|]. split; [vm_compute; reflexivity|]. split; [vm_compute; reflexivity|]. vm_compute. discriminate.
Qed.
