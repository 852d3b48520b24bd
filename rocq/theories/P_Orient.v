(** * Property theorems C47, C48, C64: orientation of edges and faces *)
From Coq Require Import List Arith ZArith Bool Lia Permutation.
From Verif Require Import Base MeshModel MeshSpec OrientModel OrientSpec OrientProof OrientExamples LoopExamples.
Import ListNotations.

(** ** C47 *)
(** [g] is the face in increasing order; (r, s) is the only pair with r < 3, s < 2 for which
    reflecting [g] s times and rotating it r times gives the face as listed by the cell.
    Untagged faces (and faces 0 and 2) get this pair and count as oriented exactly for (0, 0);
    tagged faces 1 and 3 get (r, 1) and do not count as oriented. *)
Theorem C47_face_orientation : forall (nodes : list nat) (bc : list bool),
  length nodes = 4 -> NoDup nodes -> length bc = 4 ->
  exists q, face_orientation_3d nodes bc = Ok q /\ length q = 4 /\ forall i, i < 4 ->
  exists g o r s t, increasing g /\ Permutation g (face_of nodes i) /\ nth_error q i = Some (o, r, t) /\ r < 3 /\ s < 2 /\
    moved r s g = face_of nodes i /\
    (forall r' s', r' < 3 -> s' < 2 -> moved r' s' g = face_of nodes i -> r' = r /\ s' = s) /\
    if overridden bc i then o = false /\ t = 1 else t = s /\ (o = true <-> r = 0 /\ s = 0).
Proof. exact face_orientation_lemma. Qed.
Print Assumptions C47_face_orientation.
Example C47_example : NoDup [6; 9; 4; 2] /\
  face_orientation_3d [6; 9; 4; 2] [false; true; false; false] = Ok [(false, 1, 1); (false, 1, 1); (false, 1, 0); (false, 1, 0)].
Proof. split; [repeat constructor; simpl; lia|reflexivity]. Qed.

(** ** C48 *)
(** The rows of a tetrahedron after the transformation: edges and faces carry the basis for
    the increasing order of their nodes, except tagged faces 1 and 3 listed in an even
    permutation of it, which carry the reflected one. *)
Theorem C48_rows_after_transformation : forall (M E F : Type) (mul : M -> M -> M) (one : M) (act_e : M -> E -> E) (act_f : M -> F -> F)
  (rotate_t reflect_t reflect_e : M) (Bf : list nat -> F) (Be : list nat -> E),
  action M mul one act_f -> face_bases M F act_f rotate_t reflect_t Bf -> edge_bases M E act_e reflect_e Be ->
  forall cs c bc, c_dim c = 3 -> length (c_nodes c) = 4 -> NoDup (c_nodes c) -> length bc = 4 ->
    (forall i, i < 6 -> exists e, stored_edge cs c i e /\ Permutation e (tetra_edge_of (c_nodes c) i)) ->
    exists phi, permute_and_transform M E F mul one act_e act_f rotate_t reflect_t reflect_e false cs c bc (tetra_rows E F Be Bf (c_nodes c)) = Ok phi /\
      length (r_edges E F phi) = 6 /\ length (r_faces E F phi) = 4 /\
      (forall i g, i < 6 -> increasing g -> Permutation g (tetra_edge_of (c_nodes c) i) -> nth_error (r_edges E F phi) i = Some (Be g)) /\
      (forall i g r s, i < 4 -> increasing g -> Permutation g (face_of (c_nodes c) i) -> r < 3 -> s < 2 -> moved r s g = face_of (c_nodes c) i ->
         nth_error (r_faces E F phi) i = Some (if overridden bc i && (s =? 0) then act_f reflect_t (Bf g) else Bf g)).
Proof. exact tetra_lemma. Qed.
Print Assumptions C48_rows_after_transformation.
(** Two tetrahedra have the same rows on a common face that is not overridden. *)
Theorem C48_shared_face : forall (M E F : Type) (mul : M -> M -> M) (one : M) (act_e : M -> E -> E) (act_f : M -> F -> F)
  (rotate_t reflect_t reflect_e : M) (Bf : list nat -> F) (Be : list nat -> E),
  action M mul one act_f -> face_bases M F act_f rotate_t reflect_t Bf -> edge_bases M E act_e reflect_e Be ->
  forall cs c1 c2 bc1 bc2 i j, c_dim c1 = 3 -> length (c_nodes c1) = 4 -> NoDup (c_nodes c1) -> length bc1 = 4 ->
    c_dim c2 = 3 -> length (c_nodes c2) = 4 -> NoDup (c_nodes c2) -> length bc2 = 4 ->
    (forall k, k < 6 -> exists e, stored_edge cs c1 k e /\ Permutation e (tetra_edge_of (c_nodes c1) k)) ->
    (forall k, k < 6 -> exists e, stored_edge cs c2 k e /\ Permutation e (tetra_edge_of (c_nodes c2) k)) ->
    i < 4 -> j < 4 -> Permutation (face_of (c_nodes c1) i) (face_of (c_nodes c2) j) ->
    overridden bc1 i = false -> overridden bc2 j = false ->
    exists phi1 phi2 x,
      permute_and_transform M E F mul one act_e act_f rotate_t reflect_t reflect_e false cs c1 bc1 (tetra_rows E F Be Bf (c_nodes c1)) = Ok phi1 /\
      permute_and_transform M E F mul one act_e act_f rotate_t reflect_t reflect_e false cs c2 bc2 (tetra_rows E F Be Bf (c_nodes c2)) = Ok phi2 /\
      nth_error (r_faces E F phi1) i = Some x /\ nth_error (r_faces E F phi2) j = Some x.
Proof. exact shared_face_lemma. Qed.
Print Assumptions C48_shared_face.
Example C48_hypotheses : (action (list nat -> list nat) compose (fun f => f) undo /\
  face_bases (list nat -> list nat) (list nat) undo unrotate reflected (fun f => f) /\
  edge_bases (list nat -> list nat) (list nat) undo swapped (fun e => e)) /\
  forall c, c = tetra_a \/ c = tetra_b -> forall i, i < 6 ->
  exists e, stored_edge two_tetra c i e /\ Permutation e (tetra_edge_of (c_nodes c) i).
Proof. split; [exact orders_are_bases|exact two_tetra_edges]. Qed.
Example C48_example : exists phi1 phi2, run two_tetra tetra_a (repeat false 4) = Ok phi1 /\ run two_tetra tetra_b (repeat false 4) = Ok phi2 /\
  nth_error (r_faces _ _ phi1) 1 = Some [4; 6; 9] /\ nth_error (r_faces _ _ phi2) 3 = Some [4; 6; 9] /\
  r_edges _ _ phi1 = [[6; 9]; [1; 6]; [1; 9]; [4; 6]; [4; 9]; [1; 4]].
Proof. do 2 eexists. repeat (split; [vm_compute; reflexivity|]). reflexivity. Qed.
(** Tagged faces: the two tetrahedra can disagree. *)
Theorem C48_tagged_face_refuted : exists (cs : cells) (c1 c2 : cell) (bc1 bc2 : list bool) (i j : nat) phi1 phi2,
  Permutation (face_of (c_nodes c1) i) (face_of (c_nodes c2) j) /\ nth i bc1 false = true /\ nth j bc2 false = true /\
  run cs c1 bc1 = Ok phi1 /\ run cs c2 bc2 = Ok phi2 /\
  nth_error (r_faces _ _ phi1) i <> nth_error (r_faces _ _ phi2) j.
Proof. exact tagged_face_refuted. Qed.
Print Assumptions C48_tagged_face_refuted.

(** The flags [bc] used above: on a closed mesh, flag [i] of a cell says whether its facet [i]
    has a physical tag. *)
Theorem C48_tagged_facets : forall cs c, closed_mesh cs -> (exists i, cell_at cs i c) -> 1 <= c_dim c ->
  exists q, bc_entities cs c = Ok q /\ length q = length (nth (c_dim c - 1) (c_sub c) []) /\
    forall i f k, nth_error (nth (c_dim c - 1) (c_sub c) []) i = Some f -> cell_at cs f k ->
      nth_error q i = Some (match c_mat k with Some _ => true | None => false end).
Proof. exact bc_entities_lemma. Qed.
Print Assumptions C48_tagged_facets.
Example C48_tagged_facets_example : closed_mesh ring /\ cell_at ring 4 (LoopExamples.edge_cell 4 0 1 (Some 1%Z)) /\
  bc_entities ring (LoopExamples.edge_cell 4 0 1 (Some 1%Z)) = Ok [true; false].
Proof. split; [exact ring_closed|]. split; reflexivity. Qed.

(** ** C64 *)
(** The rows of an edge of a triangle are those for the node order of the edge cell, so all
    triangles at the edge agree. *)
Theorem C64_triangle_edges : forall (M E F : Type) (mul : M -> M -> M) (one : M) (act_e : M -> E -> E) (act_f : M -> F -> F)
  (rotate_t reflect_t reflect_e : M) (Be : list nat -> E),
  edge_bases M E act_e reflect_e Be ->
  forall cs c bc faces, c_dim c = 2 -> length (c_nodes c) = 3 -> NoDup (c_nodes c) ->
    (forall i, i < 3 -> exists e, stored_edge cs c i e /\ Permutation e (edge_of (c_nodes c) i)) ->
    exists phi, permute_and_transform M E F mul one act_e act_f rotate_t reflect_t reflect_e false cs c bc (triangle_rows E F Be (c_nodes c) faces) = Ok phi /\
      length (r_edges E F phi) = 3 /\ r_faces E F phi = faces /\
      (forall i e, i < 3 -> stored_edge cs c i e -> nth_error (r_edges E F phi) i = Some (Be e)).
Proof. exact triangle_lemma. Qed.
Print Assumptions C64_triangle_edges.
Example C64_example : (forall i, i < 3 -> exists e, stored_edge triangle_cells triangle_c i e /\ Permutation e (edge_of (c_nodes triangle_c) i)) /\
  exists phi, permute_and_transform (list nat -> list nat) (list nat) (list nat) compose (fun f => f) undo undo unrotate reflected swapped
    false triangle_cells triangle_c [] (triangle_rows (list nat) (list nat) (fun e => e) (c_nodes triangle_c) []) = Ok phi /\
  r_edges _ _ phi = [[8; 3]; [5; 8]; [3; 5]].
Proof. split; [exact triangle_edges_stored|]. eexists. split; vm_compute; reflexivity. Qed.
