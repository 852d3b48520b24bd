(** * Specification vocabulary for tangential components on the faces of tetrahedra *)
From Coq Require Import List Arith ZArith Bool Reals Permutation.
From Verif Require Import Base MeshModel MeshSpec OrientModel OrientSpec VecBase MapModel MapSpec SpaceModel ElementModel ElementSpec.
Import ListNotations.
Local Open Scope R_scope.

(** A direction written by nodes: the sum of [c x] times the position of [x]; it is a direction of
    the affine hull of the nodes if the numbers [c x] add up to 0. *)
Definition along_nodes (pos : nat -> vec) (c : nat -> R) (nodes : list nat) : vec := vsum (map (fun x => vscale (c x) (pos x)) nodes).
Definition rsum_on (c : nat -> R) (nodes : list nat) : R := fold_right Rplus 0 (map c nodes).
(** Node [x] by its barycentric coordinate at a point and its share of a direction *)
Definition both (l c : nat -> R) (x : nat) : R * R := (l x, c x).

(** Traces of the functions of one edge (face) as functions of a point and a direction, both given
    by the nodes in order; the matrices give the traces for another order. *)
Definition edge_change_along (g : generator) (m : nat) (psi : nat -> list (R * R) -> R) : Prop :=
  fst (gen_interval g) = m /\ honest g m (snd (gen_interval g)) /\
  forall r u v, (r < m)%nat -> rsum m (fun s => snd (gen_interval g) r s * psi s [v; u]) = psi r [u; v].
Definition face_change_along (g : generator) (m : nat) (psi : nat -> list (R * R) -> R) : Prop :=
  fst (gen_triangle g) = m /\ honest g m (fst (snd (gen_triangle g))) /\ honest g m (snd (snd (gen_triangle g))) /\
  forall r u v w, (r < m)%nat ->
    rsum m (fun s => fst (snd (gen_triangle g)) r s * psi s [v; w; u]) = psi r [u; v; w] /\
    rsum m (fun s => snd (snd (gen_triangle g)) r s * psi s [u; w; v]) = psi r [u; v; w].
(** Edge [j] is an edge of face [i] (face [i] is opposite to vertex [i]). *)
Definition edge_of_face (i j : nat) : Prop := (j < 6)%nat /\ ~ In i (tetra_edge_of [0; 1; 2; 3]%nat j).
(** Face [i] of the reference tetrahedron, at [p], in the direction of [c]: the tangential components
    of the functions of the face and of its edges are [psi_f] and [psi_e], of all others 0. *)
Definition face_tangential_traces (g : generator) (n me mf : nat) (phi : nat -> nat -> nat -> list R -> R) (psi_e psi_f : nat -> list (R * R) -> R) : Prop :=
  forall i p c, (i < 4)%nat -> length p = 3%nat -> nth i (linear_shapes p) 0 = 0 -> c i = 0 -> rsum_on c [0; 1; 2; 3]%nat = 0 ->
    let l := fun k => nth k (linear_shapes p) 0 in
    let component := fun a => dot (ref_value 3 phi a p) (along_nodes ref_vertex c [0; 1; 2; 3]%nat) in
    (forall r, (r < mf)%nat -> component (nth r (dofs g 2 i) 0%nat) = psi_f r (map (both l c) (face_of [0; 1; 2; 3]%nat i))) /\
    (forall j r, edge_of_face i j -> (r < me)%nat -> component (nth r (dofs g 1 j) 0%nat) = psi_e r (map (both l c) (tetra_edge_of [0; 1; 2; 3]%nat j))) /\
    (forall a, (a < n)%nat -> ~ In a (dofs g 2 i) -> (forall j, edge_of_face i j -> ~ In a (dofs g 1 j)) -> component a = 0).
(** H(curl) on tetrahedra, of every degree *)
Definition hcurl_faces (g : generator) (n me mf : nat) (phi : nat -> nat -> nat -> list R -> R) (psi_e psi_f : nat -> list (R * R) -> R) : Prop :=
  gen_map g = MCovariant /\ tabulates g 3 n 3 phi /\ owned_once g /\ laid_out g n 1 6 me /\ laid_out g n 2 4 mf /\
  edge_change_along g me psi_e /\ face_change_along g mf psi_f /\ face_tangential_traces g n me mf phi psi_e psi_f.
(** A direction of face [i] of the cell with nodes [nodes] *)
Definition in_face (c : nat -> R) (nodes : list nat) (i : nat) : Prop := c (nth i nodes 0%nat) = 0 /\ rsum_on c nodes = 0.
