(** * Specification vocabulary for finite elements *)
From Coq Require Import List Arith ZArith Bool Reals.
From Verif Require Import Base MeshModel MeshSpec OrientModel OrientSpec VecBase MapModel MapSpec SpaceModel ElementModel.
Import ListNotations.
Local Open Scope R_scope.

(** ** What a basix element documents *)
(** On points of [d] coordinates the table has [d + 1] blocks (values and derivatives), [n]
    functions and [vs] components; [phi k a c p] is component [c] of function [a] (for [k > 0]:
    of its derivative in direction [k - 1]) at [p]. *)
Definition tabulates (g : generator) (d n vs : nat) (phi : nat -> nat -> nat -> list R -> R) : Prop :=
  forall points, Forall (fun p => length p = d) points ->
  exists t, gen_tabulate g points = Ok t /\ tb_der t = (d + 1)%nat /\ tb_pts t = length points /\ tb_dof t = n /\ tb_vs t = vs /\
    forall k i p a c, (k <= d)%nat -> nth_error points i = Some p -> (a < n)%nat -> (c < vs)%nat -> tb_val t k i a c = phi k a c p.

(** The functions of sub-entity [i] of dimension [d] *)
Definition dofs (g : generator) (d i : nat) : list nat := nth i (nth d (gen_entity_dofs g) []) [].
(** There are [count] sub-entities of dimension [d] with [m] functions each. *)
Definition laid_out (g : generator) (n d count m : nat) : Prop :=
  (exists l, nth_error (gen_entity_dofs g) d = Some l /\ length l = count) /\
  forall i, (i < count)%nat -> length (dofs g d i) = m /\ NoDup (dofs g d i) /\ forall a, In a (dofs g d i) -> (a < n)%nat.
(** No function belongs to two sub-entities. *)
Definition owned_once (g : generator) : Prop :=
  forall d d' i i' a, In a (dofs g d i) -> In a (dofs g d' i') -> d = d' /\ i = i'.
(** The flag dof_transformations_are_identity tells the truth about a matrix of size [m]. *)
Definition honest (g : generator) (m : nat) (t : matrix) : Prop :=
  gen_identity g = true -> forall r s, (r < m)%nat -> (s < m)%nat -> t r s = if (r =? s)%nat then 1 else 0.

(** Traces on a sub-entity are functions [psi r] of the barycentric coordinates in the order of
    its vertices; the matrices give the traces for another order, up to the sign [e]. *)
Definition edge_change (g : generator) (m : nat) (e : R) (psi : nat -> list R -> R) : Prop :=
  fst (gen_interval g) = m /\ honest g m (snd (gen_interval g)) /\
  forall r u v, (r < m)%nat -> rsum m (fun s => snd (gen_interval g) r s * psi s [v; u]) = e * psi r [u; v].
Definition face_change (g : generator) (m : nat) (e : R) (psi : nat -> list R -> R) : Prop :=
  fst (gen_triangle g) = m /\ honest g m (fst (snd (gen_triangle g))) /\ honest g m (snd (snd (gen_triangle g))) /\
  forall r u v w, (r < m)%nat ->
    rsum m (fun s => fst (snd (gen_triangle g)) r s * psi s [v; w; u]) = psi r [u; v; w] /\
    rsum m (fun s => snd (snd (gen_triangle g)) r s * psi s [u; w; v]) = e * psi r [u; v; w].

(** ** Geometry *)
(** Vertex [k] of the reference simplex, and a value on it, as vectors of space *)
Definition ref_vertex (k : nat) : vec :=
  match k with 1%nat => mk_vec 1 0 0 | 2%nat => mk_vec 0 1 0 | 3%nat => mk_vec 0 0 1 | _ => vzero end.
Definition ref_value (d : nat) (phi : nat -> nat -> nat -> list R -> R) (a : nat) (p : list R) : vec :=
  mk_vec (phi 0%nat a 0%nat p) (phi 0%nat a 1%nat p) (match d with 3%nat => phi 0%nat a 2%nat p | _ => 0 end).
(** The value of function [a] at point [i] in a table of vectors *)
Definition value_at (t : table) (i a : nat) : vec := mk_vec (tb_val t 0 i a 0) (tb_val t 0 i a 1) (tb_val t 0 i a 2).
(** Area vector of a triangle (twice its area, orthogonal to it) and vector of an edge *)
Definition area (pos : nat -> vec) (f : list nat) : vec :=
  match f with [x; y; z] => cross (vsub (pos y) (pos x)) (vsub (pos z) (pos x)) | _ => vzero end.
Definition along (pos : nat -> vec) (e : list nat) : vec :=
  match e with [x; y] => vsub (pos y) (pos x) | _ => vzero end.
(** The nodes of the cell are stored at the positions [pos]. *)
Definition located (mesh_points : list vec) (c : cell) (pos : nat -> vec) : Prop :=
  forall x, In x (c_nodes c) -> nth_error mesh_points x = Some (pos x).
(** Edge vectors from the first node *)
Definition frame (pos : nat -> vec) (nodes : list nat) : list vec :=
  match nodes with x0 :: l => map (fun x => vsub (pos x) (pos x0)) l | [] => [] end.
(** A cell of dimension [d] of non-zero length, area or volume, and a QR factorisation of its
    Jacobian *)
Definition nondegenerate (qr : nat -> matrix -> matrix * matrix) (pos : nat -> vec) (d : nat) (nodes : list nat) : Prop :=
  measure (frame pos nodes) <> 0 /\ factorises d (of_columns (frame pos nodes)) (qr d (of_columns (frame pos nodes))).
(** +1 or -1: is (x1 - x0, x2 - x0, x3 - x0) a right-handed frame? *)
Definition handedness (pos : nat -> vec) (nodes : list nat) : R :=
  match frame pos nodes with [u; v; w] => sign (dot (cross u v) w) | _ => 0 end.
(** For a triangle and a direction [nu]: dot product of [nu] with the unit normal of the
    triangle; +1 or -1 if [nu] is a unit normal *)
Definition facing (nu : vec) (pos : nat -> vec) (nodes : list nat) : R :=
  match frame pos nodes with [u; v] => dot nu (cross u v) / norm (cross u v) | _ => 0 end.
(** [l] gives the barycentric coordinates of [p] by node *)
Definition barycentric (nodes : list nat) (p : list R) (l : nat -> R) : Prop :=
  forall j, (j < length nodes)%nat -> l (nth j nodes 0%nat) = nth j (linear_shapes p) 0.

(** ** Cells *)
Definition tetrahedron (cs : cells) (c : cell) : Prop :=
  c_dim c = 3%nat /\ length (c_nodes c) = 4%nat /\ NoDup (c_nodes c) /\
  forall i, (i < 6)%nat -> exists e, stored_edge cs c i e /\ Permutation.Permutation e (tetra_edge_of (c_nodes c) i).
Definition triangle (cs : cells) (c : cell) : Prop :=
  c_dim c = 2%nat /\ length (c_nodes c) = 3%nat /\ NoDup (c_nodes c) /\
  forall i, (i < 3)%nat -> exists e, stored_edge cs c i e /\ Permutation.Permutation e (edge_of (c_nodes c) i).
(** [f] lists the nodes of [g], [g] in increasing order: is [f] an even permutation of it? *)
Definition even (f : list nat) : bool :=
  match f with
  | [x; y; z] => xorb (x <? y)%nat (xorb (x <? z)%nat (y <? z)%nat)
  | [x; y] => (x <? y)%nat
  | _ => true
  end.

(** ** Normal and tangential traces on the reference cell *)
(** Face [i] of the reference tetrahedron: the normal component (times twice the area) of the
    functions of the face is [psi], of all others 0. *)
Definition normal_traces_3d (g : generator) (n m : nat) (phi : nat -> nat -> nat -> list R -> R) (psi : nat -> list R -> R) : Prop :=
  forall i p, (i < 4)%nat -> length p = 3%nat -> nth i (linear_shapes p) 0 = 0 ->
    (forall r, (r < m)%nat -> dot (ref_value 3 phi (nth r (dofs g 2 i) 0%nat) p) (area ref_vertex (face_of [0; 1; 2; 3]%nat i)) =
       psi r (map (fun k => nth k (linear_shapes p) 0) (face_of [0; 1; 2; 3]%nat i))) /\
    (forall a, (a < n)%nat -> ~ In a (dofs g 2 i) -> dot (ref_value 3 phi a p) (area ref_vertex (face_of [0; 1; 2; 3]%nat i)) = 0).
(** Edge [i] of the reference triangle: the component across the edge. *)
Definition normal_traces_2d (g : generator) (n m : nat) (phi : nat -> nat -> nat -> list R -> R) (psi : nat -> list R -> R) : Prop :=
  forall i p, (i < 3)%nat -> length p = 2%nat -> nth i (linear_shapes p) 0 = 0 ->
    (forall r, (r < m)%nat -> dot (ref_value 2 phi (nth r (dofs g 1 i) 0%nat) p) (cross (along ref_vertex (edge_of [0; 1; 2]%nat i)) (mk_vec 0 0 1)) =
       psi r (map (fun k => nth k (linear_shapes p) 0) (edge_of [0; 1; 2]%nat i))) /\
    (forall a, (a < n)%nat -> ~ In a (dofs g 1 i) -> dot (ref_value 2 phi a p) (cross (along ref_vertex (edge_of [0; 1; 2]%nat i)) (mk_vec 0 0 1)) = 0).
(** The points of edge [i] of the reference cell *)
Definition local_edge (d i : nat) : list nat := match d with 2%nat => edge_of [0; 1; 2]%nat i | _ => tetra_edge_of [0; 1; 2; 3]%nat i end.
Definition on_edge (d i : nat) (p : list R) : Prop :=
  length p = d /\ forall k, (k <= d)%nat -> ~ In k (local_edge d i) -> nth k (linear_shapes p) 0 = 0.
(** Tangential components on the edges *)
Definition tangential_traces (g : generator) (d n m : nat) (phi : nat -> nat -> nat -> list R -> R) (psi : nat -> list R -> R) : Prop :=
  forall i p, (i < match d with 2 => 3 | _ => 6 end)%nat -> on_edge d i p ->
    (forall r, (r < m)%nat -> dot (ref_value d phi (nth r (dofs g 1 i) 0%nat) p) (along ref_vertex (local_edge d i)) =
       psi r (map (fun k => nth k (linear_shapes p) 0) (local_edge d i))) /\
    (forall a, (a < n)%nat -> ~ In a (dofs g 1 i) -> dot (ref_value d phi a p) (along ref_vertex (local_edge d i)) = 0).
(** Size and truthfulness of the matrices of the faces (for elements whose traces on faces are
    not described) *)
Definition face_matrices (g : generator) (m : nat) : Prop :=
  fst (gen_triangle g) = m /\ honest g m (fst (snd (gen_triangle g))) /\ honest g m (snd (snd (gen_triangle g))).
(** Values of the functions of the edges (faces) on their edge (face) *)
Definition edge_values (g : generator) (d m : nat) (phi : nat -> nat -> nat -> list R -> R) (psi : nat -> list R -> R) : Prop :=
  forall i p r, (i < match d with 2 => 3 | _ => 6 end)%nat -> on_edge d i p -> (r < m)%nat ->
    phi 0%nat (nth r (dofs g 1 i) 0%nat) 0%nat p = psi r (map (fun k => nth k (linear_shapes p) 0) (local_edge d i)).
Definition face_values (g : generator) (m : nat) (phi : nat -> nat -> nat -> list R -> R) (psi : nat -> list R -> R) : Prop :=
  forall i p r, (i < 4)%nat -> length p = 3%nat -> nth i (linear_shapes p) 0 = 0 -> (r < m)%nat ->
    phi 0%nat (nth r (dofs g 2 i) 0%nat) 0%nat p = psi r (map (fun k => nth k (linear_shapes p) 0) (face_of [0; 1; 2; 3]%nat i)).
(** ** Construction *)
(** The family asked of basix *)
Definition asked (dim : nat) (f : family) : family :=
  match dim, f with 0%nat, _ => FP | 1%nat, _ => FP | _, f => f end.
Definition tagged (cs : cells) (id : nat) : Prop := exists c, nth_error cs id = Some (Some c) /\ c_mat c <> None.
(** The sub-cells whose material decides the boundary flags: the facets; of a vertex, those of
    the last level *)
Definition facets (c : cell) (ids : list nat) : Prop :=
  match c_dim c with 0%nat => exists l, c_sub c = l ++ [ids] | S d => nth_error (c_sub c) d = Some ids end.
Definition type_of (dim : nat) (ct : cell_type) : Prop :=
  match dim with 0%nat => ct = CPoint | 1%nat => ct = CInterval | 2%nat => ct = CTriangle | 3%nat => ct = CTetrahedron | _ => False end.
Definition total (ll : list (list nat)) : nat := list_sum (map list_sum ll).
(** ** Families: what basix documents about an element *)
Definition hdiv_3d (g : generator) (n m : nat) (phi : nat -> nat -> nat -> list R -> R) (psi : nat -> list R -> R) : Prop :=
  gen_map g = MContravariant /\ tabulates g 3 n 3 phi /\ owned_once g /\ laid_out g n 1 6 0 /\ fst (gen_interval g) = 0%nat /\
  laid_out g n 2 4 m /\ face_change g m (-1) psi /\ normal_traces_3d g n m phi psi.
Definition hdiv_2d (g : generator) (n m : nat) (phi : nat -> nat -> nat -> list R -> R) (psi : nat -> list R -> R) : Prop :=
  gen_map g = MContravariant /\ tabulates g 2 n 2 phi /\ owned_once g /\ laid_out g n 1 3 m /\ edge_change g m (-1) psi /\
  normal_traces_2d g n m phi psi.
Definition hcurl_3d (g : generator) (n m mf : nat) (phi : nat -> nat -> nat -> list R -> R) (psi : nat -> list R -> R) : Prop :=
  gen_map g = MCovariant /\ tabulates g 3 n 3 phi /\ owned_once g /\ laid_out g n 1 6 m /\ laid_out g n 2 4 mf /\
  edge_change g m (-1) psi /\ face_matrices g mf /\ tangential_traces g 3 n m phi psi.
Definition hcurl_2d (g : generator) (n m : nat) (phi : nat -> nat -> nat -> list R -> R) (psi : nat -> list R -> R) : Prop :=
  gen_map g = MCovariant /\ tabulates g 2 n 2 phi /\ owned_once g /\ laid_out g n 1 3 m /\ edge_change g m (-1) psi /\
  tangential_traces g 2 n m phi psi.
Definition h1_3d (g : generator) (n me mf : nat) (phi : nat -> nat -> nat -> list R -> R) (psi_e psi_f : nat -> list R -> R) : Prop :=
  gen_map g = MIdentity /\ tabulates g 3 n 1 phi /\ owned_once g /\ laid_out g n 1 6 me /\ laid_out g n 2 4 mf /\
  edge_change g me 1 psi_e /\ face_change g mf 1 psi_f /\ edge_values g 3 me phi psi_e /\ face_values g mf phi psi_f.
Definition h1_2d (g : generator) (n m : nat) (phi : nat -> nat -> nat -> list R -> R) (psi : nat -> list R -> R) : Prop :=
  gen_map g = MIdentity /\ tabulates g 2 n 1 phi /\ owned_once g /\ laid_out g n 1 3 m /\ edge_change g m 1 psi /\ edge_values g 2 m phi psi.
(** ** Evaluation as it is used: the mapping of the cell at the points, then the basis *)
Definition evaluated (qr : nat -> matrix -> matrix * matrix) (inv : nat -> matrix -> matrix) (mesh_points : list vec)
    (cs : cells) (el : element) (points : list (list R)) (t : table) : Prop :=
  exists mp, element_mapping qr inv mesh_points (el_cell el) points = Ok mp /\ evaluate_basis cs el points mp = Ok t.
Definition shape (t : table) (ders pts n vs : nat) : Prop := tb_der t = ders /\ tb_pts t = pts /\ tb_dof t = n /\ tb_vs t = vs.
(** Everything that places an element of dimension [d] in space *)
Definition placed (qr : nat -> matrix -> matrix * matrix) (X : list vec) (cs : cells) (el : element) (pos : nat -> vec) (d : nat) : Prop :=
  match d with 3%nat => tetrahedron cs (el_cell el) /\ length (el_bc_entities el) = 4%nat | _ => triangle cs (el_cell el) end /\
  located X (el_cell el) pos /\ nondegenerate qr pos d (c_nodes (el_cell el)).
Definition points_of (d : nat) (points : list (list R)) : Prop := points <> [] /\ Forall (fun p => length p = d) points.
(** The face [i] of an element in increasing order, and the order in which the code takes it *)
Definition sorted_face (el : element) (i : nat) (f : list nat) : Prop :=
  increasing f /\ Permutation.Permutation f (face_of (c_nodes (el_cell el)) i).
Definition flipped (el : element) (i : nat) : bool := overridden (el_bc_entities el) i && even (face_of (c_nodes (el_cell el)) i).
(** The value of reference function [b] at [p], moved to the cell by the Jacobian [J] with
    determinant [det] and (pseudo-)inverse [K] *)
Definition moved_value (kind : map_kind) (d : nat) (J K : matrix) (det : R) (phi : nat -> nat -> nat -> list R -> R) (b : nat) (p : list R) (r : nat) : R :=
  match kind with
  | MIdentity => phi 0%nat b r p
  | MContravariant => rsum d (fun c => J r c * phi 0%nat b c p) / det
  | MCovariant => rsum d (fun c => K c r * phi 0%nat b c p)
  end.
