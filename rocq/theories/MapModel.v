(** * Model of src/basis/parametric_transformation.py:8-98 and src/geometry/mapping.py:9-54

    Definitions only.  basix is represented by its documented data: reference vertices
    (basix.geometry), facet connectivities (basix.cell.sub_entity_connectivity) and the linear
    Lagrange shape functions.  Arithmetic is exact.  [np.linalg.qr] and [np.linalg.inv] are
    parameters.  A reference point is the list of its coordinates. *)
From Coq Require Import List Arith Bool Reals.
From Verif Require Import Base MeshModel OrientModel VecBase.
Import ListNotations.
Local Open Scope R_scope.

(** basix.geometry(CellType.interval / triangle / tetrahedron) by dimension *)
Definition reference_vertices (d : nat) : list (list R) :=
  match d with
  | 1%nat => [[0]; [1]]
  | 2%nat => [[0; 0]; [1; 0]; [0; 1]]
  | 3%nat => [[0; 0; 0]; [1; 0; 0]; [0; 1; 0]; [0; 0; 1]]
  | _ => []
  end.
(** [sub_entity_connectivity(celltype)[d - 1][i][0]]: vertices of facet [i] *)
Definition facet_connectivity (d : nat) : list (list nat) :=
  match d with
  | 1%nat => [[0]; [1]]%nat
  | 2%nat => [[1; 2]; [0; 2]; [0; 1]]%nat
  | 3%nat => [[1; 2; 3]; [0; 2; 3]; [0; 1; 3]; [0; 1; 2]]%nat
  | _ => []
  end.

Definition lscale (k : R) (v : list R) : list R := map (Rmult k) v.
Definition ladd (u v : list R) : list R := map (fun p => fst p + snd p) (combine u v).

(** [l.index(x)] *)
Fixpoint index_of (x : nat) (l : list nat) : res nat :=
  match l with
  | [] => Err ValueError
  | y :: l' => if (x =? y)%nat then Ok 0%nat else do i <- index_of x l'; Ok (S i)
  end.

(** parametric_transformation.py:13-24 (31-42, 58-71): the local vertices in the order of the
    facet cell.  [keys] is what the list comprehension runs over and what the assertion
    compares with: the facet's node tags in _R1_to_R2 and _R2_to_R3, the local facet itself
    in _R0_to_R1. *)
Definition align_facet (c1_nodes c0_nodes local keys : list nat) : res (list nat) :=
  do subentities <- take c0_nodes local;
  if eqb c1_nodes subentities then Ok local
  else if eqb (sort_nat keys) (sort_nat subentities)
  then mapM (dindex (dict_of (combine subentities local))) keys
  else Err AssertionError.

(** _R0_to_R1, parametric_transformation.py:8-28; [xi] of a reference point [[xi]] *)
Definition R0_to_R1 (facet_index : nat) (points : list (list R)) (c1 c0 : cell) : res (list (list R)) :=
  do local <- get_at (facet_connectivity 1) facet_index;
  do facet <- align_facet (c_nodes c1) (c_nodes c0) local local;
  mapM (fun p => match p with
                 | [xi] => do i0 <- get_at facet 0; do v0 <- get_at (reference_vertices 1) i0; Ok (lscale xi v0)
                 | _ => Err ValueError
                 end) points.
(** _R1_to_R2, parametric_transformation.py:31-56 *)
Definition R1_to_R2 (facet_index : nat) (points : list (list R)) (c1 c0 : cell) : res (list (list R)) :=
  do local <- get_at (facet_connectivity 2) facet_index;
  do facet <- align_facet (c_nodes c1) (c_nodes c0) local (c_nodes c1);
  mapM (fun p => match p with
                 | [xi] => do i0 <- get_at facet 0; do v0 <- get_at (reference_vertices 2) i0;
                           do i1 <- get_at facet 1; do v1 <- get_at (reference_vertices 2) i1;
                           Ok (ladd (lscale (1 - xi) v0) (lscale xi v1))
                 | _ => Err ValueError
                 end) points.
(** _R2_to_R3, parametric_transformation.py:59-86 *)
Definition R2_to_R3 (facet_index : nat) (points : list (list R)) (c1 c0 : cell) : res (list (list R)) :=
  do local <- get_at (facet_connectivity 3) facet_index;
  do facet <- align_facet (c_nodes c1) (c_nodes c0) local (c_nodes c1);
  mapM (fun p => match p with
                 | [xi; eta] =>
                     do i0 <- get_at facet 0; do v0 <- get_at (reference_vertices 3) i0;
                     do i1 <- get_at facet 1; do v1 <- get_at (reference_vertices 3) i1;
                     do i2 <- get_at facet 2; do v2 <- get_at (reference_vertices 3) i2;
                     Ok (ladd (ladd (lscale (1 - xi - eta) v0) (lscale xi v1)) (lscale eta v2))
                 | _ => Err ValueError
                 end) points.
(** transform_lower_to_higher, parametric_transformation.py:89-98; for a facet of dimension 3
    Python returns None *)
Definition transform_lower_to_higher (points : list (list R)) (c1 c0 : cell) : res (option (list (list R))) :=
  do subs <- get_at (c_sub c0) (c_dim c1);
  do facet_index <- index_of (c_id c1) subs;
  match c_dim c1 with
  | 0%nat => do r <- R0_to_R1 facet_index points c1 c0; Ok (Some r)
  | 1%nat => do r <- R1_to_R2 facet_index points c1 c0; Ok (Some r)
  | 2%nat => do r <- R2_to_R3 facet_index points c1 c0; Ok (Some r)
  | _ => Ok None
  end.

(** Linear shape functions (evaluate_linear_shapes, mapping.py:9-19) at a reference point *)
Definition linear_shapes (p : list R) : list R := (1 - fold_right Rplus 0 p) :: p.
(** [phi[0, :, :, 0] @ cell_points], mapping.py:45, at one reference point *)
Definition lincomb (w : list R) (xs : list vec) : vec :=
  fold_right vadd vzero (map (fun p => vscale (fst p) (snd p)) (combine w xs)).
(** The [x] of evaluate_mapping, mapping.py:38-54, at one reference point; [cell_points] is
    [mesh.points[cell.node_tags]] *)
Definition map_x (d : nat) (cell_points : list vec) (p : list R) : vec :=
  match d with
  | 0%nat => hd vzero cell_points
  | _ => lincomb (linear_shapes p) cell_points
  end.
(** Derivatives of the linear shape functions: [phi[1 + j, :, k, 0]] *)
Definition linear_gradient (d j : nat) : list R :=
  (- 1) :: map (fun k => if (k =? j)%nat then 1 else 0) (seq 0 d).
(** [jac], mapping.py:46-47: its columns *)
Definition jac_columns (d : nat) (cell_points : list vec) : list vec :=
  map (fun j => lincomb (linear_gradient d j) cell_points) (seq 0 d).

(** ** _compute_det_and_pseudo_inverse, mapping.py:22-35.  Matrices are functions of row and
    column; [n] is the number of columns of the Jacobian. *)
Definition matrix : Type := nat -> nat -> R.
Fixpoint rsum (n : nat) (f : nat -> R) : R := match n with 0%nat => 0 | S n' => rsum n' f + f n' end.
(** [A @ B] where A has [n] columns *)
Definition mmul (n : nat) (A B : matrix) : matrix := fun i j => rsum n (fun k => A i k * B k j).
Definition transpose (A : matrix) : matrix := fun i j => A j i.
(** [np.sign] *)
Definition sign (x : R) : R := if Rlt_dec 0 x then 1 else if Rlt_dec x 0 then -1 else 0.
(** [np.diag(np.sign(np.diag(r_jac)), 0)] *)
Definition sign_matrix (A : matrix) : matrix := fun i j => if (i =? j)%nat then sign (A i i) else 0.
(** [np.linalg.det] of an n x n matrix, n <= 3 *)
Definition det (n : nat) (A : matrix) : R :=
  match n with
  | 1%nat => A 0%nat 0%nat
  | 2%nat => A 0%nat 0%nat * A 1%nat 1%nat - A 0%nat 1%nat * A 1%nat 0%nat
  | 3%nat => A 0%nat 0%nat * (A 1%nat 1%nat * A 2%nat 2%nat - A 1%nat 2%nat * A 2%nat 1%nat)
           - A 0%nat 1%nat * (A 1%nat 0%nat * A 2%nat 2%nat - A 1%nat 2%nat * A 2%nat 0%nat)
           + A 0%nat 2%nat * (A 1%nat 0%nat * A 2%nat 1%nat - A 1%nat 1%nat * A 2%nat 0%nat)
  | _ => 1
  end.
Section Jacobian.
  Variable qr : nat -> matrix -> matrix * matrix.   (* np.linalg.qr of a 3 x n matrix *)
  Variable inv : nat -> matrix -> matrix.           (* np.linalg.inv of an n x n matrix *)
  Definition det_and_pseudo_inverse (n : nat) (grad_xmap : matrix) : R * matrix :=
    let (q_axes, r_jac) := qr n grad_xmap in
    let r_sign := sign_matrix r_jac in
    let q_axes' := mmul n q_axes r_sign in
    let r_jac' := mmul n r_sign r_jac in
    (det n r_jac', mmul n (inv n r_jac') (transpose q_axes')).
End Jacobian.
(** The matrix with the given columns *)
Definition coordinate (v : vec) (i : nat) : R := match i with 0%nat => vx v | 1%nat => vy v | _ => vz v end.
Definition of_columns (cols : list vec) : matrix := fun i j => coordinate (nth j cols vzero) i.
