(** * C81: sizes of cells and meshes *)
From Coq Require Import List Arith Bool ZArith Reals.
From Verif Require Import Base MeshModel VecBase CutModel MetricModel MetricSpec MetricProof MetricProof2 MetricExamples.
Import ListNotations.
Local Open Scope R_scope.

(** cell_diam returns exactly for cells with two or more existing vertices, and it returns the
    diameter of the convex hull of the vertices *)
Theorem C81_diameter : forall m c d, cell_diam m c = Ok d <-> exists l, has_points m c l /\ (2 <= length l)%nat /\ is_diameter l d.
Proof. exact diam_ok. Qed.
Print Assumptions C81_diameter.
Theorem C81_no_diameter : forall m c l, has_points m c l -> (length l < 2)%nat -> cell_diam m c = Err ValueError.
Proof. exact diam_fails. Qed.
Print Assumptions C81_no_diameter.

(** cell_centroid returns the mean of the n vertices: a point of the cell, no further than
    (n - 1) / n diameters from a vertex *)
Theorem C81_centroid : forall m c l, has_points m c l -> l <> [] -> exists g, cell_centroid m c = Ok g /\ in_hull l g /\
  vscale (INR (length l)) g = vsum l /\
  forall d p, is_diameter l d -> In p l -> distance p g * INR (length l) <= INR (length l - 1) * d.
Proof. exact centroid_ok. Qed.
Print Assumptions C81_centroid.

(** mesh_size returns exactly when a cell of the dimension (and tag) exists and all of them have a
    diameter; it returns the smallest, the mean and the largest diameter *)
Theorem C81_mesh_size : forall m dimension dim tag lo mean hi,
  let d := match dim with Some d => d | None => dimension end in
  mesh_size m dimension dim tag = Ok (lo, mean, hi) <->
  exists cs sizes, listed d tag (m_cells vec m) cs /\ cs <> [] /\
    Forall2 (fun c s => exists l, has_points m c l /\ (2 <= length l)%nat /\ is_diameter l s) cs sizes /\
    In lo sizes /\ In hi sizes /\ (forall s, In s sizes -> lo <= s <= hi) /\ mean * INR (length cs) = sum_of sizes.
Proof. exact mesh_size_iff. Qed.
Print Assumptions C81_mesh_size.
Theorem C81_order : forall m dimension dim tag lo mean hi, mesh_size m dimension dim tag = Ok (lo, mean, hi) -> 0 <= lo /\ lo <= mean <= hi.
Proof. exact mesh_size_order. Qed.
Print Assumptions C81_order.
Theorem C81_tag : forall m dimension dim t lo mean hi lo' mean' hi',
  mesh_size m dimension dim None = Ok (lo, mean, hi) -> mesh_size m dimension dim (Some t) = Ok (lo', mean', hi') -> lo <= lo' /\ hi' <= hi.
Proof. exact mesh_size_tag. Qed.
Print Assumptions C81_tag.
Theorem C81_stretched : forall k t m dimension dim tag lo mean hi, mesh_size m dimension dim tag = Ok (lo, mean, hi) ->
  mesh_size (stretched k t m) dimension dim tag = Ok (Rabs k * lo, Rabs k * mean, Rabs k * hi).
Proof. exact mesh_size_stretched. Qed.
Print Assumptions C81_stretched.
(** No size for cells with one vertex, so none for dimension 0 *)
Theorem C81_points_never : forall m dimension dim tag,
  let d := match dim with Some d => d | None => dimension end in
  (forall c, In (Some c) (m_cells vec m) -> c_dim c = d -> (length (c_nodes c) < 2)%nat) -> forall r, mesh_size m dimension dim tag <> Ok r.
Proof. exact mesh_size_points. Qed.
Print Assumptions C81_points_never.

Example C81_cell_case : cell_diam mx_mesh mx_small = Ok 5 /\ has_points mx_mesh mx_small [mk_vec 0 0 0; mk_vec 3 0 0; mk_vec 0 4 0].
Proof. exact (conj mx_small_diam mx_has). Qed.
Example C81_mesh_case : mesh_size mx_mesh 2 None None = Ok (5, 15 / 2, 10) /\ mesh_size mx_mesh 3 (Some 2%nat) (Some 2%Z) = Ok (10, 10, 10) /\
  listed 2 (Some 2%Z) (m_cells vec mx_mesh) [mx_large].
Proof. exact (conj mx_size (conj mx_size_tag mx_listed)). Qed.
Example C81_failing_case : mesh_size mx_mesh 2 (Some 0%nat) None = Err ValueError /\ mesh_size mx_mesh 2 (Some 3%nat) None = Err ValueError /\
  mesh_size (mk_mesh vec [Some mx_small; None] mx_points) 2 None None = Err AttributeError /\
  mesh_size (mk_mesh vec [Some mx_small] [mk_vec 0 0 0]) 2 None None = Err IndexError.
Proof. exact mx_size_fails. Qed.
