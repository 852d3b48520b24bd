(** * Model of src/mesh/mesh_metrics.py

    Definitions only.  Exact real arithmetic.  The points of a mesh are triples; [mesh.points[tags]]
    with a tag out of range is an IndexError.  The mean of an empty array (nan) is excluded by the
    hypotheses of the theorems. *)
From Coq Require Import List Arith Bool ZArith Reals.
From Verif Require Import Base MeshModel OrientModel VecBase CutModel.
Import ListNotations.
Local Open Scope R_scope.

(** mesh.points[mesh_cell.node_tags], mesh_metrics.py:7, 13 *)
Definition points_of (m : mesh vec) (c : cell) : res (list vec) := take (m_points vec m) (c_nodes c).

(** cell_centroid, mesh_metrics.py:6-9 *)
Definition cell_centroid (m : mesh vec) (c : cell) : res vec :=
  do points <- points_of m c; Ok (vmean points).

(** The differences, mesh_metrics.py:14-19 *)
Definition differences (points : list vec) : list vec :=
  let en := combine (seq 0 (length points)) points in
  flat_map (fun o => flat_map (fun t => if Nat.eqb (fst o) (fst t) then [] else [vsub (snd t) (snd o)]) en) en.

(** np.max, np.min and np.mean of a list; np.max([]) and np.min([]) are ValueErrors (np.mean([]) is
    not reached) *)
Definition np_max (l : list R) : res R := match l with [] => Err ValueError | x :: l => Ok (fold_left Rmax l x) end.
Definition np_min (l : list R) : res R := match l with [] => Err ValueError | x :: l => Ok (fold_left Rmin l x) end.
Definition np_mean (l : list R) : R := fold_right Rplus 0 l / INR (length l).

(** cell_diam, mesh_metrics.py:12-21 *)
Definition cell_diam (m : mesh vec) (c : cell) : res R :=
  do points <- points_of m c;
  np_max (map norm (differences points)).

(** The cells looked at, mesh_metrics.py:25-30: [cell.dimension] of None is an AttributeError *)
Definition tag_matches (tag : option Z) (c : cell) : bool :=
  match tag with
  | None => true
  | Some t => match c_mat c with Some u => Z.eqb u t | None => false end
  end.
Definition cells_with (m : mesh vec) (dim : nat) (tag : option Z) : res (list cell) :=
  do cs <- mapM (fun slot => match slot with Some c => Ok c | None => Err AttributeError end) (m_cells vec m);
  Ok (filter (fun c => Nat.eqb (c_dim c) dim && tag_matches tag c) cs).

(** mesh_size, mesh_metrics.py:24-35; [dimension] is mesh.dimension *)
Definition mesh_size (m : mesh vec) (dimension : nat) (dim : option nat) (tag : option Z) : res (R * R * R) :=
  let d := match dim with None => dimension | Some d => d end in
  do cs <- cells_with m d tag;
  do sizes <- mapM (cell_diam m) cs;
  do lo <- np_min sizes;
  let mean := np_mean sizes in
  do hi <- np_max sizes;
  Ok (lo, mean, hi).
