(** * Model of geometric functions:
    src/geometry/compute_normal.py:7-24, src/mesh/mesh_cell.py:5-49,
    src/mesh/mesh.py:721-735 (normals of embedded shapes),
    src/geometry/operations/polygon_geometry_operations.py:103-125,
    src/geometry/operations/point_geometry_operations.py:9-62, 65-82, 96-161,
    src/geometry/operations/line_geometry_operations.py:15-54

    Definitions only.  Exact real arithmetic; a division by zero (nan or an exception in
    Python) is excluded by the hypotheses of the theorems. *)
From Coq Require Import List Arith Bool Reals.
From Verif Require Import Base VecBase.
Import ListNotations.
Local Open Scope R_scope.

Definition Rleb (x y : R) : bool := if Rle_dec x y then true else false.
Definition Rltb (x y : R) : bool := if Rlt_dec x y then true else false.

(** ** rotations, mesh_cell.py:10-49 *)
Definition x_rotation (v : vec) (theta : R) : vec :=
  mk_vec (vx v) (cos theta * vy v - sin theta * vz v) (sin theta * vy v + cos theta * vz v).
Definition y_rotation (v : vec) (theta : R) : vec :=
  mk_vec (cos theta * vx v + sin theta * vz v) (vy v) (- sin theta * vx v + cos theta * vz v).
Definition z_rotation (v : vec) (theta : R) : vec :=
  mk_vec (cos theta * vx v - sin theta * vy v) (sin theta * vx v + cos theta * vy v) (vz v).
(** [rotate_vector]; None for another axis *)
Definition rotate_vector (v : vec) (theta : R) (axis : nat) : option vec :=
  match axis with
  | 0%nat => Some (x_rotation v theta)
  | 1%nat => Some (y_rotation v theta)
  | 2%nat => Some (z_rotation v theta)
  | _ => None
  end.
(** The normal and centre of an embedded shape with boundary points [b0], [b1],
    mesh.py:730-735 *)
Definition embed_normal (b0 b1 : vec) : option vec * vec :=
  let r := vsub b1 b0 in
  let tau := vdiv r (norm r) in
  (rotate_vector tau (PI / 2) 2, vmean [b0; b1]).

(** ** compute_normal.py:7-24; [p0] and [p1] are the points of the cell and of the facet,
    [d] the dimension of the facet.  For a facet of dimension 3 Python raises
    UnboundLocalError (a NameError). *)
Definition normal (p0 p1 : list vec) (d : nat) : res vec :=
  let xc1 := vmean p1 in
  let xc0 := vmean p0 in
  let outward := vdiv (vsub xc1 xc0) (norm (vsub xc1 xc0)) in
  do n <- match d with
          | 0%nat => Ok (vdiv outward (norm outward))
          | 1%nat =>
              do a <- get_at p1 1; do b <- get_at p1 0;
              let v := vsub a b in
              let v := vdiv v (norm v) in
              let w := vdiv (cross v outward) (norm (cross v outward)) in
              Ok (cross v w)
          | 2%nat =>
              do a <- get_at p1 0; do b <- get_at p1 1;
              let v := vsub a xc1 in
              let w := vsub b xc1 in
              Ok (vdiv (cross v w) (norm (cross v w)))
          | _ => Err NameError
          end;
  Ok (if Rltb (dot n outward) 0 then vscale (- 1) n else n).

(** ** triangulate_convex_polygon, polygon_geometry_operations.py:103-125 *)
Definition triangulate_convex_polygon (points : list vec) : res (list (vec * vec * vec)) :=
  let n := length points in
  if (n <? 3)%nat then Err ValueError
  else
    let xc := vmean points in
    do fan <- mapM (fun i => do v1 <- get_at points i; do v2 <- get_at points (i + 1); Ok (xc, v1, v2)) (seq 0 (n - 1));
    do v1 <- get_at points (n - 1);
    do v2 <- get_at points 0;
    Ok (fan ++ [(xc, v1, v2)]).

(** ** point tests, point_geometry_operations.py *)
(** [np.isclose(x, y, rtol=tol, atol=tol)] *)
Definition isclose (tol x y : R) : bool := Rleb (Rabs (x - y)) (tol + tol * Rabs y).
(** [np.all(np.isclose(a, p, rtol=tol, atol=tol))] *)
Definition allclose (tol : R) (a p : vec) : bool := isclose tol (vx a) (vx p) && isclose tol (vy a) (vy p) && isclose tol (vz a) (vz p).
(** colinear_measurement, lines 9-14 *)
Definition colinear_measurement (p a b : vec) : R := 1 / 2 * norm (cross (vsub a p) (vsub b p)).
(** point_line_incidence, lines 17-22; note the order of the arguments *)
Definition point_line_incidence (p a b : vec) (eps : R) : bool := isclose eps (colinear_measurement a b p) 0.
(** point_line_intersection, lines 25-62; [ctol] is geometry_collapse_tol *)
Definition point_line_intersection (ctol : R) (p a b : vec) (eps : R) : option vec :=
  if allclose ctol a p then Some a
  else if allclose ctol b p then Some b
  else if point_line_incidence a b p eps then
    let bta := norm (vsub b a) in
    let pta := norm (vsub p a) in
    let atb := norm (vsub a b) in
    let ptb := norm (vsub p b) in
    if (Rltb pta bta || isclose eps bta pta) && (Rltb ptb atb || isclose eps atb ptb) then Some p else None
  else None.
(** coplanar_measurement, lines 96-99: determinant of the rows (a 1), (b 1), (c 1), (p 1) over 6 *)
Definition det3 (a b c : vec) : R := dot (cross a b) c.
Definition coplanar_measurement (p a b c : vec) : R := (det3 b c p * (-1) + det3 a c p - det3 a b p + det3 a b c) / 6.
(** point_triangle_incidence, lines 102-107 *)
Definition point_triangle_incidence (p a b c : vec) (eps : R) : bool := isclose eps (coplanar_measurement p a b c) 0.
(** point_triangle_intersection, lines 110-161 *)
Definition point_triangle_intersection (ctol : R) (p a b c : vec) (eps : R) : option vec :=
  if allclose ctol a p then Some a
  else if allclose ctol b p then Some b
  else if allclose ctol c p then Some c
  else if negb (point_triangle_incidence p a b c eps) then None
  else match point_line_intersection ctol p a b eps with Some x => Some x | None =>
       match point_line_intersection ctol p b c eps with Some x => Some x | None =>
       match point_line_intersection ctol p c a eps with Some x => Some x | None =>
         let ab := vsub b a in
         let ac := vsub c a in
         let ap := vsub p a in
         let denom := dot ab ab * dot ac ac - dot ab ac * dot ab ac in
         let u := (dot ac ac * dot ap ab - dot ab ac * dot ap ac) / denom in
         let v := (dot ab ab * dot ap ac - dot ab ac * dot ap ab) / denom in
         if Rleb 0 u && Rleb 0 v && Rleb (u + v) 1 then Some p else None
       end end end.

(** ** line_line_intersection, line_geometry_operations.py:15-54.  [lstsq d1 d2 r] is
    [np.linalg.lstsq(np.array([d1, -d2]).T, r)[0]]; [ptol] is
    geometry_point_line_incidence_tol. *)
Inductive ll_result : Type :=
| LL_none                                  (* None *)
| LL_points (out : list vec)               (* an array of points *)
| LL_segment (out : list vec) (q : list bool).   (* a pair *)
Definition is_some {A} (o : option A) : bool := match o with Some _ => true | None => false end.
(** points_line_intersection, point_geometry_operations.py:65-82 *)
Definition points_line_intersection (ctol : R) (points : list vec) (a b : vec) (eps : R) : list vec * list bool :=
  let result := map (fun p => point_line_intersection ctol p a b eps) points in
  (flat_map (fun o => match o with Some x => [x] | None => [] end) result, map is_some result).
Section LineLine.
  Variable lstsq : vec -> vec -> vec -> R * R.
  Variable ctol ptol : R.
  (** the computation, line_geometry_operations.py:27-54 *)
  Definition line_line_compute (a b c d : vec) (eps : R) : ll_result :=
    let d1 := vsub b a in
    let d2 := vsub d c in
    let r := vsub c a in
    let (t, s) := lstsq d1 d2 r in
    let pa := vadd a (vscale t d1) in
    let pc := vadd c (vscale s d2) in
    let t_l := Rltb 0 t || isclose eps t 0 in
    let t_r := Rltb t 1 || isclose eps t 1 in
    let s_l := Rltb 0 s || isclose eps s 0 in
    let s_r := Rltb s 1 || isclose eps s 1 in
    if allclose eps pa pc && (t_l && t_r) && (s_l && s_r) then LL_points [pa] else LL_none.
  (** [np.isclose(out, ends[q])] with the default tolerances rtol = 1e-5, atol = 1e-8, line 24 *)
  Definition isclose_default (x y : R) : bool := Rleb (Rabs (x - y)) (1 / 100000000 + 1 / 100000 * Rabs y).
  Definition allclose_default (x y : vec) : bool :=
    isclose_default (vx x) (vx y) && isclose_default (vy x) (vy y) && isclose_default (vz x) (vz y).
  Definition line_line_intersection (a b c d : vec) (eps : R) : res ll_result :=
    let (out, q) := points_line_intersection ctol [a; b] c d ptol in
    match q with
    | [true; true] => Ok (LL_segment out q)
    | [true; false] => match out with
                       | [x] => if allclose_default x a then Ok (LL_points out) else Err AssertionError
                       | _ => Err AssertionError end
    | [false; true] => match out with
                       | [x] => if allclose_default x b then Ok (LL_points out) else Err AssertionError
                       | _ => Err AssertionError end
    | _ => Ok (line_line_compute a b c d eps)
    end.
End LineLine.
