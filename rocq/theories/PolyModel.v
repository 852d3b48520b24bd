(** * Model of the functions on polygons:
    src/geometry/operations/polygon_geometry_operations.py:6-100, 128-149 and
    src/geometry/operations/point_geometry_operations.py:164-238

    Definitions only.  Exact real arithmetic as in GeoModel.  The triangulation of scipy is a
    parameter: it gives triangles of indices or raises. *)
From Coq Require Import List Arith ZArith Bool Reals.
From Verif Require Import Base VecBase GeoModel.
Import ListNotations.
Local Open Scope R_scope.

(** [np.argmax], [np.argmin] of a non-empty array: the first best entry *)
Fixpoint best_index (better : R -> R -> bool) (best : R) (at_ i : nat) (l : list R) : nat :=
  match l with
  | [] => at_
  | x :: l' => if better x best then best_index better x i (i + 1) l' else best_index better best at_ (i + 1) l'
  end.
Definition argbest (better : R -> R -> bool) (l : list R) : res nat :=
  match l with [] => Err ValueError | x :: l' => Ok (best_index better x 0 1 l') end.
Definition argmax : list R -> res nat := argbest (fun x y => Rltb y x).
Definition argmin : list R -> res nat := argbest Rltb.
(** [np.delete(l, i)] *)
Fixpoint delete_at {A} (i : nat) (l : list A) : list A :=
  match l, i with
  | [], _ => []
  | _ :: l', O => l'
  | x :: l', S i' => x :: delete_at i' l'
  end.
(** [np.sign] *)
Definition sign (x : R) : Z := if Rltb 0 x then 1%Z else if Rltb x 0 then (-1)%Z else 0%Z.

(** __normalize, polygon_geometry_operations.py:6-8 *)
Definition normalize (v : vec) : vec := if Req_EM_T (norm v) 0 then v else vdiv v (norm v).
(** __edge_direction, lines 11-19 *)
Definition edge_direction (v0 v1 v2 n : vec) : R :=
  dot n (normalize (cross (vsub v1 v0) (vsub v2 v1))).
(** polygon_normal, lines 33-55 *)
Definition polygon_normal (points : list vec) : res vec :=
  let xc := vmean points in
  let dxc := map (fun p => norm (vsub p xc)) points in
  do imax <- argmax dxc; do imin <- argmin dxc;
  do dmax <- get_at dxc imax; do dmin <- get_at dxc imin;
  do abc <-
    (if isclose_default dmax dmin then
       do pa <- get_at points 0; do pb <- get_at points 1; do pc <- get_at points 2; Ok (pa, pb, pc)
     else
       do pa <- get_at points imax;
       let rest := delete_at imax points in
       let red := rest ++ [vmean rest] in
       let d := delete_at imax dxc ++ [norm (vsub (vmean red) xc)] in
       do ib <- argmax d; do ic <- argmin d;
       do pb <- get_at red ib; do pc <- get_at red ic; Ok (pa, pb, pc));
  let '(pa, pb, pc) := abc in
  Ok (normalize (cross (vsub pb pa) (vsub pc pa))).
(** convex_q, lines 58-82 *)
Definition convex_q (points : list vec) : res bool :=
  let n := length points in
  if (n <? 4)%nat then Ok true
  else
    do normal <- polygon_normal points;
    do directions <- mapM (fun i =>
        do v0 <- get_at points i; do v1 <- get_at points ((i + 1) mod n); do v2 <- get_at points ((i + 2) mod n);
        Ok (edge_direction v0 v1 v2 normal)) (seq 0 n);
    let count := Z.abs (fold_right Z.add 0%Z (map sign directions)) in
    Ok (count =? Z.of_nat n)%Z.

(** ** winding_number, lines 85-100 *)
(** [np.arctan2(y, x)] (signed zeros as +0.0) *)
Definition arctan2 (y x : R) : R :=
  if Rltb 0 x then atan (y / x)
  else if Rltb x 0 then (if Rleb 0 y then atan (y / x) + PI else atan (y / x) - PI)
  else if Rltb 0 y then PI / 2 else if Rltb y 0 then - (PI / 2) else 0.
(** [np.mod] *)
Definition Rmod (x m : R) : R := x - m * IZR (Int_part (x / m)).
(** a difference of two consecutive entries of [np.unwrap(angles)] whose difference before was [d] *)
Definition unwrapped (d : R) : R :=
  if Rltb (Rabs d) PI then d
  else
    let m := Rmod (d + PI) (2 * PI) - PI in
    if Req_EM_T m (- PI) then (if Rltb 0 d then PI else m) else m.
(** [round]: to the nearest integer, halves to the even one *)
Definition round (x : R) : Z :=
  let f := Int_part x in
  let r := x - IZR f in
  if Rltb r (1 / 2) then f else if Rltb (1 / 2) r then (f + 1)%Z else if Z.even f then f else (f + 1)%Z.
Definition diff (l : list R) : list R := match l with [] => [] | _ :: l' => map (fun p => snd p - fst p) (combine l l') end.
Definition rsum_list (l : list R) : R := fold_right Rplus 0 l.
Definition winding_number (p : R * R) (polygon : list (R * R)) : Z :=
  let angles := map (fun q => arctan2 (snd q - snd p) (fst q - fst p)) polygon in
  round (rsum_list (map unwrapped (diff angles)) / (2 * PI)).

(** __projection_directions, lines 22-30 *)
Definition axis_of (v : vec) (i : nat) : R := match i with 0%nat => vx v | 1%nat => vy v | _ => vz v end.
Definition projection_directions (points : list vec) : res (nat * nat) :=
  do n <- polygon_normal points;
  do pos <- argmax [Rabs (vx n); Rabs (vy n); Rabs (vz n)];
  Ok match pos with 0%nat => (1, 2)%nat | 1%nat => (0, 2)%nat | _ => (0, 1)%nat end.

Section Polygon.
  (** [Delaunay(points).simplices] of scipy *)
  Variable delaunay : list (R * R) -> res (list (nat * nat * nat)).
  (** geometry_collapse_tol *)
  Variable ctol : R.
  (** triangulate_polygon, polygon_geometry_operations.py:128-149 *)
  Definition triangulate_polygon (points : list vec) : res (list (vec * vec * vec)) :=
    do c <- convex_q points;
    if c then triangulate_convex_polygon points
    else
      do ij <- projection_directions points;
      let flat := map (fun v => (axis_of v (fst ij), axis_of v (snd ij))) points in
      do simplices <- delaunay flat;
      do kept <- mapM (fun t =>
        let '(i, j, k) := t in
        do a <- get_at flat i; do b <- get_at flat j; do c <- get_at flat k;
        let xc := ((fst a + fst b + fst c) / 3, (snd a + snd b + snd c) / 3) in
        Ok (if (winding_number xc flat =? 0)%Z then [] else [t])) simplices;
      mapM (fun t =>
        let '(i, j, k) := t in
        do a <- get_at points i; do b <- get_at points j; do c <- get_at points k; Ok (a, b, c)) (concat kept).
  (** points_triangle_intersection, point_geometry_operations.py:164-181 *)
  Definition keep_found {A} (result : list (option A)) : list A * list bool :=
    (flat_map (fun o => match o with Some x => [x] | None => [] end) result, map is_some result).
  Definition points_triangle_intersection (points : list vec) (a b c : vec) (eps : R) : list vec * list bool :=
    keep_found (map (fun p => point_triangle_intersection ctol p a b c eps) points).
  (** point_polygon_intersection, lines 184-216 *)
  Definition point_polygon_intersection (p : vec) (polygon : list vec) (eps : R) : res (option vec) :=
    do triangles <- triangulate_polygon polygon;
    let results := map (fun t => let '(a, b, c) := t in point_triangle_intersection ctol p a b c eps) triangles in
    Ok (if existsb is_some results then Some p else None).
  (** points_polygon_intersection, lines 219-238 *)
  Definition points_polygon_intersection (points polygon : list vec) (eps : R) : res (list vec * list bool) :=
    do result <- mapM (fun p => point_polygon_intersection p polygon eps) points;
    Ok (keep_found result).
End Polygon.
