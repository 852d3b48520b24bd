(** * Model of the intersections of lines with lines, triangles and polygons:
    src/geometry/operations/line_geometry_operations.py:57-105, 138-325 and
    points_line_argsort, src/geometry/operations/point_geometry_operations.py:85-93

    Definitions only.  Exact real arithmetic as in GeoModel; [np.linalg.lstsq],
    [np.argsort] and scipy's Delaunay are parameters.  A segment is a pair of points.
    Arrays of different shapes cannot be put into one array: numpy raises ValueError. *)
From Coq Require Import List Arith ZArith Bool Reals.
From Verif Require Import Base VecBase GeoModel PolyModel.
Import ListNotations.
Local Open Scope R_scope.

Definition segment : Type := (vec * vec)%type.

(** ** [np.unique(np.round(points, decimals), axis=0, return_index=True)] and [points[idx]]:
    the first point of every rounded row, rows in lexicographic order *)
Definition row : Type := (Z * Z * Z)%type.
(** [np.round]; [scale] is ten to the power collapse_precision *)
Definition rounded (scale : R) (p : vec) : row := (round (vx p * scale), round (vy p * scale), round (vz p * scale)).
Definition row_compare (r s : row) : comparison :=
  let '(r0, r1, r2) := r in let '(s0, s1, s2) := s in
  match Z.compare r0 s0 with Eq => match Z.compare r1 s1 with Eq => Z.compare r2 s2 | c => c end | c => c end.
Fixpoint insert_row (r : row) (p : vec) (l : list (row * vec)) : list (row * vec) :=
  match l with
  | [] => [(r, p)]
  | (s, q) :: l' => match row_compare r s with
                    | Lt => (r, p) :: l
                    | Eq => l
                    | Gt => (s, q) :: insert_row r p l' end
  end.
Definition unique_rows (scale : R) (points : list vec) : list vec :=
  map snd (fold_left (fun l p => insert_row (rounded scale p) p l) points []).

(** results of line_triangle_intersection *)
Inductive lt_result : Type :=
| LT_none                        (* None *)
| LT_false                       (* False *)
| LT_points (l : list vec)       (* an array of shape (n, 3) *)
| LT_stack (l : list vec).       (* an array of shape (n, 1, 3) *)
(** [isinstance(data, np.ndarray)] *)
Definition is_array (r : lt_result) : bool := match r with LT_points _ | LT_stack _ => true | _ => false end.
Definition lt_is_none (r : lt_result) : bool := match r with LT_none => true | _ => false end.
(** [np.array(list)]: all entries have one shape *)
Definition same_shape (r s : lt_result) : bool :=
  match r, s with
  | LT_false, LT_false => true
  | LT_points l, LT_points l' | LT_stack l, LT_stack l' => (length l =? length l')%nat
  | _, _ => false
  end.
Definition stack (l : list lt_result) : res (list lt_result) :=
  match l with
  | [] => Ok []
  | r :: l' => if forallb (same_shape r) l' then Ok l else Err ValueError
  end.

Section Lines.
  Variable lstsq : vec -> vec -> vec -> R * R.
  Variable argsort : list R -> list nat.
  Variable delaunay : list (R * R) -> res (list (nat * nat * nat)).
  (** geometry_collapse_tol, geometry_point_line_incidence_tol, ten to the power
      geometry_collapse_precision *)
  Variable ctol ptol scale : R.

  (** ** lines_line_intersection, line_geometry_operations.py:57-66; the result has shape (n, 1, 3).  A
      pair (points, mask) among the results makes the shapes differ. *)
  Fixpoint ll_array (l : list ll_result) : res (list vec) :=
    match l with
    | [] => Ok []
    | LL_none :: l' => ll_array l'
    | LL_points out :: l' => do r <- ll_array l'; Ok (out ++ r)
    | LL_segment _ _ :: _ => Err ValueError
    end.
  Definition lines_line_intersection (lines : list segment) (a b : vec) (eps : R) : res (list vec) :=
    do result <- mapM (fun line : segment => line_line_intersection lstsq ctol ptol (fst line) (snd line) a b eps) lines;
    ll_array result.

  (** ** lines_lines_intersection, lines 69-105 *)
  (** [np.all(np.isclose(line_tool, line_obj))], lines 80-82 *)
  Definition same_line (tool obj : segment) : bool := allclose_default (fst tool) (fst obj) && allclose_default (snd tool) (snd obj).
  (** lines 78-92; [np.where] of a list gives a tuple of length one, the other branch is never taken *)
  Definition lines_lines (tools objects : list segment) (eps : R) : res (list (list vec)) :=
    mapM (fun obj : segment =>
      lines_line_intersection (filter (fun tool => negb (same_line tool obj)) tools) (fst obj) (snd obj) eps) objects.
  (** with deduplicate_points_q, lines 94-103 *)
  Definition lines_lines_points (tools objects : list segment) (eps : R) : res (list vec) :=
    do output <- lines_lines tools objects eps;
    Ok (unique_rows scale (concat output)).

  (** ** line_triangle_incidence, lines 150-168 (coplanar_measurements, lines 138-147) *)
  Definition line_triangle_incidence (p q a b c : vec) (eps : R) : bool :=
    let mp := coplanar_measurement p a b c in
    let mq := coplanar_measurement q a b c in
    let p_q := isclose eps mp 0 in
    let q_q := isclose eps mq 0 in
    if p_q || q_q then true
    else if (Rltb mp 0 || p_q) && (Rltb 0 mq || q_q) then true
    else if (Rltb 0 mp || p_q) && (Rltb mq 0 || q_q) then true
    else false.

  (** ** line_triangle_intersection, lines 171-229 *)
  Definition line_triangle_intersection (line : segment) (a b c : vec) (eps : R) : res lt_result :=
    let (p, q) := line in
    if negb (line_triangle_incidence p q a b c eps) then Ok LT_none
    else
      let pi := point_triangle_intersection ctol p a b c eps in
      let qi := point_triangle_intersection ctol q a b c eps in
      if is_some pi && is_some qi then Ok (LT_points [p; q])
      else
        do out <- lines_line_intersection [(a, b); (b, c); (c, a)] p q eps;
        match out with
        | _ :: _ =>
            match unique_rows scale out with
            | [x] => Ok (LT_points [x])
            | l => Ok (LT_stack l)
            end
        | [] =>
            if is_some pi then Ok (LT_points [p])
            else if is_some qi then Ok (LT_points [q])
            else
              let dir := vsub q p in
              let n := cross (vsub b a) (vsub c a) in
              let denom := dot n dir in
              if isclose eps denom 0 then Ok LT_none
              else
                let d := dot n (vsub a p) / denom in
                if Rltb d 0 || Rltb 1 d then Ok LT_false
                else match point_triangle_intersection ctol (vadd p (vscale d dir)) a b c eps with
                     | None => Ok LT_none
                     | Some x => Ok (LT_points [x])
                     end
        end.
  (** lines_triangle_intersection, lines 232-250 *)
  Definition lines_triangle_intersection (lines : list segment) (a b c : vec) (eps : R) : res (list lt_result * list bool) :=
    do result <- mapM (fun line => line_triangle_intersection line a b c eps) lines;
    do arr <- stack (filter (fun r => negb (lt_is_none r)) result);
    Ok (arr, map is_array result).

  (** ** line_polygon_intersection, lines 253-303 *)
  (** points_line_argsort with ba_sorting = False, point_geometry_operations.py:85-93 *)
  Definition points_line_argsort (points : list vec) (a b : vec) : list nat := argsort (map (fun p => norm (vsub p a)) points).
  Definition lt_points (r : lt_result) : list vec := match r with LT_points l | LT_stack l => l | _ => [] end.
  Definition line_polygon_intersection (line : segment) (polygon : list vec) (eps : R) : res (option (list vec)) :=
    do triangles <- triangulate_polygon delaunay polygon;
    do results <- mapM (fun t : vec * vec * vec => let '(a, b, c) := t in line_triangle_intersection line a b c eps) triangles;
    if existsb is_array results then
      let data := unique_rows scale (flat_map lt_points results) in
      let idx := points_line_argsort data (fst line) (snd line) in
      if (2 <? length data)%nat then
        do i <- get_at idx 0; do j <- get_at idx (length idx - 1);
        do x <- get_at data i; do y <- get_at data j;
        Ok (Some [x; y])
      else do l <- mapM (get_at data) idx; Ok (Some l)
    else Ok None.
  (** lines_polygon_intersection, lines 306-325 *)
  Definition lines_polygon_intersection (lines : list segment) (polygon : list vec) (eps : R) : res (list lt_result * list bool) :=
    do result <- mapM (fun line => line_polygon_intersection line polygon eps) lines;
    do arr <- stack (flat_map (fun o => match o with Some l => [LT_points l] | None => [] end) result);
    Ok (arr, map is_some result).
End Lines.
