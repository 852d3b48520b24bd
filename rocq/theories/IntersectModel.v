(** * Model of src/topology/shape_manipulation.py: intersect_edges (lines 197-289), with the test of
      src/geometry/operations/triangle_triangle_intersection_test.py:11-12, 21-30, 72-130

    Definitions only.  Exact real arithmetic.  Vertices are objects, named by their position in
    the heap (EmbedModel); a Wire in an array of edges is [None].  The option
    render_intersection_q is left out. *)
From Coq Require Import List Arith ZArith Bool Reals.
From Verif Require Import Base VecBase GeoModel VertexModel EmbedModel.
Import ListNotations.

(** [x[i]] for i in {0, 1, 2} *)
Definition entry (p : vec) (i : nat) : R := match i with 0 => vx p | 1 => vy p | _ => vz p end.

Section Test.
  Variable eps : R.          (* self.eps *)
  Variables i j : nat.       (* pos = [i, j] *)
  (** [np.linalg.det(np.array([u, v]).T)] of the projections *)
  Definition det2 (u v : vec) : R := (entry u i * entry v j - entry v i * entry u j)%R.
  (** colinear_measurement, lines 21-30 *)
  Definition colinear_measurement (a b p : vec) : R := (1 / 2 * Rabs (det2 (vsub a p) (vsub b p)))%R.
  (** line_line_intersection, lines 72-130: the first point when the test succeeds.  [tau] (lines
      95-98) is used through the order of |tau[0]|, |tau[1]|, which scaling does not change. *)
  Definition segment_test (a b p q : vec) : option vec :=
    let dv := det2 (vsub a b) (vsub p q) in
    if Rltb (Rabs dv) eps then
      if negb (Rltb (colinear_measurement a b p) eps) && negb (Rltb (colinear_measurement a b q) eps) then None
      else
        let t0 := Rabs (entry a i - entry b i) in
        let t1 := Rabs (entry a j - entry b j) in
        let k := if Rleb t0 t1 then j else i in (* the coordinate that is kept *)
        let a_in := Rleb (entry p k) (entry a k) && Rleb (entry a k) (entry q k) in
        if a_in then Some a else Some p
    else
      let tv := (det2 (vsub a p) (vsub p q) / dv)%R in
      let uv := (det2 (vsub a p) (vsub a b) / dv)%R in
      if Rleb 0 tv && Rleb tv 1 && (Rleb 0 uv && Rleb uv 1) then Some (vadd a (vscale tv (vsub b a))) else None.
End Test.

(** [pos], lines 206-210 *)
Definition axis_pos (axis : nat) : nat * nat := match axis with 0 => (1, 2) | 1 => (0, 2) | _ => (0, 1) end.

(** [np.unique(points, axis=0)] and the position of a point in it *)
Definition unique_points (points : list vec) : list vec :=
  map fst (fold_left (fun l p => insert_point (snd p) (fst p) l) (combine (seq 0 (length points)) points) []).
Fixpoint position (p : vec) (l : list vec) : nat :=
  match l with [] => 0 | q :: l' => match vec_compare p q with Eq => 0 | _ => S (position p l') end end.

Section Intersect.
  Variable argsort_R : list R -> list nat.
  Variable argsort : list Z -> list nat.
  Variable eps : R.          (* of the test: 1.0e-12 *)

  (** [a, b = [shape.point for shape in edge.boundary_shapes]] *)
  Definition end_points (h : heap) (e : host) : res (vec * vec) :=
    do ps <- mapM (vpoint h) (h_ends e);
    match ps with [a; b] => Ok (a, b) | _ => Err ValueError end.
  (** The vertex of the edge at the point: point_on_edge_boundary, lines 115-122 *)
  Definition end_at (h : heap) (p : vec) (e : host) : res (option nat) :=
    do k <- point_on_edge_boundary h p (h_ends e);
    match k with Some k => do x <- get_at (h_ends e) k; Ok (Some x) | None => Ok None end.
  (** [obj_vertex == tool_vertex], vertex.py:15-18, lines 242-246 *)
  Definition same_vertex (h : heap) (x y : option nat) : res bool :=
    match x, y with
    | Some x, Some y =>
        do a <- get_at h x; do b <- get_at h y;
        Ok ((fst a =? fst b)%Z && allclose_default (snd a) (snd b))
    | _, _ => Ok false
    end.
  (** The inner loop, lines 229-258; the state is points and case_line_indices *)
  Definition tool_step (axis : nat) (h : heap) (i : nat) (edge_i : host) (ab : vec * vec)
      (st : list vec * list (nat * nat)) (jt : nat * option host) : res (list vec * list (nat * nat)) :=
    let (points, cases) := st in
    match snd jt with
    | None => Ok st
    | Some edge_j =>
        do pq <- end_points h edge_j;
        if fst jt <=? i then Ok st
        else
          match segment_test eps (fst (axis_pos axis)) (snd (axis_pos axis)) (fst ab) (snd ab) (fst pq) (snd pq) with
          | None => Ok st
          | Some new_point =>
              do obj_vertex <- end_at h new_point edge_i;
              do tool_vertex <- end_at h new_point edge_j;
              do common <- same_vertex h obj_vertex tool_vertex;
              if common then Ok st
              else
                let point := match find (allclose_default new_point) points with Some p => p | None => new_point end in
                Ok (points ++ [point], cases ++ [(i, fst jt)])
          end
    end.
  (** The outer loop, lines 225-258 *)
  Definition object_step (axis : nat) (h : heap) (tools : list (option host))
      (st : list vec * list (nat * nat)) (ie : nat * option host) : res (list vec * list (nat * nat)) :=
    match snd ie with
    | None => Ok st
    | Some edge_i =>
        do ab <- end_points h edge_i;
        foldM (tool_step axis h (fst ie) edge_i ab) (combine (seq 0 (length tools)) tools) st
    end.
  (** The last loop, lines 276-287; the state is e_tag, the edges of edges_obj and the array edges *)
  Definition embed_step (vertices : list nat) (cases : list (nat * nat))
      (st : heap * Z * list (option host) * list (Z * list nat)) (ie : nat * option host) : res (heap * Z * list (option host) * list (Z * list nat)) :=
    let '(h, e_tag, hosts, edges) := st in
    match snd ie with
    | None => Ok (h, e_tag, hosts ++ [None], edges)
    | Some edge_i =>
        let to_embed := map snd (filter (fun cv : (nat * nat) * nat => (fst (fst cv) =? fst ie) || (snd (fst cv) =? fst ie)) (combine cases vertices)) in
        match to_embed with
        | [] => Ok (h, e_tag, hosts ++ [Some edge_i], edges)
        | _ =>
            do out <- embed_vertex_in_edge argsort_R argsort h to_embed edge_i e_tag;
            let '(h, edge_i, _) := out in
            match h_immersed edge_i with
            | [] => Ok (h, e_tag, hosts ++ [Some edge_i], edges)
            | (t, _) :: es => Ok (h, (fold_left Z.max (map fst es) t + 1)%Z, hosts ++ [Some edge_i], edges ++ h_immersed edge_i)
            end
        end
    end.
  (** intersect_edges, lines 197-289: the heap, the edges of edges_obj after the call, and the
      arrays returned; vertices are returned with their physical tags *)
  Definition intersect_edges (h : heap) (edges_obj edges_tool : list (option host)) (axis : nat) (e_tag_shift v_tag_shift p_tag_shift : Z)
      : res (heap * list (option host) * (list (Z * list nat) * list (nat * Z))) :=
    let numbered := combine (seq 0 (length edges_obj)) edges_obj in
    do st <- foldM (object_step axis h edges_tool) numbered ([], []);
    let (points, cases) := st in
    match points with
    | [] => Ok (h, edges_obj, ([], []))
    | _ =>
        let unique := unique_points points in
        let n := length h in
        let h := h ++ map (fun kp : nat * vec => ((v_tag_shift + Z.of_nat (fst kp))%Z, snd kp)) (combine (seq 0 (length unique)) unique) in
        let vertices := map (fun k => (n + k, (p_tag_shift + 1 + Z.of_nat k)%Z)) (seq 0 (length unique)) in
        let case_vertices := map (fun p => n + position p unique) points in
        do st <- foldM (embed_step case_vertices cases) numbered (h, e_tag_shift, [], []);
        let '(h, _, hosts, edges) := st in
        Ok (h, hosts, (edges, vertices))
    end.
End Intersect.
