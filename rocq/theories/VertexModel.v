(** * Model of src/topology/operations/vertex_operations.py

    Definitions only.  Exact real arithmetic.  [ptol], [ltol], [ctol] are the constants of
    globals.py (geometry_point_line_incidence_tol, the default of point_line_intersection,
    geometry_collapse_tol). *)
From Coq Require Import List Arith ZArith Bool Reals.
From Verif Require Import Base VecBase GeoModel.
Import ListNotations.

Section VertexOps.
  Variables ctol ptol ltol : R.

  (** ** Intersections: lines 64-154.  Vertices are objects, named by their position in the
      heap, because they are renumbered in place. *)
  Definition heap : Type := list (Z * vec).
  Definition vtag (h : heap) (x : nat) : res Z := do v <- get_at h x; Ok (fst v).
  Definition vpoint (h : heap) (x : nat) : res vec := do v <- get_at h x; Ok (snd v).
  (** vertex_with_same_geometry_q, lines 21-27 *)
  Definition same_geometry (eps : R) (a b : vec) : bool := allclose eps a b.
  (** Vertex.__eq__ (vertex.py:15-18) and vertex_strong_equality_q, lines 30-34 *)
  Definition strong_equality (h : heap) (x y : nat) : res bool :=
    do a <- get_at h x; do b <- get_at h y;
    Ok ((fst a =? fst b)%Z && allclose_default (snd a) (snd b) && same_geometry ptol (snd a) (snd b)).
  (** The outcome is an existing vertex or a new one at a point. *)
  Inductive hit : Type := Existing (x : nat) | New (p : vec).
  (** vertex_edge_boundary_intersection, lines 64-91; the edge is the pair of its boundary
      vertices *)
  Definition boundary_hit (h : heap) (v : nat) (e : nat * nat) (eps : R) : res (option hit) :=
    do s0 <- strong_equality h v (fst e);
    do s1 <- strong_equality h v (snd e);
    do p <- vpoint h v; do a <- vpoint h (fst e); do b <- vpoint h (snd e);
    Ok (if s0 then Some (Existing (fst e)) else if s1 then Some (Existing (snd e))
        else if same_geometry eps p a then Some (New a) else if same_geometry eps p b then Some (New b) else None).
  (** vertex_edge_intersection, lines 94-111 *)
  Definition edge_hit (h : heap) (v : nat) (e : nat * nat) (eps : R) : res (option hit) :=
    do bc_out <- boundary_hit h v e eps;
    match bc_out with
    | Some _ => Ok bc_out
    | None =>
        do p <- vpoint h v; do a <- vpoint h (fst e); do b <- vpoint h (snd e);
        Ok (match point_line_intersection ctol p a b ltol with Some out => Some (New out) | None => None end)
    end.
  (** Lines 121-124: the new vertices are created with the tag [tag_min] *)
  Definition create (tag_min : Z) (st : heap * list (option nat)) (r : option hit) : heap * list (option nat) :=
    match r with
    | None => (fst st, snd st ++ [None])
    | Some (Existing x) => (fst st, snd st ++ [Some x])
    | Some (New p) => (fst st ++ [(tag_min, p)], snd st ++ [Some (length (fst st))])
    end.
  (** Lines 126-134 *)
  Definition number (st : heap * Z * list nat * list nat) (r : option nat * nat) : res (heap * Z * list nat * list nat) :=
    let '(h, tag, intx, tools) := st in
    match fst r with
    | None => Ok st
    | Some x => do v <- get_at h x; Ok (set_at h x (tag, snd v), (tag + 1)%Z, intx ++ [x], tools ++ [snd r])
    end.
  (** vertices_edge_intersection, lines 114-137 *)
  Definition vertices_edge_intersection (tag_min : Z) (h : heap) (tools : list nat) (e : nat * nat) (tag : Z) (eps : R) : res (heap * list nat * list nat) :=
    do hits <- mapM (fun v => edge_hit h v e eps) tools;
    let '(h1, results) := fold_left (create tag_min) hits (h, []) in
    do st <- foldM number (combine results tools) (h1, tag, [], []);
    let '(h2, _, intx, used) := st in
    Ok (h2, intx, used).
  (** [np.max(tags)]: ValueError when there is none *)
  Definition np_max (l : list Z) : res Z := match l with [] => Err ValueError | x :: r => Ok (fold_left Z.max r x) end.
  (** vertices_edges_intersection, lines 140-154: the next tag is the largest one of the last
      edge, not one more *)
  Definition vertices_edges_intersection (tag_min : Z) (h : heap) (tools : list nat) (edges : list (nat * nat)) (tag : Z) (eps : R)
    : res (heap * list (list nat * list nat)) :=
    do st <- foldM (fun st e =>
              let '(h, tag, out) := st in
              do r <- vertices_edge_intersection tag_min h tools e tag eps;
              let '(h', intx, used) := r in
              do ts <- mapM (vtag h') intx;
              do tag' <- np_max ts;
              Ok (h', tag', out ++ [(intx, used)]))
            edges (h, tag, []);
    let '(h, _, out) := st in Ok (h, out).

  (** ** Difference: lines 157-255 *)
  Record vertex : Type := mk_vertex { v_tag : Z; v_phys : option Z; v_point : vec }.
  Record edge : Type := mk_edge { e_tag : Z; e_phys : option Z; e_ends : list vertex }.
  (** [np.unique(np.round(points, decimals), axis=0, return_index=True)[1]] *)
  Variable unique_idx : list vec -> list nat.
  (** [np.argsort] of floats and of tags *)
  Variable argsort_R : list R -> list nat.
  Variable argsort : list Z -> list nat.
  (** Edge(tag, np.array([v0, v1])), edge.py:7-11 with the setter of boundary_shapes *)
  Definition make_edge (tag : Z) (phys : option Z) (v0 v1 : vertex) : res edge :=
    do ends <- mapM (get_at [v0; v1]) (argsort [v_tag v0; v_tag v1]);
    Ok (mk_edge tag phys ends).
  (** One turn of the loop, lines 204-230 *)
  Definition chain_step (phys : option Z) (va vb : vertex) (on_a on_b : option vertex)
      (st : Z * list edge * list vertex) (chain : vec * vec) : res (Z * list edge * list vertex) :=
    let '(tag, es, vs) := st in
    let '(v0, tag) :=
      if same_geometry ptol (fst chain) (v_point va) then (match on_a with Some v => v | None => va end, tag)
      else (mk_vertex tag phys (fst chain), tag + 1)%Z in
    let '(v1, tag) :=
      if same_geometry ptol (snd chain) (v_point vb) then (match on_b with Some v => v | None => vb end, tag)
      else (mk_vertex tag phys (snd chain), tag + 1)%Z in
    do e <- make_edge tag phys v0 v1;
    Ok ((tag + 1)%Z, es ++ [e], vs ++ [v0; v1]).
  (** [points[mask]] *)
  Definition mask {A} (l : list A) (q : list bool) : list A := map fst (filter snd (combine l q)).
  (** [np.delete(l, 0)] and [np.delete(l, -1)] *)
  Definition delete_first {A} (l : list A) : res (list A) := match l with [] => Err IndexError | _ :: r => Ok r end.
  Definition delete_last {A} (l : list A) : res (list A) := match l with [] => Err IndexError | _ => Ok (removelast l) end.
  (** vertices_edge_difference, lines 157-232 *)
  Definition vertices_edge_difference (tools : list vertex) (e : edge) (tag : Z) (eps : R) : res (list edge * list vertex) :=
    do tools <- mapM (get_at tools) (unique_idx (map v_point tools));
    do va <- get_at (e_ends e) 0; do vb <- get_at (e_ends e) 1;
    let a := v_point va in let b := v_point vb in
    let (points, intx_q) := points_line_intersection ctol (map v_point tools) a b eps in
    match points with
    | [] => Ok ([], [])
    | _ =>
        let idx := argsort_R (map (fun p => norm (vsub p a)) points) in
        do points <- mapM (get_at points) idx;
        do hits <- mapM (get_at (mask tools intx_q)) idx;
        do first <- get_at points 0;
        do last <- get_at points (length points - 1);
        do hit_first <- get_at hits 0;
        do hit_last <- get_at hits (length hits - 1);
        let on_a := allclose_default first a in
        let on_b := allclose_default last b in
        do internal <- (if on_a then delete_first points else Ok points);
        do internal <- (if on_b then delete_last internal else Ok internal);
        let expanded := a :: internal ++ [b] in
        do r <- foldM (chain_step (e_phys e) va vb (if on_a then Some hit_first else None) (if on_b then Some hit_last else None))
                      (combine expanded (internal ++ [b])) (tag, [], []);
        let '(_, es, vs) := r in
        Ok (es, vs)
    end.
  (** vertices_edges_difference, lines 235-255 *)
  Definition vertices_edges_difference (tools : list vertex) (edges : list edge) (tag : Z) (eps : R) : res (list (edge * list edge * list vertex)) :=
    do st <- foldM (fun st e =>
              let '(tag, out) := st in
              do r <- vertices_edge_difference tools e tag eps;
              let '(es, vs) := r in
              do tag <- (if negb (length vs =? 0)%nat && negb (length es =? 0)%nat
                         then do m <- np_max (map v_tag vs ++ map e_tag es); Ok (m + 1)%Z else Ok tag);
              Ok (tag, out ++ [(e, es, vs)]))
            edges (tag, []);
    Ok (snd st).
End VertexOps.
