(** * Model of src/topology/shape_manipulation.py: point_on_edge_boundary (lines 115-122),
      embed_vertex_in_edge_boundary (137-145), embed_vertex_in_edge (148-194)

    Definitions only.  Exact real arithmetic.  Vertices are objects, named by their position in
    the heap (VertexModel), because the function moves them and moves them back. *)
From Coq Require Import List Arith ZArith Bool Reals.
From Verif Require Import Base VecBase GeoModel VertexModel.
Import ListNotations.

(** [np.unique(points, return_index=True, axis=0)[1]]: the first position of every point, in
    lexicographic order of the points *)
Definition R_compare (x y : R) : comparison := if Rltb x y then Lt else if Rltb y x then Gt else Eq.
Definition vec_compare (p q : vec) : comparison :=
  match R_compare (vx p) (vx q) with
  | Eq => match R_compare (vy p) (vy q) with Eq => R_compare (vz p) (vz q) | c => c end
  | c => c
  end.
Fixpoint insert_point (p : vec) (i : nat) (l : list (vec * nat)) : list (vec * nat) :=
  match l with
  | [] => [(p, i)]
  | (q, j) :: l' => match vec_compare p q with
                    | Lt => (p, i) :: l
                    | Eq => l
                    | Gt => (q, j) :: insert_point p i l' end
  end.
Definition unique_points_idx (points : list vec) : list nat :=
  map snd (fold_left (fun l p => insert_point (snd p) (fst p) l) (combine (seq 0 (length points)) points) []).

(** An edge with its array of boundary vertices and its immersed edges (tag and boundary
    vertices of each). *)
Record host : Type := mk_host { h_ends : list nat; h_immersed : list (Z * list nat) }.

Section Embed.
  (** [np.argsort] of floats and of tags *)
  Variable argsort_R : list R -> list nat.
  Variable argsort : list Z -> list nat.

  (** [vertex.point = f(vertex.point)] *)
  Definition move (h : heap) (x : nat) (f : vec -> vec) : res heap :=
    do v <- get_at h x; Ok (set_at h x (fst v, f (snd v))).
  (** The list [check], lines 116 and 139-141 *)
  Definition close_to_ends (h : heap) (p : vec) (ends : list nat) : res (list bool) :=
    mapM (fun x => do q <- vpoint h x; Ok (allclose_default p q)) ends.
  (** The position in boundary_shapes of the vertex which point_on_edge_boundary returns, lines 115-122 *)
  Definition point_on_edge_boundary (h : heap) (p : vec) (ends : list nat) : res (option nat) :=
    do check <- close_to_ends h p ends;
    do c0 <- get_at check 0;
    if c0 then Ok (Some 0) else do c1 <- get_at check 1; if c1 then Ok (Some 1) else Ok None.
  (** embed_vertex_in_edge_boundary, lines 137-145; [edge.boundary_shapes[k] = vertex] does not
      sort the array again *)
  Definition embed_vertex_in_edge_boundary (h : heap) (v : nat) (ends : list nat) : res (list nat) :=
    do p <- vpoint h v;
    do k <- point_on_edge_boundary h p ends;
    Ok (match k with Some k => set_at ends k v | None => ends end).
  (** The loop of lines 154-160; the state is the boundary and indices_on_bc *)
  Definition bc_step (h : heap) (st : list nat * list nat) (iv : nat * nat) : res (list nat * list nat) :=
    let (ends, on_bc) := st in
    do p <- vpoint h (snd iv);
    do obj_out <- point_on_edge_boundary h p ends;
    match obj_out with
    | Some _ => do ends <- embed_vertex_in_edge_boundary h (snd iv) ends; Ok (ends, on_bc ++ [fst iv])
    | None => Ok st
    end.
  (** The loop of lines 172-184; the state is the heap, valid_indices and the norms of these *)
  Definition norm_step (translation : vec) (ra_norm rb_norm : R) (on_bc : list nat)
      (st : heap * list nat * list R) (iv : nat * nat) : res (heap * list nat * list R) :=
    let '(h, valid, norms) := st in
    if memb (fst iv) on_bc then Ok st
    else
      do h <- move h (snd iv) (fun p => vsub p translation);
      do p <- vpoint h (snd iv);
      let r_norm := norm p in
      let accepted := Rltb ra_norm r_norm && Rltb r_norm rb_norm &&
                      (negb (isclose_default r_norm ra_norm) && negb (isclose_default r_norm rb_norm)) in
      do h <- move h (snd iv) (fun p => vadd p translation);
      Ok (if accepted then (h, valid ++ [fst iv], norms ++ [r_norm]) else (h, valid, norms)).
  (** Edge(tag, np.array([x, y])), edge.py:7-11 with the setter of boundary_shapes *)
  Definition sub_edge (h : heap) (tag : Z) (x y : nat) : res (Z * list nat) :=
    do tx <- vtag h x; do ty <- vtag h y;
    do ends <- mapM (get_at [x; y]) (argsort [tx; ty]);
    Ok (tag, ends).
  (** embed_vertex_in_edge, lines 148-194: the heap, the edge and the vertices returned *)
  Definition embed_vertex_in_edge (h : heap) (vertices : list nat) (e : host) (tag_shift : Z) : res (heap * host * list nat) :=
    do points <- mapM (vpoint h) vertices;
    do vertices <- mapM (get_at vertices) (unique_points_idx points);
    let numbered := combine (seq 0 (length vertices)) vertices in
    do st <- foldM (bc_step h) numbered (h_ends e, []);
    let (ends, on_bc) := st in
    do a <- get_at ends 0;
    do b <- get_at ends 1;
    do translation <- vpoint h a;
    do h <- move h a (fun p => vsub p translation);
    do h <- move h b (fun p => vsub p translation);
    do pa <- vpoint h a; do pb <- vpoint h b;
    do st <- foldM (norm_step translation (norm pa) (norm pb) on_bc) numbered (h, [], [norm pa; norm pb]);
    let '(h, valid, r_norms) := st in
    do h <- move h a (fun p => vadd p translation);
    do h <- move h b (fun p => vadd p translation);
    do chosen <- mapM (get_at vertices) valid;
    do immersed <-
      (if (2 <? length r_norms)%nat then
         do vertex_list <- mapM (get_at (a :: b :: chosen)) (argsort_R r_norms);
         do es <- mapM (fun i => do x <- get_at vertex_list i; do y <- get_at vertex_list (i + 1);
                                 sub_edge h (Z.of_nat i + tag_shift) x y)
                       (seq 0 (length vertex_list - 1));
         Ok (h_immersed e ++ es)
       else Ok (h_immersed e));
    Ok (h, mk_host ends immersed, chosen).
End Embed.
