(** * Model of src/topology/shape.py:7-196, vertex.py:6-31, edge.py:6-18, wire.py:6-89,
      face.py, shell.py, solid.py, composite_solid.py, domain.py:7-20, 85-123,
      operations/domain_operations.py:31-44, domain_market.py:38-169

    Definitions only.  A shape is the tree of its boundary and immersed shapes, so sharing of
    objects is not visible (the functions here do not change shapes they did not create).
    Tags are integers (None is not modelled).  [P] is the type of points and [pclose x y] is
    [np.all(np.isclose(x, y))]; [argsort] is [np.argsort] (which order it gives to equal keys
    is left open).  The attribute [active] is never read and left out. *)
From Coq Require Import List Arith ZArith Bool.
From Verif Require Import Base.
Import ListNotations.

(** The classes deriving from Shape. *)
Inductive kind : Type := Vertex | Edge | Wire | Face | Shell | Solid | CompositeSolid.
#[export] Instance EqDec_kind : EqDec kind.
Proof. intros x y; decide equality. Defined.
(** [shape.dimension], set in each constructor *)
Definition kind_dim (k : kind) : nat :=
  match k with Vertex => 0 | Edge | Wire => 1 | Face | Shell => 2 | Solid | CompositeSolid => 3 end.
(** [shape.composite]: shape.py:12, wire.py:11, shell.py:9, composite_solid.py:9 *)
Definition kind_composite (k : kind) : bool := match k with Wire | Shell | CompositeSolid => true | _ => false end.
(** [admissible_dimensions()] of each class *)
Definition admissible_dimensions (k : kind) : list nat := seq 0 (S (kind_dim k)).

Section Shapes.
  Context {P : Type}.
  Inductive shape : Type :=
    mk_shape (k : kind) (tag : Z) (physical : option Z) (point : option P) (boundary embedded : list shape).
  Definition s_kind (s : shape) : kind := let '(mk_shape k _ _ _ _ _) := s in k.
  Definition s_tag (s : shape) : Z := let '(mk_shape _ t _ _ _ _) := s in t.
  Definition s_phys (s : shape) : option Z := let '(mk_shape _ _ p _ _ _) := s in p.
  Definition s_point (s : shape) : option P := let '(mk_shape _ _ _ p _ _) := s in p.
  Definition s_boundary (s : shape) : list shape := let '(mk_shape _ _ _ _ b _) := s in b.
  (** the attribute [_immersed_shapes] *)
  Definition s_embedded (s : shape) : list shape := let '(mk_shape _ _ _ _ _ i) := s in i.
  Definition s_dim (s : shape) : nat := kind_dim (s_kind s).
  Definition s_composite (s : shape) : bool := kind_composite (s_kind s).

  (** The property [immersed_shapes]: shape.py:95-97, for wires wire.py:19-28 *)
  Fixpoint immersed (s : shape) : list shape :=
    match s with
    | mk_shape Wire _ _ _ _ i => flat_map (fun c => match immersed c with [] => [c] | l => l end) i
    | mk_shape _ _ _ _ _ i => i
    end.

  Variable pclose : P -> P -> bool.
  Variable argsort : list Z -> list nat.

  (** [shapes[perm]] *)
  Definition take_shapes (l : list shape) (perm : list nat) : res (list shape) := mapM (get_at l) perm.
  (** The setter of boundary_shapes, shape.py:78-93: the shape with the new boundary *)
  Definition set_boundary (s : shape) (shapes : list shape) : res shape :=
    do shapes <- take_shapes shapes (argsort (map s_tag shapes));
    if forallb (fun c => memb (s_dim c) (admissible_dimensions (s_kind s))) shapes
    then Ok (mk_shape (s_kind s) (s_tag s) (s_phys s) (s_point s) shapes (s_embedded s))
    else Err ValueError.
  (** The setter of immersed_shapes, shape.py:99-110, wire.py:30-41 *)
  Definition set_immersed (s : shape) (shapes : list shape) : res shape :=
    if forallb (fun c => memb (s_dim c) (admissible_dimensions (s_kind s))) shapes
    then Ok (mk_shape (s_kind s) (s_tag s) (s_phys s) (s_point s) (s_boundary s) shapes)
    else Err ValueError.
  (** [shape.physical_tag = p] *)
  Definition set_physical (s : shape) (p : option Z) : shape :=
    mk_shape (s_kind s) (s_tag s) p (s_point s) (s_boundary s) (s_embedded s).
  (** Shape.__init__, shape.py:8-15, with the dimension of the class and a tag *)
  Definition new_shape (k : kind) (tag : Z) (point : option P) : shape := mk_shape k tag None point [] [].

  (** [__eq__], shape.py:121-166 and vertex.py:15-18.  [fuel] is the recursion limit.  A shape
      which is not a vertex has no attribute [point].  Every comparison of the list
      comprehensions is made.  Line 146 assigns to equality_by_boundary_shapes again, so that
      the comparison of the boundaries is lost when there are immersed shapes. *)
  Fixpoint shape_eq (fuel : nat) (s t : shape) : res bool :=
    match fuel with
    | 0 => Err RecursionError
    | S fuel' =>
        let identity := (s_dim s =? s_dim t)%nat && (s_tag s =? s_tag t)%Z in
        match s_kind s with
        | Vertex =>
            match s_point s, s_point t with
            | Some x, Some y => Ok (identity && pclose x y)
            | _, _ => Err AttributeError
            end
        | _ =>
            let all_equal l l' := do q <- mapM (fun p => shape_eq fuel' (fst p) (snd p)) (combine l l'); Ok (forallb (fun b => b) q) in
            let nb := (length (s_boundary s) =? length (s_boundary t))%nat in
            let ni := (length (immersed s) =? length (immersed t))%nat in
            do b <- (if negb (length (s_boundary s) =? 0)%nat && nb then all_equal (s_boundary s) (s_boundary t) else Ok true);
            do b <- (if negb (length (immersed s) =? 0)%nat && ni then all_equal (immersed s) (immersed t) else Ok b);
            Ok (identity && nb && ni && b)
        end
    end.

  (** [__contains__], shape.py:171-187 *)
  Definition contains (fuel : nat) (s other : shape) : res bool :=
    let has l := existsb (fun c => (s_dim c =? s_dim other)%nat && (s_tag c =? s_tag other)%Z) l in
    let once l := do q <- mapM (fun c => shape_eq fuel c other) l; Ok (length (filter (fun b => b) q) =? 1)%nat in
    do b <- (if has (s_boundary s) then once (s_boundary s) else Ok false);
    do i <- (if has (immersed s) then once (immersed s) else Ok false);
    Ok (b || i).

  (** [shape_assignment], shape.py:189-204 and vertex.py:29-31 *)
  Definition shape_assignment (s other : shape) : res shape :=
    if negb (s_dim s =? s_dim other)%nat then Err ValueError
    else if negb (Bool.eqb (s_composite s) (s_composite other)) then Err ValueError
    else
      let s1 := mk_shape (s_kind s) (s_tag other) (s_phys other) (s_point s) (s_boundary s) (s_embedded s) in
      do s2 <- set_boundary s1 (s_boundary other);
      do s3 <- set_immersed s2 (immersed other);
      Ok (match s_kind s with
          | Vertex => mk_shape Vertex (s_tag s3) (s_phys s3) (s_point other) (s_boundary s3) (s_embedded s3)
          | _ => s3
          end).

  (** Constructors: vertex.py:7-11, edge.py:7-11, face.py:5-9, shell.py:5-11, solid.py *)
  Definition new_vertex (tag : Z) (p : P) : shape := new_shape Vertex tag (Some p).
  Definition new_edge (tag : Z) (vertices : list shape) : res shape := set_boundary (new_shape Edge tag None) vertices.
  Definition new_face (tag : Z) (wires : list shape) : res shape := set_boundary (new_shape Face tag None) wires.
  Definition new_shell (tag : Z) (faces wires : list shape) : res shape :=
    do s <- set_immersed (new_shape Shell tag None) faces; set_boundary s wires.
  Definition new_solid (tag : Z) (shells : list shape) : res shape := set_boundary (new_shape Solid tag None) shells.

  (** The first vertex, wire.py:44-47 and 61-64 *)
  Definition seed_vertex (edges : list shape) : res shape :=
    do e <- get_at edges 0;
    do a <- get_at (s_boundary e) 0;
    do b <- get_at (s_boundary e) 1;
    Ok (if (s_tag a >? s_tag b)%Z then b else a).
  (** The loop of orient_immersed_edges, wire.py:49-57 *)
  Fixpoint orient_loop (fuel : nat) (seed : shape) (edges : list shape) : res (list Z) :=
    match edges with
    | [] => Ok []
    | e :: l =>
        do a <- get_at (s_boundary e) 0;
        do q <- shape_eq fuel seed a;
        if q then do b <- get_at (s_boundary e) 1; do r <- orient_loop fuel b l; Ok (1%Z :: r)
        else do r <- orient_loop fuel a l; Ok ((-1)%Z :: r)
    end.
  Definition orient_immersed_edges (fuel : nat) (w : shape) : res (list Z) :=
    do seed <- seed_vertex (immersed w); orient_loop fuel seed (immersed w).
  (** orient_immersed_vertices, wire.py:60-75 *)
  Fixpoint vertices_loop (fuel : nat) (seed : shape) (edges : list shape) : res (list shape) :=
    match edges with
    | [] => Ok []
    | e :: l =>
        do a <- get_at (s_boundary e) 0;
        do q <- shape_eq fuel seed a;
        do b <- get_at (s_boundary e) 1;
        if q then do r <- vertices_loop fuel b l; Ok (a :: r)
        else do r <- vertices_loop fuel a l; Ok (b :: r)
    end.
  Definition orient_immersed_vertices (fuel : nat) (w : shape) : res (list shape) :=
    do seed <- seed_vertex (immersed w); vertices_loop fuel seed (immersed w).
  (** Wire.__init__, wire.py:7-14: the wire and its orientation *)
  Definition new_wire (fuel : nat) (tag : Z) (edges vertices : list shape) : res (shape * list Z) :=
    do s <- set_immersed (new_shape Wire tag None) edges;
    do s <- set_boundary s vertices;
    do o <- orient_immersed_edges fuel s;
    Ok (s, o).
  (** Wire.boundary_points, wire.py:77-89 *)
  Definition wire_ends (w : shape) (orientation : list Z) : res (shape * shape) :=
    do b <- get_at (immersed w) 0;
    do e <- get_at (immersed w) (length (immersed w) - 1);
    do ob <- get_at orientation 0;
    do oe <- get_at orientation (length orientation - 1);
    do vb <- get_at (s_boundary b) (if (ob >? 0)%Z then 0 else 1);
    do ve <- get_at (s_boundary e) (if (oe >? 0)%Z then 1 else 0);
    Ok (vb, ve).

  (** ** Domains: the list [shapes] by dimension, domain.py:8-10 *)
  Definition domain : Type := list (list shape).
  Definition empty_domain (dimension : nat) : domain := repeat [] (S dimension).
  (** append_shapes, domain.py:14-20 *)
  Definition append_shapes (D : domain) (shapes : list shape) : res domain :=
    match shapes with
    | [] => Ok D
    | s0 :: _ =>
        let d := fold_left Nat.min (map s_dim shapes) (s_dim s0) in
        if (count_occ Nat.eq_dec (map s_dim shapes) d =? length shapes)%nat
        then do l <- get_at D d; Ok (set_at D d (l ++ shapes))
        else Err AssertionError
    end.
  (** [shape.index(max_dimension)], shape.py:118-119 *)
  Definition s_index (dimension : nat) (s : shape) : Z * Z := ((Z.of_nat dimension - Z.of_nat (s_dim s))%Z, s_tag s).

  Section Hash.
    (** [hash((dimension, tag))] *)
    Variable hash : nat -> Z -> Z.
    (** A negative position of a Python list counts from the end. *)
    Definition py_index (n : nat) (i : Z) : res nat :=
      if (0 <=? i)%Z then (if (i <? Z.of_nat n)%Z then Ok (Z.to_nat i) else Err IndexError)
      else if (0 <=? i + Z.of_nat n)%Z then Ok (Z.to_nat (i + Z.of_nat n)) else Err IndexError.
    (** The loop of create_domain, domain_operations.py:36-38 *)
    Definition classify (dimension : nat) (shapes : list shape) : res (list (dict Z shape)) :=
      foldM (fun (acc : list (dict Z shape)) s =>
               do i <- py_index (S dimension) (Z.of_nat dimension - Z.of_nat (s_dim s));
               do d <- get_at acc i;
               Ok (set_at acc i (dset d (hash (s_dim s) (s_tag s)) s)))
            shapes (repeat [] (S dimension)).
    (** create_domain, domain_operations.py:31-44 *)
    Definition create_domain (dimension : nat) (shapes : list shape) : res domain :=
      do by_co_dimension <- classify dimension shapes;
      foldM (fun D c_shapes => append_shapes D (dvals c_shapes)) by_co_dimension (empty_domain dimension).
  End Hash.

  (** gather_graph_edges, domain.py:88-107 *)
  Fixpoint gather_graph_edges (dimension : nat) (fuel : nat) (s : shape) : res (list ((Z * Z) * (Z * Z))) :=
    match fuel with
    | 0 => Err RecursionError
    | S fuel' =>
        let visit c :=
          do r <- (if (s_dim c =? 0)%nat then Ok [] else gather_graph_edges dimension fuel' c);
          Ok ((s_index dimension s, s_index dimension c) :: r) in
        do b <- mapM visit (s_boundary s);
        do i <- mapM visit (immersed s);
        Ok (concat b ++ concat i)
    end.
  (** build_grahp, domain.py:109-123 *)
  Definition build_graph (dimension : nat) (fuel : nat) (D : domain) (at_dimension : option nat) : res (digraph (Z * Z)) :=
    let d := match at_dimension with None => dimension | Some d => d end in
    do disjoint <- get_at D d;
    do l <- mapM (gather_graph_edges dimension fuel) disjoint;
    let g := from_edgelist (concat l) in
    Ok (if (d =? 0)%nat && (length (g_nodes g) =? 0)%nat
        then mk_digraph (uniq (map (s_index dimension) disjoint)) (g_edges g) else g).

  (** Rows of edges_connectivities: neighbours in the closed loop, domain_market.py:66-70 *)
  Definition loop_pairs (n : nat) : list (nat * nat) := map (fun i => (i, if (S i =? n)%nat then 0 else S i)) (seq 0 n).
  (** build_box_2D, domain_market.py:58-91.  [area] and [bc i] are the results of
      [physical_tags.get("area", None)] and [physical_tags.get("bc_" + str(i), None)].  With no
      point, [loop[0]] raises IndexError. *)
  Definition build_box_2D (fuel : nat) (box_points : list P) (area : option Z) (bc : nat -> option Z)
    : res (domain * (shape * list Z) * digraph (Z * Z)) :=
    let n := length box_points in
    let vertices := map (fun p => new_vertex (Z.of_nat (fst p)) (snd p)) (combine (seq 0 n) box_points) in
    do D <- append_shapes (empty_domain 2) vertices;
    if (n =? 0)%nat then Err IndexError
    else
      do edges <- mapM (fun p => let '(tag, (i, j)) := p in
                        do a <- get_at vertices i; do b <- get_at vertices j;
                        do e <- new_edge (Z.of_nat tag) [a; b];
                        Ok (set_physical e (bc tag)))
                       (combine (seq 0 n) (loop_pairs n));
      do D <- append_shapes D edges;
      do v0 <- get_at vertices 0;
      do w <- new_wire fuel (Z.of_nat n) edges [v0; v0];
      do D <- append_shapes D [fst w];
      do f <- new_face 0 [fst w];
      do D <- append_shapes D [set_physical f area];
      do g <- build_graph 2 fuel D None;
      Ok (D, w, g).
  (** build_box_1D, domain_market.py:38-55 *)
  Definition build_box_1D (fuel : nat) (box_points : list P) (line bc_0 bc_1 : option Z) : res (domain * digraph (Z * Z)) :=
    let n := length box_points in
    let vertices := map (fun p => new_vertex (Z.of_nat (fst p)) (snd p)) (combine (seq 0 n) box_points) in
    do v0 <- get_at vertices 0; do v1 <- get_at vertices 1;
    let a := set_physical v0 bc_0 in
    let b := set_physical v1 bc_1 in
    do D <- append_shapes (empty_domain 1) (set_at (set_at vertices 0 a) 1 b);
    do e <- new_edge 0 [a; b];
    do D <- append_shapes D [set_physical e line];
    do g <- build_graph 1 fuel D None;
    Ok (D, g).
  (** build_box_3D, domain_market.py:94-169 *)
  Definition box_edges : list (nat * nat) :=
    [(0, 1); (1, 2); (2, 3); (3, 0); (4, 5); (5, 6); (6, 7); (7, 4); (0, 4); (1, 5); (2, 6); (3, 7)].
  Definition box_wires : list (list nat * nat) :=
    [([0; 1; 2; 3], 0); ([4; 5; 6; 7], 4); ([0; 9; 4; 8], 0); ([1; 10; 5; 9], 1); ([2; 11; 6; 10], 2); ([3; 11; 7; 8], 3)].
  Definition build_box_3D (fuel : nat) (box_points : list P) (solid : option Z) (bc : nat -> option Z)
    : res (domain * list (shape * list Z) * digraph (Z * Z)) :=
    let n := length box_points in
    let vertices := map (fun p => new_vertex (Z.of_nat (fst p)) (snd p)) (combine (seq 0 n) box_points) in
    do D <- append_shapes (empty_domain 3) vertices;
    do edges <- mapM (fun p => let '(tag, (i, j)) := p in
                      do a <- get_at vertices i; do b <- get_at vertices j; new_edge (Z.of_nat tag) [a; b])
                     (combine (seq 0 12) box_edges);
    do D <- append_shapes D edges;
    do wires <- mapM (fun p => let '(k, (es, v)) := p in
                      do es <- mapM (get_at edges) es; do v <- get_at vertices v; new_wire fuel (Z.of_nat (12 + k)) es [v])
                     (combine (seq 0 6) box_wires);
    do D <- append_shapes D (map fst wires);
    do faces <- mapM (fun p => do f <- new_face (Z.of_nat (18 + fst p)) [fst (snd p)]; Ok (set_physical f (bc (fst p)))) (combine (seq 0 6) wires);
    do D <- append_shapes D faces;
    do shell <- new_shell 24 faces (map fst wires);
    do D <- append_shapes D [shell];
    do s <- new_solid 25 [shell];
    do D <- append_shapes D [set_physical s solid];
    do g <- build_graph 3 fuel D None;
    Ok (D, wires, g).
End Shapes.
Arguments shape P : clear implicits.
Arguments domain P : clear implicits.

(** CPython's hash of an int (below 2^61 - 1 in absolute value, and -1 is reserved) *)
Definition int_hash (z : Z) : Z :=
  let h := (Z.sgn z * (Z.abs z mod (2 ^ 61 - 1)))%Z in if (h =? -1)%Z then (-2)%Z else h.
