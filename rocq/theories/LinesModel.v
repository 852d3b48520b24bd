(** * Model of src/topology/domain_market.py:305-322 (build_disjoint_lines) and 325-373
      (build_box_2D_with_lines), with shape_manipulation.py:292-293 (embed_edge_in_face)

    Definitions only.  Exact real arithmetic.  The box is built as in ShapeModel, the edges are
    intersected as in IntersectModel; after that the shapes are objects named by numbers: first
    the vertices of the heap, then the entries of domain.shapes[1], then the face.  The trees of
    ShapeModel are made from them wherever the code reads the domain, with the tags they have
    at that moment.  [lines] are the rows of the file. *)
From Coq Require Import List Arith ZArith Bool Reals.
From Verif Require Import Base VecBase GeoModel ShapeModel VertexModel TagModel EmbedModel IntersectModel QueryModel.
Import ListNotations.

(** The shapes after the intersection.  [n_hosts] has an entry for each side, None for the wire
    and an entry for each line; [n_subs] are the edges returned by intersect_edges. *)
Record net : Type := mk_net {
  n_heap : heap; n_vphys : list (option Z);
  n_sides : nat; n_wire_ends : list nat; n_area : option Z;
  n_hosts : list (option host); n_phys : list (option Z); n_subs : list (Z * list nat) }.

Section Trees.
  Variable N : net.
  Variable t : nat -> Z.     (* the attribute [tag] of every object *)
  (** Names of the entries of domain.shapes[1] and of the face *)
  Definition edge_id (k : nat) : nat := length (n_heap N) + k.
  Definition sub_id (j : nat) : nat := edge_id (length (n_hosts N) + j).
  Definition face_id : nat := edge_id (length (n_hosts N) + length (n_subs N)).
  (** The immersed edges of an entry: their positions in n_subs *)
  Definition n_immersed (e : option host) : nat := match e with Some e => length (h_immersed e) | None => 0 end.
  Definition subs_of (k : nat) : list nat :=
    seq (list_sum (map n_immersed (firstn k (n_hosts N)))) (n_immersed (nth k (n_hosts N) None)).
  Definition line_positions : list nat := seq (S (n_sides N)) (length (n_hosts N) - S (n_sides N)).

  Definition vertex_tree (x : nat) : shape vec :=
    mk_shape Vertex (t x) (nth x (n_vphys N) None) (match nth_error (n_heap N) x with Some v => Some (snd v) | None => None end) [] [].
  Definition sub_tree (j : nat) : shape vec :=
    mk_shape Edge (t (sub_id j)) None None (map vertex_tree (snd (nth j (n_subs N) (0%Z, [])))) [].
  Definition edge_tree (k : nat) : shape vec :=
    mk_shape Edge (t (edge_id k)) (nth k (n_phys N) None) None
      (map vertex_tree (match nth k (n_hosts N) None with Some e => h_ends e | None => [] end)) (map sub_tree (subs_of k)).
  Definition wire_tree : shape vec :=
    mk_shape Wire (t (edge_id (n_sides N))) None None (map vertex_tree (n_wire_ends N)) (map edge_tree (seq 0 (n_sides N))).
  (** face.immersed_shapes has the lines since embed_edge_in_face, shape_manipulation.py:292-293 *)
  Definition face_tree : shape vec := mk_shape Face (t face_id) (n_area N) None [wire_tree] (map edge_tree line_positions).
  (** domain.shapes, with the given vertices *)
  Definition domain_tree (vertices : list nat) : domain vec :=
    [map vertex_tree vertices;
     map edge_tree (seq 0 (n_sides N)) ++ wire_tree :: map edge_tree line_positions ++ map sub_tree (seq 0 (length (n_subs N)));
     [face_tree]].

  (** dimension and immersed_shapes of an object, as retag_shapes sees them *)
  Definition object_dim (y : nat) : nat := if y <? length (n_heap N) then 0 else if y <? face_id then 1 else 2.
  Definition object_immersed (y : nat) : list nat :=
    if y <? length (n_heap N) then []
    else if y =? face_id then map edge_id line_positions
    else
      let k := y - length (n_heap N) in
      if k =? n_sides N then flat_map (fun i => match subs_of i with [] => [edge_id i] | l => map sub_id l end) (seq 0 (n_sides N))
      else if k <? length (n_hosts N) then map sub_id (subs_of k) else [].
  Definition object_domain (vertices : list nat) : list (list nat) :=
    [vertices; map edge_id (seq 0 (length (n_hosts N) + length (n_subs N))); [face_id]].
End Trees.

Section Lines.
  Variable argsort_R : list R -> list nat.
  Variable argsort : list Z -> list nat.
  Variable eps : R.          (* of the intersection test *)

  (** build_disjoint_lines, domain_market.py:305-322: the heap with the new vertices, and the
      edges (tag and boundary) with their physical tags *)
  Definition line_step (st : heap * (Z * Z * Z) * list (Z * list nat * Z)) (line : vec * vec) : res (heap * (Z * Z * Z) * list (Z * list nat * Z)) :=
    let '(h, (v_tag, e_tag, physical_tag), edges) := st in
    let x := length h in
    let h := h ++ [(v_tag, fst line); ((v_tag + 1)%Z, snd line)] in
    do e <- sub_edge argsort h e_tag x (x + 1);
    Ok (h, (v_tag + 2, e_tag + 1, physical_tag + 1)%Z, edges ++ [(e, physical_tag)]).
  Definition build_disjoint_lines (h : heap) (lines : list (vec * vec)) (max_e_tag max_v_tag max_p_tag : Z) : res (heap * list (Z * list nat * Z)) :=
    do st <- foldM line_step lines (h, (max_v_tag, max_e_tag, max_p_tag), []);
    let '(h, _, edges) := st in Ok (h, edges).

  (** The physical tags which are not None *)
  Definition physical_tags (D : domain vec) : list Z := flat_map (fun s => match s_phys s with Some p => [p] | None => [] end) (concat D).
  (** An entry of domain.shapes[1] of the box; the tag of a corner is its position *)
  Definition side_host (e : shape vec) : option host :=
    if s_composite e then None else Some (mk_host (map (fun v => Z.to_nat (s_tag v)) (s_boundary e)) []).

  (** build_box_2D_with_lines, domain_market.py:325-373: the shapes, the vertices that remain,
      the tags, the orientations of the wires, and the domain with its graph.  [area] and
      [bc i] are as in build_box_2D. *)
  Definition build_box_2D_with_lines (fuel : nat) (box_points : list vec) (lines : list (vec * vec)) (area : option Z) (bc : nat -> option Z)
    : res (net * list nat * (nat -> Z) * list (list Z) * (domain vec * digraph (Z * Z))) :=
    do box <- build_box_2D allclose_default argsort fuel box_points area bc;
    let '(D, _, _) := box in
    do corners <- get_at D 0;
    do sides <- get_at D 1;
    do faces <- get_at D 2;
    do h <- mapM (fun v => match s_point v with Some p => Ok (s_tag v, p) | None => Err AttributeError end) corners;
    do max_p_tag <- max_physical_tag D;
    do face <- get_at faces 0;
    do wire <- get_at (s_boundary face) 0;
    do out <- build_disjoint_lines h lines (Z.of_nat (length sides)) (Z.of_nat (length corners)) (max_p_tag + 1);
    let (h, edges) := out in
    let hosts := map side_host sides ++ map (fun e => Some (mk_host (snd (fst e)) [])) edges in
    do max_p_tag <- max_of (physical_tags D ++ map snd edges);
    do cut <- intersect_edges argsort_R argsort eps h hosts hosts 2 (Z.of_nat (length hosts)) (Z.of_nat (length h)) max_p_tag;
    let '(h2, hosts, (subs, vertices)) := cut in
    let N := mk_net h2 (map (fun _ => None) h ++ map (fun v => Some (snd v)) vertices) (length sides - 1) (map (fun v => Z.to_nat (s_tag v)) (s_boundary wire))
                    (s_phys face) hosts (map s_phys sides ++ map (fun e => Some (snd e)) edges) subs in
    let t := fun y => nth y (map fst h2 ++ map s_tag sides ++ map (fun e => fst (fst e)) edges ++ map fst subs ++ [s_tag face]) 0%Z in
    let D := domain_tree N t (seq 0 (length h2)) in
    do orientations <- refresh_wires allclose_default fuel D;
    do g <- build_graph 2 fuel D None;
    (* remove_vertex, domain.py:78-83 *)
    let kept := filter (fun x => memb (2%Z, t x) (g_nodes g)) (seq 0 (length h2)) in
    let t := retag_shapes (object_dim N) (object_immersed N) 2 (object_domain N kept) t in
    let D := domain_tree N t kept in
    do g <- build_graph 2 fuel D None;
    Ok (N, kept, t, orientations, (D, g)).
End Lines.
