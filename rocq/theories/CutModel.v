(** * Model of cutting a mesh along embedded shapes: src/mesh/mesh.py:737-923, 1414-1426

    Definitions only.  Simplifications: the attributes [normal], [physical_name] and [perm]
    of cells are omitted; coordinates are elements of an arbitrary type [P]; an interface is
    its physical tag (an integer) with the classification of a cell by the coordinates of its
    nodes, which the code computes as [np.dot(barycenter(points) - f_xc, n) > 0.0].
    Objects taken from [self.cells] are represented by their positions. *)
From Coq Require Import List Arith ZArith Bool.
From Verif Require Import Base MeshModel GraphModel.
Import ListNotations.

(** One pass of [for i, x in enumerate(a): if map.get(x) is not None: a[i] = map[x]] over an
    array that is changed while it is traversed (mesh.py:1416-1419, 1423-1426). *)
Definition replace_entry (m : dict nat nat) (a : list nat) (i : nat) : list nat :=
  match nth_error a i with
  | None => a
  | Some x => match dget m x with None => a | Some y => set_at a i y end
  end.
Definition replace_entries (m : dict nat nat) (a : list nat) : list nat :=
  fold_left (replace_entry m) (seq 0 (length a)) a.

(** Mesh.update_entity_with_dimension, mesh.py:1414-1419 *)
Definition update_entity_with_dimension (dim : nat) (cs : cells) (cell_id : nat) (m : dict nat nat) : res cells :=
  do c <- cell_of cs cell_id;
  do ids <- get_at (c_sub c) dim;
  Ok (set_at cs cell_id (Some (set_sub c dim (replace_entries m ids)))).

(** Mesh.update_nodes_ids, mesh.py:1421-1426 *)
Definition set_nodes (c : cell) (nodes : list nat) : cell :=
  mk_cell (c_dim c) (c_id c) nodes (c_mat c) (c_sub c).
Definition update_nodes_ids (cs : cells) (cell_id : nat) (m : dict nat nat) : res cells :=
  do c <- cell_of cs cell_id;
  Ok (set_at cs cell_id (Some (set_nodes c (replace_entries m (c_nodes c))))).

(** [np.unique] on integers: sorted without repetition *)
Fixpoint dedup_sorted (l : list nat) : list nat :=
  match l with
  | x :: ((y :: _) as l') => if x =? y then dedup_sorted l' else x :: dedup_sorted l'
  | _ => l
  end.
Definition np_unique (l : list nat) : list nat := dedup_sorted (sort_nat l).

Section Cut.
  Variable P : Type.
  Record mesh : Type := mk_mesh { m_cells : cells; m_points : list P }.
  (** An entry of embed_shape_normals: physical tag and classification *)
  Record interface : Type := mk_interface { if_tag : Z; if_side : list P -> bool }.
  Variable fuel : nat.

  (** mesh.py:774-782 and 850-858: split cell ids by side *)
  Definition positive_q (m : mesh) (f : interface) (id : nat) : res bool :=
    do c <- cell_of (m_cells m) id;
    do pts <- mapM (get_at (m_points m)) (c_nodes c);
    Ok (if_side f pts).
  Fixpoint classify (m : mesh) (f : interface) (ids : list nat) : res (list nat * list nat) :=
    match ids with
    | [] => Ok ([], [])
    | id :: ids' =>
        do q <- positive_q m f id;
        do (p, n) <- classify m f ids';
        Ok (if q then (id :: p, n) else (p, id :: n))
    end.

  (** f_cells, mesh.py:755-761: positions of the edges with the tag of the interface *)
  Definition f_positions (cs : cells) (tag : Z) : res (list nat) :=
    do l <- all_cells cs;
    Ok (map snd (filter (fun ci => eqb (c_mat (fst ci)) (Some tag) && (c_dim (fst ci) =? 1))
                        (combine l (seq 0 (length l))))).

  (** The copies of the interface edges, mesh.py:788-800 and 803-815: deepcopy, new tag, id
      and own sub-cell list; returns the map from old to new ids *)
  Fixpoint clone_edges (cs : cells) (f_cells : list nat) (new_id : nat) (tag : Z) (m : dict nat nat)
    : res (cells * dict nat nat) :=
    match f_cells with
    | [] => Ok (cs, m)
    | i :: f_cells' =>
        do c <- cell_of cs i;
        let c' := mk_cell (c_dim c) new_id (c_nodes c) (Some tag) (c_sub c) in
        let c'' := set_sub c' (c_dim c) [new_id; c_id c] in
        clone_edges (cs ++ [Some c'']) f_cells' (new_id + 1) tag (dset m (c_id c) new_id)
    end.

  (** The copies of the interface vertices, mesh.py:871-886 and 890-906; returns the maps of
      vertex ids and of node tags.  The list of dimension 0 receives the new node tag. *)
  Fixpoint clone_vertices (cs : cells) (vertices : list nat) (new_id new_node : nat) (tag : Z)
      (mv mn : dict nat nat) : res (cells * dict nat nat * dict nat nat) :=
    match vertices with
    | [] => Ok (cs, mv, mn)
    | v :: vertices' =>
        do c <- cell_of cs v;
        let mat := match c_mat c with None => None | Some _ => Some tag end in
        let c' := set_sub (create_cell 0 [new_node] new_id mat) 0 [new_node] in
        let cs' := cs ++ [Some c'] in
        do c0 <- cell_of cs' v;
        do old <- get_at (c_nodes c0) 0;
        clone_vertices cs' vertices' (new_id + 1) (new_node + 1) tag (dset mv v new_id) (dset mn old new_node)
    end.

  (** Update loops, mesh.py:822-826 and 909-923 *)
  Definition update_edges (cs : cells) (ids : list nat) (m : dict nat nat) : res cells :=
    foldM (fun cs id => update_entity_with_dimension 1 cs id m) ids cs.
  Definition update_vertices (cs : cells) (ids : list nat) (mv mn : dict nat nat) : res cells :=
    foldM (fun cs id => do cs1 <- update_entity_with_dimension 0 cs id mv; update_nodes_ids cs1 id mn) ids cs.

  (** First half of the loop body, mesh.py:749-826: the edges *)
  Definition preds (g : digraph vid) (d : nat) (ids : list nat) : res (list nat) :=
    do l <- mapM (fun id => predecessors g (d, id)) ids; Ok (map snd (concat l)).
  Definition p_tag (tag : Z) : Z := (1000 * tag + 1)%Z.
  Definition n_tag (tag : Z) : Z := (1000 * tag - 1)%Z.
  Record edge_cut : Type := mk_edge_cut {
    ec_cells : cells; ec_f : list nat; ec_ids : list nat; ec_p : dict nat nat; ec_n : dict nat nat }.
  Definition cut_edges (m : mesh) (f : interface) (gd2c1 : digraph vid) : res edge_cut :=
    do fs <- f_positions (m_cells m) (if_tag f);
    do f_cells <- mapM (cell_of (m_cells m)) fs;
    let ids := map c_id f_cells in
    do neighs <- preds gd2c1 1 ids;
    do (cp, cn) <- classify m f neighs;
    let base := length (m_cells m) in
    do (cs1, mp) <- clone_edges (m_cells m) fs base (p_tag (if_tag f)) [];
    do (cs2, mn) <- clone_edges cs1 fs (base + length fs) (n_tag (if_tag f)) [];
    do cs3 <- update_edges cs2 cp mp;
    do cs4 <- update_edges cs3 cn mn;
    Ok (mk_edge_cut cs4 fs ids mp mn).

  (** mesh.py:829-833: the interface vertices without those carrying the tag *)
  Fixpoint drop_tagged (cs : cells) (tag : Z) (l : list nat) : res (list nat) :=
    match l with
    | [] => Ok []
    | v :: l' =>
        do c <- cell_of cs v;
        do r <- drop_tagged cs tag l';
        Ok (if eqb (c_mat c) (Some tag) then r else v :: r)
    end.

  (** Second half, mesh.py:829-923: the vertices *)
  Definition cut_vertices (m : mesh) (f : interface) (gd2c2 gd1c1 : digraph vid) (e : edge_cut) : res mesh :=
    do f_cells <- mapM (cell_of (ec_cells e)) (ec_f e);
    do lists <- mapM (fun c => get_at (c_sub c) 0) f_cells;
    do vs <- drop_tagged (ec_cells e) (if_tag f) (np_unique (concat lists));
    match vs with
    | [] => Ok (mk_mesh (ec_cells e) (m_points m))
    | _ =>
        do by_vertex <- mapM (fun v => do a <- preds gd2c2 0 [v]; do b <- preds gd1c1 0 [v]; Ok (a ++ b)) vs;
        let neighs := np_unique (filter (fun i => negb (memb i (ec_ids e))) (concat by_vertex)) in
        do (cp, cn) <- classify (mk_mesh (ec_cells e) (m_points m)) f neighs;
        let max_node := length (m_points m) in
        do new_nodes <- mapM (fun v => do c <- cell_of (ec_cells e) v; do t <- get_at (c_nodes c) 0; get_at (m_points m) t) vs;
        let base := length (ec_cells e) in
        do (cs1, vp, np) <- clone_vertices (ec_cells e) vs base max_node (p_tag (if_tag f)) [] [];
        do (cs2, vn, nn) <- clone_vertices cs1 vs (base + length vs) (max_node + length vs) (n_tag (if_tag f)) [] [];
        do cs3 <- update_vertices cs2 cp vp np;
        do cs4 <- update_vertices cs3 cn vn nn;
        do cs5 <- update_vertices cs4 (dvals (ec_p e)) vp np;
        do cs6 <- update_vertices cs5 (dvals (ec_n e)) vn nn;
        Ok (mk_mesh cs6 (m_points m ++ new_nodes ++ new_nodes))
    end.

  (** The loop body for one interface and the whole function, mesh.py:748-925; the second
      component is map_fracs_edge, mesh.py:818-819 *)
  Definition cut_interface (mf : mesh * dict nat (nat * nat)) (f : interface)
    : res (mesh * dict nat (nat * nat)) :=
    let m := fst mf in
    do gd2c2 <- build_graph fuel (m_cells m) 2 2;
    do gd2c1 <- build_graph fuel (m_cells m) 2 1;
    do gd1c1 <- build_graph fuel (m_cells m) 1 1;
    do e <- cut_edges m f gd2c1;
    let k := length (ec_f e) in
    let base := length (m_cells m) in
    let fracs := fold_left (fun d ip => dset d (fst ip) (snd ip))
                   (combine (ec_ids e) (combine (seq base k) (seq (base + k) k))) (snd mf) in
    do m' <- cut_vertices m f gd2c2 gd1c1 e;
    Ok (m', fracs).
  Definition cut_conformity_on_embed_shapes (mesh_dim : nat) (m : mesh) (shapes : list interface)
    : res (mesh * dict nat (nat * nat)) :=
    if mesh_dim =? 2 then foldM cut_interface shapes (m, []) else Err AssertionError.
End Cut.
