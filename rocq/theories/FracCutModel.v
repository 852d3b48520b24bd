(** * Model of cutting a mesh along the fractures of a network: src/mesh/mesh.py:998-1168

    Definitions only.  The function is that for embedded shapes (CutModel) with other tags and
    other sub-cell lists of the copied edges; the steps with the same text are those of CutModel,
    with the simplifications said there.  A fracture is an entry of fracture_normals
    (compute_fracture_normals, mesh.py:925-954): its physical tag with the classification of
    a cell by the coordinates of its nodes. *)
From Coq Require Import List Arith ZArith Bool.
From Verif Require Import Base MeshModel GraphModel CutModel.
Import ListNotations.

Section Cut.
  Variable P : Type.
  Notation mesh := (mesh P).
  Notation interface := (interface P).
  Variable fuel : nat.

  (** The copies of the edges, mesh.py:1041-1049 and 1051-1059: deepcopy, new tag, id and own
      sub-cell list; returns the map from old to new ids *)
  Fixpoint clone_frac_edges (cs : cells) (f_cells : list nat) (new_id : nat) (tag : Z) (m : dict nat nat)
    : res (cells * dict nat nat) :=
    match f_cells with
    | [] => Ok (cs, m)
    | i :: f_cells' =>
        do c <- cell_of cs i;
        let c' := mk_cell (c_dim c) new_id (c_nodes c) (Some tag) (c_sub c) in
        let c'' := set_sub c' (c_dim c) [new_id] in
        clone_frac_edges (cs ++ [Some c'']) f_cells' (new_id + 1) tag (dset m (c_id c) new_id)
    end.

  (** mat_id_p and mat_id_n, mesh.py:1042, 1052, 1120, 1137 *)
  Definition p_frac_tag (tag : Z) : Z := (10 * tag + 1)%Z.
  Definition n_frac_tag (tag : Z) : Z := (10 * tag - 1)%Z.

  (** First half of the loop body, mesh.py:1006-1069: the edges *)
  Definition cut_frac_edges (m : mesh) (f : interface) (gd2c1 : digraph vid) : res edge_cut :=
    do fs <- f_positions (m_cells P m) (if_tag P f);
    do f_cells <- mapM (cell_of (m_cells P m)) fs;
    let ids := map c_id f_cells in
    do neighs <- preds gd2c1 1 ids;
    do (cp, cn) <- classify P m f neighs;
    let base := length (m_cells P m) in
    do (cs1, mp) <- clone_frac_edges (m_cells P m) fs base (p_frac_tag (if_tag P f)) [];
    do (cs2, mn) <- clone_frac_edges cs1 fs (base + length fs) (n_frac_tag (if_tag P f)) [];
    do cs3 <- update_edges cs2 cp mp;
    do cs4 <- update_edges cs3 cn mn;
    Ok (mk_edge_cut cs4 fs ids mp mn).

  (** Second half, mesh.py:1071-1168: the vertices *)
  Definition cut_frac_vertices (m : mesh) (f : interface) (gd2c2 gd1c1 : digraph vid) (e : edge_cut) : res mesh :=
    do f_cells <- mapM (cell_of (ec_cells e)) (ec_f e);
    do lists <- mapM (fun c => get_at (c_sub c) 0) f_cells;
    do vs <- drop_tagged (ec_cells e) (if_tag P f) (np_unique (concat lists));
    match vs with
    | [] => Ok (mk_mesh P (ec_cells e) (m_points P m))
    | _ =>
        do by_vertex <- mapM (fun v => do a <- preds gd2c2 0 [v]; do b <- preds gd1c1 0 [v]; Ok (a ++ b)) vs;
        let neighs := np_unique (filter (fun i => negb (memb i (ec_ids e))) (concat by_vertex)) in
        do (cp, cn) <- classify P (mk_mesh P (ec_cells e) (m_points P m)) f neighs;
        let max_node := length (m_points P m) in
        do new_nodes <- mapM (fun v => do c <- cell_of (ec_cells e) v; do t <- get_at (c_nodes c) 0; get_at (m_points P m) t) vs;
        let base := length (ec_cells e) in
        do (cs1, vp, np) <- clone_vertices (ec_cells e) vs base max_node (p_frac_tag (if_tag P f)) [] [];
        do (cs2, vn, nn) <- clone_vertices cs1 vs (base + length vs) (max_node + length vs) (n_frac_tag (if_tag P f)) [] [];
        do cs3 <- update_vertices cs2 cp vp np;
        do cs4 <- update_vertices cs3 cn vn nn;
        do cs5 <- update_vertices cs4 (dvals (ec_p e)) vp np;
        do cs6 <- update_vertices cs5 (dvals (ec_n e)) vn nn;
        Ok (mk_mesh P cs6 (m_points P m ++ new_nodes ++ new_nodes))
    end.

  (** The loop body for one fracture and the whole function, mesh.py:998-1168; the second
      component is map_fracs_edge, mesh.py:1061-1063 *)
  Definition cut_fracture (mf : mesh * dict nat (nat * nat)) (f : interface)
    : res (mesh * dict nat (nat * nat)) :=
    let m := fst mf in
    do gd2c2 <- build_graph fuel (m_cells P m) 2 2;
    do gd2c1 <- build_graph fuel (m_cells P m) 2 1;
    do gd1c1 <- build_graph fuel (m_cells P m) 1 1;
    do e <- cut_frac_edges m f gd2c1;
    let k := length (ec_f e) in
    let base := length (m_cells P m) in
    let fracs := fold_left (fun d ip => dset d (fst ip) (snd ip))
                   (combine (ec_ids e) (combine (seq base k) (seq (base + k) k))) (snd mf) in
    do m' <- cut_frac_vertices m f gd2c2 gd1c1 e;
    Ok (m', fracs).
  Definition cut_conformity_on_fractures (mesh_dim : nat) (m : mesh) (fractures : list interface)
    : res (mesh * dict nat (nat * nat)) :=
    if mesh_dim =? 2 then foldM cut_fracture fractures (m, []) else Err AssertionError.
End Cut.
