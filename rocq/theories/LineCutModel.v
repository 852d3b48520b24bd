(** * Model of cutting a mesh along lines: src/mesh/mesh_operations.py:159-191, 230-411

    Definitions only.  Simplifications: the attributes [normal], [physical_name] and [perm] of
    cells are omitted; coordinates are elements of an arbitrary type [P]; cells taken from
    [mesh.cells] are represented by their positions.  A line is represented by the three
    things the code computes from its end points: whether a cell lies on it
    (points_line_intersection of the centroid, lines 297-300), the sign of
    [np.dot(cell_centroid - np.mean([a, b]), normal_dir)] (lines 320-323 and 386-389; an
    exact 0 and NaN are [Eq]), and the displacement of the copied points (lines 176-184: idx is
    a permutation, so each point is displaced by its own distance to [a]).
    [physical_tags] has all five keys. *)
From Coq Require Import List Arith ZArith Bool.
From Verif Require Import Base MeshModel GraphModel CutModel.
Import ListNotations.

(** MeshCell.sub_cell_index and node_tag_index, mesh_cell.py:96-108: position of the first
    occurrence, or None *)
Fixpoint first_index (x : nat) (l : list nat) : option nat :=
  match l with
  | [] => None
  | y :: l' => if x =? y then Some 0 else match first_index x l' with None => None | Some k => Some (S k) end
  end.

(** Mesh.append_cells, mesh.py:116-123: [np.min] of no ids is a ValueError *)
Definition append_cells (cs : cells) (l : list cell) : res cells :=
  match l with
  | [] => Err ValueError
  | c :: l' =>
      let min_cell_id := fold_left Nat.min (map c_id l') (c_id c) in
      if min_cell_id <? length cs then Err ValueError else Ok (cs ++ map Some l)
  end.

(** __duplicate_cells, mesh_operations.py:159-170 *)
Definition mapped_tag (m : dict Z Z) (tag : option Z) : option Z :=
  match tag with
  | None => None
  | Some t => match dget m t with Some t' => Some t' | None => Some t end
  end.
Fixpoint duplicate_cells (cell_id : nat) (l : list cell) (m : dict Z Z) : list cell * nat :=
  match l with
  | [] => ([], cell_id)
  | c :: l' =>
      let c1 := set_sub (mk_cell (c_dim c) cell_id (c_nodes c) (c_mat c) (c_sub c)) (c_dim c) [cell_id] in
      let c2 := set_material c1 (mapped_tag m (c_mat c1)) in
      let (r, next) := duplicate_cells (cell_id + 1) l' m in
      (c2 :: r, next)
  end.

(** One turn of the inner loop of update_cells_with_cell_pairs, mesh_operations.py:253-271.
    [old_cell.node_tags] with other than one entry (a broadcasting comparison) is a ValueError
    here. *)
Definition relink (old new : vid) (cs : cells) (cell_id : nat) : res cells :=
  do c <- cell_of cs cell_id;
  do ids <- get_at (c_sub c) (fst old);
  match first_index (snd old) ids with
  | None => Ok cs
  | Some out =>
      do ids' <- get_at (c_sub c) (fst new);
      do _ <- get_at ids' out;
      let c1 := set_sub c (fst new) (set_at ids' out (snd new)) in
      let cs1 := set_at cs cell_id (Some c1) in
      if (fst old =? 0) && (fst new =? 0) then
        do old_cell <- cell_of cs1 (snd old);
        do new_cell <- cell_of cs1 (snd new);
        match c_nodes old_cell with
        | [tag] =>
            match first_index tag (c_nodes c1) with
            | None => Err AssertionError
            | Some tag_pos =>
                do t <- get_at (c_nodes new_cell) 0;
                Ok (set_at cs1 cell_id (Some (set_nodes c1 (set_at (c_nodes c1) tag_pos t))))
            end
        | _ => Err ValueError
        end
      else Ok cs1
  end.
(** mesh_operations.py:250-252 *)
Definition relink_all (g : digraph vid) (cs : cells) (item : vid * vid) : res cells :=
  do ps <- predecessors g (fst item);
  foldM (relink (fst item) (snd item)) (map snd ps) cs.

Section LineCut.
  Variable P : Type.
  Variable fuel : nat.
  Record line : Type := mk_line {
    l_on : list P -> bool; l_side : list P -> comparison; l_bump : bool -> P -> P }.
  (** The argument [physical_tags] *)
  Record tags : Type := mk_tags {
    t_line : Z; t_line_clones : Z; t_point : Z; t_point_clones : Z; t_internal : Z }.
  (** The returned dictionary: [c1] and [c2] each with positive and negative copies *)
  Record interface_of : Type := mk_interface_of {
    i_c1 : list nat * list nat * list nat; i_c2 : list nat * list nat * list nat }.

  (** update_cells_with_cell_pairs, mesh_operations.py:230-271; the pairs of co-dimension 0
      are None and never read *)
  Definition update_cells_with_cell_pairs (cs : cells) (ids : list nat) (cell_pairs : list (list (nat * nat)))
    : res cells :=
    do l <- mapM (cell_of cs) ids;
    do max_dim <- np_max (map c_dim l);
    if forallb (fun c => c_dim c =? max_dim) l then
      do parts <- mapM (fun d =>
          let co_dim := max_dim - d in
          do g <- build_graph_from_cell_ids fuel cs (map c_id l) (Z.of_nat max_dim) (Z.of_nat co_dim);
          do pairs <- get_at cell_pairs co_dim;
          do idx <- mapM (fun ot => do o <- cell_of cs (fst ot); do t <- cell_of cs (snd ot); Ok (index o, index t)) pairs;
          Ok (g_edges g, dict_of idx)) (seq 0 max_dim);
      let patch_g := from_edgelist (concat (map fst parts)) in
      foldM (fun cs m => foldM (relink_all patch_g) m cs) (map snd parts) cs
    else Err ValueError.

  (** duplicate_mesh_points_from_0d_cells, mesh_operations.py:173-191 *)
  Fixpoint renumber_nodes (node_tag : nat) (l : list cell) : list cell :=
    match l with [] => [] | c :: l' => set_nodes c [node_tag] :: renumber_nodes (node_tag + 1) l' end.
  Definition duplicate_mesh_points (l : list cell) (points : list P) (bump : P -> P) : res (list cell * list P) :=
    match l with
    | [] => Err ValueError
    | _ =>
        do new_points <- mapM (get_at points) (concat (map c_nodes l));
        let node_tag := length points in
        let points' := points ++ map bump new_points in
        if node_tag + length l =? length points' then Ok (renumber_nodes node_tag l, points') else Err AssertionError
    end.

  (** The copies of one side, mesh_operations.py:332-346 and 349-363: the new mesh, the
      positions of the copied edges and vertices, the next id *)
  Definition copy_side (m : mesh P) (c1 c2 : list nat) (tag_map : dict Z Z) (bump : P -> P) (cell_id : nat)
    : res (mesh P * list nat * list nat * nat) :=
    do l1 <- mapM (cell_of (m_cells P m)) c1;
    let (d1, id1) := duplicate_cells cell_id l1 tag_map in
    let p1 := seq (length (m_cells P m)) (length d1) in
    do cs1 <- append_cells (m_cells P m) d1;
    if id1 =? length cs1 then
      do l2 <- mapM (cell_of cs1) c2;
      let (d2, id2) := duplicate_cells id1 l2 tag_map in
      do (d2', pts) <- duplicate_mesh_points d2 (m_points P m) bump;
      let p2 := seq (length cs1) (length d2') in
      do cs2 <- append_cells cs1 d2';
      if id2 =? length cs2 then Ok (mk_mesh P cs2 pts, p1, p2, id2) else Err AssertionError
    else Err AssertionError.

  (** [cell_centroid(cell, mesh)] and what is decided from it *)
  Definition node_points (m : mesh P) (id : nat) : res (list P) :=
    do c <- cell_of (m_cells P m) id; mapM (get_at (m_points P m)) (c_nodes c).
  Definition on_line (m : mesh P) (ln : line) (id : nat) : res bool :=
    do pts <- node_points m id; Ok (l_on ln pts).
  (** mesh_operations.py:320-323, 331, 348 and 385-391 *)
  Definition classify_line (m : mesh P) (ln : line) (ids : list nat) : res (list nat * list nat) :=
    match ids with
    | [] => Err ValueError  (* shapes (0,) and (3,) do not broadcast *)
    | _ =>
        do sides <- mapM (fun id => do pts <- node_points m id; Ok (l_side ln pts)) ids;
        let on s := map fst (filter (fun x => match snd x, s with Gt, Gt | Lt, Lt => true | _, _ => false end) (combine ids sides)) in
        Ok (on Gt, on Lt)
    end.
  (** [np.unique] of the ids of the predecessors of cells, mesh_operations.py:316-318, 382-384 *)
  Definition neighbours (cs : cells) (g : digraph vid) (ids : list nat) : res (list nat) :=
    do ps <- mapM (fun v => do c <- cell_of cs v; predecessors g (index c)) ids;
    Ok (np_unique (map snd (concat ps))).

  (** mesh_operations.py:294-296: positions of all cells with the tag of the line *)
  Definition tagged (cs : cells) (tag : Z) : res (list nat) :=
    do l <- all_cells cs;
    Ok (map snd (filter (fun ci => eqb (c_mat (fst ci)) (Some tag)) (combine l (seq 0 (length l))))).

  (** cut_conformity_along_c1_line, mesh_operations.py:274-398 *)
  Definition cut_line (mesh_dim : nat) (t : tags) (m : mesh P) (ln : line) : res (mesh P * interface_of) :=
    if negb (mesh_dim =? 2) then Err AssertionError else
    let cs := m_cells P m in
    do raw <- tagged cs (t_line t);
    do flags <- mapM (on_line m ln) raw;
    match raw with
    | [] => Err IndexError  (* an empty float array is no index *)
    | _ =>
        let c1 := map fst (filter snd (combine raw flags)) in
        do g_d_0d <- build_graph fuel cs 2 2;
        do g_d1_0d <- build_graph fuel cs 1 1;
        do lists <- mapM (fun i => do c <- cell_of cs i; get_at (c_sub c) 0) c1;
        match lists with
        | [] => Err ValueError  (* np.concatenate *)
        | _ =>
            do c2 <- drop_tagged cs (t_internal t) (np_unique (concat lists));
            do c0 <- neighbours cs g_d_0d c2;
            do (p0, n0) <- classify_line m ln c0;
            let tag_map := dict_of [(t_line t, t_line_clones t); (t_point t, t_point_clones t)] in
            do (m1, p1, p2, id1) <- copy_side m c1 c2 tag_map (l_bump ln true) (length cs);
            do (m2, n1, n2, id2) <- copy_side m1 c1 c2 tag_map (l_bump ln false) id1;
            do cs3 <- update_cells_with_cell_pairs (m_cells P m2) p0 [[]; combine c1 p1; combine c2 p2];
            do cs4 <- update_cells_with_cell_pairs cs3 n0 [[]; combine c1 n1; combine c2 n2];
            do cs5 <- update_cells_with_cell_pairs cs4 p1 [[]; combine c2 p2];
            do cs6 <- update_cells_with_cell_pairs cs5 n1 [[]; combine c2 n2];
            do e1 <- neighbours cs6 g_d1_0d c2;
            do (pe, ne) <- classify_line (mk_mesh P cs6 (m_points P m2)) ln e1;
            do cs7 <- update_cells_with_cell_pairs cs6 pe [[]; combine c2 p2];
            do cs8 <- update_cells_with_cell_pairs cs7 ne [[]; combine c2 n2];
            Ok (mk_mesh P cs8 (m_points P m2), mk_interface_of (c1, p1, n1) (c2, p2, n2))
        end
    end.

  (** cut_conformity_along_c1_lines, mesh_operations.py:401-411 *)
  Definition cut_lines (mesh_dim : nat) (t : tags) (m : mesh P) (lines : list line)
    : res (mesh P * list interface_of) :=
    foldM (fun mi ln => do (m', i) <- cut_line mesh_dim t (fst mi) ln; Ok (m', snd mi ++ [i])) lines (m, []).
End LineCut.
