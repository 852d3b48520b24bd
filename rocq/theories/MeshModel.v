(** * Model of mesh construction: src/mesh/mesh.py, src/mesh/mesh_cell.py

    Definitions only.  Simplifications, all stated here:
    - points are only counted (coordinates play no role in the numbering);
    - the [perm], [type], [physical_name] and [normal] attributes of a cell are omitted;
    - [np.empty((n,), dtype=MeshCell)] is an object array of [None];
    - [set_sub_cells_ids]'s assertion [self.dimension >= dim] always holds for the
      calls made here (the dimensions are literals) and is not modelled. *)
From Coq Require Import List Arith ZArith Bool.
From Verif Require Import Base.
Import ListNotations.

(** MeshCell.__init__, mesh_cell.py:54-65 (fields used by the modelled code).
    [c_mat] is [material_id] (None = untagged), [c_sub] is [sub_cells_ids]. *)
Record cell : Type := mk_cell {
  c_dim : nat; c_id : nat; c_nodes : list nat; c_mat : option Z; c_sub : list (list nat) }.

(** [self.cells]: object array whose entries are cells or None. *)
Definition cells : Type := list (option cell).

(** Mesh.create_cell, mesh.py:100-105 with MeshCell.__init__, mesh_cell.py:62
    (one empty array per dimension). *)
Definition create_cell (dim : nat) (nodes : list nat) (id : nat) (tag : option Z) : cell :=
  mk_cell dim id nodes tag (repeat [] (dim + 1)).

(** MeshCell.set_sub_cells_ids, mesh_cell.py:92-94 *)
Definition set_sub (c : cell) (d : nat) (ids : list nat) : cell :=
  mk_cell (c_dim c) (c_id c) (c_nodes c) (c_mat c) (set_at (c_sub c) d ids).

(** MeshCell.set_material_id, mesh_cell.py:79-80 *)
Definition set_material (c : cell) (tag : option Z) : cell :=
  mk_cell (c_dim c) (c_id c) (c_nodes c) tag (c_sub c).

(** [if physical_tag is not None: self.cells[cell_id].set_material_id(physical_tag)]
    (mesh.py:133-134, 149-150, 176-177, 217-218). *)
Definition retag (cs : cells) (id : nat) (tag : option Z) : res cells :=
  match tag with
  | None => Ok cs
  | Some t =>
      do slot <- get_at cs id;
      match slot with
      | None => Err AttributeError
      | Some c => Ok (set_at cs id (Some (set_material c (Some t))))
      end
  end.

(** [self.entities_0d .. entities_3d], mesh.py:26-29.  Keys of the last three are
    sorted node tuples. *)
Record entities : Type := mk_entities {
  e0 : dict nat nat; e1 : dict (list nat) nat;
  e2 : dict (list nat) nat; e3 : dict (list nat) nat }.

(** [node_tags[np.array(ix)]]: gather, IndexError when an index is out of range. *)
Definition pick (l ix : list nat) : res (list nat) := mapM (get_at l) ix.

(** A loop [for x in xs: id = insert(x); ids.append(id)] threading the cell array. *)
Fixpoint insert_loop {A : Type} (ins : cells -> A -> res (cells * nat))
    (cs : cells) (xs : list A) : res (cells * list nat) :=
  match xs with
  | [] => Ok (cs, [])
  | x :: xs' =>
      do (cs1, id) <- ins cs x;
      do (cs2, ids) <- insert_loop ins cs1 xs';
      Ok (cs2, id :: ids)
  end.

(** Mesh.insert_vertex, mesh.py:125-135 *)
Definition insert_vertex (E : entities) (cs : cells) (node : nat) (tag : option Z)
  : res (cells * nat) :=
  do id <- dindex (e0 E) node;
  do slot <- get_at cs id;
  let cs1 := match slot with
             | None => set_at cs id (Some (set_sub (create_cell 0 [node] id tag) 0 [node]))
             | Some _ => cs
             end in
  do cs2 <- retag cs1 id tag;
  Ok (cs2, id).

(** Mesh.insert_edge, mesh.py:137-151 *)
Definition insert_edge (E : entities) (cs : cells) (nodes : list nat) (tag : option Z)
  : res (cells * nat) :=
  do id <- dindex (e1 E) (sort_nat nodes);
  do slot <- get_at cs id;
  do cs1 <- match slot with
            | None =>
                do (csv, vids) <- insert_loop (fun c n => insert_vertex E c n None) cs nodes;
                Ok (set_at csv id
                      (Some (set_sub (set_sub (create_cell 1 nodes id tag) 0 vids) 1 [id])))
            | Some _ => Ok cs
            end;
  do cs2 <- retag cs1 id tag;
  Ok (cs2, id).

(** The local edges of a triangle, mesh.py:160-163 (and 272-275): facet i is opposite
    to local vertex i. *)
Definition tri_edges : list (list nat) := [[1; 2]; [0; 2]; [0; 1]].
(** The local edges of a tetrahedron, mesh.py:187-193 (and 256-262). *)
Definition tet_edges : list (list nat) := [[2; 3]; [1; 3]; [1; 2]; [0; 3]; [0; 2]; [0; 1]].
(** The local faces of a tetrahedron, mesh.py:200-204 (and 293-298). *)
Definition tet_faces : list (list nat) := [[1; 2; 3]; [0; 2; 3]; [0; 1; 3]; [0; 1; 2]].

(** Mesh.insert_polygon, mesh.py:153-178 (edges are sorted before insertion) *)
Definition insert_polygon (E : entities) (cs : cells) (nodes : list nat) (tag : option Z)
  : res (cells * nat) :=
  do id <- dindex (e2 E) (sort_nat nodes);
  do slot <- get_at cs id;
  do cs1 <- match slot with
            | None =>
                do vids <- mapM (dindex (e0 E)) nodes;
                do edges <- mapM (pick nodes) tri_edges;
                do (cse, eids) <- insert_loop (fun c e => insert_edge E c e None) cs
                                     (map sort_nat edges);
                Ok (set_at cse id
                      (Some (set_sub (set_sub (set_sub
                        (create_cell 2 nodes id tag) 0 vids) 1 eids) 2 [id])))
            | Some _ => Ok cs
            end;
  do cs2 <- retag cs1 id tag;
  Ok (cs2, id).

(** Mesh.insert_polyhedron, mesh.py:180-219 (edges and faces keep the local order) *)
Definition insert_polyhedron (E : entities) (cs : cells) (nodes : list nat) (tag : option Z)
  : res (cells * nat) :=
  do id <- dindex (e3 E) (sort_nat nodes);
  do slot <- get_at cs id;
  do cs1 <- match slot with
            | None =>
                do vids <- mapM (dindex (e0 E)) nodes;
                do edges <- mapM (pick nodes) tet_edges;
                do (cse, eids) <- insert_loop (fun c e => insert_edge E c e None) cs edges;
                do faces <- mapM (pick nodes) tet_faces;
                do (csf, fids) <- insert_loop (fun c f => insert_polygon E c f None) cse faces;
                Ok (set_at csf id
                      (Some (set_sub (set_sub (set_sub (set_sub
                        (create_cell 3 nodes id tag) 0 vids) 1 eids) 2 fids) 3 [id])))
            | Some _ => Ok cs
            end;
  do cs2 <- retag cs1 id tag;
  Ok (cs2, id).

(** meshio cell blocks: the four simplex types, or some other type of dimension d. *)
Inductive kind : Type := KVertex | KLine | KTriangle | KTetra | KOther (d : nat).
Record block : Type := mk_block { b_kind : kind; b_rows : list (list nat) }.

(** [cell_block.dim] (meshio) *)
Definition block_dim (b : block) : nat :=
  match b_kind b with KVertex => 0 | KLine => 1 | KTriangle => 2 | KTetra => 3 | KOther d => d end.

(** Mesh.insert_simplex_cell_from_block, mesh.py:221-237 *)
Definition insert_row (E : entities) (dim : nat) (cs : cells) (row : list nat) (tag : option Z)
  : res (cells * nat) :=
  match dim with
  | 0 => do n <- get_at row 0; insert_vertex E cs n tag
  | 1 => insert_edge E cs row tag
  | 2 => insert_polygon E cs row tag
  | 3 => insert_polyhedron E cs row tag
  | _ => Ok (cs, 0)
  end.
Definition insert_block (E : entities) (cs : cells) (bp : block * list (option Z)) : res cells :=
  foldM (fun c rp => do (c', _) <- insert_row E (block_dim (fst bp)) c (fst rp) (snd rp); Ok c')
        (combine (b_rows (fst bp)) (snd bp)) cs.

(** [conformal_mesh.get_cells_type(name)]: concatenation of the blocks of one type. *)
Definition kind_eqb (k1 k2 : kind) : bool :=
  match k1, k2 with
  | KVertex, KVertex | KLine, KLine | KTriangle, KTriangle | KTetra, KTetra => true
  | _, _ => false
  end.
Definition cells_of_kind (blocks : list block) (k : kind) : list (list nat) :=
  flat_map (fun b => if kind_eqb (b_kind b) k then b_rows b else []) blocks.

(** mesh.py:241-244 *)
Definition number_points (npoints : nat) : dict nat nat :=
  fst (fold_left (fun '(m, vid) i => (dset m i vid, S vid)) (seq 0 npoints) ([], 0)).

(** [if d.get(key) is None: d[key] = next; next += 1] for a list of keys
    (mesh.py:264-268, 276-280, 285-288, 299-303, 308-311, 321-324). *)
Definition number_keys (keys : list (list nat)) (s : dict (list nat) nat * nat)
  : dict (list nat) nat * nat :=
  fold_left (fun '(m, next) k =>
               match dget m k with
               | Some _ => (m, next)
               | None => (dset m k next, S next)
               end) keys s.

(** Sorted keys of the listed local sub-entities of all rows. *)
Definition keys_of (rows : list (list nat)) (subs : list (list nat)) : res (list (list nat)) :=
  do ks <- mapM (fun row => mapM (fun ix => do e <- pick row ix; Ok (sort_nat e)) subs) rows;
  Ok (concat ks).

(** First part of Mesh.build_conformal_mesh, mesh.py:240-324: the four entity maps. *)
Definition build_entities (npoints : nat) (blocks : list block) : res entities :=
  let m0 := number_points npoints in
  let lines := cells_of_kind blocks KLine in
  let tris := cells_of_kind blocks KTriangle in
  let tets := cells_of_kind blocks KTetra in
  do v_max <- np_max (dvals m0);
  do k_te <- keys_of tets tet_edges;
  do k_tr <- keys_of tris tri_edges;
  let m1 := fst (number_keys (map sort_nat lines)
                  (number_keys k_tr (number_keys k_te ([], v_max + 1)))) in
  do e_max <- np_max (dvals m1);
  do k_tf <- keys_of tets tet_faces;
  let m2 := fst (number_keys (map sort_nat tris) (number_keys k_tf ([], e_max + 1))) in
  do v_start <- (if length m2 =? 0 then Ok 0 else do f_max <- np_max (dvals m2); Ok (f_max + 1));
  let m3 := fst (number_keys (map sort_nat tets) ([], v_start)) in
  Ok (mk_entities m0 m1 m2 m3).

(** Mesh.build_conformal_mesh, mesh.py:239-339.  [physical] is
    [cell_data["gmsh:physical"]].  (The final clearing of the entity maps has no
    effect on [self.cells].) *)
Definition n_cells (E : entities) : nat :=
  length (e0 E) + length (e1 E) + length (e2 E) + length (e3 E).
Definition build_conformal_mesh (npoints : nat) (blocks : list block)
    (physical : list (list (option Z))) : res cells :=
  do E <- build_entities npoints blocks;
  foldM (insert_block E) (combine blocks physical) (repeat None (n_cells E)).

(** Mesh.max_cell_id / append_cells, mesh.py:113-123.  [np.min] of an empty list
    raises ValueError. *)
Definition min_id (l : list cell) : res nat :=
  match l with
  | [] => Err ValueError
  | c :: l' => Ok (fold_left Nat.min (map c_id l') (c_id c))
  end.
Definition append_cells (cs : cells) (new : list cell) : res cells :=
  do m <- min_id new;
  if (Z.of_nat m <=? Z.of_nat (length cs) - 1)%Z then Err ValueError
  else Ok (cs ++ map Some new).
