(** * Model of the export of solutions: src/postprocess/solution_post_processor.py

    Definitions only.  A file is given by the arguments of meshio.Mesh; what meshio makes of them
    is not modelled.  The space is built on the mesh that is given to the writer.  The tables of
    the basis at a vertex and at the centre of the reference cell are data, as in FormModel; they
    have one point.  An entry of an array is a number or nan ([None]).  When two exceptions are
    possible within one cell the model may raise the other one.  Exact functions return arrays of
    one or two axes.  Not modelled: spaces of dimension 0, bases without functions, cells with
    more nodes than the reference cell. *)
From Coq Require Import String List Arith Bool ZArith.
From Verif Require Import Base MeshModel GraphModel CutModel FormModel DualModel PostModel.
Import ListNotations.
Open Scope list_scope.
Open Scope nat_scope.

Section Export.
  Context {F : scalar} {P : Type}.
  Local Open Scope num_scope.

  (** An array with two axes, and an array with one or two axes *)
  Record mat : Type := mk_mat { mt_rows : nat; mt_cols : nat; mt_val : nat -> nat -> F }.
  Inductive arr : Type := Axis1 (n : nat) (f : nat -> F) | Axis2 (m : mat).
  Definition ravel (m : mat) : list F :=
    flat_map (fun r => map (mt_val m r) (seq 0 (mt_cols m))) (seq 0 (mt_rows m)).
  Definition ravel_arr (a : arr) : list F := match a with Axis1 n f => map f (seq 0 n) | Axis2 m => ravel m end.

  (** A discrete space: elements and DoFs as in PostModel, id_to_element, mesh_topology, and the
      basis of an element at a vertex of the reference cell and at the mean of its vertices *)
  Record vtk_field : Type := mk_vf {
    vf_post : post_field F; vf_ids : dict nat nat; vf_topology : topology;
    vf_vertex : nat -> nat -> tab F; vf_centre : nat -> tab F; vf_dim : nat }.
  (** A product space: discrete_spaces and fields_physical_tags *)
  Record vtk_space : Type := mk_vs { vs_fields : dict string vtk_field; vs_tags : dict string (list (option Z)) }.
  Definition vs_post (sp : vtk_space) : post_space F :=
    mk_ps (map (fun nf => (fst nf, vf_post (snd nf))) (vs_fields sp)) [].

  (** The value at the point of a table, solution_post_processor.py:46-62, 91-102; [dim] is the
      dimension of the mesh *)
  Definition value_h (dim : nat) (sp : vtk_space) (alpha : list F) (name : string) (fld : vtk_field) (i : nat) (t : tab F)
      : res mat :=
    do ma <- local_coefficients (vs_post sp) alpha 0 name i (t_nphi t);
    let m := fst ma in let a := snd ma in
    if is_lagrange (pf_family (vf_post fld)) then Ok (mk_mat (Nat.min dim m) 1 (fun c _ => scalar_h t a c 0))
    else do rows <- vector_rows (pf_comp (vf_post fld)) m; Ok (mk_mat rows (cols t dim) (fun c d => vector_h t a 0 c d)).

  (** [i for i, node_id in enumerate(cell.node_tags) if node_id == node_idx], lines 32-34 *)
  Definition positions (node : nat) (nodes : list nat) : list nat :=
    map fst (filter (fun iv => snd iv =? node) (combine (seq 0 (length nodes)) nodes)).

  (** np.mean(np.array(l), axis=0), line 66: nan without values, an exception for values of
      different shapes *)
  Definition of_count (n : nat) : F := ksum n (fun _ => k1).
  Definition same_shape (a b : mat) : bool := (mt_rows a =? mt_rows b) && (mt_cols a =? mt_cols b).
  Definition mean_of (l : list mat) : res (option mat) :=
    match l with
    | [] => Ok None
    | v :: _ =>
        if forallb (same_shape v) l then
          Ok (Some (mk_mat (mt_rows v) (mt_cols v)
            (fun r c => kdiv (fold_right (fun u s => mt_val u r c + s) k0 l) (of_count (length l)))))
        else Err ValueError
    end.

  (** node_average_quatity, lines 11-67 *)
  Definition cell_at_node (dim : nat) (sp : vtk_space) (alpha : list F) (name : string) (fld : vtk_field) (node : nat) (c : cell)
      : res (list mat) :=
    do tags <- dindex (vs_tags sp) name;
    if memb (c_mat c) tags then
      do i <- dindex (vf_ids fld) (c_id c);
      match positions node (c_nodes c) with
      | [k] => do v <- value_h dim sp alpha name fld i (vf_vertex fld i k); Ok [v]
      | _ => Err AssertionError
      end
    else Ok [].
  Definition node_average (m : mesh P) (dim : nat) (sp : vtk_space) (alpha : list F) (name : string) (fld : vtk_field)
      (node : nat) (cell_idxs : list vid) : res (option mat) :=
    do cs <- mapM (fun v : vid => cell_of (m_cells P m) (snd v)) cell_idxs;
    do l <- mapM (cell_at_node dim sp alpha name fld node) cs;
    mean_of (concat l).

  (** cell_centered_quatity, lines 70-103 *)
  Definition cell_centered (dim : nat) (sp : vtk_space) (alpha : list F) (name : string) (fld : vtk_field) (c : cell) : res mat :=
    do i <- dindex (vf_ids fld) (c_id c);
    value_h dim sp alpha name fld i (vf_centre fld i).

  (** Arrays of rows.  data[i] = row: a row of length 1 is repeated, other lengths must fit *)
  Definition rows : Type := list (list (option F)).
  Definition fit (n_data : nat) (row : list (option F)) : res (list (option F)) :=
    if length row =? n_data then Ok row
    else match row with [x] => Ok (repeat x n_data) | _ => Err ValueError end.
  Definition assign (n_data : nat) (data : rows) (i : nat) (row : list (option F)) : res rows :=
    do _ <- get_at data i; do r <- fit n_data row; Ok (set_at data i r).
  Definition numbers (l : list F) : list (option F) := map Some l.
  Definition ravel_mean (f : option mat) : list (option F) := match f with None => [None] | Some m => numbers (ravel m) end.
  Definition filled (x : option F) (n n_data : nat) : rows := repeat (repeat x n_data) n.

  (** n_data, lines 119-122: all families but Lagrange are in vec_families (N2E is N1E in
      element_family.py:4-12) *)
  Definition n_data (dim : nat) (fld : vtk_field) : nat :=
    if is_lagrange (pf_family (vf_post fld)) then pf_comp (vf_post fld) else (pf_comp (vf_post fld) * dim)%nat.

  (** [cell for cell in gmesh.cells if cell.dimension == dim], line 125 *)
  Definition top_cells (m : mesh P) (dim : nat) : res (list cell) :=
    do cs <- all_cells (m_cells P m);
    Ok (filter (fun c => c_dim c =? dim) cs).

  (** The loop over the vertices of a field, lines 135-142 *)
  Definition over_vertices {S} (m : mesh P) (fld : vtk_field) (body : S -> nat -> list vid -> res S) (s : S) : res S :=
    do vs <- entities_by_dimension (vf_topology fld) 0;
    do g <- entity_map_by_dimension (vf_topology fld) 0;
    foldM (fun s v =>
      if memb (0%nat, v) (g_nodes g) then
        do c <- cell_of (m_cells P m) v;
        do node <- get_at (c_nodes c) 0;
        do ps <- predecessors g (0%nat, v);
        body s node ps
      else Ok s) vs s.
  (** The loop over the cells, lines 125-130 *)
  Definition over_cells {S} (cs : list cell) (body : S -> nat -> cell -> res S) (s : S) : res S :=
    foldM (fun s ic => body s (fst ic) (snd ic)) (combine (seq 0 (length cs)) cs) s.

  (** What meshio.Mesh receives: name of the cell type and node tags; arrays on points and cells *)
  Record vtk_file : Type := mk_file {
    vk_type : string; vk_cells : list (list nat); vk_point : dict string rows; vk_cell : dict string rows }.
  Definition cell_type (d : nat) : res string :=
    dindex [(0%nat, "vertex"%string); (1%nat, "line"%string); (2%nat, "triangle"%string); (3%nat, "tetra"%string)] d.
  Definition suffix (name s : string) : string := String.append name s.

  (** write_vtk_file, lines 106-162; [dim] is gmesh.dimension *)
  Definition point_h (m : mesh P) (dim : nat) (sp : vtk_space) (alpha : list F) (name : string) (fld : vtk_field) : res rows :=
    over_vertices m fld (fun data node ps =>
      do f <- node_average m dim sp alpha name fld node ps;
      assign (n_data dim fld) data node (ravel_mean f))
      (filled (Some k0) (length (m_points P m)) (n_data dim fld)).
  Definition cell_h (m : mesh P) (dim : nat) (sp : vtk_space) (alpha : list F) (name : string) (fld : vtk_field) : res rows :=
    do cs <- top_cells m dim;
    over_cells cs (fun data i c =>
      do f <- cell_centered dim sp alpha name fld c;
      assign (n_data dim fld) data i (numbers (ravel f)))
      (filled (Some k0) (length cs) (n_data dim fld)).
  Definition write_vtk_file (m : mesh P) (dim : nat) (sp : vtk_space) (alpha : list F) (centred : list string) : res vtk_file :=
    do pc <- foldM (fun pc nf =>
      if memb (fst nf) centred then
        do d <- cell_h m dim sp alpha (fst nf) (snd nf); Ok (fst pc, dset (snd pc) (suffix (fst nf) "_h") d)
      else
        do d <- point_h m dim sp alpha (fst nf) (snd nf); Ok (dset (fst pc) (suffix (fst nf) "_h") d, snd pc))
      (vs_fields sp) ([], []);
    do cs <- top_cells m dim;
    do ty <- cell_type dim;
    Ok (mk_file ty (map c_nodes cs) (fst pc) (snd pc)).

  (** *** With exact solutions.  [centroid] is np.mean(points, axis=0) *)
  Section Exact.
  Context (centroid : list P -> P).

  (** cell_centroid, mesh_metrics.py:6-9 *)
  Definition centre_point (m : mesh P) (c : cell) : res P :=
    do ps <- mapM (get_at (m_points P m)) (c_nodes c); Ok (centroid ps).

  (** the loops of write_vtk_file_with_exact_solution, lines 187-221 *)
  Definition point_he (m : mesh P) (dim : nat) (sp : vtk_space) (exact : P -> arr) (alpha : list F) (name : string) (fld : vtk_field)
      : res (rows * rows) :=
    let z := filled (Some k0) (length (m_points P m)) (n_data dim fld) in
    over_vertices m fld (fun data node ps =>
      do x <- get_at (m_points P m) node;
      do f <- node_average m dim sp alpha name fld node ps;
      do h <- assign (n_data dim fld) (fst data) node (ravel_mean f);
      do e <- assign (n_data dim fld) (snd data) node (numbers (ravel_arr (exact x)));
      Ok (h, e)) (z, z).
  Definition cell_he (m : mesh P) (dim : nat) (sp : vtk_space) (exact : P -> arr) (alpha : list F) (name : string) (fld : vtk_field)
      : res (rows * rows) :=
    do cs <- top_cells m dim;
    let z := filled (Some k0) (length cs) (n_data dim fld) in
    over_cells cs (fun data i c =>
      do x <- centre_point m c;
      do f <- cell_centered dim sp alpha name fld c;
      do h <- assign (n_data dim fld) (fst data) i (numbers (ravel f));
      do e <- assign (n_data dim fld) (snd data) i (numbers (ravel_arr (exact x)));
      Ok (h, e)) (z, z).
  Definition set_two (d : dict string rows) (name : string) (he : rows * rows) : dict string rows :=
    dset (dset d (suffix name "_h") (fst he)) (suffix name "_e") (snd he).

  (** The cells written by write_vtk_file_with_exact_solution, lines 224-231: those with a tag of
      the field bound last to [name]; fe_space.dimension() is the largest dimension of a field *)
  Definition last_name (sp : vtk_space) : res string :=
    match rev (vs_fields sp) with [] => Err NameError | nf :: _ => Ok (fst nf) end.
  Definition tagged_cells (m : mesh P) (sp : vtk_space) (name : string) : res (list cell) :=
    do l <- mapM (fun s : option cell => match s with
                    | None => Err AttributeError
                    | Some c => do tags <- dindex (vs_tags sp) name; Ok (c, memb (c_mat c) tags)
                    end) (m_cells P m);
    Ok (map fst (filter snd l)).
  Definition space_dimension (sp : vtk_space) : res nat := np_max (map (fun nf => vf_dim (snd nf)) (vs_fields sp)).

  (** write_vtk_file_with_exact_solution, lines 165-240 *)
  Definition write_vtk_file_with_exact_solution (m : mesh P) (dim : nat) (sp : vtk_space) (functions : dict string (P -> arr))
      (alpha : list F) (centred : list string) : res vtk_file :=
    do pc <- foldM (fun pc nf =>
      do exact <- dindex functions (fst nf);
      if memb (fst nf) centred then
        do he <- cell_he m dim sp exact alpha (fst nf) (snd nf); Ok (fst pc, set_two (snd pc) (fst nf) he)
      else
        do he <- point_he m dim sp exact alpha (fst nf) (snd nf); Ok (set_two (fst pc) (fst nf) he, snd pc))
      (vs_fields sp) ([], []);
    do name <- last_name sp;
    do cs <- tagged_cells m sp name;
    do d <- space_dimension sp;
    do ty <- cell_type d;
    Ok (mk_file ty (map c_nodes cs) (fst pc) (snd pc)).

  (** write_fe_spaces_on_vtk_file_with_exact_solution, lines 242-338: arrays start as nan, only
      cells with a tag of the field count *)
  Definition allowed (sp : vtk_space) (name : string) : list (option Z) :=
    match dget (vs_tags sp) name with Some l => l | None => [] end.
  Definition point_nan (m : mesh P) (dim : nat) (sp : vtk_space) (exact : P -> arr) (alpha : list F) (name : string) (fld : vtk_field)
      : res (rows * rows) :=
    let z := filled None (length (m_points P m)) (n_data dim fld) in
    over_vertices m fld (fun data node ps =>
      do x <- get_at (m_points P m) node;
      do qs <- mapM (fun v : vid => do c <- cell_of (m_cells P m) (snd v); Ok (v, memb (c_mat c) (allowed sp name))) ps;
      let cell_idxs := map fst (filter snd qs) in
      match cell_idxs with
      | [] => Ok data
      | _ =>
          do f <- node_average m dim sp alpha name fld node cell_idxs;
          do h <- assign (n_data dim fld) (fst data) node (ravel_mean f);
          do e <- assign (n_data dim fld) (snd data) node (numbers (ravel_arr (exact x)));
          Ok (h, e)
      end) (z, z).
  Definition cell_nan (m : mesh P) (cs : list cell) (dim : nat) (sp : vtk_space) (exact : P -> arr) (alpha : list F) (name : string)
      (fld : vtk_field) : res (rows * rows) :=
    let z := filled None (length cs) (n_data dim fld) in
    over_cells cs (fun data i c =>
      if memb (c_mat c) (allowed sp name) then
        do x <- centre_point m c;
        do f <- cell_centered dim sp alpha name fld c;
        do h <- assign (n_data dim fld) (fst data) i (numbers (ravel f));
        do e <- assign (n_data dim fld) (snd data) i (numbers (ravel_arr (exact x)));
        Ok (h, e)
      else Ok data) (z, z).
  Definition write_fe_spaces (m : mesh P) (dim : nat) (sps : list vtk_space) (functions : dict string (P -> arr)) (alpha : list F)
      (centred : list string) : res vtk_file :=
    do cs <- top_cells m dim;
    do ty <- cell_type dim;
    do pc <- foldM (fun pc sp => foldM (fun pc nf =>
      do exact <- dindex functions (fst nf);
      if memb (fst nf) centred then
        do he <- cell_nan m cs dim sp exact alpha (fst nf) (snd nf); Ok (fst pc, set_two (snd pc) (fst nf) he)
      else
        do he <- point_nan m dim sp exact alpha (fst nf) (snd nf); Ok (set_two (fst pc) (fst nf) he, snd pc))
      (vs_fields sp) pc) sps ([], []);
    Ok (mk_file ty (map c_nodes cs) (fst pc) (snd pc)).

  (** write_vtk_file_pointwise_l2_error, lines 340-403.  np.linalg.norm(f_e - f_h): an array of
      one axis is subtracted as one row *)
  Context (ksqrt : F -> F).
  Definition as_rows (a : arr) : mat := match a with Axis1 n f => mk_mat 1 n (fun _ => f) | Axis2 m => m end.
  Definition norm_diff (e : arr) (h : mat) : res F :=
    let e := as_rows e in
    do nr <- broadcast (mt_rows e) (mt_rows h);
    do nc <- broadcast (mt_cols e) (mt_cols h);
    Ok (ksqrt (ksum nr (fun r => ksum nc (fun c =>
      let d := mt_val e (axis_index (mt_rows e) r) (axis_index (mt_cols e) c) -
               mt_val h (axis_index (mt_rows h) r) (axis_index (mt_cols h) c) in d * d)))).
  Definition point_error (m : mesh P) (dim : nat) (sp : vtk_space) (exact : P -> arr) (alpha : list F) (name : string) (fld : vtk_field)
      : res rows :=
    over_vertices m fld (fun data node ps =>
      do x <- get_at (m_points P m) node;
      do f <- node_average m dim sp alpha name fld node ps;
      do n <- match f with None => Ok None | Some h => do n <- norm_diff (exact x) h; Ok (Some n) end;
      assign 1 data node [n]) (filled (Some k0) (length (m_points P m)) 1).
  Definition cell_error (m : mesh P) (dim : nat) (sp : vtk_space) (exact : P -> arr) (alpha : list F) (name : string) (fld : vtk_field)
      : res rows :=
    do cs <- top_cells m dim;
    over_cells cs (fun data i c =>
      do x <- centre_point m c;
      do f <- cell_centered dim sp alpha name fld c;
      do n <- norm_diff (exact x) f;
      assign 1 data i [Some n]) (filled (Some k0) (length cs) 1).
  Definition write_pointwise_l2_error (m : mesh P) (dim : nat) (sp : vtk_space) (functions : dict string (P -> arr)) (alpha : list F)
      (centred : list string) : res vtk_file :=
    do pc <- foldM (fun pc nf =>
      do exact <- dindex functions (fst nf);
      if memb (fst nf) centred then
        do d <- cell_error m dim sp exact alpha (fst nf) (snd nf); Ok (fst pc, dset (snd pc) (suffix (fst nf) "_error") d)
      else
        do d <- point_error m dim sp exact alpha (fst nf) (snd nf); Ok (dset (fst pc) (suffix (fst nf) "_error") d, snd pc))
      (vs_fields sp) ([], []);
    do cs <- top_cells m dim;
    do ty <- cell_type dim;
    Ok (mk_file ty (map c_nodes cs) (fst pc) (snd pc)).

  (** write_vtk_file_exact_solution, lines 406-429 *)
  Definition write_exact_solution (m : mesh P) (dim : nat) (name_to_fields : dict string nat) (functions : dict string (P -> arr))
      : res vtk_file :=
    do pd <- foldM (fun pd nf =>
      do exact <- dindex functions (fst nf);
      do d <- foldM (fun data ix => assign (snd nf) data (fst ix) (numbers (ravel_arr (exact (snd ix)))))
                (combine (seq 0 (length (m_points P m))) (m_points P m)) (filled (Some k0) (length (m_points P m)) (snd nf));
      Ok (dset pd (suffix (fst nf) "_e") d)) name_to_fields [];
    do cs <- top_cells m dim;
    do ty <- cell_type dim;
    Ok (mk_file ty (map c_nodes cs) pd []).
  End Exact.
End Export.
Arguments mat : clear implicits.
Arguments arr : clear implicits.
Arguments vtk_field : clear implicits.
Arguments vtk_space : clear implicits.
Arguments vtk_file : clear implicits.
Arguments rows : clear implicits.
