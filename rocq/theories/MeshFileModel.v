(** * Model of the export of meshes: Mesh.write_vtk, src/mesh/mesh.py

    Definitions only.  A file is given by its name and the arguments of meshio.Mesh; what meshio
    makes of them is not modelled.  Every cell has an id. *)
From Coq Require Import String List Arith Bool ZArith.
From Verif Require Import Base MeshModel GraphModel CutModel ColorModel.
Import ListNotations.
Open Scope list_scope.
Open Scope nat_scope.

(** File name, type and nodes of cells, and the arrays of cell_data: "physical_tag",
    "entity_tag" and those of the colours *)
Record mesh_file : Type := mk_mfile {
  mf_name : string; mf_type : string; mf_nodes : list (list nat); mf_physical : list (option Z);
  mf_entity : list nat; mf_colors : dict string (list nat) }.

(** [cell.dimension == d and cell.id is not None and cell.material_id is not None] *)
Definition has_tag (c : cell) : bool := match c_mat c with Some _ => true | None => false end.
Definition selected (d : nat) (cs : list cell) : list cell := filter (fun c => (c_dim c =? d) && has_tag c) cs.
(** physical_tags_nd, mesh.py:434-440 (no test of material_id), 491-499, 548-556, 601-609 *)
Definition physical_tags (d : nat) (cs : list cell) : list (option Z) :=
  map c_mat (if d =? 3 then filter (fun c => c_dim c =? d) cs else selected d cs).

(** prefix, mesh.py:428-431 *)
Definition prefix_of (file_name : option string) : string :=
  match file_name with Some p => p | None => "geometric_mesh"%string end.
(** The last part of the names, mesh.py:489, 546, 599, 637, and the names of the types *)
Definition ending (d : nat) : string :=
  match d with 0 => "_0d.vtk" | 1 => "_1d.vtk" | 2 => "_2d.vtk" | _ => "_3d.vtk" end%string.
Definition type_name (d : nat) : string :=
  match d with 0 => "vertex" | 1 => "line" | 2 => "triangle" | _ => "tetra" end%string.

(** The colourings of a dimension: name, number of colours, co-dimension; mesh.py:478-480, 538-539,
    594 *)
Definition colorings (d : nat) : list (string * nat * nat) :=
  match d with
  | 0 => []
  | 1 => [("c1_colors"%string, 8, 1)]
  | 2 => [("c1_colors"%string, 8, 1); ("c2_colors"%string, 8, 2)]
  | _ => [("c1_colors"%string, 8, 1); ("c2_colors"%string, 8, 2); ("c3_colors"%string, 14, 3)]
  end.
Section Write.
  (** [coloring n d co] is coloring_mesh_by_co_dimension(n, self, d, co)[0] *)
  Context (coloring : nat -> nat -> nat -> res (dict nat nat)).
  (** mesh.py:467-486, 527-543, 583-596: all colourings are made before they are read *)
  Definition color_data (d : nat) (c0_cells : list nat) : res (dict string (list nat)) :=
    do ms <- mapM (fun nc : string * nat * nat => do m <- coloring (snd (fst nc)) d (snd nc); Ok (fst (fst nc), m)) (colorings d);
    mapM (fun nm : string * dict nat nat => do l <- mapM (dindex (snd nm)) c0_cells; Ok (fst nm, l)) ms.
  (** The part of one dimension, mesh.py:434-489, 491-546, 548-599, 601-637 *)
  Definition write_dimension (prefix : string) (coloring_q : bool) (cs : list cell) (d : nat) : res (list mesh_file) :=
    let sel := selected d cs in
    if length sel =? 0 then Ok []
    else
      do colors <- (if coloring_q then color_data d (map c_id sel) else Ok []);
      Ok [mk_mfile (String.append prefix (ending d)) (type_name d) (map c_nodes sel) (physical_tags d cs) (map c_id sel) colors].
  (** Mesh.write_vtk, mesh.py:427-637 *)
  Definition write_vtk (cs : cells) (file_name : option string) (coloring_q : bool) : res (list mesh_file) :=
    do l <- all_cells cs;
    do fs <- mapM (write_dimension (prefix_of file_name) coloring_q l) [3; 2; 1; 0];
    Ok (concat fs).
End Write.
(** The colouring that write_vtk uses *)
Definition mesh_coloring (equitable_color : digraph vid -> nat -> res (list (vid * nat))) (fuel : nat) (cs : cells) (mesh_dim n d co : nat)
    : res (dict nat nat) :=
  do m <- coloring_mesh equitable_color fuel n cs mesh_dim d co; Ok (fst m).
