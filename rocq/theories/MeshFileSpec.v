(** * Vocabulary for the export of meshes *)
From Coq Require Import String List Arith ZArith Bool Sorted.
From Verif Require Import Base MeshModel MeshSpec MeshFileModel.
Import ListNotations.
Open Scope list_scope.
Open Scope nat_scope.

(** [l] lists the cells of the mesh with property [q], by increasing id *)
Definition lists (cs : cells) (q : cell -> Prop) (l : list cell) : Prop :=
  StronglySorted lt (map c_id l) /\ forall c, In c l <-> (exists i, cell_at cs i c) /\ q c.
Definition tagged_of (d : nat) (c : cell) : Prop := c_dim c = d /\ c_mat c <> None.
(** Nodes and ids of a file are those of the tagged cells of dimension [d] *)
Definition shows (cs : cells) (d : nat) (f : mesh_file) : Prop :=
  exists l, lists cs (tagged_of d) l /\ l <> [] /\ mf_nodes f = map c_nodes l /\ mf_entity f = map c_id l.
(** The three arrays have one entry per cell, and the tag is that of the cell *)
Definition aligned (cs : cells) (d : nat) (f : mesh_file) : Prop :=
  exists l, lists cs (tagged_of d) l /\ mf_nodes f = map c_nodes l /\ mf_entity f = map c_id l /\ mf_physical f = map c_mat l.
(** Every row of the input has a tag *)
Definition all_given (physical : list (list (option Z))) : Prop := forall l t, In l physical -> In t l -> t <> None.
(** One file for each dimension with a tagged cell, from dimension 3 down.  In dimension 3 the tags
    are those of all cells. *)
Definition vtk_suffix (d : nat) : string := nth d ["_0d.vtk"; "_1d.vtk"; "_2d.vtk"; "_3d.vtk"]%string ""%string.
Definition vtk_type (d : nat) : string := nth d ["vertex"; "line"; "triangle"; "tetra"]%string ""%string.
Definition per_dimension (cs : cells) (prefix : string) (fs : list mesh_file) : Prop :=
  exists f3 f2 f1 f0, fs = f3 ++ f2 ++ f1 ++ f0 /\ forall d fd, In (d, fd) [(3, f3); (2, f2); (1, f1); (0, f0)] ->
    (fd = [] <-> forall i c, cell_at cs i c -> ~ tagged_of d c) /\
    (forall f, In f fd -> fd = [f] /\ shows cs d f /\ mf_name f = String.append prefix (vtk_suffix d) /\ mf_type f = vtk_type d /\ mf_colors f = [] /\
       (d <> 3 -> aligned cs d f) /\ (d = 3 -> exists r, lists cs (fun c => c_dim c = 3) r /\ mf_physical f = map c_mat r)).
