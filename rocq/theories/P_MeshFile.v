(** * Property theorems C83: files of a mesh *)
From Coq Require Import String List Arith ZArith Bool Sorted Lia.
From Verif Require Import Base MeshModel MeshSpec GraphModel CutModel MeshExamples ColorModel MeshFileModel MeshFileSpec MeshFileProof MeshFileExamples.
Import ListNotations.
Open Scope list_scope.
Open Scope nat_scope.

(** One file per dimension with tagged cells; nodes, ids and (below dimension 3) tags belong to the
    same cells, in the order of the ids *)
Theorem C83_write : forall coloring cs file_name, closed_mesh cs ->
  exists fs, write_vtk coloring cs file_name false = Ok fs /\
    per_dimension cs (match file_name with Some p => p | None => "geometric_mesh"%string end) fs.
Proof. exact write_ok. Qed.
Print Assumptions C83_write.
Example C83_case : closed_mesh ex2 /\ exists f2 f1 f0, write_vtk (fun _ _ _ => Err ValueError) ex2 None false = Ok [f2; f1; f0] /\
  mf_nodes f2 = [[0; 1; 2]; [3; 2; 1]] /\ mf_physical f2 = [Some 1; Some 2]%Z /\ mf_entity f2 = [9; 10] /\
  mf_nodes f1 = [[0; 1]; [3; 1]] /\ mf_physical f1 = [Some 7; Some 6]%Z /\ mf_name f0 = "geometric_mesh_0d.vtk"%string /\ mf_nodes f0 = [[3]].
Proof. exact ex2_files. Qed.

(** In dimension 3 the tags fit the cells only if every cell has one. *)
Theorem C83_three : forall cs f, id_is_index cs -> shows cs 3 f ->
  (exists r, lists cs (fun c => c_dim c = 3) r /\ mf_physical f = map c_mat r) ->
  (aligned cs 3 f <-> forall i c, cell_at cs i c -> c_dim c = 3 -> c_mat c <> None).
Proof. exact aligned_three. Qed.
Print Assumptions C83_three.
(** A mesh with a tetrahedron that has no tag: two tags for one cell *)
Theorem C83_aligned_refuted : exists cs f fs, closed_mesh cs /\ write_vtk (fun _ _ _ => Err ValueError) cs None false = Ok (f :: fs) /\
  length (mf_nodes f) = 1 /\ length (mf_entity f) = 1 /\ length (mf_physical f) = 2 /\ ~ aligned cs 3 f.
Proof. exact ex4_refuted. Qed.
Print Assumptions C83_aligned_refuted.

(** A mesh read from a file that gives every cell a tag: all files fit *)
Theorem C83_built : forall coloring np blocks physical cs file_name, well_shaped blocks -> build_conformal_mesh np blocks physical = Ok cs ->
  fully_tagged blocks physical -> all_points_used np blocks physical -> distinct_nodes blocks -> all_given physical ->
  exists fs, write_vtk coloring cs file_name false = Ok fs /\
    per_dimension cs (match file_name with Some p => p | None => "geometric_mesh"%string end) fs /\
    forall f, In f fs -> exists d, d <= 3 /\ aligned cs d f.
Proof. exact built_ok. Qed.
Print Assumptions C83_built.
Example C83_built_case : all_given ex3_phys /\ exists f3 f2, write_vtk (fun _ _ _ => Err ValueError) ex3 (Some "a"%string) false = Ok [f3; f2] /\
  mf_name f3 = "a_3d.vtk"%string /\ mf_nodes f3 = [[0; 1; 2; 3]; [4; 3; 2; 1]] /\ mf_physical f3 = [Some 1; Some 1]%Z /\ mf_type f2 = "triangle"%string.
Proof. exact ex3_files. Qed.

(** With colouring nothing is written as soon as a line, triangle or tetrahedron has a tag. *)
Theorem C83_colored_never : forall equitable_color fuel cs mesh_dim file_name d i c, cell_at cs i c -> d <= 3 -> d <> 0 -> tagged_of d c ->
  forall fs, write_vtk (mesh_coloring equitable_color fuel cs mesh_dim) cs file_name true <> Ok fs.
Proof. exact colored_never. Qed.
Print Assumptions C83_colored_never.
Example C83_colored_case : exists c, cell_at ex2 9 c /\ tagged_of 2 c /\
  write_vtk (mesh_coloring (fun g _ => Ok (map (fun v => (v, fst v)) (g_nodes g))) 5 ex2 2) ex2 None true = Err ValueError.
Proof. exact ex2_colored. Qed.
Theorem C83_colored_vertices : forall coloring cs file_name, closed_mesh cs -> (forall i c, cell_at cs i c -> c_mat c <> None -> c_dim c = 0) ->
  write_vtk coloring cs file_name true = write_vtk coloring cs file_name false.
Proof. exact colored_vertices. Qed.
Print Assumptions C83_colored_vertices.
Example C83_vertices_case : closed_mesh ex5 /\ (forall i c, cell_at ex5 i c -> c_mat c <> None -> c_dim c = 0) /\
  exists f, write_vtk (fun _ _ _ => Err ValueError) ex5 None true = Ok [f] /\ mf_nodes f = [[1]].
Proof. exact ex5_files. Qed.

(** A point that no cell uses *)
Theorem C83_empty_slot : forall coloring cs file_name q i, nth_error cs i = Some None -> write_vtk coloring cs file_name q = Err AttributeError.
Proof. exact empty_slot. Qed.
Print Assumptions C83_empty_slot.
Example C83_slot_case : exists cs, build_conformal_mesh 4 exh_blocks exh_phys = Ok cs /\ nth_error cs 3 = Some None.
Proof. eexists. split; vm_compute; reflexivity. Qed.
