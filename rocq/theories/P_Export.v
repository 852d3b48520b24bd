(** * C82: export of solutions *)
From Coq Require Import String List Arith Bool ZArith QArith Qcanon.
From Verif Require Import Base MeshModel MeshSpec MeshExamples GraphModel CutModel FormModel FormSpec AdExamples PostModel PostSpec
  ExportModel ExportSpec ExportProof5 ExportProof6 ExportExamples ExportRefute.
Import ListNotations.
Open Scope list_scope.
Open Scope nat_scope.

(** write_vtk_file: all cells of the mesh dimension; on cells the discrete function at the centre
    of each of them, on points its mean over the cells of the field around the point, zeros
    elsewhere.  One array "name_h" per field, in the order of the fields. *)
Theorem C82_write : forall {F : scalar}, is_ring F -> forall {P : Type} (m : mesh P) dim (sp : vtk_space F) alpha centred,
  good_points m -> dim <= 3 -> NoDup (dkeys (vs_fields sp)) ->
  (forall name fld, In (name, fld) (vs_fields sp) ->
     if in_dec string_dec name centred then on_cells dim sp alpha fld (tops (m_cells P m) dim)
     else on_nodes m dim sp alpha name fld (tags_of sp name)) ->
  exists file, write_vtk_file m dim sp alpha centred = Ok file /\ nth_error type_names dim = Some (vk_type file) /\
    vk_cells file = map c_nodes (tops (m_cells P m) dim) /\
    holds ["_h"%string] (h_of m dim sp alpha false) (names_of centred false (vs_fields sp)) (vk_point file) /\
    holds ["_h"%string] (h_of m dim sp alpha true) (names_of centred true (vs_fields sp)) (vk_cell file).
Proof. exact @write_ok. Qed.
Print Assumptions C82_write.
(** At a point where the cells around agree the mean is their common value *)
Theorem C82_continuous : forall {F : scalar}, is_field F -> forall {P : Type} (m : mesh P) dim alpha (fld : vtk_field F) tags blank data,
  (forall k, 0 < k -> count (F := F) k <> k0) -> node_rows m fld tags blank (averages dim alpha fld) data ->
  forall n c, n < length (m_points P m) -> carries (m_cells P m) fld tags c -> In n (c_nodes c) ->
    (forall c' r d, carries (m_cells P m) fld tags c' -> In n (c_nodes c') -> r < comp_of fld -> d < entries dim fld ->
       vertex_value alpha fld n c' r d = vertex_value alpha fld n c r d) ->
    nth_error data n = Some (flat (comp_of fld) (entries dim fld) (vertex_value alpha fld n c)).
Proof. exact @continuous_rows. Qed.
Print Assumptions C82_continuous.
(** The meshes that ConformalMesher builds from a file qualify *)
Theorem C82_conformal : forall {P : Type} (m : mesh P) np blocks physical,
  well_shaped blocks -> build_conformal_mesh np blocks physical = Ok (m_cells P m) -> fully_tagged blocks physical ->
  all_points_used np blocks physical -> distinct_nodes blocks -> length (m_points P m) = np -> good_points m.
Proof. exact @conformal_points. Qed.
Print Assumptions C82_conformal.

(** write_vtk_file_with_exact_solution: the same arrays and those of the exact functions; but the
    cells written are those of any dimension with a tag of the last field, under the type of the
    largest dimension of a field *)
Theorem C82_with_exact : forall {F : scalar}, is_ring F -> forall {P : Type} (centroid : list P -> P) (m : mesh P) dim (sp : vtk_space F)
    functions alpha centred front last fld,
  good_points m -> NoDup (dkeys (vs_fields sp)) -> vs_fields sp = front ++ [(last, fld)] -> dget (vs_tags sp) last <> None ->
  (forall name fld, In (name, fld) (vs_fields sp) -> vf_dim fld <= 3 /\ (exists f, dget functions name = Some f /\ fits dim fld f) /\
     if in_dec string_dec name centred then on_cells dim sp alpha fld (tops (m_cells P m) dim)
     else on_nodes m dim sp alpha name fld (tags_of sp name)) ->
  exists file d, write_vtk_file_with_exact_solution centroid m dim sp functions alpha centred = Ok file /\
    (exists nf, In nf (vs_fields sp) /\ vf_dim (snd nf) = d) /\ (forall nf, In nf (vs_fields sp) -> vf_dim (snd nf) <= d) /\
    nth_error type_names d = Some (vk_type file) /\
    vk_cells file = map c_nodes (with_tags (m_cells P m) (tags_of sp last)) /\
    holds ["_h"%string; "_e"%string] (he_of centroid m dim sp functions alpha false) (names_of centred false (vs_fields sp)) (vk_point file) /\
    holds ["_h"%string; "_e"%string] (he_of centroid m dim sp functions alpha true) (names_of centred true (vs_fields sp)) (vk_cell file).
Proof. exact @write_exact_ok. Qed.
Print Assumptions C82_with_exact.
(** so with a last field on lines a file of "triangles" with two nodes is written *)
Theorem C82_last_field_refuted : exists (m : mesh pt) (sp : vtk_space Qs) functions alpha front last fld file,
  good_points m /\ NoDup (dkeys (vs_fields sp)) /\ vs_fields sp = front ++ [(last, fld)] /\ dget (vs_tags sp) last <> None /\
  (forall name fld, In (name, fld) (vs_fields sp) -> vf_dim fld <= 3 /\ (exists f, dget functions name = Some f /\ fits 2 fld f) /\
     if in_dec string_dec name [] then on_cells 2 sp alpha fld (tops (m_cells pt m) 2) else on_nodes m 2 sp alpha name fld (tags_of sp name)) /\
  write_vtk_file_with_exact_solution ev_centroid m 2 sp functions alpha [] = Ok file /\
  vk_type file = "triangle"%string /\ map (@length nat) (vk_cells file) = [2; 2] /\ map (@length nat) (map c_nodes (tops (m_cells pt m) 2)) = [3; 3].
Proof. exact last_field_refuted. Qed.
Print Assumptions C82_last_field_refuted.

(** write_fe_spaces_on_vtk_file_with_exact_solution: several spaces, nan outside of the cells of a
    field *)
Theorem C82_spaces : forall {F : scalar}, is_ring F -> forall {P : Type} (centroid : list P -> P) (m : mesh P) dim (sps : list (vtk_space F))
    functions alpha centred,
  good_points m -> dim <= 3 -> NoDup (dkeys (all_fields sps)) ->
  (forall sp name fld, In sp sps -> In (name, fld) (vs_fields sp) -> (exists f, dget functions name = Some f /\ fits dim fld f) /\
     if in_dec string_dec name centred then on_cells dim sp alpha fld (with_tags_of sp name (tops (m_cells P m) dim))
     else on_nodes m dim sp alpha name fld (tags_of sp name)) ->
  exists file, write_fe_spaces centroid m dim sps functions alpha centred = Ok file /\ nth_error type_names dim = Some (vk_type file) /\
    vk_cells file = map c_nodes (tops (m_cells P m) dim) /\
    holds ["_h"%string; "_e"%string] (nan_of centroid m dim functions alpha false) (names_of centred false (all_fields sps)) (vk_point file) /\
    holds ["_h"%string; "_e"%string] (nan_of centroid m dim functions alpha true) (names_of centred true (all_fields sps)) (vk_cell file).
Proof. exact @write_spaces_ok. Qed.
Print Assumptions C82_spaces.

(** write_vtk_file_pointwise_l2_error: the distance of exact and discrete value, if the exact value
    has one row per component (or the field has one component) *)
Theorem C82_error_partial : forall {F : scalar}, is_ring F -> forall {P : Type} (centroid : list P -> P) (ksqrt : F -> F) (m : mesh P) dim
    (sp : vtk_space F) functions (exacts : string -> P -> nat -> nat -> F) alpha centred,
  good_points m -> dim <= 3 -> NoDup (dkeys (vs_fields sp)) ->
  (forall name fld, In (name, fld) (vs_fields sp) -> (exists f, dget functions name = Some f /\ forall x, laid_out dim fld (f x) (exacts name x)) /\
     if in_dec string_dec name centred then on_cells dim sp alpha fld (tops (m_cells P m) dim)
     else on_nodes m dim sp alpha name fld (tags_of sp name)) ->
  let D name fld x v := ksqrt (distance2 (comp_of fld) (entries dim fld) (exacts name x) v) in
  exists file, write_pointwise_l2_error centroid ksqrt m dim sp functions alpha centred = Ok file /\ nth_error type_names dim = Some (vk_type file) /\
    vk_cells file = map c_nodes (tops (m_cells P m) dim) /\
    holds ["_error"%string] (error_of centroid m dim sp D alpha false) (names_of centred false (vs_fields sp)) (vk_point file) /\
    holds ["_error"%string] (error_of centroid m dim sp D alpha true) (names_of centred true (vs_fields sp)) (vk_cell file).
Proof. exact @write_error_ok. Qed.
Print Assumptions C82_error_partial.
(** For Lagrange fields with several components and exact functions that return arrays of one axis,
    as those in the examples of the repository do, it is the square root of the sum over all pairs of
    components *)
Theorem C82_error_pairs : forall {F : scalar}, is_ring F -> forall {P : Type} (centroid : list P -> P) (ksqrt : F -> F) (m : mesh P) dim
    (sp : vtk_space F) functions (exacts : string -> P -> nat -> F) alpha centred,
  good_points m -> dim <= 3 -> NoDup (dkeys (vs_fields sp)) ->
  (forall name fld, In (name, fld) (vs_fields sp) -> lagrange (vf_post fld) = true /\ comp_of fld <> 1 /\
     dget functions name = Some (fun x => Axis1 (comp_of fld) (exacts name x)) /\
     if in_dec string_dec name centred then on_cells dim sp alpha fld (tops (m_cells P m) dim)
     else on_nodes m dim sp alpha name fld (tags_of sp name)) ->
  let D name fld x v := ksqrt (pairs2 (comp_of fld) (comp_of fld) (exacts name x) v) in
  exists file, write_pointwise_l2_error centroid ksqrt m dim sp functions alpha centred = Ok file /\ nth_error type_names dim = Some (vk_type file) /\
    vk_cells file = map c_nodes (tops (m_cells P m) dim) /\
    holds ["_error"%string] (error_of centroid m dim sp D alpha false) (names_of centred false (vs_fields sp)) (vk_point file) /\
    holds ["_error"%string] (error_of centroid m dim sp D alpha true) (names_of centred true (vs_fields sp)) (vk_cell file).
Proof. exact @write_error_pairs. Qed.
Print Assumptions C82_error_pairs.
(** so it does not vanish for an exact discrete solution *)
Theorem C82_error_refuted : exists (m : mesh pt) (sp : vtk_space Qs) functions (exacts : string -> pt -> nat -> Qs) alpha name fld n,
  good_points m /\ vs_fields sp = [(name, fld)] /\ on_nodes m 2 sp alpha name fld (tags_of sp name) /\ comp_of fld = 2 /\ lagrange (vf_post fld) = true /\
  dget functions name = Some (fun x => Axis1 2 (exacts name x)) /\ n < length (m_points pt m) /\
  (forall c n x r, carries (m_cells pt m) fld (tags_of sp name) c -> In n (c_nodes c) -> nth_error (m_points pt m) n = Some x -> r < 2 ->
     vertex_value alpha fld n c r 0 = exacts name x r) /\
  forall ksqrt : Qs -> Qs, exists file data, write_pointwise_l2_error ev_centroid ksqrt m 2 sp functions alpha [] = Ok file /\
    dget (vk_point file) (String.append name "_error") = Some data /\ nth_error data n = Some [Some (ksqrt (q 8))].
Proof. exact error_refuted. Qed.
Print Assumptions C82_error_refuted.

(** write_vtk_file_exact_solution: the exact functions on all points *)
Theorem C82_exact_only : forall {F : scalar} {P : Type} (m : mesh P) dim (names : dict string nat) (functions : dict string (P -> arr F)),
  closed_mesh (m_cells P m) -> dim <= 3 -> NoDup (dkeys names) ->
  (forall name n, In (name, n) names -> exists f, dget functions name = Some f /\ forall x, In x (m_points P m) -> length (values_of (f x)) = n) ->
  exists file, write_exact_solution m dim names functions = Ok file /\ nth_error type_names dim = Some (vk_type file) /\
    vk_cells file = map c_nodes (tops (m_cells P m) dim) /\ holds ["_e"%string] (e_of m functions) names (vk_point file) /\ vk_cell file = [].
Proof. exact @write_exact_only_ok. Qed.
Print Assumptions C82_exact_only.

(** No file: a Lagrange field with more components than the mesh has dimensions, except on lines *)
Theorem C82_components_never : forall {F : scalar} {P : Type} (m : mesh P) dim (sp : vtk_space F) alpha centred name fld c n,
  NoDup (dkeys (vs_fields sp)) -> In (name, fld) (vs_fields sp) -> ~ In name centred -> good_points m ->
  node_readable m sp alpha name fld (tags_of sp name) -> lagrange (vf_post fld) = true -> dim < comp_of fld -> dim <> 1 ->
  carries (m_cells P m) fld (tags_of sp name) c -> In n (c_nodes c) ->
  forall file, write_vtk_file m dim sp alpha centred <> Ok file.
Proof. exact @components_never. Qed.
Print Assumptions C82_components_never.
(** where the first component is written in the place of all *)
Theorem C82_components_refuted : exists (m : mesh Qc) (sp : vtk_space Qs) alpha name fld c file data,
  good_points m /\ vs_fields sp = [(name, fld)] /\ node_readable m sp alpha name fld (tags_of sp name) /\ lagrange (vf_post fld) = true /\ comp_of fld = 2 /\
  around (m_cells Qc m) fld (tags_of sp name) 0 [c] /\
  write_vtk_file m 1 sp alpha [] = Ok file /\ dget (vk_point file) (String.append name "_h") = Some data /\
  nth_error data 0 = Some [Some (vertex_value alpha fld 0 c 0 0); Some (vertex_value alpha fld 0 c 0 0)] /\
  vertex_value alpha fld 0 c 1 0 <> vertex_value alpha fld 0 c 0 0.
Proof. exact components_refuted. Qed.
Print Assumptions C82_components_refuted.
(** a field on a part of the mesh as cell data; a field without tags; a field without function *)
Theorem C82_cell_needs : forall {F : scalar} {P : Type} (m : mesh P) dim (sp : vtk_space F) alpha centred name fld c,
  closed_mesh (m_cells P m) -> In (name, fld) (vs_fields sp) -> In name centred -> In c (tops (m_cells P m) dim) ->
  dget (vf_ids fld) (c_id c) = None -> forall file, write_vtk_file m dim sp alpha centred <> Ok file.
Proof. exact @cell_needs. Qed.
Print Assumptions C82_cell_needs.
Theorem C82_tag_needs : forall {F : scalar} {P : Type} (m : mesh P) dim (sp : vtk_space F) alpha centred name fld tags c n,
  In (name, fld) (vs_fields sp) -> ~ In name centred -> good_points m ->
  (exists fuel mesh_dim, build_data_on_physical_tags (S fuel) (m_cells P m) mesh_dim (vf_dim fld) tags = Ok (vf_topology fld)) ->
  carries (m_cells P m) fld tags c -> In n (c_nodes c) -> dget (vs_tags sp) name = None ->
  forall file, write_vtk_file m dim sp alpha centred <> Ok file.
Proof. exact @tag_needs. Qed.
Print Assumptions C82_tag_needs.
Theorem C82_function_needs : forall {F : scalar} {P : Type} centroid (ksqrt : F -> F) (m : mesh P) dim (sp : vtk_space F) functions alpha centred name fld,
  In (name, fld) (vs_fields sp) -> dget functions name = None ->
  (forall file, write_vtk_file_with_exact_solution centroid m dim sp functions alpha centred <> Ok file) /\
  (forall file, write_pointwise_l2_error centroid ksqrt m dim sp functions alpha centred <> Ok file) /\
  (forall sps file, In sp sps -> write_fe_spaces centroid m dim sps functions alpha centred <> Ok file).
Proof. exact @function_needs. Qed.
Print Assumptions C82_function_needs.

(** Two triangles; "w" is discontinuous, "s" vector valued and written on cells *)
Example C82_case : good_points ev_m /\ NoDup (dkeys (vs_fields ev_sp)) /\
  (forall name fld, In (name, fld) (vs_fields ev_sp) ->
     if in_dec string_dec name ev_centred then on_cells 2 ev_sp ev_alpha fld (tops (m_cells pt ev_m) 2)
     else on_nodes ev_m 2 ev_sp ev_alpha name fld (tags_of ev_sp name)) /\
  exists file, write_vtk_file ev_m 2 ev_sp ev_alpha ev_centred = Ok file /\ vk_cells file = [[0; 1; 2]; [3; 2; 1]] /\
    qshow (vk_point file) = [("u_h"%string, [[Some 1]; [Some 2]; [Some 3]; [Some 4]]);
      ("w_h"%string, [[Some 1; Some 5]; [Some 6; Some (9 # 2)]; [Some 6; Some (9 # 2)]; [Some 8; Some 1]])]%Q /\
    qshow (vk_cell file) = [("s_h"%string, [[Some 0; Some 0]; [Some 2; Some (-1)]])]%Q.
Proof. exact ev_case. Qed.
Example C82_exact_case : vs_fields ev_sp = ev_front ++ [("s"%string, ev_s)] /\ dget (vs_tags ev_sp) "s"%string <> None /\
  with_tags (m_cells pt ev_m) (tags_of ev_sp "s") = tops (m_cells pt ev_m) 2 /\
  (forall name fld, In (name, fld) (vs_fields ev_sp) -> vf_dim fld <= 3 /\ (exists f, dget ev_funs name = Some f /\ fits 2 fld f) /\
     if in_dec string_dec name ev_centred then on_cells 2 ev_sp ev_alpha fld (tops (m_cells pt ev_m) 2)
     else on_nodes ev_m 2 ev_sp ev_alpha name fld (tags_of ev_sp name)).
Proof. exact (conj eq_refl (conj ev_tag_s (conj ev_same_cells ev_fields_exact))). Qed.
Example C82_spaces_case : NoDup (dkeys (all_fields e12)) /\
  (forall sp name fld, In sp e12 -> In (name, fld) (vs_fields sp) -> (exists f, dget e12_funs name = Some f /\ fits 2 fld f) /\
     if in_dec string_dec name ["v"%string] then on_cells 2 sp ev_alpha fld (with_tags_of sp name (tops (m_cells pt ev_m) 2))
     else on_nodes ev_m 2 sp ev_alpha name fld (tags_of sp name)) /\
  exists file, write_fe_spaces ev_centroid ev_m 2 e12 e12_funs ev_alpha ["v"%string] = Ok file /\
    qshow (vk_point file) = [("u_h"%string, [[Some 1]; [Some 2]; [Some 3]; [None]]); ("u_e"%string, [[Some 0]; [Some 1]; [Some 1]; [None]])]%Q /\
    qshow (vk_cell file) = [("v_h"%string, [[None]; [Some 3]]); ("v_e"%string, [[None]; [Some (4 # 3)]])]%Q.
Proof. exact e12_case. Qed.
Example C82_error_case : (forall name fld, In (name, fld) (vs_fields ev_sp) ->
    (exists f, dget ev_funs name = Some f /\ forall x, laid_out 2 fld (f x) (ev_exact name x)) /\
    if in_dec string_dec name ev_centred then on_cells 2 ev_sp ev_alpha fld (tops (m_cells pt ev_m) 2)
    else on_nodes ev_m 2 ev_sp ev_alpha name fld (tags_of ev_sp name)) /\
  exists file, write_pointwise_l2_error ev_centroid ev_sqrt ev_m 2 ev_sp ev_funs ev_alpha ev_centred = Ok file /\
    qshow (vk_point file) = [("u_error"%string, [[Some 1]; [Some 1]; [Some 4]; [Some 4]]);
      ("w_error"%string, [[Some 26]; [Some (181 # 4)]; [Some (193 # 4)]; [Some 49]])]%Q /\
    qshow (vk_cell file) = [("s_error"%string, [[Some (2 # 9)]; [Some (41 # 9)]])]%Q.
Proof. exact (conj ev_fields_error ev_error_case). Qed.
Example C82_pairs_case : forall name fld, In (name, fld) (vs_fields ew_sp) -> lagrange (vf_post fld) = true /\ comp_of fld <> 1 /\
  dget ew_funs name = Some (fun x => Axis1 (F := Qs) (comp_of fld) (ew_exact name x)) /\
  if in_dec string_dec name [] then on_cells 2 ew_sp ew_alpha fld (tops (m_cells pt ev_m) 2) else on_nodes ev_m 2 ew_sp ew_alpha name fld (tags_of ew_sp name).
Proof. exact ew_fields. Qed.
Example C82_exact_only_case : exists file, write_exact_solution ev_m 2 [("w"%string, 2); ("u"%string, 1)] ev_funs = Ok file /\
  qshow (vk_point file) = [("w_e"%string, [[Some 0; Some 0]; [Some 1; Some 0]; [Some 0; Some 1]; [Some 1; Some 1]]);
    ("u_e"%string, [[Some 0]; [Some 1]; [Some 1]; [Some 2]])]%Q.
Proof. exact ev_exact_only. Qed.
Example C82_failing_case : node_readable ev_m e3_sp ev_alpha "t" e3_t (tags_of e3_sp "t") /\ comp_of e3_t = 3 /\
  write_vtk_file ev_m 2 e3_sp ev_alpha [] = Err ValueError /\
  write_vtk_file ev_m 2 e1_sp ev_alpha ["u"%string] = Err KeyError /\
  write_vtk_file ev_m 2 (mk_vs (F := Qs) [("u"%string, ev_u)] []) ev_alpha [] = Err KeyError /\
  write_vtk_file_with_exact_solution ev_centroid ev_m 2 ev_sp e12_funs ev_alpha [] = Err KeyError /\
  write_vtk_file_with_exact_solution ev_centroid ev_m 2 (mk_vs (F := Qs) [] []) e12_funs ev_alpha [] = Err NameError.
Proof. exact ev_failing. Qed.
