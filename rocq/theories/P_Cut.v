(** * Property theorems C31-C34: cutting a mesh along embedded interfaces *)
From Coq Require Import List Arith ZArith Bool Lia.
From Verif Require Import Base MeshModel MeshSpec MeshExamples GraphModel CutModel CutSpec CutProof4 CutExamples.
Import ListNotations.

(** ** C31 : one interface has exactly the effect [cut_effect]; a list of interfaces is a
    sequence of such steps; ids stay positions and the old cells keep identity. *)
Theorem C31_one_interface : forall P fuel (m : mesh P) fr f m' fr',
  cut_ready P m -> cut_interface P (S fuel) (m, fr) f = Ok (m', fr') ->
  exists F V T N, cut_effect P f m m' F V T N /\
    (forall k e, nth_error F k = Some e ->
       dget fr' e = Some (length (m_cells P m) + k, length (m_cells P m) + length F + k)) /\
    (forall e, ~ In e F -> dget fr' e = dget fr e).
Proof. exact CutProof3.cut_interface_effect. Qed.
Print Assumptions C31_one_interface.
Theorem C31_all_interfaces : forall P fuel d (m : mesh P) shapes m' fr,
  cut_ready P m -> cut_conformity_on_embed_shapes P (S fuel) d m shapes = Ok (m', fr) ->
  d = 2 /\ cut_run P m shapes m' /\ cut_ready P m' /\
  (forall i c, cell_at (m_cells P m) i c ->
     exists c', cell_at (m_cells P m') i c' /\ c_dim c' = c_dim c /\ c_id c' = c_id c /\ c_mat c' = c_mat c).
Proof. exact @cut_embed_run. Qed.
Print Assumptions C31_all_interfaces.
(** every step appends two copies per interface edge and two per duplicated vertex *)
Theorem C31_counts : forall P (m m' : mesh P) shapes, cut_run P m shapes m' ->
  exists ks, length (m_cells P m') = length (m_cells P m) + 2 * (fold_right (fun k s => fst k + snd k + s) 0 ks) /\
             length (m_points P m') = length (m_points P m) + 2 * (fold_right (fun k s => snd k + s) 0 ks) /\
             length ks = length shapes.
Proof. exact run_counts. Qed.
Print Assumptions C31_counts.
(** an interface whose edges and duplicated vertices belong to triangles can be cut *)
Theorem C31_succeeds : forall P fuel (m : mesh P) fr f,
  cut_ready P m -> cuttable P m (if_tag P f) ->
  exists m' fr', cut_interface P (S fuel) (m, fr) f = Ok (m', fr').
Proof. exact cut_succeeds. Qed.
Print Assumptions C31_succeeds.
(** meshes built from a file satisfy the hypothesis *)
Theorem C31_built_mesh_ready : forall P blocks physical cs (pts : list P),
  well_shaped blocks -> build_conformal_mesh (length pts) blocks physical = Ok cs ->
  fully_tagged blocks physical -> all_points_used (length pts) blocks physical -> distinct_nodes blocks ->
  cut_ready P (mk_mesh P cs pts).
Proof. exact @built_cut_ready. Qed.
Print Assumptions C31_built_mesh_ready.
Theorem C31_other_dimensions : forall P fuel d (m : mesh P) shapes, d <> 2 ->
  cut_conformity_on_embed_shapes P fuel d m shapes = Err AssertionError.
Proof. exact @cut_embed_dim. Qed.
Print Assumptions C31_other_dimensions.
Example C31_example : cut_ready Z ex_cut_mesh /\ cuttable Z ex_cut_mesh 7 /\
  exists m' fr, cut_conformity_on_embed_shapes Z 1 2 ex_cut_mesh [ex_interface] = Ok (m', fr) /\
    length (m_cells Z m') = 15 /\ m_points Z m' = [0; 0; 1; -1; 0; 0]%Z /\ fr = [(4, (11, 12))] /\
    nth_error (m_cells Z m') 10 = Some (Some (mk_cell 2 10 [5; 1; 3] (Some 1%Z) [[14; 1; 3]; [12; 7; 8]; [10]])) /\
    nth_error (m_cells Z m') 11 = Some (Some (mk_cell 1 11 [4; 1] (Some 7001%Z) [[13; 1]; [11; 4]])).
Proof.
  split; [exact ex_cut_ready|]. split; [exact ex_cuttable|]. do 2 eexists. split; [vm_compute; reflexivity|].
  repeat split.
Qed.

(** ** C32 *)
Theorem C32_sides_separated : forall P fuel (m : mesh P) fr f m' fr',
  cut_ready P m -> cut_interface P (S fuel) (m, fr) f = Ok (m', fr') ->
  (forall e c, interface_edge (m_cells P m) (if_tag P f) e -> cell_at (m_cells P m) e c -> cell_at (m_cells P m') e c) /\
  (forall v c, duplicated_vertex (m_cells P m) (if_tag P f) v -> cell_at (m_cells P m) v c -> cell_at (m_cells P m') v c) /\
  forall i c c' q, cell_at (m_cells P m) i c -> c_dim c = 2 -> cell_at (m_cells P m') i c' -> on_side P m f c q ->
    (forall e, interface_edge (m_cells P m) (if_tag P f) e -> ~ In e (nth 1 (c_sub c') [])) /\
    (forall v, duplicated_vertex (m_cells P m) (if_tag P f) v -> ~ In v (nth 0 (c_sub c') [])) /\
    (forall e p n, interface_edge (m_cells P m) (if_tag P f) e -> dget fr' e = Some (p, n) ->
       (In e (nth 1 (c_sub c) []) -> In (if q then p else n) (nth 1 (c_sub c') [])) /\
       ~ In (if q then n else p) (nth 1 (c_sub c') [])).
Proof. exact separation. Qed.
Print Assumptions C32_sides_separated.
(** triangle 9 is on the positive side of the interface, triangle 10 on the negative one *)
Example C32_example : cut_ready Z ex_cut_mesh /\
  (exists m' fr, cut_interface Z 1 (ex_cut_mesh, []) ex_interface = Ok (m', fr)) /\
  interface_edge ex_cut_cells 7 4 /\ duplicated_vertex ex_cut_cells 7 0 /\
  (exists c, cell_at ex_cut_cells 9 c /\ c_dim c = 2 /\ on_side Z ex_cut_mesh ex_interface c true) /\
  (exists c, cell_at ex_cut_cells 10 c /\ c_dim c = 2 /\ on_side Z ex_cut_mesh ex_interface c false).
Proof.
  split; [exact ex_cut_ready|]. split; [do 2 eexists; vm_compute; reflexivity|].
  split; [eexists; repeat split; reflexivity|]. split.
  { exists 4. do 2 eexists. split; [eexists; repeat split; reflexivity|]. split; [reflexivity|]. split; [left; reflexivity|].
    split; [reflexivity|discriminate]. }
  split; eexists; (split; [reflexivity|]); (split; [reflexivity|]); eexists;
    (split; [repeat constructor|reflexivity]).
Qed.

(** ** C33 *)
(** Refuted: the copy of a vertex lists its node tag instead of its own id. *)
Theorem C33_own_id_refuted : exists (m m' : mesh Z) f fr i c,
  cut_ready Z m /\ cuttable Z m (if_tag Z f) /\
  cut_conformity_on_embed_shapes Z 1 2 m [f] = Ok (m', fr) /\
  cell_at (m_cells Z m') i c /\ c_dim c = 0 /\ c_id c = i /\ ~ In i (nth 0 (c_sub c) []).
Proof.
  exists ex_cut_mesh. eexists. exists ex_interface, [(4, (11, 12))], 13. eexists.
  split; [exact ex_cut_ready|]. split; [exact ex_cuttable|]. split; [vm_compute; reflexivity|].
  split; [reflexivity|]. split; [reflexivity|]. split; [reflexivity|]. simpl. intros [E|[]]. discriminate.
Qed.
Print Assumptions C33_own_id_refuted.
(** What holds: old vertices are untouched; a copy lists its node tags, which is its id only
    if by accident the number of cells and of points match. *)
Theorem C33_own_id_partial : forall P fuel (m : mesh P) fr f m' fr',
  cut_ready P m -> cut_interface P (S fuel) (m, fr) f = Ok (m', fr') ->
  (forall i c, cell_at (m_cells P m) i c -> c_dim c = 0 -> cell_at (m_cells P m') i c) /\
  exists F, increasing_list F (interface_edge (m_cells P m) (if_tag P f)) /\
  forall i c', length (m_cells P m) <= i -> cell_at (m_cells P m') i c' -> c_dim c' = 0 ->
    nth 0 (c_sub c') [] = c_nodes c' /\
    (In i (nth 0 (c_sub c') []) <-> length (m_cells P m) + 2 * length F = length (m_points P m)).
Proof. exact @vertex_copies. Qed.
Print Assumptions C33_own_id_partial.
Example C33_example : cut_ready Z ex_cut_mesh /\
  exists m' fr c, cut_interface Z 1 (ex_cut_mesh, []) ex_interface = Ok (m', fr) /\
    cell_at (m_cells Z m') 14 c /\ c_dim c = 0 /\ c_sub c = [[5]].
Proof. split; [exact ex_cut_ready|]. do 3 eexists. split; [vm_compute; reflexivity|]. repeat split. Qed.

(** ** C34 *)
Theorem C34_update_entity : forall d cs id m,
  (forall cs', update_entity_with_dimension d cs id m = Ok cs' -> exists c c',
     cell_at cs id c /\ cell_at cs' id c' /\ length cs' = length cs /\
     (forall j, j <> id -> nth_error cs' j = nth_error cs j) /\
     c_dim c' = c_dim c /\ c_id c' = c_id c /\ c_nodes c' = c_nodes c /\ c_mat c' = c_mat c /\
     forall d', nth_error (c_sub c') d' =
       if d' =? d then option_map (map (image m)) (nth_error (c_sub c) d') else nth_error (c_sub c) d') /\
  (forall c, cell_at cs id c -> d < length (c_sub c) -> exists cs', update_entity_with_dimension d cs id m = Ok cs').
Proof. exact update_entity_exact. Qed.
Print Assumptions C34_update_entity.
Theorem C34_update_nodes : forall cs id m,
  (forall cs', update_nodes_ids cs id m = Ok cs' -> exists c c',
     cell_at cs id c /\ cell_at cs' id c' /\ length cs' = length cs /\
     (forall j, j <> id -> nth_error cs' j = nth_error cs j) /\
     c_dim c' = c_dim c /\ c_id c' = c_id c /\ c_nodes c' = map (image m) (c_nodes c) /\ c_mat c' = c_mat c /\
     c_sub c' = c_sub c) /\
  (forall c, cell_at cs id c -> exists cs', update_nodes_ids cs id m = Ok cs').
Proof. exact update_nodes_exact. Qed.
Print Assumptions C34_update_nodes.
(** a map whose images are keys again is applied once *)
Example C34_example :
  update_entity_with_dimension 1 ex_cut_cells 9 [(4, 5); (5, 6); (6, 40)] =
  Ok (set_at ex_cut_cells 9 (Some (mk_cell 2 9 [0; 1; 2] (Some 1%Z) [[0; 1; 2]; [5; 6; 40]; [9]]))).
Proof. reflexivity. Qed.
