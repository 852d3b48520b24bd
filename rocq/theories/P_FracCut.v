(** * Property: cutting along the fractures of a network (src/mesh/mesh.py:998-1168) *)
From Coq Require Import List Arith ZArith Bool Lia.
From Verif Require Import Base MeshModel MeshSpec GraphModel CutModel CutSpec CutExamples CutProof4 FracCutModel FracCutSpec FracCutProof FracCutProof2 FracCutProof3 FracCutProof4 FracCutExamples.
Import ListNotations.

(** ** C111 *)
Theorem C111_one_fracture : forall P fuel (m : mesh P) fr f m' fr',
  cut_ready P m -> cut_fracture P (S fuel) (m, fr) f = Ok (m', fr') ->
  exists F V T N, frac_effect P f m m' F V T N /\
    (forall k e, nth_error F k = Some e ->
       dget fr' e = Some (length (m_cells P m) + k, length (m_cells P m) + length F + k)) /\
    (forall e, ~ In e F -> dget fr' e = dget fr e).
Proof. exact cut_fracture_effect. Qed.
Print Assumptions C111_one_fracture.
Theorem C111_all_fractures : forall P fuel d (m : mesh P) fractures m' fr,
  cut_ready P m -> cut_conformity_on_fractures P (S fuel) d m fractures = Ok (m', fr) ->
  d = 2 /\ frac_run P m fractures m' /\ cut_ready P m' /\
  (forall i c, cell_at (m_cells P m) i c ->
     exists c', cell_at (m_cells P m') i c' /\ c_dim c' = c_dim c /\ c_id c' = c_id c /\ c_mat c' = c_mat c).
Proof. exact @cut_fractures_run. Qed.
Print Assumptions C111_all_fractures.
Theorem C111_succeeds : forall P fuel (m : mesh P) fr f,
  cut_ready P m -> cuttable P m (if_tag P f) ->
  exists m' fr', cut_fracture P (S fuel) (m, fr) f = Ok (m', fr').
Proof. exact frac_succeeds. Qed.
Print Assumptions C111_succeeds.
Example C111_example : cut_ready Z ex_cut_mesh /\ cuttable Z ex_cut_mesh 7 /\
  exists m' fr, cut_conformity_on_fractures Z 1 2 ex_cut_mesh [ex_interface] = Ok (m', fr) /\
    length (m_cells Z m') = 15 /\ m_points Z m' = [0; 0; 1; -1; 0; 0]%Z /\ fr = [(4, (11, 12))] /\
    nth_error (m_cells Z m') 10 = Some (Some (mk_cell 2 10 [5; 1; 3] (Some 1%Z) [[14; 1; 3]; [12; 7; 8]; [10]])) /\
    nth_error (m_cells Z m') 11 = Some (Some (mk_cell 1 11 [4; 1] (Some 71%Z) [[13; 1]; [11]])).
Proof.
  split; [exact ex_cut_ready|]. split; [exact ex_cuttable|]. do 2 eexists. split; [vm_compute; reflexivity|].
  repeat split.
Qed.

(** After one cut the triangles on the two sides share neither edges nor duplicated vertices of the fracture. *)
Theorem C111_sides_separated : forall P fuel (m : mesh P) fr f m' fr',
  cut_ready P m -> cut_fracture P (S fuel) (m, fr) f = Ok (m', fr') ->
  (forall e c, interface_edge (m_cells P m) (if_tag P f) e -> cell_at (m_cells P m) e c -> cell_at (m_cells P m') e c) /\
  (forall v c, duplicated_vertex (m_cells P m) (if_tag P f) v -> cell_at (m_cells P m) v c -> cell_at (m_cells P m') v c) /\
  forall i c c' q, cell_at (m_cells P m) i c -> c_dim c = 2 -> cell_at (m_cells P m') i c' -> on_side P m f c q ->
    (forall e, interface_edge (m_cells P m) (if_tag P f) e -> ~ In e (nth 1 (c_sub c') [])) /\
    (forall v, duplicated_vertex (m_cells P m) (if_tag P f) v -> ~ In v (nth 0 (c_sub c') [])) /\
    (forall e p n, interface_edge (m_cells P m) (if_tag P f) e -> dget fr' e = Some (p, n) ->
       (In e (nth 1 (c_sub c) []) -> In (if q then p else n) (nth 1 (c_sub c') [])) /\
       ~ In (if q then n else p) (nth 1 (c_sub c') [])).
Proof. exact frac_separation. Qed.
Print Assumptions C111_sides_separated.
Example C111_sides_example : cut_ready Z ex_cut_mesh /\
  exists m' fr, cut_fracture Z 1 (ex_cut_mesh, []) ex_interface = Ok (m', fr) /\
    (exists c, nth_error (m_cells Z m') 9 = Some (Some c) /\ nth 1 (c_sub c) [] = [11; 5; 6]) /\
    (exists c, nth_error (m_cells Z m') 10 = Some (Some c) /\ nth 1 (c_sub c) [] = [12; 7; 8]).
Proof. split; [exact ex_cut_ready|]. do 2 eexists. split; [vm_compute; reflexivity|]. split; eexists; split; reflexivity. Qed.

(** The same of all fractures of a network, if no tag is one of the tags of the copies of an earlier
    fracture. *)
Theorem C111_network_partial : forall P fuel d (m : mesh P) fractures m' fr', cut_ready P m ->
  ForallOrdPairs (fun f f' => if_tag P f' <> if_tag P f /\ if_tag P f' <> (10 * if_tag P f + 1)%Z /\ if_tag P f' <> (10 * if_tag P f - 1)%Z) fractures ->
  cut_conformity_on_fractures P (S fuel) d m fractures = Ok (m', fr') ->
  forall f e, In f fractures -> interface_edge (m_cells P m) (if_tag P f) e -> exists p n, dget fr' e = Some (p, n) /\
    forall i c c' q, cell_at (m_cells P m) i c -> c_dim c = 2 -> cell_at (m_cells P m') i c' -> on_side P m f c q ->
      ~ In e (nth 1 (c_sub c') []) /\
      (In e (nth 1 (c_sub c) []) -> In (if q then p else n) (nth 1 (c_sub c') [])) /\
      ~ In (if q then n else p) (nth 1 (c_sub c') []).
Proof. exact all_lemma. Qed.
Print Assumptions C111_network_partial.
(** The fracture with tag 7 is the edge 6, that with tag 8 the edge 4 between the triangles 9 and 10. *)
Example C111_network_example : cut_ready Z two_mesh /\
  ForallOrdPairs (fun f f' => if_tag Z f' <> if_tag Z f /\ if_tag Z f' <> (10 * if_tag Z f + 1)%Z /\ if_tag Z f' <> (10 * if_tag Z f - 1)%Z) two_fractures /\
  exists m', cut_conformity_on_fractures Z 1 2 two_mesh two_fractures = Ok (m', [(6, (11, 12)); (4, (17, 18))]) /\
    (exists c, nth_error (m_cells Z m') 9 = Some (Some c) /\ nth 1 (c_sub c) [] = [18; 5; 11]) /\
    (exists c, nth_error (m_cells Z m') 10 = Some (Some c) /\ nth 1 (c_sub c) [] = [17; 7; 8]).
Proof.
  split; [exact two_ready|]. split; [repeat constructor; simpl; lia|]. eexists. split; [vm_compute; reflexivity|].
  split; eexists; split; reflexivity.
Qed.

(** The copies of the edges of a fracture with tag t on its positive side carry the tag 10 t + 1.  If
    that is the tag of a later fracture, they are copied once more, and the map returned refers to
    edges of no triangle. *)
Theorem C111_tags_refuted : forall P fuel (m : mesh P) f f' m' fr', cut_ready P m ->
  if_tag P f' = (10 * if_tag P f + 1)%Z ->
  cut_conformity_on_fractures P (S fuel) 2 m [f; f'] = Ok (m', fr') ->
  forall e, interface_edge (m_cells P m) (if_tag P f) e -> exists p n, dget fr' e = Some (p, n) /\
    forall i c c', cell_at (m_cells P m) i c -> c_dim c = 2 -> cell_at (m_cells P m') i c' -> ~ In p (nth 1 (c_sub c') []).
Proof. exact collision. Qed.
Print Assumptions C111_tags_refuted.
Example C111_tags_example : cut_ready Z ex_cut_mesh /\
  exists m' fr, cut_conformity_on_fractures Z 1 2 ex_cut_mesh [ex_interface; mk_interface Z 71 ex_side] = Ok (m', fr) /\
    dget fr 4 = Some (11, 12) /\
    exists c, nth_error (m_cells Z m') 9 = Some (Some c) /\ nth 1 (c_sub c) [] = [15; 5; 6].
Proof. split; [exact ex_cut_ready|]. do 2 eexists. split; [vm_compute; reflexivity|]. split; [reflexivity|]. eexists; split; reflexivity. Qed.

Theorem C111_other_dimensions : forall P fuel d (m : mesh P) fractures, d <> 2 ->
  cut_conformity_on_fractures P fuel d m fractures = Err AssertionError.
Proof. exact @cut_fractures_dim. Qed.
Print Assumptions C111_other_dimensions.
