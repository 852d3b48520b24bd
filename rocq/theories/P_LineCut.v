(** * Property theorems C36: cutting a mesh along lines *)
From Coq Require Import List Arith ZArith Bool.
From Verif Require Import Base MeshModel MeshSpec GraphModel CutModel CutSpec LineCutModel LineCutSpec LineCutProof8 LineCutExamples.
Import ListNotations.

(** ** C36 : a cut along one line has exactly the effect [line_effect] and returns the
    interface it made; the result can be cut again. *)
Theorem C36_one_line : forall P fuel t (m : mesh P) ln m' f,
  line_ready P t m -> cut_line P (S fuel) 2 t m ln = Ok (m', f) ->
  (exists F V T N, line_effect P t ln m m' F V T N /\ interface_spec P m F V f) /\
  cut_ready P m' /\ no_repeats (m_cells P m') /\ (t_point_clones t <> t_line t -> line_ready P t m').
Proof. exact one_line. Qed.
Print Assumptions C36_one_line.
(** id = index afterwards, consecutive ids for the copies, and the node tags of the copied
    vertices refer to the appended (displaced) points in the same order *)
Theorem C36_copies : forall P fuel t (m : mesh P) ln m' f,
  line_ready P t m -> cut_line P (S fuel) 2 t m ln = Ok (m', f) ->
  (forall i c, cell_at (m_cells P m') i c -> c_id c = i) /\
  exists F pF nF V pV nV, i_c1 f = (F, pF, nF) /\ i_c2 f = (V, pV, nV) /\
    pF ++ pV ++ nF ++ nV = seq (length (m_cells P m)) (2 * (length F + length V)) /\
    length pF = length F /\ length nF = length F /\ length pV = length V /\ length nV = length V /\
    length (m_cells P m') = length (m_cells P m) + 2 * (length F + length V) /\
    length (m_points P m') = length (m_points P m) + 2 * length V /\
    forall k v c, nth_error V k = Some v -> cell_at (m_cells P m) v c -> exists t x i j ci cj,
      c_nodes c = [t] /\ nth_error (m_points P m) t = Some x /\
      nth_error pV k = Some i /\ cell_at (m_cells P m') i ci /\ c_nodes ci = [length (m_points P m) + k] /\
      nth_error (m_points P m') (length (m_points P m) + k) = Some (l_bump P ln true x) /\
      nth_error nV k = Some j /\ cell_at (m_cells P m') j cj /\ c_nodes cj = [length (m_points P m) + length V + k] /\
      nth_error (m_points P m') (length (m_points P m) + length V + k) = Some (l_bump P ln false x).
Proof. exact copies_plain. Qed.
Print Assumptions C36_copies.
(** old cells keep their position, dimension, id and tag; vertices and 3-cells are unchanged *)
Theorem C36_old_cells_keep_identity : forall P t ln (m m' : mesh P) F V T N i c,
  cut_ready P m -> line_effect P t ln m m' F V T N -> cell_at (m_cells P m) i c ->
  exists c', cell_at (m_cells P m') i c' /\ c_dim c' = c_dim c /\ c_id c' = c_id c /\ c_mat c' = c_mat c /\
    (c_dim c = 0 \/ c_dim c = 3 -> c' = c).
Proof. exact effect_old. Qed.
Print Assumptions C36_old_cells_keep_identity.
(** afterwards no cell strictly on a side uses a duplicated vertex, node or cut edge *)
Theorem C36_sides_apart : forall P t ln (m m' : mesh P) F V T N,
  line_ready P t m -> line_effect P t ln m m' F V T N ->
  forall i c c' s, cell_at (m_cells P m) i c -> c_dim c = 1 \/ c_dim c = 2 -> lists_one V c -> side_of P m ln c s -> s <> Eq ->
    cell_at (m_cells P m') i c' ->
    (forall v, In v V -> ~ In v (nth 0 (c_sub c') [])) /\
    (c_dim c = 2 -> forall e, In e F -> ~ In e (nth 1 (c_sub c') [])) /\
    (forall t0, In t0 T -> ~ In t0 (c_nodes c')).
Proof. exact sides_apart. Qed.
Print Assumptions C36_sides_apart.
(** exactly when the cut succeeds; the assertions of the routine never fail *)
Theorem C36_succeeds_iff : forall P fuel t (m : mesh P) ln, line_ready P t m ->
  ((exists m' f, cut_line P (S fuel) 2 t m ln = Ok (m', f)) <-> line_cuttable P t m ln) /\
  (forall e, cut_line P (S fuel) 2 t m ln = Err e -> e = IndexError \/ e = ValueError \/ e = NetworkXError).
Proof. exact succeeds_iff. Qed.
Print Assumptions C36_succeeds_iff.
(** a list of lines is a sequence of such steps, or stops at the first line that cannot be cut *)
Theorem C36_all_lines : forall P fuel t lines (m : mesh P), t_point_clones t <> t_line t -> line_ready P t m ->
  (exists m' fs, cut_lines P (S fuel) 2 t m lines = Ok (m', fs) /\ line_run P t m lines m' fs /\ line_ready P t m') \/
  (exists e l1 ln l2 m1 fs, cut_lines P (S fuel) 2 t m lines = Err e /\ (e = IndexError \/ e = ValueError \/ e = NetworkXError) /\
     lines = l1 ++ ln :: l2 /\ line_run P t m l1 m1 fs /\ line_ready P t m1 /\ ~ line_cuttable P t m1 ln).
Proof. exact all_lines. Qed.
Print Assumptions C36_all_lines.
Theorem C36_other_dimensions : forall P fuel d t (m : mesh P) ln lines, d <> 2 ->
  cut_line P fuel d t m ln = Err AssertionError /\ cut_lines P fuel d t m (ln :: lines) = Err AssertionError.
Proof. exact other_dims. Qed.
Print Assumptions C36_other_dimensions.
(** meshes built from a file, with the tag of the lines on edges only, satisfy the hypothesis *)
Theorem C36_built_mesh_ready : forall P t blocks physical cs (pts : list P),
  well_shaped blocks -> build_conformal_mesh (length pts) blocks physical = Ok cs ->
  fully_tagged blocks physical -> all_points_used (length pts) blocks physical -> distinct_nodes blocks ->
  (forall d row, In (d, row, Some (t_line t)) (input_rows blocks physical) -> d = 1) ->
  line_ready P t (mk_mesh P cs pts).
Proof. exact built_line_ready. Qed.
Print Assumptions C36_built_mesh_ready.
Example C36_example : line_ready Z ex_tags ex_line_mesh /\ t_point_clones ex_tags <> t_line ex_tags /\
  exists m' fs, cut_lines Z 1 2 ex_tags ex_line_mesh [ex_line 0; ex_line 20] = Ok (m', fs) /\
    length (m_cells Z m') = 30 /\ m_points Z m' = [0; 0; 1; -1; 20; 20; 21; 19; 5; -5; 25; 15]%Z /\
    fs = [mk_interface_of ([4], [22], [24]) ([0], [23], [25]); mk_interface_of ([15], [26], [28]) ([11], [27], [29])] /\
    nth_error (m_cells Z m') 10 = Some (Some (mk_cell 2 10 [9; 1; 3] (Some 1%Z) [[25; 1; 3]; [24; 7; 8]; [10]])) /\
    nth_error (m_cells Z m') 16 = Some (Some (mk_cell 1 16 [10; 6] None [[27; 13]; [16]])) /\
    nth_error (m_cells Z m') 28 = Some (Some (mk_cell 1 28 [11; 5] (Some 70%Z) [[29; 12]; [28]])).
Proof.
  split; [exact ex_line_ready|]. split; [discriminate|]. do 2 eexists. split; [vm_compute; reflexivity|]. repeat split.
Qed.
(** cutting twice along the same line fails, as does a line without edges *)
Example C36_example_fails :
  cut_lines Z 1 2 ex_tags ex_line_mesh [ex_line 0; ex_line 0] = Err NetworkXError /\
  cut_lines Z 1 2 ex_tags ex_line_mesh [ex_line 0; ex_line 3] = Err ValueError.
Proof. split; vm_compute; reflexivity. Qed.
(** id = index is not enough for the assertions to hold: nodes must agree with vertices *)
Theorem C36_id_index_refuted : exists (m : mesh Z) t ln, layered_mesh (m_cells Z m) /\ cut_line Z 1 2 t m ln = Err AssertionError.
Proof. exists ex_off_mesh, ex_tags, ex_off_line. split; [exact ex_off_layered|vm_compute; reflexivity]. Qed.
Print Assumptions C36_id_index_refuted.
