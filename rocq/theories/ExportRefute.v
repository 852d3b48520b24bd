(** * Export of solutions: claims that fail *)
From Coq Require Import String List ZArith QArith Qcanon Bool Lia.
From Verif Require Import Base MeshModel MeshSpec MeshProof4 MeshExamples GraphModel CutModel FormModel FormSpec FormExamples AdExamples PostModel PostSpec
  ExportModel ExportSpec ExportProof5 ExportProof6 ExportExamples.
Import ListNotations.
Open Scope list_scope.
Open Scope nat_scope.

Lemma only_one : forall (P : Type) (m : mesh P) (fld : vtk_field Qs) tags n c, carries (m_cells P m) fld tags c -> In n (c_nodes c) ->
  (forall c', carries (m_cells P m) fld tags c' -> In n (c_nodes c') -> c' = c) -> forall adj, around (m_cells P m) fld tags n adj -> adj = [c].
Proof.
  intros P m fld tags n c C K U adj (ND & AR). assert (I : In c adj) by (apply AR; split; assumption).
  assert (A : forall c', In c' adj -> c' = c) by (intros c' H; apply AR in H as (H1 & H2); apply U; assumption).
  destruct adj as [|x [|y l]]; [destruct I|rewrite (A x (or_introl eq_refl)); reflexivity|].
  exfalso. inversion ND as [|? ? N1 _]. apply N1. left. rewrite (A x (or_introl eq_refl)), (A y (or_intror (or_introl eq_refl))). reflexivity.
Qed.

Lemma components_refuted : exists (m : mesh Qc) (sp : vtk_space Qs) alpha name fld c file data,
  good_points m /\ vs_fields sp = [(name, fld)] /\ node_readable m sp alpha name fld (tags_of sp name) /\ lagrange (vf_post fld) = true /\ comp_of fld = 2 /\
  around (m_cells Qc m) fld (tags_of sp name) 0 [c] /\
  write_vtk_file m 1 sp alpha [] = Ok file /\ dget (vk_point file) (String.append name "_h") = Some data /\
  nth_error data 0 = Some [Some (vertex_value alpha fld 0 c 0 0); Some (vertex_value alpha fld 0 c 0 0)] /\
  vertex_value alpha fld 0 c 1 0 <> vertex_value alpha fld 0 c 0 0.
Proof.
  assert (EX : exists c, cell_at ek 3 c) by (eexists; reflexivity). destruct EX as (c & Hc).
  destruct (write_vtk_file ek_m 1 ek_sp ek_alpha []) as [file|] eqn:E; [|apply (f_equal failing) in E; vm_compute in E; discriminate].
  destruct (dget (vk_point file) "u_h"%string) as [data|] eqn:ED.
  2:{ exfalso. revert ED. replace file with (match write_vtk_file ek_m 1 ek_sp ek_alpha [] with Ok f => f | Err _ => file end) by (rewrite E; reflexivity).
    intros ED. apply (f_equal (fun o : option (rows Qs) => match o with Some _ => true | None => false end)) in ED. vm_compute in ED. discriminate. }
  exists ek_m, ek_sp, ek_alpha, "u"%string, ek_u, c, file, data. injection Hc as <-.
  split; [exact ek_good|]. split; [reflexivity|]. split; [exact ek_readable|]. split; [reflexivity|]. split; [reflexivity|]. split.
  - split; [constructor; [intros []|constructor]|]. intros c. split.
    + intros [<-|[]]. split; [|left; reflexivity]. split; [exists 3; reflexivity|]. split; [reflexivity|left; reflexivity].
    + intros (((i & C1) & C2 & _) & K). simpl in C2. do 5 (destruct i as [|i]; [injection C1 as <-; try discriminate C2; simpl in K; try (left; reflexivity); exfalso; lia|]).
      unfold cell_at in C1. simpl in C1. destruct i; discriminate.
  - split; [exact E|]. split; [exact ED|]. split.
    + assert (X : Some data = match write_vtk_file ek_m 1 ek_sp ek_alpha [] with Ok f => dget (vk_point f) "u_h"%string | Err _ => None end) by (rewrite E, ED; reflexivity).
      assert (Y : nth_error data 0 = match match write_vtk_file ek_m 1 ek_sp ek_alpha [] with Ok f => dget (vk_point f) "u_h"%string | Err _ => None end with Some d => nth_error d 0 | None => None end)
        by (rewrite <- X; reflexivity).
      rewrite Y. vm_compute. reflexivity.
    + intros X. apply (f_equal (fun x : Qc => this x)) in X. vm_compute in X. discriminate.
Qed.

Lemma last_field_refuted : exists (m : mesh pt) (sp : vtk_space Qs) functions alpha front last fld file,
  good_points m /\ NoDup (dkeys (vs_fields sp)) /\ vs_fields sp = front ++ [(last, fld)] /\ dget (vs_tags sp) last <> None /\
  (forall name fld, In (name, fld) (vs_fields sp) -> vf_dim fld <= 3 /\ (exists f, dget functions name = Some f /\ fits 2 fld f) /\
     if in_dec string_dec name [] then on_cells 2 sp alpha fld (tops (m_cells pt m) 2) else on_nodes m 2 sp alpha name fld (tags_of sp name)) /\
  write_vtk_file_with_exact_solution ev_centroid m 2 sp functions alpha [] = Ok file /\
  vk_type file = "triangle"%string /\ map (@length nat) (vk_cells file) = [2; 2] /\ map (@length nat) (map c_nodes (tops (m_cells pt m) 2)) = [3; 3].
Proof.
  destruct (write_vtk_file_with_exact_solution ev_centroid ev_m 2 el_sp el_funs ev_alpha []) as [file|] eqn:E; [|apply (f_equal failing) in E; vm_compute in E; discriminate].
  exists ev_m, el_sp, el_funs, ev_alpha, [("u"%string, ev_u)], "l"%string, el_l, file.
  split; [exact ev_good|]. split; [exact el_names|]. split; [reflexivity|]. split; [discriminate|]. split; [exact el_fields|]. split; [exact E|].
  assert (X : file = match write_vtk_file_with_exact_solution ev_centroid ev_m 2 el_sp el_funs ev_alpha [] with Ok f => f | Err _ => file end) by (rewrite E; reflexivity).
  rewrite X. split; [vm_compute; reflexivity|]. split; vm_compute; reflexivity.
Qed.

Lemma error_refuted : exists (m : mesh pt) (sp : vtk_space Qs) functions (exacts : string -> pt -> nat -> Qs) alpha name fld n,
  good_points m /\ vs_fields sp = [(name, fld)] /\ on_nodes m 2 sp alpha name fld (tags_of sp name) /\ comp_of fld = 2 /\ lagrange (vf_post fld) = true /\
  dget functions name = Some (fun x => Axis1 2 (exacts name x)) /\ n < length (m_points pt m) /\
  (forall c n x r, carries (m_cells pt m) fld (tags_of sp name) c -> In n (c_nodes c) -> nth_error (m_points pt m) n = Some x -> r < 2 ->
     vertex_value alpha fld n c r 0 = exacts name x r) /\
  forall ksqrt : Qs -> Qs, exists file data, write_pointwise_l2_error ev_centroid ksqrt m 2 sp functions alpha [] = Ok file /\
    dget (vk_point file) (String.append name "_error") = Some data /\ nth_error data n = Some [Some (ksqrt (q 8))].
Proof.
  exists ev_m, ew_sp, ew_funs, ew_exact, ew_alpha, "w"%string, ev_w, 0.
  split; [exact ev_good|]. split; [reflexivity|]. split; [exact (proj2 (proj2 (proj2 (ew_fields "w"%string ev_w (or_introl eq_refl)))))|].
  split; [reflexivity|]. split; [reflexivity|]. split; [reflexivity|]. split; [simpl; lia|]. split.
  - intros c n x r ((i & C1) & C2 & C3) K EX Hr. destruct (ev_cases i c C1 C2) as [E|E]; injection E as <-; simpl in K; repeat (destruct K as [<-|K]); try destruct K;
      (destruct r as [|[|r]]; [| |lia]); apply Qc_is_canon; vm_compute; reflexivity.
  - intros ksqrt. destruct (write_error_pairs Qs_ring ev_centroid ksqrt ev_m 2 ew_sp ew_funs ew_exact ew_alpha [] ev_good) as (file & E & _ & _ & H & _);
      [lia|exact ew_names|exact ew_fields|].
    cbn in H. destruct H as (rs & rest & L & EP & (data & -> & NR) & ->). exists file, data. split; [exact E|]. rewrite EP. split; [reflexivity|].
    destruct NR as (_ & NR). destruct (NR 0) as (adj & AR & EN); [simpl; lia|].
    set (c9 := match nth_error ex2 9 with Some (Some c) => c | _ => mk_cell 0 0 [] None [] end).
    assert (EA : adj = [c9]).
    { apply (only_one pt ev_m ev_w ev_tags 0 c9); [| | |exact AR].
      - split; [exists 9; reflexivity|]. split; [reflexivity|left; reflexivity].
      - left. reflexivity.
      - intros c' ((i & C1) & C2 & _) K. destruct (ev_cases i c' C1 C2) as [X|X]; injection X as <-; [reflexivity|]. simpl in K. lia. }
    rewrite EN, EA. unfold error_row. change (nth_error (m_points pt ev_m) 0) with (Some (q 0, q 0)). cbv beta iota.
    apply (f_equal (fun z : Qs => Some [Some (ksqrt z)])). apply Qc_is_canon. vm_compute. reflexivity.
Qed.
