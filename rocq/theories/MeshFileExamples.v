(** * Concrete cases for the export of meshes *)
From Coq Require Import String List Arith ZArith Bool Sorted Lia.
From Verif Require Import Base MeshModel MeshSpec MeshProof4 GraphModel CutModel MeshExamples ColorModel MeshFileModel MeshFileSpec MeshFileProof.
Import ListNotations.
Open Scope list_scope.
Open Scope nat_scope.

Lemma ex2_files : closed_mesh ex2 /\ exists f2 f1 f0, write_vtk (fun _ _ _ => Err ValueError) ex2 None false = Ok [f2; f1; f0] /\
  mf_nodes f2 = [[0; 1; 2]; [3; 2; 1]] /\ mf_physical f2 = [Some 1; Some 2]%Z /\ mf_entity f2 = [9; 10] /\
  mf_nodes f1 = [[0; 1]; [3; 1]] /\ mf_physical f1 = [Some 7; Some 6]%Z /\ mf_name f0 = "geometric_mesh_0d.vtk"%string /\ mf_nodes f0 = [[3]].
Proof. split; [exact (proj1 ex2_good)|]. do 3 eexists. split; [vm_compute; reflexivity|]. vm_compute. repeat split. Qed.
Lemma ex3_files : all_given ex3_phys /\ exists f3 f2, write_vtk (fun _ _ _ => Err ValueError) ex3 (Some "a"%string) false = Ok [f3; f2] /\
  mf_name f3 = "a_3d.vtk"%string /\ mf_nodes f3 = [[0; 1; 2; 3]; [4; 3; 2; 1]] /\ mf_physical f3 = [Some 1; Some 1]%Z /\ mf_type f2 = "triangle"%string.
Proof.
  split; [intros l t [<-|[<-|[]]] I; simpl in I; intuition congruence|]. do 2 eexists. split; [vm_compute; reflexivity|]. vm_compute. repeat split.
Qed.
Lemma ex2_colored : exists c, cell_at ex2 9 c /\ tagged_of 2 c /\
  write_vtk (mesh_coloring (fun g _ => Ok (map (fun v => (v, fst v)) (g_nodes g))) 5 ex2 2) ex2 None true = Err ValueError.
Proof. eexists. split; [reflexivity|]. split; [split; [reflexivity|discriminate]|]. vm_compute. reflexivity. Qed.

(** Two tetrahedra, the second without tag *)
Definition ex4_phys : list (list (option Z)) := [ [Some 5]; [Some 1; None] ]%Z.
Definition ex4 : cells := Eval vm_compute in match build_conformal_mesh 5 ex3_blocks ex4_phys with Ok cs => cs | Err _ => [] end.
Lemma ex4_good : good_mesh ex4.
Proof.
  apply (good_lemma 5 ex3_blocks ex4_phys); [exact ex3_shaped|vm_compute; reflexivity|repeat constructor| |exact ex3_distinct].
  intros i Hi. do 5 (destruct i as [|i]; [
    solve [ eexists 3, [0; 1; 2; 3], _; simpl; intuition | eexists 3, [4; 3; 2; 1], _; simpl; intuition ] |]). lia.
Qed.
Lemma ex4_refuted : exists cs f fs, closed_mesh cs /\ write_vtk (fun _ _ _ => Err ValueError) cs None false = Ok (f :: fs) /\
  length (mf_nodes f) = 1 /\ length (mf_entity f) = 1 /\ length (mf_physical f) = 2 /\ ~ aligned cs 3 f.
Proof.
  exists ex4. do 2 eexists. split; [exact (proj1 ex4_good)|]. split; [vm_compute; reflexivity|]. split; [reflexivity|]. split; [reflexivity|]. split; [reflexivity|].
  intros (l & _ & N & _ & T). apply (f_equal (@length _)) in N. apply (f_equal (@length _)) in T. rewrite map_length in N, T. simpl in N, T. lia.
Qed.

(** A line of which only one end has a tag *)
Definition ex5_blocks : list block := [mk_block KVertex [[1]]; mk_block KLine [[0; 1]]].
Definition ex5_phys : list (list (option Z)) := [ [Some 5]; [None] ]%Z.
Definition ex5 : cells := Eval vm_compute in match build_conformal_mesh 2 ex5_blocks ex5_phys with Ok cs => cs | Err _ => [] end.
Lemma ex5_good : good_mesh ex5.
Proof.
  apply (good_lemma 2 ex5_blocks ex5_phys).
  - split; [intros b k row Hb Hk Hr|intros b Hb]; unfold ex5_blocks in Hb; blocks_in; simpl in *; try discriminate; inversion Hk; subst; blocks_in; reflexivity.
  - vm_compute. reflexivity.
  - repeat constructor.
  - intros i Hi. do 2 (destruct i as [|i]; [eexists 1, [0; 1], _; simpl; intuition|]). lia.
  - intros b row Hb Hr. unfold ex5_blocks in Hb. blocks_in; simpl in Hr; blocks_in; nodup.
Qed.
Lemma ex5_files : closed_mesh ex5 /\ (forall i c, cell_at ex5 i c -> c_mat c <> None -> c_dim c = 0) /\
  exists f, write_vtk (fun _ _ _ => Err ValueError) ex5 None true = Ok [f] /\ mf_nodes f = [[1]].
Proof.
  split; [exact (proj1 ex5_good)|]. split; [|eexists; split; [vm_compute; reflexivity|reflexivity]].
  intros i c H N. do 3 (destruct i as [|i]; [injection H as <-; simpl in *; congruence|]). unfold cell_at in H. destruct i; discriminate.
Qed.
