(** * Concrete meshes used by the examples next to the theorems *)
From Coq Require Import List Arith ZArith Bool Lia.
From Verif Require Import Base BaseProof MeshModel MeshSpec MeshProof4.
Import ListNotations.

(** Two triangles sharing the edge 1-2 (listed in opposite directions) with three tagged
    boundary lines, one of them tagged twice, and a tagged vertex. *)
Definition ex2_blocks : list block :=
  [ mk_block KLine [[0; 1]; [3; 1]; [1; 0]]; mk_block KVertex [[3]];
    mk_block KTriangle [[0; 1; 2]; [3; 2; 1]] ].
Definition ex2_phys : list (list (option Z)) :=
  [ [Some 5; Some 6; Some 7]; [Some 9]; [Some 1; Some 2] ]%Z.
Definition ex2 : cells :=
  Eval vm_compute in match build_conformal_mesh 4 ex2_blocks ex2_phys with Ok cs => cs | Err _ => [] end.

(** Two tetrahedra sharing a face, plus one tagged boundary triangle. *)
Definition ex3_blocks : list block :=
  [ mk_block KTriangle [[3; 0; 1]]; mk_block KTetra [[0; 1; 2; 3]; [4; 3; 2; 1]] ].
Definition ex3_phys : list (list (option Z)) := [ [Some 5]; [Some 1; Some 1] ]%Z.
Definition ex3 : cells :=
  Eval vm_compute in match build_conformal_mesh 5 ex3_blocks ex3_phys with Ok cs => cs | Err _ => [] end.

(** A triangle in a file with an unused fourth point. *)
Definition exh_blocks : list block := [ mk_block KTriangle [[0; 1; 2]] ].
Definition exh_phys : list (list (option Z)) := [ [Some 1] ]%Z.

Lemma ex2_built : build_conformal_mesh 4 ex2_blocks ex2_phys = Ok ex2.
Proof. vm_compute; reflexivity. Qed.
Lemma ex3_built : build_conformal_mesh 5 ex3_blocks ex3_phys = Ok ex3.
Proof. vm_compute; reflexivity. Qed.

Ltac blocks_in :=
  repeat match goal with
         | H : In _ [] |- _ => destruct H
         | H : In _ (_ :: _) |- _ => destruct H as [<-|H]
         | H : _ \/ _ |- _ => destruct H as [<-|H]
         | H : False |- _ => destruct H
         end.
Ltac well_shaped_tac :=
  split; [ intros b k row Hb Hk Hr; unfold ex2_blocks, ex3_blocks, exh_blocks in *; blocks_in; simpl in *;
           inversion Hk; subst; blocks_in; reflexivity
         | intros b Hb; unfold ex2_blocks, ex3_blocks, exh_blocks in *; blocks_in; simpl; discriminate ].

Lemma ex2_shaped : well_shaped ex2_blocks.  Proof. well_shaped_tac. Qed.
Lemma ex3_shaped : well_shaped ex3_blocks.  Proof. well_shaped_tac. Qed.
Lemma exh_shaped : well_shaped exh_blocks.  Proof. well_shaped_tac. Qed.
Lemma ex2_tagged : fully_tagged ex2_blocks ex2_phys.  Proof. repeat constructor. Qed.
Lemma ex3_tagged : fully_tagged ex3_blocks ex3_phys.  Proof. repeat constructor. Qed.
Lemma exh_tagged : fully_tagged exh_blocks exh_phys.  Proof. repeat constructor. Qed.
Lemma ex2_used : all_points_used 4 ex2_blocks ex2_phys.
Proof.
  intros i Hi. do 4 (destruct i as [|i]; [
    solve [ eexists 2, [0; 1; 2], _; simpl; intuition | eexists 2, [3; 2; 1], _; simpl; intuition ] |]).
  lia.
Qed.
Lemma ex3_used : all_points_used 5 ex3_blocks ex3_phys.
Proof.
  intros i Hi. do 5 (destruct i as [|i]; [
    solve [ eexists 3, [0; 1; 2; 3], _; simpl; intuition | eexists 3, [4; 3; 2; 1], _; simpl; intuition ] |]).
  lia.
Qed.
Ltac nodup := repeat constructor; simpl; intuition discriminate.
Lemma ex2_distinct : distinct_nodes ex2_blocks.
Proof. intros b row Hb Hr; unfold ex2_blocks in *; blocks_in; simpl in Hr; blocks_in; nodup. Qed.
Lemma ex3_distinct : distinct_nodes ex3_blocks.
Proof. intros b row Hb Hr; unfold ex3_blocks in *; blocks_in; simpl in Hr; blocks_in; nodup. Qed.

Lemma ex2_good : good_mesh ex2.
Proof. exact (good_lemma _ _ _ _ ex2_shaped ex2_built ex2_tagged ex2_used ex2_distinct). Qed.
Lemma ex3_good : good_mesh ex3.
Proof. exact (good_lemma _ _ _ _ ex3_shaped ex3_built ex3_tagged ex3_used ex3_distinct). Qed.
