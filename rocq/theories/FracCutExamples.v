(** * Data for the examples of C111: two triangles and two fractures, on their common edge and on a
    side *)
From Coq Require Import List Arith ZArith Bool Lia.
From Verif Require Import Base MeshModel MeshSpec MeshExamples GraphModel CutModel CutSpec CutProof4 FracCutModel.
Import ListNotations.

Definition two_blocks : list block :=
  [ mk_block KLine [[0; 1]; [2; 1]]; mk_block KTriangle [[0; 1; 2]; [3; 2; 1]] ].
Definition two_phys : list (list (option Z)) := [ [Some 7; Some 8]; [Some 1; Some 1] ]%Z.
Definition two_cells : cells :=
  Eval vm_compute in match build_conformal_mesh 4 two_blocks two_phys with Ok cs => cs | Err _ => [] end.
Definition two_mesh : mesh Z := mk_mesh Z two_cells [-3; 0; 0; 3]%Z.
Definition two_fractures : list (interface Z) :=
  [ mk_interface Z 7 (fun pts => (0 <? fold_right Z.add 4 pts)%Z); mk_interface Z 8 (fun pts => (0 <? fold_right Z.add 0 pts)%Z) ].

Lemma two_ready : cut_ready Z two_mesh.
Proof.
  apply (built_cut_ready two_blocks two_phys two_cells [-3; 0; 0; 3]%Z).
  - split; [intros b k row Hb Hk Hr; unfold two_blocks in *; blocks_in; simpl in *; inversion Hk; subst; blocks_in; reflexivity
           |intros b Hb; unfold two_blocks in *; blocks_in; simpl; discriminate].
  - vm_compute. reflexivity.
  - repeat constructor.
  - intros i Hi. do 4 (destruct i as [|i]; [
      solve [ eexists 2, [0; 1; 2], _; simpl; intuition | eexists 2, [3; 2; 1], _; simpl; intuition ] |]). simpl in Hi. lia.
  - intros b row Hb Hr; unfold two_blocks in *; blocks_in; simpl in Hr; blocks_in; nodup.
Qed.
