(** * Concrete DoF maps used by the examples next to the theorems *)
From Coq Require Import List Arith ZArith Bool Lia.
From Verif Require Import Base MeshModel MeshSpec GraphModel DofModel DofSpec MeshExamples.
Import ListNotations.

(** The space used in the examples: vector-valued quadratic Lagrange element (one DoF at
    vertices and edges, two components) on both triangles of [ex2], numbered from 100. *)
Definition lag2 : list (list nat) := [[1; 1; 1]; [1; 1; 1]; [0]].
Definition tags12 : list (option Z) := [Some 1; Some 2]%Z.
Definition ex2_topo : topology :=
  Eval vm_compute in match build_data_on_physical_tags 1 ex2 2 2 tags12 with Ok t => t | Err _ => mk_topology [] 0 [] [] end.
Definition ex2_dofs : dofmap :=
  Eval vm_compute in match build_entity_maps ex2_topo lag2 2 2 100 with Ok m => m | Err _ => mk_dofmap ex2_topo [] 0 [] 0 end.
(** discontinuous linear element *)
Definition dg1 : list (list nat) := [[0; 0; 0]; [0; 0; 0]; [3]].
Definition ex2_dg : dofmap :=
  Eval vm_compute in match build_entity_maps ex2_topo dg1 2 1 0 with Ok m => m | Err _ => mk_dofmap ex2_topo [] 0 [] 0 end.

Ltac lists := repeat match goal with
  | H : In _ _ |- _ => simpl in H
  | H : _ \/ _ |- _ => destruct H
  | H : False |- _ => destruct H
  end; subst; auto.
Lemma ex2_numbered : numbered_space ex2 2 tags12 [1; 1; 0] 2 100 ex2_dofs.
Proof.
  exists 0, 2, ex2_topo, lag2. split; [exact ex2_good|].
  split; [vm_compute; reflexivity|]. split; [reflexivity|]. split; [|vm_compute; reflexivity].
  repeat constructor; try discriminate; intros; lists.
Qed.
Lemma ex2_dg_numbered : numbered_space ex2 2 tags12 [0; 0; 3] 1 0 ex2_dg.
Proof.
  exists 0, 2, ex2_topo, dg1. split; [exact ex2_good|].
  split; [vm_compute; reflexivity|]. split; [reflexivity|]. split; [|vm_compute; reflexivity].
  repeat constructor; try discriminate; intros; lists.
Qed.
Lemma ex2_c9 : exists c, space_cell ex2 2 tags12 9 c /\ c_sub c = [[0; 1; 2]; [4; 5; 6]; [9]].
Proof. eexists. split; [split; [reflexivity|split; [reflexivity|simpl; auto]]|reflexivity]. Qed.
Lemma ex2_c10 : exists c, space_cell ex2 2 tags12 10 c /\ c_sub c = [[3; 2; 1]; [4; 7; 8]; [10]].
Proof. eexists. split; [split; [reflexivity|split; [reflexivity|simpl; auto]]|reflexivity]. Qed.
