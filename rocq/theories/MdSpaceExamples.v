(** * Fields and an object used by the examples about MDProductSpace *)
From Coq Require Import List Arith ZArith Bool.
From Verif Require Import Base MeshModel MeshExamples SpaceModel SpaceExamples MdSpaceModel.
Import ListNotations.

Definition md_example : md nat := mk_md [1; 2] None None None None None None.
Definition md_fields : dict nat field := [(0, mk_field 3 1 rt0 1 ex2 3); (1, mk_field 1 1 rt0 2 ex2 3); (2, mk_field 3 1 p1 0 ex2 3)].
Definition md_fields_zero : dict nat field := [(0, mk_field 1 1 rt0 1 ex2 3); (1, mk_field 0 1 rt0 2 ex2 3)].
Lemma md_fields_fine : forall n f, In (n, f) md_fields -> exists s, new_space (f_cells f) (f_mesh_dim f) (f_dim f) (f_comps f) (f_layout f) = Ok s.
Proof. intros n f [H|[H|[H|[]]]]; inversion H; eexists; reflexivity. Qed.
