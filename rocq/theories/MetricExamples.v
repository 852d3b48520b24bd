(** * Concrete cases for sizes of cells and meshes *)
From Coq Require Import List Arith Bool ZArith Reals Lra Lia.
From Verif Require Import Base MeshModel OrientModel VecBase VecProof CutModel MetricModel MetricSpec.
Import ListNotations.
Local Open Scope R_scope.

(** two triangles with sides 3, 4, 5 and 6, 8, 10, an edge and a point *)
Definition mx_points : list vec := [mk_vec 0 0 0; mk_vec 3 0 0; mk_vec 0 4 0; mk_vec 6 0 0; mk_vec 0 8 0].
Definition mx_small : cell := mk_cell 2 0 [0; 1; 2]%nat (Some 1%Z) [].
Definition mx_large : cell := mk_cell 2 1 [0; 3; 4]%nat (Some 2%Z) [].
Definition mx_edge : cell := mk_cell 1 2 [0; 1]%nat None [].
Definition mx_point : cell := mk_cell 0 3 [1]%nat (Some 1%Z) [].
Definition mx_mesh : mesh vec := mk_mesh vec [Some mx_small; Some mx_edge; Some mx_large; Some mx_point] mx_points.

Lemma norm_val : forall v x, 0 <= x -> dot v v = x * x -> norm v = x.
Proof. intros v x H E. unfold norm. rewrite E. apply sqrt_square. exact H. Qed.
Ltac maxes := repeat match goal with
  | |- context [Rmax ?a ?b] => first [rewrite (Rmax_left a b) by lra | rewrite (Rmax_right a b) by lra]
  | |- context [Rmin ?a ?b] => first [rewrite (Rmin_left a b) by lra | rewrite (Rmin_right a b) by lra]
  end.
Lemma mx_small_diam : cell_diam mx_mesh mx_small = Ok 5.
Proof.
  unfold cell_diam. simpl. unfold differences. simpl. unfold vsub. simpl.
  rewrite (norm_val (mk_vec (3 - 0) _ _) 3), (norm_val (mk_vec (0 - 0) (4 - 0) _) 4), (norm_val (mk_vec (0 - 3) (0 - 0) _) 3),
    (norm_val (mk_vec (0 - 3) (4 - 0) _) 5), (norm_val (mk_vec (0 - 0) (0 - 4) _) 4), (norm_val (mk_vec (3 - 0) (0 - 4) _) 5);
    try lra; try (unfold dot; simpl; ring).
  maxes. reflexivity.
Qed.
Lemma mx_large_diam : cell_diam mx_mesh mx_large = Ok 10.
Proof.
  unfold cell_diam. simpl. unfold differences. simpl. unfold vsub. simpl.
  rewrite (norm_val (mk_vec (6 - 0) (0 - 0) _) 6), (norm_val (mk_vec (0 - 0) (8 - 0) _) 8), (norm_val (mk_vec (0 - 6) (0 - 0) _) 6),
    (norm_val (mk_vec (0 - 6) (8 - 0) _) 10), (norm_val (mk_vec (0 - 0) (0 - 8) _) 8), (norm_val (mk_vec (6 - 0) (0 - 8) _) 10);
    try lra; try (unfold dot; simpl; ring).
  maxes. reflexivity.
Qed.
Lemma mx_size : mesh_size mx_mesh 2 None None = Ok (5, 15 / 2, 10).
Proof.
  unfold mesh_size, cells_with. cbn [mapM mx_mesh m_cells bind filter c_dim mx_small mx_edge mx_large mx_point Nat.eqb tag_matches andb].
  fold mx_mesh mx_small mx_large. rewrite mx_small_diam, mx_large_diam. simpl. maxes. f_equal. f_equal. f_equal. unfold np_mean. simpl. lra.
Qed.
Lemma mx_size_tag : mesh_size mx_mesh 3 (Some 2%nat) (Some 2%Z) = Ok (10, 10, 10).
Proof.
  unfold mesh_size, cells_with. cbn -[cell_diam mx_mesh np_mean Rmax Rmin].
  change (mapM (fun slot : option cell => match slot with Some c => Ok c | None => Err AttributeError end) (m_cells vec mx_mesh)) with (Ok [mx_small; mx_edge; mx_large; mx_point]).
  cbn -[cell_diam mx_mesh np_mean Rmax Rmin]. fold mx_large. rewrite mx_large_diam. simpl. f_equal. f_equal. f_equal. unfold np_mean. simpl. lra.
Qed.
Lemma mx_size_fails : mesh_size mx_mesh 2 (Some 0%nat) None = Err ValueError /\ mesh_size mx_mesh 2 (Some 3%nat) None = Err ValueError /\
  mesh_size (mk_mesh vec [Some mx_small; None] mx_points) 2 None None = Err AttributeError /\
  mesh_size (mk_mesh vec [Some mx_small] [mk_vec 0 0 0]) 2 None None = Err IndexError.
Proof. repeat split. Qed.
Lemma mx_has : has_points mx_mesh mx_small [mk_vec 0 0 0; mk_vec 3 0 0; mk_vec 0 4 0].
Proof. repeat constructor. Qed.
Lemma mx_listed : listed 2 (Some 2%Z) (m_cells vec mx_mesh) [mx_large].
Proof.
  apply listed_no; [right; exists 2%Z; split; [reflexivity|discriminate]|]. apply listed_no; [left; discriminate|].
  apply listed_yes; [reflexivity|intros t E; injection E as <-; reflexivity|]. apply listed_no; [left; discriminate|]. constructor.
Qed.
