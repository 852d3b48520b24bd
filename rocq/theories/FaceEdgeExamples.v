(** * Concrete edges of intersected faces *)
From Coq Require Import List Arith ZArith Bool Reals Lra Lia.
From Verif Require Import Base VecBase GeoModel GeoExamples VertexModel VertexSpec ShapeExamples VertexExamples EmbedModel EmbedSpec EmbedProof LinesModel FaceCutModel FaceCutSpec FaceEdgeModel FaceEdgeProof.
Import ListNotations.
Local Open Scope R_scope.

Definition seam (x : R) : segment := (P x 0 0, P x 0 1).
Lemma seam_less : pair_compare (seam 1) (seam 2) = Lt.
Proof.
  pose proof (pair_compare_spec (seam 1) (seam 2)) as C. destruct (pair_compare (seam 1) (seam 2)); [|auto|].
  - injection C as C. lra.
  - unfold seg_lex, lex, seam, P in C. cbn in C. lra.
Qed.
Lemma seam_greater : pair_compare (seam 2) (seam 1) = Gt.
Proof.
  pose proof (pair_compare_spec (seam 2) (seam 1)) as C. destruct (pair_compare (seam 2) (seam 1)); [| |auto].
  - injection C as C. lra.
  - unfold seg_lex, lex, seam, P in C. cbn in C. lra.
Qed.
Lemma seam_same x : pair_compare (seam x) (seam x) = Eq.
Proof. pose proof (pair_compare_spec (seam x) (seam x)) as C. destruct (pair_compare _ _); auto; destruct (seg_lex_irrefl _ C). Qed.
Lemma seams_example : create_edges argsort_example [(5%Z, P 9 9 9)] [seam 2; seam 1; seam 2] 20 6 30 =
  Ok ([(5%Z, P 9 9 9); (6%Z, P 1 0 0); (7%Z, P 1 0 1); (8%Z, P 2 0 0); (9%Z, P 2 0 1)], [((20%Z, [1; 2]%nat), 31%Z); ((21%Z, [3; 4]%nat), 32%Z)], [1; 0; 1]%nat).
Proof.
  assert (U : unique_pairs [seam 2; seam 1; seam 2] = [seam 1; seam 2]).
  { unfold unique_pairs. cbn [fold_right insert_pair]. rewrite seam_less. cbn [insert_pair]. rewrite seam_greater. cbn [insert_pair]. rewrite seam_same. reflexivity. }
  unfold create_edges. rewrite U. unfold build_disjoint_lines. rewrite (lines_loop _ argsort_example_ok). cbn [bind map pair_place fst snd]. rewrite !seam_less, !seam_greater, !seam_same. reflexivity.
Qed.
