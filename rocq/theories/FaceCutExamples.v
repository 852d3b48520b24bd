(** * Concrete intersected faces *)
From Coq Require Import List Arith Bool Reals Lra Lia.
From Verif Require Import Base VecBase VecProof GeoModel GeoSpec GeoProof GeoExamples VertexModel EmbedSpec EmbedProof EmbedExamples IntersectSpec IntersectExamples FaceCutModel FaceCutSpec FaceCutProof.
Import ListNotations.
Local Open Scope R_scope.

(** The outline of the quadrilateral above the segment from [p] to [q], and its edges with the names given *)
Definition wall (a b c d : nat) (p q : vec) : face nat :=
  let p' := P (vx p) (vy p) 1 in let q' := P (vx q) (vy q) 1 in
  mk_face false [p; q; q'; p'] [(a, (p, q)); (b, (q, q')); (c, (q', p')); (d, (p', p))].
(** The triangle in the plane y = 0 *)
Definition gable : face nat := mk_face false [P (-9) 0 0; P 9 0 0; P 0 0 9] [(1, (P (-9) 0 0, P 9 0 0)); (2, (P 9 0 0, P 0 0 9)); (3, (P 0 0 9, P (-9) 0 0))]%nat.
Definition west : face nat := wall 4 5 6 7 (P 1 (-1) 0) (P 1 1 0).
Definition east : face nat := wall 8 9 10 11 (P 2 (-1) 0) (P 2 1 0).
Definition shell : face nat := mk_face true [] [].
(** A triangle in the plane y = 0 meets a wall across it in a vertical segment; two walls do not
    meet. *)
Definition wall_test (a b : list vec) : res (option segment) :=
  match b with
  | p :: _ => Ok (if (length a =? 3)%nat then Some (P (vx p) 0 0, P (vx p) 0 1) else None)
  | [] => Err IndexError
  end.
Definition eq_nat (a b : nat) : res bool := Ok (a =? b)%nat.
Definition keep (pairs : list segment) (cases : list (nat * nat)) : res (list segment * list (nat * nat)) := Ok (pairs, cases).

Lemma isclose_01 : isclose_default 2 1 = false.
Proof. apply not_true_iff_false. intros H. apply isclose_default_iff in H. unfold near in H. rewrite !Rabs_right in H by lra. lra. Qed.
Lemma walls_example : intersect_faces wall_test eq_nat keep [gable; shell; west; east] [gable; shell; west; east] =
  Ok ([(P 1 0 0, P 1 0 1); (P 2 0 0, P 2 0 1)], [(0, 2); (0, 3)]%nat).
Proof.
  assert (F : forall p q s e edges, ~ near_point p (fst s) -> ~ near_point q (fst s) -> points_on_face_boundary (E:=nat) s ((e, (p, q)) :: edges) = points_on_face_boundary s edges).
  { intros p q s e edges H1 H2. cbn. unfold allclose_pair. cbn [fst snd].
    replace (allclose_default p (fst s)) with false by (symmetry; apply not_true_iff_false; intros H; apply H1, allclose_default_iff; auto).
    replace (allclose_default q (fst s)) with false by (symmetry; apply not_true_iff_false; intros H; apply H2, allclose_default_iff; auto). reflexivity. }
  assert (G : forall x s, x = 1 \/ x = 2 -> fst s = P x 0 0 -> points_on_face_boundary s (f_edges gable) = None).
  { intros x s X S. unfold gable. cbn [f_edges]. rewrite !F; [reflexivity|..]; rewrite S; unfold near_point, near, P; cbn; intros (H & _); revert H; destruct X as [-> | ->]; unfold Rabs; repeat destruct Rcase_abs; lra. }
  unfold intersect_faces. cbn [length seq combine foldM face_object_step fst snd f_shell shell gable west east wall face_tool_step Nat.leb f_outline wall_test Nat.eqb bind].
  fold gable. cbn [vx P]. change [(1%nat, (P (-9) 0 0, P 9 0 0)); (2%nat, (P 9 0 0, P 0 0 9)); (3%nat, (P 0 0 9, P (-9) 0 0))] with (f_edges gable).
  rewrite (G 1) by (auto; reflexivity). cbn [common_edge bind existsb app].
  cbn [face_tool_step fst snd f_shell shell gable west east wall Nat.leb f_outline wall_test Nat.eqb bind length vx P f_edges].
  change [(1%nat, (P (-9) 0 0, P 9 0 0)); (2%nat, (P 9 0 0, P 0 0 9)); (3%nat, (P 0 0 9, P (-9) 0 0))] with (f_edges gable).
  rewrite (G 2) by (auto; reflexivity). cbn [common_edge bind existsb app].
  replace (allclose_pair (P 2 0 0, P 2 0 1) (P 1 0 0, P 1 0 1)) with false; [reflexivity|].
  unfold allclose_pair, allclose_default. cbn [fst snd vx P]. rewrite isclose_01. reflexivity.
Qed.

(** Three walls through the same vertical segment *)
Definition cross_wall (a b c d : nat) (x y : R) : face nat := wall a b c d (P (- x) (- y) 0) (P x y 0).
Definition star : list (face nat) := [cross_wall 1 2 3 4 1 0; cross_wall 5 6 7 8 0 1; cross_wall 9 10 11 12 1 1].
Definition star_test (a b : list vec) : res (option segment) := Ok (Some (P 0 0 0, P 0 0 1)).
Lemma star_sides f e : In f star -> ~ side_at f (P 0 0 0, P 0 0 1) e.
Proof.
  intros I (b & t & a & Q & J & _). assert (T : In (e, t) (f_edges f)) by (rewrite Q; apply in_or_app; right; left; auto). clear Q.
  destruct I as [<-|[<-|[<-|[]]]]; cbn in T; repeat destruct T as [T|T]; try (destruct T; fail); injection T as <- <-;
    unfold joins, near_pair, near_point, near, P in J; cbn in J; revert J; unfold Rabs; repeat destruct Rcase_abs; lra.
Qed.
Lemma star_cut i j f g : (i < j)%nat -> nth_error star i = Some f -> nth_error star j = Some g -> f_shell f = false -> f_shell g = false -> face_cut star_test eq_nat star star (i, j) (P 0 0 0, P 0 0 1).
Proof.
  intros L F G S1 S2. split; [exact L|]. exists f, g. repeat split; auto. intros e e' S. destruct (star_sides f e (nth_error_In _ _ F) S).
Qed.
Lemma star_returns : tests_return star_test eq_nat star star.
Proof. intros i j f g _ _ _. eexists. split; [reflexivity|]. intros s e e' _ _ _. eexists. reflexivity. Qed.
Lemma star_example : face_cut star_test eq_nat star star (0, 1)%nat (P 0 0 0, P 0 0 1) /\ face_cut star_test eq_nat star star (0, 2)%nat (P 0 0 0, P 0 0 1) /\
  intersect_faces star_test eq_nat keep star star = Err TypeError.
Proof.
  assert (C1 : face_cut star_test eq_nat star star (0, 1)%nat (P 0 0 0, P 0 0 1)) by (eapply star_cut; try reflexivity; lia).
  assert (C2 : face_cut star_test eq_nat star star (0, 2)%nat (P 0 0 0, P 0 0 1)) by (eapply star_cut; try reflexivity; lia).
  split; [exact C1|]. split; [exact C2|]. apply (faces_recur _ _ _ _ _ _ _ _ _ star_returns C1 C2); [right; cbn; lia|split; apply near_refl].
Qed.

(** A square in the plane z = 0 with its corners on the axes *)
Definition diamond : list vec := [P (-1) 0 0; P 0 (-1) 0; P 1 0 0; P 0 1 0].
Lemma diamond_axis : face_axis diamond = Ok 1%nat.
Proof.
  unfold face_axis, diamond. cbn [get_at nth_error bind]. f_equal. unfold vsub, P. cbn [vx vy vz].
  match goal with |- context [norm ?v] => assert (N : norm v = 2) by (apply norm_is; [lra|unfold dot; cbn; lra]); rewrite N end.
  replace ((1 - -1) / 2) with 1 by lra. replace ((0 - 0) / 2) with 0 by lra. unfold argmin3. rewrite Rabs_R0, Rabs_R1.
  rewrite (proj2 (Rleb_false 1 0)) by lra. rewrite (proj2 (Rleb_true 0 0)) by lra. reflexivity.
Qed.
Lemma axis_refuted : ~ (forall pts k c axis, (k < 3)%nat -> (forall p, In p pts -> coord k p = c) -> (exists p q r, In p pts /\ In q pts /\ In r pts /\ area2 k (vsub q p) (vsub r p) <> 0) ->
  face_axis pts = Ok axis -> exists p q r, In p pts /\ In q pts /\ In r pts /\ area2 axis (vsub q p) (vsub r p) <> 0).
Proof.
  intros H. destruct (H diamond 2%nat 0 1%nat) as (p & q & r & Ip & Iq & Ir & A); [lia| | |exact diamond_axis|].
  - intros p I. cbn in I. repeat destruct I as [<-|I]; reflexivity || destruct I.
  - exists (P (-1) 0 0), (P 0 (-1) 0), (P 1 0 0). unfold diamond. cbn [In]. split; [auto|]. split; [auto|]. split; [auto|]. unfold area2, coord, cross, vsub, P. cbn. lra.
  - apply A. assert (Z : forall x, In x diamond -> vz x = 0) by (intros x I; cbn in I; repeat destruct I as [<-|I]; reflexivity || destruct I).
    unfold area2, coord, cross, vsub. cbn. rewrite (Z p), (Z q), (Z r) by auto. ring.
Qed.
Lemma diamond_flat p : In p diamond -> vz p = 0.
Proof. intros I. cbn in I. repeat destruct I as [<-|I]; reflexivity || destruct I. Qed.
Lemma slab_axis : face_axis [P 0 0 0; P 0 2 0; P 0 2 1; P 0 0 1] = Ok 0%nat.
Proof.
  apply (axis_lemma _ (P 0 0 0) (P 0 2 1)); try reflexivity; [lia|]. intros [|[|[|m]]] L D; try lia; unfold coord, P; cbn; lra.
Qed.
