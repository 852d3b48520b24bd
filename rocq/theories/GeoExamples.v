(** * Concrete points *)
From Coq Require Import List Arith Bool Reals Lra Lia.
From Verif Require Import Base VecBase VecProof GeoModel GeoSpec GeoProof GeoProof2.
Import ListNotations.
Local Open Scope R_scope.

Definition P (x y z : R) : vec := mk_vec x y z.
Definition tol : R := 1 / 10000000000.

Lemma exact_least_squares d1 d2 r t s : vsub (vscale t d1) (vscale s d2) = r -> least_squares d1 d2 r (t, s).
Proof.
  intros E t' s'. cbn [fst snd]. rewrite E. replace (vsub r r) with vzero by vring. rewrite norm_vzero. apply norm_nonneg.
Qed.
Lemma least_squares_residual d1 d2 r t s ts : vsub (vscale t d1) (vscale s d2) = r -> least_squares d1 d2 r ts ->
  vsub (vscale (fst ts) d1) (vscale (snd ts) d2) = r.
Proof.
  intros E L. specialize (L t s). rewrite E in L. replace (vsub r r) with vzero in L by vring. rewrite norm_vzero in L.
  set (w := vsub (vsub (vscale (fst ts) d1) (vscale (snd ts) d2)) r) in *. pose proof (norm_nonneg w) as N.
  assert (Z : w = vzero) by (apply norm_zero; lra). apply vsub_zero in Z. exact Z.
Qed.
Lemma norm_x k y z : y = 0 -> z = 0 -> norm (P k y z) = Rabs k.
Proof.
  intros -> ->. unfold norm. replace (dot (P k 0 0) (P k 0 0)) with (Rsqr k) by (unfold dot, P, Rsqr; simpl; ring). apply sqrt_Rsqr_abs.
Qed.

(** The segment from 4 to 5 inside the segment from 0 to 10. *)
Lemma inside_missed_lemma lstsq : let a := P 0 0 0 in let b := P 10 0 0 in let c := P 4 0 0 in let d := P 5 0 0 in
  minimum_norm (vsub b a) (vsub d c) (vsub c a) (lstsq (vsub b a) (vsub d c) (vsub c a)) ->
  line_line_intersection lstsq tol tol a b c d tol = Ok LL_none /\
  line_line_intersection lstsq tol tol c d a b tol = Ok (LL_segment [c; d] [true; true]).
Proof.
  intros a b c d M. unfold tol.
  assert (F : forall x y, Rabs (x - y) > tol + tol * Rabs y -> forall e f g h, allclose tol (P x e f) (P y g h) = false).
  { intros x y H e f g h. unfold allclose, isclose. cbn [vx P]. destruct (Rleb (Rabs (x - y)) _) eqn:E; auto. apply Rleb_true in E. lra. }
  unfold tol in F. pose proof M as [L Mn].
  assert (Eq : forall t s, least_squares (vsub b a) (vsub d c) (vsub c a) (t, s) -> 10 * t - s = 4).
  { intros t s Hl. apply (least_squares_residual _ _ _ (2 / 5) 0) in Hl; [|unfold a, b, c, d, P; apply vec_ext; vec; field].
    cbn [fst snd] in Hl. apply (f_equal vx) in Hl. unfold a, b, c, d, P in Hl. vec. lra. }
  assert (K : least_squares (vsub b a) (vsub d c) (vsub c a) (40 / 101, - (4 / 101))).
  { apply exact_least_squares. unfold a, b, c, d, P; apply vec_ext; vec; field. }
  apply Mn in K. cbn [fst snd] in K. destruct (lstsq (vsub b a) (vsub d c) (vsub c a)) as [t s] eqn:Els. cbn [fst snd] in K.
  apply Eq in L. assert (t = 40 / 101) by nra. assert (s = - (4 / 101)) by lra. subst t s. clear Mn K Eq L M.
  split.
  - unfold line_line_intersection, points_line_intersection. cbn [map].
    assert (A : point_line_intersection (1 / 10000000000) a c d (1 / 10000000000) = None).
    { unfold point_line_intersection, c, d, a. rewrite !F; [|rewrite Rabs_R0, Rabs_right; lra|rewrite Rabs_R0, Rabs_right; lra].
      destruct (point_line_incidence _ _ _ _); auto.
      replace (vsub (P 5 0 0) (P 4 0 0)) with (P 1 0 0) by (unfold P; apply vec_ext; vec; ring).
      replace (vsub (P 0 0 0) (P 4 0 0)) with (P (-4) 0 0) by (unfold P; apply vec_ext; vec; ring).
      rewrite (norm_x 1 0 0), (norm_x (-4) 0 0) by auto. rewrite Rabs_R1. replace (Rabs (-4)) with 4 by (rewrite Rabs_left; lra).
      replace (Rltb 4 1) with false by (symmetry; apply Rltb_false; lra).
      replace (isclose (1 / 10000000000) 1 4) with false; [reflexivity|]. symmetry. apply Rleb_false. rewrite (Rabs_left (1 - 4)), Rabs_right; lra. }
    assert (B : point_line_intersection (1 / 10000000000) b c d (1 / 10000000000) = None).
    { unfold point_line_intersection, c, d, b. rewrite !F; [|rewrite (Rabs_left (5 - 10)), Rabs_right; lra|rewrite (Rabs_left (4 - 10)), Rabs_right; lra].
      destruct (point_line_incidence _ _ _ _); auto.
      replace (vsub (P 5 0 0) (P 4 0 0)) with (P 1 0 0) by (unfold P; apply vec_ext; vec; ring).
      replace (vsub (P 10 0 0) (P 4 0 0)) with (P 6 0 0) by (unfold P; apply vec_ext; vec; ring).
      rewrite (norm_x 1 0 0), (norm_x 6 0 0) by auto. rewrite Rabs_R1. replace (Rabs 6) with 6 by (rewrite Rabs_right; lra).
      replace (Rltb 6 1) with false by (symmetry; apply Rltb_false; lra).
      replace (isclose (1 / 10000000000) 1 6) with false; [reflexivity|]. symmetry. apply Rleb_false. rewrite (Rabs_left (1 - 6)), Rabs_right; lra. }
    rewrite A, B. cbn [is_some flat_map app]. unfold line_line_compute. rewrite Els.
    assert (S : Rltb 0 (- (4 / 101)) || isclose (1 / 10000000000) (- (4 / 101)) 0 = false).
    { apply orb_false_iff. split; [apply Rltb_false; lra|]. apply Rleb_false. rewrite Rabs_R0, Rabs_left; lra. }
    rewrite S. rewrite andb_false_r. reflexivity.
  - assert (A : forall k, (k = 4 \/ k = 5) -> point_line_intersection (1 / 10000000000) (P k 0 0) a b (1 / 10000000000) = Some (P k 0 0)).
    { intros k Hk. unfold point_line_intersection, a, b.
      rewrite !F; [|destruct Hk; subst k; [rewrite (Rabs_right (10 - 4)), Rabs_right|rewrite (Rabs_right (10 - 5)), Rabs_right]; lra|
                    destruct Hk; subst k; [rewrite (Rabs_left (0 - 4)), Rabs_right|rewrite (Rabs_left (0 - 5)), Rabs_right]; lra].
      replace (point_line_incidence (P 0 0 0) (P 10 0 0) (P k 0 0) (1 / 10000000000)) with true.
      2:{ symmetry. unfold point_line_incidence. apply isclose_true. unfold colinear_measurement.
          replace (cross (vsub (P k 0 0) (P 10 0 0)) (vsub (P 0 0 0) (P 10 0 0))) with vzero by (unfold P; apply vec_ext; vec; ring).
          rewrite norm_vzero, Rmult_0_r, Rminus_0_r, Rabs_R0. lra. }
      replace (vsub (P 10 0 0) (P 0 0 0)) with (P 10 0 0) by (unfold P; apply vec_ext; vec; ring).
      replace (vsub (P 0 0 0) (P 10 0 0)) with (P (-10) 0 0) by (unfold P; apply vec_ext; vec; ring).
      replace (vsub (P k 0 0) (P 0 0 0)) with (P k 0 0) by (unfold P; apply vec_ext; vec; ring).
      replace (vsub (P k 0 0) (P 10 0 0)) with (P (k - 10) 0 0) by (unfold P; apply vec_ext; vec; ring).
      rewrite !norm_x by auto. replace (Rabs (-10)) with 10 by (rewrite Rabs_left; lra).
      rewrite !le_test; auto; try lra.
      - destruct Hk; subst k; rewrite Rabs_left; lra.
      - rewrite (Rabs_right 10) by lra. destruct Hk; subst k; rewrite Rabs_right; lra. }
    unfold line_line_intersection, points_line_intersection. cbn [map]. unfold c, d. rewrite !A by auto. reflexivity.
Qed.

(** The unit tetrahedron and the unit square. *)
Lemma tetra_example : proper_simplex [P 0 0 0; P 1 0 0; P 0 1 0] (P 0 0 1) /\ proper_simplex [P 0 0 0; P 1 0 0] (P 0 1 0) /\ proper_simplex [P 0 0 0] (P 1 0 0).
Proof.
  repeat split; simpl.
  - unfold proper_tetra, P. vec. lra.
  - unfold proper_triangle, P. vec. intros H. apply (f_equal vz) in H. simpl in H. lra.
  - unfold P. intros H. apply (f_equal vx) in H. simpl in H. lra.
Qed.

(** The point (1/4, 1/4) lies in the unit triangle, the point (2, 2) outside. *)
Lemma triangle_example : proper_triangle (P 0 0 0) (P 1 0 0) (P 0 1 0) /\ in_triangle (P 0 0 0) (P 1 0 0) (P 0 1 0) (P (1 / 4) (1 / 4) 0).
Proof.
  split.
  - unfold proper_triangle, P. vec. intros H. apply (f_equal vz) in H. simpl in H. lra.
  - exists (1 / 4), (1 / 4). repeat split; try lra. unfold P. apply vec_ext; vec; field.
Qed.
Lemma far_segment a b p : norm (vsub b a) <= 2 -> 5 / 2 <= norm (vsub p a) <= 10 -> (forall q, q = a \/ q = b -> vx q <= 1 /\ vx p = 2) -> forall x, ~ near_segment tol tol p a b x.
Proof.
  intros Hab [Hp1 Hp2] Hq x [[_ H]|[[_ H]|(_ & _ & H & _)]].
  - destruct H as (H & _). destruct (Hq a) as [Q1 Q2]; auto. rewrite Q2 in H. rewrite (Rabs_left (vx a - 2)), (Rabs_right 2) in H by lra. unfold tol in H. lra.
  - destruct H as (H & _). destruct (Hq b) as [Q1 Q2]; auto. rewrite Q2 in H. rewrite (Rabs_left (vx b - 2)), (Rabs_right 2) in H by lra. unfold tol in H. lra.
  - unfold tol in H. lra.
Qed.
Lemma norm_bounds v lo hi : 0 <= lo -> 0 <= hi -> lo * lo <= dot v v <= hi * hi -> lo <= norm v <= hi.
Proof. intros Hl Hh H. pose proof (norm_nonneg v). rewrite <- norm_sq in H. split; nra. Qed.
Lemma outside_example : let a := P 0 0 0 in let b := P 1 0 0 in let c := P 0 1 0 in let p := P 2 2 0 in
  volume6 a b c p = 0 /\ ~ in_triangle a b c p /\
  (forall x, ~ near_segment tol tol p a b x) /\ (forall x, ~ near_segment tol tol p b c x) /\ (forall x, ~ near_segment tol tol p c a x).
Proof.
  intros a b c p. split; [unfold a, b, c, p, volume6, P; vec; ring|]. split.
  { intros (u & v & Hu & Hv & Huv & E). pose proof (f_equal vx E) as E1. pose proof (f_equal vy E) as E2. unfold a, b, c, p, P in *. vec. lra. }
  split; [|split].
  - apply far_segment; [apply (norm_bounds _ 0 2); try lra; unfold a, b, P; vec; lra| |intros q [->| ->]; unfold a, b, p, P; simpl; lra].
    apply norm_bounds; try lra. unfold a, p, P. vec. lra.
  - intros x [[_ H]|[[_ H]|(_ & _ & _ & H)]].
    + destruct H as (H & _). unfold b, p, P in H. simpl in H. rewrite (Rabs_left (1 - 2)), (Rabs_right 2) in H by lra. unfold tol in H. lra.
    + destruct H as (H & _). unfold c, p, P in H. simpl in H. rewrite (Rabs_left (0 - 2)), (Rabs_right 2) in H by lra. unfold tol in H. lra.
    + assert (norm (vsub c b) <= 3 / 2) by (apply (norm_bounds _ 0 (3 / 2)); try lra; unfold c, b, P; vec; lra).
      assert (2 <= norm (vsub p c) <= 10) by (apply norm_bounds; try lra; unfold c, p, P; vec; lra). unfold tol in H. lra.
  - intros x [[_ H]|[[_ H]|(_ & _ & H & _)]].
    + destruct H as (H & _). unfold c, p, P in H. simpl in H. rewrite (Rabs_left (0 - 2)), (Rabs_right 2) in H by lra. unfold tol in H. lra.
    + destruct H as (H & _). unfold a, p, P in H. simpl in H. rewrite (Rabs_left (0 - 2)), (Rabs_right 2) in H by lra. unfold tol in H. lra.
    + assert (norm (vsub a c) <= 3 / 2) by (apply (norm_bounds _ 0 (3 / 2)); try lra; unfold a, c, P; vec; lra).
      assert (2 <= norm (vsub p c) <= 10) by (apply norm_bounds; try lra; unfold c, p, P; vec; lra). unfold tol in H. lra.
Qed.
(** Two diagonals of a square cross in the middle. *)
Lemma crossing_example : let a := P 0 0 0 in let b := P 2 2 0 in let c := P 2 0 0 in let d := P 0 2 0 in
  least_squares (vsub b a) (vsub d c) (vsub c a) (1 / 2, 1 / 2) /\ between a b (1 / 2) = between c d (1 / 2) /\ cross (vsub b a) (vsub d c) <> vzero.
Proof.
  intros a b c d. split; [|split].
  - apply exact_least_squares. unfold a, b, c, d, P. apply vec_ext; vec; field.
  - unfold a, b, c, d, P, between. apply vec_ext; vec; field.
  - unfold a, b, c, d, P. vec. intros H. apply (f_equal vz) in H. simpl in H. lra.
Qed.
