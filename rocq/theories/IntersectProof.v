(** * Lemmas: the test of two edges *)
From Coq Require Import List Arith ZArith Bool Reals Lra Lia Permutation Sorted.
From Verif Require Import Base BaseProof VecBase VecProof GeoModel GeoSpec GeoProof VertexModel EmbedModel EmbedSpec EmbedProof IntersectModel IntersectSpec.
Import ListNotations.
Local Open Scope R_scope.

Lemma det_area axis : exists s, (s = 1 \/ s = -1) /\ forall u v, det2 (fst (axis_pos axis)) (snd (axis_pos axis)) u v = s * area2 axis u v.
Proof.
  destruct axis as [|[|axis]]; [exists 1|exists (-1)|exists 1]; (split; [auto|]); intros u v; unfold det2, area2, coord, cross; cbn; ring.
Qed.
Lemma solve_plane axis (d u w : vec) (t r : R) : coord axis d = 0 -> coord axis u = 0 -> coord axis w = 0 -> area2 axis u w <> 0 ->
  t = area2 axis d w / area2 axis u w -> r = area2 axis d u / area2 axis u w -> d = vsub (vscale t u) (vscale r w).
Proof.
  destruct d as [d1 d2 d3], u as [u1 u2 u3], w as [w1 w2 w3]. unfold area2, coord, cross, vsub, vscale. destruct axis as [|[|axis]]; cbn; intros -> -> -> N -> ->; f_equal; field; lra.
Qed.
Lemma area_meet axis d u w t r : d = vsub (vscale t u) (vscale r w) -> area2 axis d w = t * area2 axis u w /\ area2 axis d u = r * area2 axis u w.
Proof.
  intros ->. unfold area2, coord, cross, vsub, vscale. destruct axis as [|[|axis]]; cbn; split; ring.
Qed.
Lemma meet_vec a b p q t r : between a b t = between p q r <-> vsub p a = vsub (vscale t (vsub b a)) (vscale r (vsub q p)).
Proof.
  unfold between. destruct a as [a1 a2 a3], b as [b1 b2 b3], p as [p1 p2 p3], q as [q1 q2 q3]. unfold vadd, vsub, vscale. cbn [vx vy vz].
  split; intros H; injection H; intros; f_equal; lra.
Qed.
Lemma ratio s x y : s = 1 \/ s = -1 -> y <> 0 -> s * x / (s * y) = x / y.
Proof. intros [-> | ->] N; field; auto. Qed.

(** The test of two edges which are definitely not parallel, or definitely not collinear *)
Lemma test_lemma eps axis a b p q : 0 < eps ->
  coord axis a = coord axis b -> coord axis a = coord axis p -> coord axis a = coord axis q ->
  (let u := vsub b a in eps <= Rabs (area2 axis u (vsub q p)) \/ (area2 axis u (vsub q p) = 0 /\ 2 * eps <= Rabs (area2 axis u (vsub p a)))) ->
  match segment_test eps (fst (axis_pos axis)) (snd (axis_pos axis)) a b p q with
  | Some x => on_segment a b x /\ on_segment p q x /\ a <> b /\ p <> q /\ forall y, on_segment a b y -> on_segment p q y -> y = x
  | None => forall y, on_segment a b y -> on_segment p q y -> False
  end.
Proof.
  intros E Cb Cp Cq. cbv zeta. destruct (det_area axis) as (s & Hs & D). set (u := vsub b a). set (w := vsub q p). set (d := vsub p a).
  assert (As : forall x, Rabs (s * x) = Rabs x). { intros x. rewrite Rabs_mult. destruct Hs as [-> | ->]; [rewrite Rabs_R1|rewrite (Rabs_left (-1)) by lra]; lra. }
  unfold segment_test, colinear_measurement. rewrite !D.
  assert (Q1 : area2 axis (vsub a b) (vsub p q) = area2 axis u w).
  { subst u w. unfold area2, coord, cross, vsub. destruct axis as [|[|axis]]; cbn; ring. }
  assert (Q2 : area2 axis (vsub a p) (vsub p q) = area2 axis d w).
  { subst d w. unfold area2, coord, cross, vsub. destruct axis as [|[|axis]]; cbn; ring. }
  assert (Q3 : area2 axis (vsub a p) (vsub a b) = area2 axis d u).
  { subst d u. unfold area2, coord, cross, vsub. destruct axis as [|[|axis]]; cbn; ring. }
  assert (Q4 : area2 axis (vsub a p) (vsub b p) = area2 axis u d).
  { subst d u. unfold area2, coord, cross, vsub. destruct axis as [|[|axis]]; cbn; ring. }
  assert (Q5 : area2 axis (vsub a q) (vsub b q) = area2 axis u d + area2 axis u w).
  { subst d u w. unfold area2, coord, cross, vsub. destruct axis as [|[|axis]]; cbn; ring. }
  rewrite Q1, Q2, Q3, Q4, Q5, !As.
  assert (M : forall t r, between a b t = between p q r -> area2 axis d w = t * area2 axis u w /\ area2 axis d u = r * area2 axis u w).
  { intros t r H. apply meet_vec in H. apply area_meet. exact H. }
  intros [F|(F & G)].
  - assert (N : area2 axis u w <> 0). { intros Z. rewrite Z, Rabs_R0 in F. lra. }
    destruct (Rltb (Rabs (area2 axis u w)) eps) eqn:L. { apply Rltb_true in L. lra. } clear L.
    rewrite !ratio by auto. set (t := area2 axis d w / area2 axis u w). set (r := area2 axis d u / area2 axis u w).
    assert (X : between a b t = between p q r).
    { apply meet_vec. apply (solve_plane axis); auto; unfold coord, vsub in *; destruct axis as [|[|axis]]; cbn in *; lra. }
    assert (U : forall t' r', between a b t' = between p q r' -> t' = t /\ r' = r).
    { intros t' r' H. apply M in H as (H1 & H2). unfold t, r. rewrite H1, H2. split; field; auto. }
    destruct (Rleb 0 t && Rleb t 1 && (Rleb 0 r && Rleb r 1)) eqn:B.
    + rewrite !andb_true_iff, !Rleb_true in B. destruct B as ((B1 & B2) & B3 & B4). change (vadd a (vscale t (vsub b a))) with (between a b t).
      split; [exists t; auto|]. split; [exists r; auto|]. split; [|split].
      * intros ->. apply N. unfold u, area2, coord, cross, vsub. destruct axis as [|[|axis]]; cbn; ring.
      * intros ->. apply N. unfold w, area2, coord, cross, vsub. destruct axis as [|[|axis]]; cbn; ring.
      * intros y (t' & _ & ->) (r' & _ & H). apply U in H as (-> & _). auto.
    + intros y (t' & T & ->) (r' & T' & H). apply U in H as (-> & ->). apply not_true_iff_false in B. apply B. rewrite !andb_true_iff, !Rleb_true. tauto.
  - rewrite F, Rabs_R0, Rplus_0_r.
    destruct (Rltb 0 eps) eqn:L; [|apply not_true_iff_false in L; exfalso; apply L; apply Rltb_true; auto].
    destruct (Rltb (1 / 2 * Rabs (area2 axis u d)) eps) eqn:L'. { apply Rltb_true in L'. lra. } cbn [negb andb].
    intros y (t & T & ->) (r & T' & H). apply M in H as (_ & H). rewrite F, Rmult_0_r in H.
    assert (Z : area2 axis u d = - area2 axis d u) by (unfold area2, coord, cross; destruct axis as [|[|axis]]; cbn; ring).
    rewrite Z, H, Ropp_0, Rabs_R0 in G. lra.
Qed.
