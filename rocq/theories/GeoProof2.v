(** * Lemmas: point and segment tests, C49, C50, C51 *)
From Coq Require Import List Arith Bool Reals Lra Lia.
From Verif Require Import Base BaseProof VecBase VecProof GeoModel GeoSpec GeoProof.
Import ListNotations.
Local Open Scope R_scope.

Lemma isclose_refl tol x : 0 <= tol -> isclose tol x x = true.
Proof.
  intros H. apply Rleb_true. replace (x - x) with 0 by ring. rewrite Rabs_R0.
  pose proof (Rmult_le_pos _ _ H (Rabs_pos x)). lra.
Qed.
Lemma isclose_true tol x y : isclose tol x y = true <-> Rabs (x - y) <= tol + tol * Rabs y.
Proof. apply Rleb_true. Qed.
Lemma allclose_true tol a p : allclose tol a p = true <-> close tol a p.
Proof. unfold allclose, close. rewrite !andb_true_iff, !isclose_true. tauto. Qed.
Lemma allclose_refl tol a : 0 <= tol -> allclose tol a a = true.
Proof. intros. unfold allclose. rewrite !isclose_refl; auto. Qed.

Lemma le_test eps x y : 0 <= eps -> y <= x -> Rltb y x || isclose eps x y = true.
Proof.
  intros He H. destruct (Rle_lt_or_eq_dec _ _ H) as [L| ->].
  - apply Rltb_true in L. rewrite L. reflexivity.
  - rewrite isclose_refl by auto. apply orb_true_r.
Qed.
Lemma test_le eps x y : 0 <= y -> 0 <= eps -> Rltb y x || isclose eps x y = true -> y <= x + eps * (1 + y).
Proof.
  intros Hy He H. apply orb_true_iff in H as [H|H].
  - apply Rltb_true in H. assert (0 <= eps * (1 + y)) by (apply Rmult_le_pos; lra). lra.
  - apply isclose_true in H. rewrite (Rabs_right y) in H by lra. pose proof (Rle_abs (y - x)) as Q. rewrite Rabs_minus_sym in Q. lra.
Qed.

Lemma seg_norms a b t : 0 <= t <= 1 -> norm (vsub (between a b t) a) <= norm (vsub b a) /\ norm (vsub (between a b t) b) <= norm (vsub a b).
Proof.
  intros Ht. pose proof (norm_nonneg (vsub b a)) as N. split.
  - replace (vsub (between a b t) a) with (vscale t (vsub b a)) by (unfold between; vring). rewrite norm_scale, Rabs_right by lra. nra.
  - replace (vsub (between a b t) b) with (vscale (- (1 - t)) (vsub b a)) by (unfold between; vring).
    rewrite norm_scale, Rabs_Ropp, Rabs_right by lra. rewrite (norm_sub_sym a b). nra.
Qed.

Lemma segment_found ctol eps p a b : 0 <= eps -> on_segment a b p -> exists x, point_line_intersection ctol p a b eps = Some x.
Proof.
  intros He (t & Ht & ->). unfold point_line_intersection. destruct (allclose ctol a _); eauto. destruct (allclose ctol b _); eauto.
  assert (I : point_line_incidence a b (between a b t) eps = true).
  { unfold point_line_incidence. apply isclose_true. unfold colinear_measurement.
    replace (cross (vsub (between a b t) b) (vsub a b)) with vzero by (unfold between; vring). rewrite norm_vzero, Rmult_0_r, Rminus_0_r, Rabs_R0. lra. }
  rewrite I. destruct (seg_norms a b t Ht) as [N1 N2]. rewrite !le_test by auto. simpl. eauto.
Qed.

Lemma line_distance p a b : exists t, norm (vsub p (between a b t)) * norm (vsub b a) = norm (cross (vsub p b) (vsub a b)).
Proof.
  set (e := vsub b a). set (w := vsub p a).
  assert (Ec : norm (cross (vsub p b) (vsub a b)) = norm (cross w e)).
  { replace (cross (vsub p b) (vsub a b)) with (vscale (-1) (cross w e)) by (unfold w, e; vring). rewrite norm_scale, Rabs_left by lra. lra. }
  rewrite Ec. destruct (Req_dec (dot e e) 0) as [Z|Z].
  - apply dot_self_zero in Z. exists 0. rewrite Z. replace (cross w vzero) with vzero by vring. rewrite norm_vzero. ring.
  - exists (dot w e / dot e e). set (t := dot w e / dot e e).
    assert (Et : t * dot e e = dot w e) by (unfold t; field; auto).
    replace (vsub p (between a b t)) with (vsub w (vscale t e)) by (unfold between, w, e; vring). clearbody t w e. clear Ec.
    assert (Q : dot (vsub w (vscale t e)) (vsub w (vscale t e)) * dot e e = dot (cross w e) (cross w e)).
    { rewrite lagrange. replace (dot (vsub w (vscale t e)) (vsub w (vscale t e))) with (dot w w - 2 * t * dot w e + t * (t * dot e e)) by vring.
      rewrite Et. rewrite <- Et. ring. }
    unfold norm. rewrite <- sqrt_mult by apply dot_self_nonneg. f_equal. exact Q.
Qed.

Lemma segment_sound ctol eps p a b x : 0 <= eps -> point_line_intersection ctol p a b eps = Some x -> near_segment ctol eps p a b x.
Proof.
  intros He H. unfold point_line_intersection in H.
  destruct (allclose ctol a p) eqn:Ea; [inversion H; subst; left; split; auto; apply allclose_true; auto|].
  destruct (allclose ctol b p) eqn:Eb; [inversion H; subst; right; left; split; auto; apply allclose_true; auto|].
  destruct (point_line_incidence a b p eps) eqn:I; [|discriminate].
  destruct (_ && _) eqn:T; [|discriminate]. inversion H; subst x. apply andb_true_iff in T as [T1 T2].
  right. right. split; auto. split; [|split].
  - destruct (line_distance p a b) as [t Et]. exists t. rewrite Et. unfold point_line_incidence in I. apply isclose_true in I.
    unfold colinear_measurement in I. pose proof (norm_nonneg (cross (vsub p b) (vsub a b))) as N.
    rewrite Rminus_0_r, Rabs_R0, Rmult_0_r, Rabs_right in I by lra. lra.
  - apply test_le; auto. apply norm_nonneg.
  - rewrite (norm_sub_sym b a). apply test_le; auto. apply norm_nonneg.
Qed.

Lemma segment_lemma ctol eps p a b : 0 <= eps ->
  (on_segment a b p -> exists x, point_line_intersection ctol p a b eps = Some x) /\
  (forall x, point_line_intersection ctol p a b eps = Some x -> near_segment ctol eps p a b x).
Proof. intros He. split; [apply segment_found; auto|intros x; apply segment_sound; auto]. Qed.

(** ** triangles *)
Lemma coplanar_volume p a b c : coplanar_measurement p a b c = - (volume6 a b c p / 6).
Proof. unfold coplanar_measurement, volume6, det3. vec. field. Qed.
Lemma proper_gram a b c : proper_triangle a b c -> let ab := vsub b a in let ac := vsub c a in 0 < dot ab ab * dot ac ac - dot ab ac * dot ab ac.
Proof.
  intros H ab ac. rewrite <- lagrange. pose proof (dot_self_nonneg (cross ab ac)) as N.
  destruct (Rle_lt_or_eq_dec _ _ N) as [L|E]; auto. symmetry in E. apply dot_self_zero in E. contradiction.
Qed.

Lemma triangle_found ctol eps p a b c : 0 <= eps -> proper_triangle a b c -> in_triangle a b c p ->
  exists x, point_triangle_intersection ctol p a b c eps = Some x.
Proof.
  intros He P (u & v & Hu & Hv & Huv & Ep). pose proof (proper_gram _ _ _ P) as G. cbv zeta in G. unfold point_triangle_intersection.
  destruct (allclose ctol a p); eauto. destruct (allclose ctol b p); eauto. destruct (allclose ctol c p); eauto.
  set (ab := vsub b a) in *. set (ac := vsub c a) in *.
  assert (Eap : vsub p a = vadd (vscale u ab) (vscale v ac)) by (rewrite Ep; unfold ab, ac; vring).
  assert (I : point_triangle_incidence p a b c eps = true).
  { unfold point_triangle_incidence. apply isclose_true. rewrite coplanar_volume. unfold volume6. fold ab ac. rewrite Eap.
    replace (dot (cross ab ac) (vadd (vscale u ab) (vscale v ac))) with 0 by vring.
    replace (- (0 / 6) - 0) with 0 by field. rewrite Rabs_R0. lra. }
  rewrite I. cbn [negb].
  destruct (point_line_intersection ctol p a b eps); eauto. destruct (point_line_intersection ctol p b c eps); eauto.
  destruct (point_line_intersection ctol p c a eps); eauto. rewrite Eap. cbv zeta. clearbody ab ac.
  replace ((dot ac ac * dot (vadd (vscale u ab) (vscale v ac)) ab - dot ab ac * dot (vadd (vscale u ab) (vscale v ac)) ac) / (dot ab ab * dot ac ac - dot ab ac * dot ab ac)) with u.
  2:{ rewrite !dot_add_l, !dot_scale_l, (dot_sym ac ab). field. lra. }
  replace ((dot ab ab * dot (vadd (vscale u ab) (vscale v ac)) ac - dot ab ac * dot (vadd (vscale u ab) (vscale v ac)) ab) / (dot ab ab * dot ac ac - dot ab ac * dot ab ac)) with v.
  2:{ rewrite !dot_add_l, !dot_scale_l, (dot_sym ac ab). field. lra. }
  apply Rleb_true in Hu. apply Rleb_true in Hv. apply Rleb_true in Huv. rewrite Hu, Hv, Huv. simpl. eauto.
Qed.

Lemma triangle_sound ctol eps p a b c x : 0 <= eps -> proper_triangle a b c -> point_triangle_intersection ctol p a b c eps = Some x ->
  (x = a /\ close ctol a p) \/ (x = b /\ close ctol b p) \/ (x = c /\ close ctol c p) \/
  (Rabs (volume6 a b c p) <= 6 * eps /\
   (near_segment ctol eps p a b x \/ near_segment ctol eps p b c x \/ near_segment ctol eps p c a x \/ (x = p /\ projects a b c p))).
Proof.
  intros He P H. unfold point_triangle_intersection in H. pose proof (proper_gram _ _ _ P) as G. cbv zeta in G.
  destruct (allclose ctol a p) eqn:Ea; [inversion H; subst; left; split; auto; apply allclose_true; auto|].
  destruct (allclose ctol b p) eqn:Eb; [inversion H; subst; right; left; split; auto; apply allclose_true; auto|].
  destruct (allclose ctol c p) eqn:Ec; [inversion H; subst; do 2 right; left; split; auto; apply allclose_true; auto|].
  destruct (point_triangle_incidence p a b c eps) eqn:I; [|discriminate]. cbn [negb] in H.
  do 3 right. split.
  { unfold point_triangle_incidence in I. apply isclose_true in I. rewrite coplanar_volume, Rabs_R0, Rmult_0_r, Rminus_0_r, Rabs_Ropp in I.
    unfold Rdiv in I. rewrite Rabs_mult in I. rewrite (Rabs_right (/ 6)) in I by lra. lra. }
  destruct (point_line_intersection ctol p a b eps) eqn:E1; [inversion H; subst; left; apply segment_sound; auto|].
  destruct (point_line_intersection ctol p b c eps) eqn:E2; [inversion H; subst; right; left; apply segment_sound; auto|].
  destruct (point_line_intersection ctol p c a eps) eqn:E3; [inversion H; subst; do 2 right; left; apply segment_sound; auto|].
  do 3 right. cbv zeta in H. set (ab := vsub b a) in *. set (ac := vsub c a) in *. set (ap := vsub p a) in *.
  set (den := dot ab ab * dot ac ac - dot ab ac * dot ab ac) in *.
  set (u := (dot ac ac * dot ap ab - dot ab ac * dot ap ac) / den) in *. set (v := (dot ab ab * dot ap ac - dot ab ac * dot ap ab) / den) in *.
  destruct (_ && _) eqn:T in H; [|discriminate]. inversion H; subst x. split; auto.
  apply andb_true_iff in T as [T T3]. apply andb_true_iff in T as [T1 T2]. rewrite Rleb_true in T1, T2, T3.
  exists (vadd a (vadd (vscale u ab) (vscale v ac))). split; [exists u, v; auto|]. fold ab ac.
  replace (vsub p (vadd a (vadd (vscale u ab) (vscale v ac)))) with (vsub (vsub ap (vscale u ab)) (vscale v ac)) by (unfold ap, ab, ac; vring).
  clearbody ab ac ap.
  assert (Eu : u * den = dot ac ac * dot ap ab - dot ab ac * dot ap ac) by (unfold u; field; lra).
  assert (Ev : v * den = dot ab ab * dot ap ac - dot ab ac * dot ap ab) by (unfold v; field; lra).
  assert (Q1 : dot (vsub (vsub ap (vscale u ab)) (vscale v ac)) ab = dot ap ab - u * dot ab ab - v * dot ab ac) by vring.
  assert (Q2 : dot (vsub (vsub ap (vscale u ab)) (vscale v ac)) ac = dot ap ac - u * dot ab ac - v * dot ac ac) by vring.
  rewrite Q1, Q2. split.
  - apply (Rmult_eq_reg_r den); [|lra]. replace ((dot ap ab - u * dot ab ab - v * dot ab ac) * den) with (dot ap ab * den - u * den * dot ab ab - v * den * dot ab ac) by ring.
    rewrite Eu, Ev. unfold den. ring.
  - apply (Rmult_eq_reg_r den); [|lra]. replace ((dot ap ac - u * dot ab ac - v * dot ac ac) * den) with (dot ap ac * den - u * den * dot ab ac - v * den * dot ac ac) by ring.
    rewrite Eu, Ev. unfold den. ring.
Qed.

(** a coplanar point equals its projection *)
Lemma coplanar_projection a b c p : proper_triangle a b c -> volume6 a b c p = 0 -> projects a b c p -> in_triangle a b c p.
Proof.
  intros P V (q & (u & v & Hu & Hv & Huv & Eq) & O1 & O2). pose proof (proper_gram _ _ _ P) as G. cbv zeta in G.
  set (ab := vsub b a) in *. set (ac := vsub c a) in *. unfold volume6 in V. fold ab ac in V.
  assert (Z : vsub p q = vzero).
  { set (w := vsub p q) in *. assert (Dw : dot (cross ab ac) w = 0).
    { unfold w. rewrite Eq. replace (vsub p (vadd a (vadd (vscale u ab) (vscale v ac)))) with (vsub (vsub p a) (vadd (vscale u ab) (vscale v ac))) by vring.
      assert (E0 : dot (cross ab ac) (vsub (vsub p a) (vadd (vscale u ab) (vscale v ac))) = dot (cross ab ac) (vsub p a)) by vring. rewrite E0. exact V. }
    apply dot_self_zero. apply (Rmult_eq_reg_r (dot (cross ab ac) (cross ab ac))); [|rewrite lagrange; lra]. rewrite Rmult_0_l.
    (* |w|^2 |n|^2 = (w.n)^2 + |w x n|^2 and w x (ab x ac) = ab (w.ac) - ac (w.ab) *)
    pose proof (lagrange w (cross ab ac)) as L.
    assert (C : cross w (cross ab ac) = vsub (vscale (dot w ac) ab) (vscale (dot w ab) ac)) by vring.
    rewrite C, O1, O2 in L. rewrite (dot_sym w (cross ab ac)), Dw in L.
    replace (vsub (vscale 0 ab) (vscale 0 ac)) with vzero in L by vring.
    assert (Z0 : dot vzero vzero = 0) by vring. rewrite Z0 in L. lra. }
  apply vsub_zero in Z. subst p. exists u, v. auto.
Qed.
Lemma triangle_outside ctol eps p a b c : 0 <= eps -> proper_triangle a b c -> volume6 a b c p = 0 -> ~ in_triangle a b c p ->
  (forall x, ~ near_segment ctol eps p a b x) -> (forall x, ~ near_segment ctol eps p b c x) -> (forall x, ~ near_segment ctol eps p c a x) ->
  point_triangle_intersection ctol p a b c eps = None.
Proof.
  intros He P V Out N1 N2 N3. destruct (point_triangle_intersection ctol p a b c eps) as [x|] eqn:E; auto. exfalso.
  destruct (triangle_sound _ _ _ _ _ _ _ He P E) as [[_ H]|[[_ H]|[[_ H]|[_ [H|[H|[H|[_ H]]]]]]]].
  - apply (N1 a). left. auto.
  - apply (N1 b). right. left. auto.
  - apply (N2 c). right. left. auto.
  - apply (N1 x). auto.
  - apply (N2 x). auto.
  - apply (N3 x). auto.
  - apply Out. apply coplanar_projection; auto.
Qed.
Lemma triangle_far ctol eps p a b c : 0 <= eps -> 6 * eps < Rabs (volume6 a b c p) ->
  ~ close ctol a p -> ~ close ctol b p -> ~ close ctol c p -> point_triangle_intersection ctol p a b c eps = None.
Proof.
  intros He V Na Nb Nc. unfold point_triangle_intersection. rewrite <- allclose_true in Na, Nb, Nc.
  destruct (allclose ctol a p); [congruence|]. destruct (allclose ctol b p); [congruence|]. destruct (allclose ctol c p); [congruence|].
  destruct (point_triangle_incidence p a b c eps) eqn:I; auto. exfalso. unfold point_triangle_incidence in I. apply isclose_true in I.
  rewrite coplanar_volume, Rabs_R0, Rmult_0_r, Rminus_0_r, Rabs_Ropp in I. unfold Rdiv in I. rewrite Rabs_mult in I. rewrite (Rabs_right (/ 6)) in I by lra. lra.
Qed.

(** ** two segments *)
Lemma least_squares_exact d1 d2 r t s ts : cross d1 d2 <> vzero -> vsub (vscale t d1) (vscale s d2) = r -> least_squares d1 d2 r ts -> ts = (t, s).
Proof.
  intros I E L. specialize (L t s). rewrite E in L. replace (vsub r r) with vzero in L by vring. rewrite norm_vzero in L.
  set (w := vsub (vsub (vscale (fst ts) d1) (vscale (snd ts) d2)) r) in *. pose proof (norm_nonneg w) as N.
  assert (Z : w = vzero) by (apply norm_zero; lra). apply vsub_zero in Z. rewrite <- E in Z. destruct ts as [t' s']. cbn [fst snd] in Z.
  assert (K : vscale (t' - t) d1 = vscale (s' - s) d2).
  { apply vsub_zero. replace (vsub (vscale (t' - t) d1) (vscale (s' - s) d2)) with (vsub (vsub (vscale t' d1) (vscale s' d2)) (vsub (vscale t d1) (vscale s d2))) by vring.
    rewrite Z. vring. }
  assert (K1 : vscale (t' - t) (cross d1 d2) = vzero).
  { replace (vscale (t' - t) (cross d1 d2)) with (cross (vscale (t' - t) d1) d2) by vring. rewrite K. vring. }
  assert (K2 : vscale (s' - s) (cross d1 d2) = vzero).
  { replace (vscale (s' - s) (cross d1 d2)) with (cross d1 (vscale (s' - s) d2)) by vring. rewrite <- K. vring. }
  assert (NP := norm_pos _ I).
  assert (Z1 : forall k, vscale k (cross d1 d2) = vzero -> k = 0).
  { intros k Hk. assert (Q : norm (vscale k (cross d1 d2)) = 0) by (rewrite Hk; apply norm_vzero). rewrite norm_scale in Q.
    apply Rmult_integral in Q as [Q|Q]; [|lra]. destruct (Req_dec k 0); auto. apply Rabs_no_R0 in H. contradiction. }
  apply Z1 in K1. apply Z1 in K2. f_equal; lra.
Qed.

Lemma range_test eps t : 0 <= eps -> (Rltb 0 t || isclose eps t 0) && (Rltb t 1 || isclose eps t 1) = true -> - eps <= t <= 1 + 2 * eps.
Proof.
  intros He H. apply andb_true_iff in H as [H1 H2]. apply orb_true_iff in H1, H2. split.
  - destruct H1 as [H|H]; [apply Rltb_true in H; lra|]. apply isclose_true in H. rewrite Rabs_R0, Rminus_0_r in H.
    pose proof (Rle_abs (- t)) as Q. rewrite Rabs_Ropp in Q. lra.
  - destruct H2 as [H|H]; [apply Rltb_true in H; lra|]. apply isclose_true in H. rewrite Rabs_R1 in H. pose proof (Rle_abs (t - 1)). lra.
Qed.
Lemma test_range eps t : 0 <= eps -> 0 <= t <= 1 -> (Rltb 0 t || isclose eps t 0) && (Rltb t 1 || isclose eps t 1) = true.
Proof.
  intros He [H0 H1].
  assert (A : Rltb 0 t || isclose eps t 0 = true) by (apply le_test; auto).
  assert (B : Rltb t 1 || isclose eps t 1 = true).
  { destruct (Rle_lt_or_eq_dec _ _ H1) as [L| ->]; [apply Rltb_true in L; rewrite L; auto|]. rewrite isclose_refl by auto. apply orb_true_r. }
  rewrite A, B. reflexivity.
Qed.

Lemma close_default ctol x p : ctol <= 1 / 100000000 -> close ctol x p -> allclose_default x p = true.
Proof.
  intros Hc (H1 & H2 & H3). assert (K : forall u v, Rabs (u - v) <= ctol + ctol * Rabs v -> isclose_default u v = true).
  { intros u v H. apply Rleb_true. pose proof (Rabs_pos v) as N. assert (ctol * Rabs v <= 1 / 100000 * Rabs v) by (apply Rmult_le_compat_r; lra). lra. }
  unfold allclose_default. rewrite !K; auto.
Qed.
Lemma default_refl p : allclose_default p p = true.
Proof.
  assert (K : forall u, isclose_default u u = true).
  { intros u. apply Rleb_true. replace (u - u) with 0 by ring. rewrite Rabs_R0. pose proof (Rabs_pos u). lra. }
  unfold allclose_default. rewrite !K. reflexivity.
Qed.
(** the assertion on the single end point never fails *)
Lemma end_point ctol eps p c d x : ctol <= 1 / 100000000 -> 0 <= eps -> point_line_intersection ctol p c d eps = Some x -> allclose_default x p = true.
Proof.
  intros Hc He H. destruct (segment_sound _ _ _ _ _ _ He H) as [[-> C]|[[-> C]|[-> _]]].
  - apply (close_default ctol); auto.
  - apply (close_default ctol); auto.
  - apply default_refl.
Qed.

Lemma line_line_lemma lstsq ctol ptol eps a b c d : ctol <= 1 / 100000000 -> 0 <= ptol -> 0 <= eps ->
  least_squares (vsub b a) (vsub d c) (vsub c a) (lstsq (vsub b a) (vsub d c) (vsub c a)) ->
  exists r, line_line_intersection lstsq ctol ptol a b c d eps = Ok r /\
    (forall out q, r = LL_segment out q -> exists x y, out = [x; y] /\ near_segment ctol ptol a c d x /\ near_segment ctol ptol b c d y) /\
    (forall out, r = LL_points out -> exists x, out = [x] /\
       (near_segment ctol ptol a c d x \/ near_segment ctol ptol b c d x \/ computed_point eps a b c d x)) /\
    (forall t s, 0 <= t <= 1 -> 0 <= s <= 1 -> between a b t = between c d s -> cross (vsub b a) (vsub d c) <> vzero ->
       r <> LL_none /\ ((forall x, ~ near_segment ctol ptol a c d x) -> (forall x, ~ near_segment ctol ptol b c d x) -> r = LL_points [between a b t])).
Proof.
  intros Hc Hp He L. unfold line_line_intersection, points_line_intersection. cbn [map flat_map is_some].
  destruct (point_line_intersection ctol a c d ptol) as [x|] eqn:Ea; destruct (point_line_intersection ctol b c d ptol) as [y|] eqn:Eb; cbn [is_some app].
  - eexists. split; [reflexivity|]. split; [|split].
    + intros out q H. inversion H; subst. exists x, y. repeat split; auto; apply segment_sound; auto.
    + intros out H. discriminate.
    + intros. split; [discriminate|]. intros N. exfalso. apply (N x). apply segment_sound; auto.
  - rewrite (end_point _ _ _ _ _ _ Hc Hp Ea). eexists. split; [reflexivity|]. split; [|split].
    + intros out q H. discriminate.
    + intros out H. inversion H; subst. exists x. split; auto. left. apply segment_sound; auto.
    + intros. split; [discriminate|]. intros N. exfalso. apply (N x). apply segment_sound; auto.
  - rewrite (end_point _ _ _ _ _ _ Hc Hp Eb). eexists. split; [reflexivity|]. split; [|split].
    + intros out q H. discriminate.
    + intros out H. inversion H; subst. exists y. split; auto. right. left. apply segment_sound; auto.
    + intros. split; [discriminate|]. intros _ N. exfalso. apply (N y). apply segment_sound; auto.
  - unfold line_line_compute. destruct (lstsq (vsub b a) (vsub d c) (vsub c a)) as [t s] eqn:Els. eexists. split; [reflexivity|]. split; [|split].
    + intros out q H. destruct (_ && _ && _) in H; discriminate.
    + intros out H. destruct (_ && _ && _) eqn:T in H; [|discriminate]. inversion H; subst out. eexists. split; [reflexivity|]. right. right.
      apply andb_true_iff in T as [T T3]. apply andb_true_iff in T as [T1 T2]. apply allclose_true in T1. apply range_test in T2; auto. apply range_test in T3; auto.
      exists t, s. split; [reflexivity|]. split; auto.
    + intros t0 s0 Ht Hs E I. assert (Q : (t, s) = (t0, s0)).
      { eapply least_squares_exact; [exact I| |exact L]. unfold between in E.
        apply vsub_zero. replace (vsub (vsub (vscale t0 (vsub b a)) (vscale s0 (vsub d c))) (vsub c a))
          with (vsub (vadd a (vscale t0 (vsub b a))) (vadd c (vscale s0 (vsub d c)))) by vring. rewrite E. vring. }
      inversion Q; subst t0 s0. fold (between a b t) (between c d s). rewrite E, allclose_refl by auto.
      rewrite !test_range by auto. cbn [andb]. split; [discriminate|]. auto.
Qed.
