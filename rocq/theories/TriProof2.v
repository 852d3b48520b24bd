(** * Lemmas: intersecting triangles, C89: the segment test inside the plane *)
From Coq Require Import List Arith ZArith Bool QArith Qabs Qfield Lia Lqa.
From Verif Require Import Base FracModel SegModel SegProof TriModel TriSpec TriProof.
Import ListNotations.
Local Open Scope Q_scope.

Lemma sqnorm_apart eps x y : apart eps x y <-> eps * eps <= sqnorm (psub x y).
Proof. unfold apart, sqnorm, psub. simpl. reflexivity. Qed.
Lemma sqnorm_sym x y : sqnorm (psub x y) == sqnorm (psub y x).
Proof. unfold sqnorm, psub. simpl. ring. Qed.
Lemma same_point_far eps x y : apart eps x y -> same_point eps x y = false.
Proof. rewrite sqnorm_apart. intros H. unfold same_point. apply Qltb_ge. auto. Qed.
Lemma apart_peq eps x y x' y' : peq x x' -> peq y y' -> apart eps x y -> apart eps x' y'.
Proof. intros (A & B & C) (A' & B' & C'). unfold apart. rewrite A, B, C, A', B', C'. auto. Qed.
Lemma between_left a b : between a b a.
Proof. exists 0. split; [lra|]. apply peq_coord. intros k. rewrite coord_along. ring. Qed.
Lemma between_right a b : between a b b.
Proof. exists 1. split; [lra|]. apply peq_coord. intros k. rewrite coord_along. ring. Qed.

Section Plane.
  Variable i j : nat.
  Variable eps : Q.
  Hypothesis He : 0 < eps.
  Variable a b c p q : point.
  Variable la lb lc ma mb mc : Q.
  Hypothesis F : ~ frame i j a b c == 0.
  Hypothesis Bp : bary a b c p la lb lc.
  Hypothesis Bq : bary a b c q ma mb mc.
  Hypothesis Cp : forall x y, In (x, y) [(a, b); (b, c); (c, a)] -> eps <= colinear_measurement i j x y p.
  Hypothesis Cq : forall x y, In (x, y) [(a, b); (b, c); (c, a)] -> eps <= colinear_measurement i j x y q.
  Hypothesis Hpar : forall x y, In (x, y) [(a, b); (b, c); (c, a)] ->
    det2 i j (psub x y) (psub p q) == 0 \/ eps <= Qabs (det2 i j (psub x y) (psub p q)).
  Hypothesis Hfar : forall w, on_edges a b c w -> apart eps p w /\ apart eps q w.
  Hypothesis Hones : forall z, between p q z -> on_edges a b c z -> apart eps z (mk_point 1 1 1).
  Hypothesis Nc : ~ la * mb - lb * ma == 0.
  Hypothesis Na : ~ lb * mc - lc * mb == 0.
  Hypothesis Nb : ~ lc * ma - la * mc == 0.

  Lemma area_nonzero x y z w (r : point) u v : bary x y z r u v w -> eps <= colinear_measurement i j x y r -> ~ w == 0.
  Proof.
    intros B H E. unfold colinear_measurement in H. rewrite (bary_area i j _ _ _ _ _ _ _ B), E in H.
    rewrite Qmult_0_l in H. simpl in H. lra.
  Qed.
  Lemma coordinates_nonzero (r : point) (u v w : Q) : bary a b c r u v w ->
    (forall x y, In (x, y) [(a, b); (b, c); (c, a)] -> eps <= colinear_measurement i j x y r) -> ~ u == 0 /\ ~ v == 0 /\ ~ w == 0.
  Proof.
    intros B H. split; [|split].
    - apply (area_nonzero b c a u r v w); [apply bary_rot; auto|apply H; simpl; auto].
    - apply (area_nonzero c a b v r w u); [do 2 apply bary_rot; auto|apply H; simpl; auto].
    - apply (area_nonzero a b c w r u v); [auto|apply H; simpl; auto].
  Qed.
  Lemma col_false x y r : eps <= colinear_measurement i j x y r -> Qltb (Qabs (colinear_measurement i j x y r)) eps = false.
  Proof. intros H. apply Qltb_ge. rewrite Qabs_pos; auto. lra. Qed.

  Lemma point_in_triangle_false_or (r : point) (u v w : Q) : bary a b c r u v w ->
    (forall x y, In (x, y) [(a, b); (b, c); (c, a)] -> eps <= colinear_measurement i j x y r) ->
    (forall z, on_edges a b c z -> apart eps r z) ->
    point_in_triangle eps i j a b c r = Qle_bool 0 u && Qle_bool 0 v && Qle_bool 0 w.
  Proof.
    intros B H Hf. destruct (coordinates_nonzero r u v w B H) as (U & V & W).
    unfold point_in_triangle.
    replace (existsb (fun x => Qltb (sqnorm (psub x r)) (eps * eps)) [a; b; c]) with false.
    2:{ symmetry. apply not_true_is_false. rewrite existsb_exists. intros (x & Hx & E). apply Qltb_lt in E.
        rewrite sqnorm_sym in E. apply (Qlt_irrefl (eps * eps)). eapply Qle_lt_trans; [|exact E].
        apply sqnorm_apart. apply Hf. destruct Hx as [<-|[<-|[<-|[]]]].
        - left. apply between_left.
        - left. apply between_right.
        - right; left. apply between_right. }
    cbn [existsb]. rewrite (col_false a b r (H a b (or_introl eq_refl))), (col_false b c r (H b c (or_intror (or_introl eq_refl)))), (col_false c a r (H c a (or_intror (or_intror (or_introl eq_refl))))). cbn [orb].
    cbv zeta.
    set (dv := _ - _ * _).
    assert (Edv : dv == frame i j a b c * frame i j a b c).
    { unfold dv, frame. rewrite !coord_psub, !D_psub. ring. }
    assert (Hdv : ~ dv == 0). { rewrite Edv. intros E. apply Qmult_integral in E. tauto. }
    destruct B as [B1 B2].
    assert (Eu : ((coord (psub b a) i * coord (psub b a) i + coord (psub b a) j * coord (psub b a) j) *
       (coord (psub c a) i * coord (psub r a) i + coord (psub c a) j * coord (psub r a) j) -
       (coord (psub c a) i * coord (psub b a) i + coord (psub c a) j * coord (psub b a) j) *
       (coord (psub b a) i * coord (psub r a) i + coord (psub b a) j * coord (psub r a) j)) / dv == w).
    { apply (Qmult_inj_r _ _ dv); auto. unfold Qdiv. rewrite <- Qmult_assoc, (Qmult_comm (/ dv)), Qmult_inv_r, Qmult_1_r by auto.
      unfold dv. rewrite !coord_psub, !(B2 i), !(B2 j). assert (X : u == 1 - v - w) by lra. rewrite X. ring. }
    assert (Ev : ((coord (psub c a) i * coord (psub c a) i + coord (psub c a) j * coord (psub c a) j) *
       (coord (psub b a) i * coord (psub r a) i + coord (psub b a) j * coord (psub r a) j) -
       (coord (psub c a) i * coord (psub b a) i + coord (psub c a) j * coord (psub b a) j) *
       (coord (psub c a) i * coord (psub r a) i + coord (psub c a) j * coord (psub r a) j)) / dv == v).
    { apply (Qmult_inj_r _ _ dv); auto. unfold Qdiv. rewrite <- Qmult_assoc, (Qmult_comm (/ dv)), Qmult_inv_r, Qmult_1_r by auto.
      unfold dv. rewrite !coord_psub, !(B2 i), !(B2 j). assert (X : u == 1 - v - w) by lra. rewrite X. ring. }
    apply eq_true_iff_eq. rewrite !andb_true_iff, !Qle_bool_iff, Qltb_lt, negb_true_iff, Eu, Ev.
    split.
    - intros [[[_ ?] ?] ?]. repeat split; lra.
    - intros [[? ?] ?]. repeat split; auto.
      + apply not_true_is_false. intros E. apply Qeq_bool_iff in E. auto.
      + assert (0 < u) by (destruct (Q_dec u 0) as [[?|?]|?]; [lra|auto|contradiction]). lra.
  Qed.

  Definition F_ok (s : Q) : Prop := in_triangle a b c (along p q s).
  Lemma F_ok_iff s : F_ok s <-> 0 <= la + s * (ma - la) /\ 0 <= lb + s * (mb - lb) /\ 0 <= lc + s * (mc - lc).
  Proof.
    pose proof (bary_along _ _ _ _ _ _ _ _ _ _ _ s Bp Bq) as B. unfold F_ok. rewrite in_triangle_bary. split.
    - intros (u & v & w & H1 & H2 & H3 & B'). destruct (bary_unique i j _ _ _ _ _ _ _ _ _ _ F B B') as (E1 & E2 & E3).
      rewrite E1, E2, E3. auto.
    - intros (H1 & H2 & H3). eauto 10.
  Qed.
  Lemma kinds_ok s : 0 <= s <= 1 ->
    ok (kind_of lc mc) s && ok (kind_of la ma) s && ok (kind_of lb mb) s = true <-> F_ok s.
  Proof.
    intros Hs. destruct (coordinates_nonzero _ _ _ _ Bp Cp) as (? & ? & ?), (coordinates_nonzero _ _ _ _ Bq Cq) as (? & ? & ?).
    rewrite F_ok_iff, !kind_ok, !andb_true_iff, !Qle_bool_iff by auto. tauto.
  Qed.
  Lemma no_double l m l' m' s : s * (l - m) == l -> s * (l' - m') == l' -> ~ l * m' - l' * m == 0 -> False.
  Proof.
    intros H1 H2 N. apply N.
    assert (E : l * (l' - m') == l' * (l - m)).
    { transitivity (s * (l - m) * (l' - m')); [rewrite H1; reflexivity|].
      transitivity (s * (l' - m') * (l - m)); [ring|]. rewrite H2. reflexivity. }
    lra.
  Qed.
  Lemma Dn_flip l m l' m' : ~ l * m' - l' * m == 0 -> ~ l' * m - l * m' == 0.
  Proof. intros N E. apply N. lra. Qed.
  Lemma apart_kinds l m l' m' k1 k2 k3 k4 : ~ l == 0 -> ~ m == 0 -> ~ l' == 0 -> ~ m' == 0 -> ~ l * m' - l' * m == 0 ->
    apart_hits (hits (kind_of l m) k1 k2) (hits (kind_of l' m') k3 k4).
  Proof.
    intros L M L' M' N. destruct (hits (kind_of l m) k1 k2) as [x|] eqn:E1; simpl; auto.
    destruct (hits (kind_of l' m') k3 k4) as [y|] eqn:E2; auto. intros E.
    destruct (hits_spec _ _ _ _ _ L M E1) as (_ & S1 & _), (hits_spec _ _ _ _ _ L' M' E2) as (_ & S2 & _).
    rewrite <- E in S2. exact (no_double _ _ _ _ _ S1 S2 N).
  Qed.

  Definition segment_answer (r : intersection) : Prop :=
    match r with
    | None => forall s, 0 <= s <= 1 -> ~ F_ok s
    | Some (Some x, Some y) => exists s1 s2, 0 <= s1 <= 1 /\ 0 <= s2 <= 1 /\ ~ s1 == s2 /\ peq x (along p q s1) /\ peq y (along p q s2) /\
        forall s, 0 <= s <= 1 -> (F_ok s <-> s1 <= s <= s2 \/ s2 <= s <= s1)
    | Some _ => False
    end.
  Lemma along_0 : peq p (along p q 0).
  Proof. apply peq_coord. intros k. rewrite coord_along. ring. Qed.
  Lemma along_1 : peq q (along p q 1).
  Proof. apply peq_coord. intros k. rewrite coord_along. ring. Qed.

  Lemma coplanar_segment_lemma : segment_answer (coplanar_segment eps i j a b c p q).
  Proof.
    destruct (coordinates_nonzero _ _ _ _ Bp Cp) as (La & Lb & Lc), (coordinates_nonzero _ _ _ _ Bq Cq) as (Ma & Mb & Mc).
    set (ka := kind_of la ma). set (kb := kind_of lb mb). set (kc := kind_of lc mc).
    assert (A := answer_spec kc ka kb (kind_wf _ _ Lc Mc) (kind_wf _ _ La Ma) (kind_wf _ _ Lb Mb)
      (apart_kinds _ _ _ _ _ _ _ _ Lc Mc La Ma Nb) (apart_kinds _ _ _ _ _ _ _ _ La Ma Lb Mb Nc) (apart_kinds _ _ _ _ _ _ _ _ Lb Mb Lc Mc Na)).
    assert (X1 := crossing i j eps a b c p q _ _ _ _ _ _ He F Bp Bq La Lb Lc Ma Mb Mc (Hpar a b (or_introl eq_refl)) (Cp a b (or_introl eq_refl)) (Cq a b (or_introl eq_refl))).
    assert (F2 : ~ frame i j b c a == 0) by (rewrite frame_rot; auto).
    assert (X2 := crossing i j eps b c a p q _ _ _ _ _ _ He F2 (bary_rot _ _ _ _ _ _ _ Bp) (bary_rot _ _ _ _ _ _ _ Bq)
       Lb Lc La Mb Mc Ma (Hpar b c (or_intror (or_introl eq_refl))) (Cp b c (or_intror (or_introl eq_refl))) (Cq b c (or_intror (or_introl eq_refl)))).
    assert (F3 : ~ frame i j c a b == 0) by (rewrite frame_rot; auto).
    assert (X3 := crossing i j eps c a b p q _ _ _ _ _ _ He F3 (bary_rot _ _ _ _ _ _ _ (bary_rot _ _ _ _ _ _ _ Bp)) (bary_rot _ _ _ _ _ _ _ (bary_rot _ _ _ _ _ _ _ Bq))
       Lc La Lb Mc Ma Mb (Hpar c a (or_intror (or_intror (or_introl eq_refl)))) (Cp c a (or_intror (or_intror (or_introl eq_refl)))) (Cq c a (or_intror (or_intror (or_introl eq_refl))))).
    fold ka kb kc in X1, X2, X3.
    assert (I0 : point_in_triangle eps i j a b c p = ok ka 0 && ok kb 0 && ok kc 0).
    { rewrite (point_in_triangle_false_or p la lb lc Bp Cp (fun z Hz => proj1 (Hfar z Hz))).
      unfold ka, kb, kc. rewrite !kind_ok by (assumption || (split; lra)). apply eq_true_iff_eq. rewrite !andb_true_iff, !Qle_bool_iff, !Qmult_0_l, !Qplus_0_r. tauto. }
    assert (I1 : point_in_triangle eps i j a b c q = ok ka 1 && ok kb 1 && ok kc 1).
    { rewrite (point_in_triangle_false_or q ma mb mc Bq Cq (fun z Hz => proj2 (Hfar z Hz))).
      unfold ka, kb, kc. rewrite !kind_ok by (assumption || (split; lra)). apply eq_true_iff_eq. rewrite !andb_true_iff, !Qle_bool_iff, !Qmult_1_l.
      assert (Z : forall x y, x + (y - x) == y) by (intros; ring). rewrite !Z. tauto. }
    unfold coplanar_segment. cbv zeta.
    rewrite (col_false a b p (Cp a b (or_introl eq_refl))), (col_false b c p (Cp b c (or_intror (or_introl eq_refl)))), (col_false c a p (Cp c a (or_intror (or_intror (or_introl eq_refl))))). cbn [andb].
    rewrite I0, I1. unfold answer in A. cbv zeta in A.
    assert (FK : forall s, 0 <= s <= 1 -> (ok kc s && ok ka s && ok kb s = true <-> F_ok s)) by exact kinds_ok.
    assert (P1 : forall x s, peq x (along p q s) -> 0 < s < 1 -> on_edges a b c x -> same_point eps p x = false /\ same_point eps q x = false /\ same_point eps x (mk_point 1 1 1) = false).
    { intros x s Ex Hs Ox. destruct (Hfar x Ox). repeat split; apply same_point_far; auto. apply Hones; auto. exists s. split; auto. lra. }
    assert (T1 : forall s, hits kc ka kb = Some s -> exists x, line_line_intersection eps i j a b p q = Some (x, None) /\ peq x (along p q s) /\
       same_point eps p x = false /\ same_point eps q x = false /\ same_point eps x (mk_point 1 1 1) = false).
    { intros s Hs. rewrite Hs in X1. destruct X1 as (t & Ht & E & Q). exists (along a b t). split; auto. split; auto.
      apply (P1 _ s); auto. apply hits_spec in Hs; tauto. left. exists t. split; auto. apply peq_refl. }
    assert (T2 : forall s, hits ka kb kc = Some s -> exists x, line_line_intersection eps i j b c p q = Some (x, None) /\ peq x (along p q s) /\
       same_point eps p x = false /\ same_point eps q x = false /\ same_point eps x (mk_point 1 1 1) = false).
    { intros s Hs. rewrite Hs in X2. destruct X2 as (t & Ht & E & Q). exists (along b c t). split; auto. split; auto.
      apply (P1 _ s); auto. apply hits_spec in Hs; tauto. right; left. exists t. split; auto. apply peq_refl. }
    assert (T3 : forall s, hits kb kc ka = Some s -> exists x, line_line_intersection eps i j c a p q = Some (x, None) /\ peq x (along p q s) /\
       same_point eps p x = false /\ same_point eps q x = false /\ same_point eps x (mk_point 1 1 1) = false).
    { intros s Hs. rewrite Hs in X3. destruct X3 as (t & Ht & E & Q). exists (along c a t). split; auto. split; auto.
      apply (P1 _ s); auto. apply hits_spec in Hs; tauto. right; right. exists t. split; auto. apply peq_refl. }
    assert (FN : (forall s, 0 <= s <= 1 -> ok kc s && ok ka s && ok kb s = false) -> forall s, 0 <= s <= 1 -> ~ F_ok s).
    { intros H s Hs K. apply FK in K; auto. rewrite H in K; auto. discriminate. }
    destruct (ok ka 0 && ok kb 0 && ok kc 0) eqn:E0, (ok ka 1 && ok kb 1 && ok kc 1) eqn:E1; cbn [andb negb] in *.
    - (* both inside *)
      exists 0, 1. destruct A as (_ & _ & _ & A). split; [lra|]. split; [lra|]. split; [lra|]. split; [apply along_0|]. split; [apply along_1|].
      intros s Hs. rewrite <- FK by auto. apply A; auto.
    - destruct (hits kc ka kb) as [s1|] eqn:H1; [destruct (T1 _ eq_refl) as (x1 & Q1 & Y1 & Z1 & Z1' & Z1'')|];
      (destruct (hits ka kb kc) as [s2|] eqn:H2; [destruct (T2 _ eq_refl) as (x2 & Q2 & Y2 & Z2 & Z2' & Z2'')|]);
      (destruct (hits kb kc ka) as [s3|] eqn:H3; [destruct (T3 _ eq_refl) as (x3 & Q3 & Y3 & Z3 & Z3' & Z3'')|]);
      rewrite ?X1, ?X2, ?X3, ?Q1, ?Q2, ?Q3; unfold last_crossing; cbn [last3] in A; rewrite ?Z1, ?Z2, ?Z3; cbn [segment_answer hit];
      try (apply FN; exact A);
      destruct A as (A1 & A2 & A3 & A); eexists; eexists; (split; [exact A1|split; [exact A2|split; [exact A3|split; [apply along_0|split; [eassumption|]]]]]);
      intros s Hs; rewrite <- FK by auto; apply A; auto.
    - destruct (hits kc ka kb) as [s1|] eqn:H1; [destruct (T1 _ eq_refl) as (x1 & Q1 & Y1 & Z1 & Z1' & Z1'')|];
      (destruct (hits ka kb kc) as [s2|] eqn:H2; [destruct (T2 _ eq_refl) as (x2 & Q2 & Y2 & Z2 & Z2' & Z2'')|]);
      (destruct (hits kb kc ka) as [s3|] eqn:H3; [destruct (T3 _ eq_refl) as (x3 & Q3 & Y3 & Z3 & Z3' & Z3'')|]);
      rewrite ?X1, ?X2, ?X3, ?Q1, ?Q2, ?Q3; unfold last_crossing; cbn [last3] in A; rewrite ?Z1', ?Z2', ?Z3'; cbn [segment_answer hit];
      try (apply FN; exact A);
      destruct A as (A1 & A2 & A3 & A); eexists; eexists; (split; [exact A1|split; [exact A2|split; [exact A3|split; [apply along_1|split; [eassumption|]]]]]);
      intros s Hs; rewrite <- FK by auto; apply A; auto.
    - destruct (hits kc ka kb) as [s1|] eqn:H1; [destruct (T1 _ eq_refl) as (x1 & Q1 & Y1 & Z1 & Z1' & Z1'')|];
      (destruct (hits ka kb kc) as [s2|] eqn:H2; [destruct (T2 _ eq_refl) as (x2 & Q2 & Y2 & Z2 & Z2' & Z2'')|]);
      (destruct (hits kb kc ka) as [s3|] eqn:H3; [destruct (T3 _ eq_refl) as (x3 & Q3 & Y3 & Z3 & Z3' & Z3'')|]);
      rewrite ?X1, ?X2, ?X3, ?Q1, ?Q2, ?Q3; cbn [filter is_hit]; rewrite ?Z1'', ?Z2'', ?Z3''; cbn [segment_answer hit];
      try (apply FN; exact A);
      destruct A as (A1 & A2 & A3 & A); eexists; eexists; (split; [exact A1|split; [exact A2|split; [exact A3|split; [eassumption|split; [eassumption|]]]]]);
      intros s Hs; rewrite <- FK by auto; apply A; auto.
  Qed.
End Plane.
