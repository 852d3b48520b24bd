(** * Lemmas: intersecting triangles, C89: the answer in general position *)
From Coq Require Import List Arith ZArith Bool QArith Qabs Qfield Lia Lqa.
From Verif Require Import Base FracModel SegModel SegProof TriModel TriSpec TriProof TriProof2 TriProof3.
Import ListNotations.
Local Open Scope Q_scope.

(** ** sets of points respect [peq] *)
Lemma in_triangle_peq a b c x y : peq x y -> in_triangle a b c x -> in_triangle a b c y.
Proof. rewrite !in_triangle_bary. intros E (u & v & w & H1 & H2 & H3 & B). exists u, v, w. do 3 (split; auto). eapply bary_peq; eauto. Qed.
Lemma between_peq a b a' b' x y : peq a a' -> peq b b' -> peq x y -> between a b x -> between a' b' y.
Proof.
  rewrite !peq_coord. intros Ea Eb Ex (t & Ht & Q). exists t. split; auto. rewrite peq_coord in *. intros k.
  rewrite <- Ex, Q, !coord_along, Ea, Eb. reflexivity.
Qed.
Lemma between_sym a b x : between a b x -> between b a x.
Proof. intros (t & Ht & Q). exists (1 - t). split; [lra|]. rewrite peq_coord in *. intros k. rewrite Q, !coord_along. ring. Qed.
Lemma on_edges_rot a b c x : on_edges a b c x -> on_edges b c a x.
Proof. unfold on_edges. tauto. Qed.
Lemma on_edges_peq a b c x y : peq x y -> on_edges a b c x -> on_edges a b c y.
Proof.
  intros E [H|[H|H]]; [left|right; left|right; right]; eapply between_peq; eauto; apply peq_refl.
Qed.
Lemma in_triangle_perm a b c x : in_triangle a b c x <-> in_triangle b a c x.
Proof.
  rewrite !in_triangle_bary. split; intros (u & v & w & H1 & H2 & H3 & B1 & B2); exists v, u, w; do 3 (split; auto); (split; [lra|]);
    intros k; rewrite B2; ring.
Qed.
Lemma in_triangle_rot a b c x : in_triangle a b c x <-> in_triangle b c a x.
Proof.
  rewrite !in_triangle_bary. split; intros (u & v & w & H1 & H2 & H3 & B).
  - exists v, w, u. do 3 (split; auto). apply bary_rot; auto.
  - exists w, u, v. do 3 (split; auto). do 2 apply bary_rot; auto.
Qed.

(** ** a triangle cut by a plane, with the vertex [w] alone on its side *)
Section Cut.
  Variable a b c u v w : point.
  Let V := volume a b c.
  Hypothesis Hu : 0 < V u /\ V w < 0 \/ V u < 0 /\ 0 < V w.
  Hypothesis Hv : 0 < V v /\ V w < 0 \/ V v < 0 /\ 0 < V w.
  Variable P Q : point.
  Hypothesis HP : peq P (along u w (V u / (V u - V w))).
  Hypothesis HQ : peq Q (along v w (V v / (V v - V w))).
  Lemma cut_set z : in_triangle u v w z /\ in_plane a b c z <-> between P Q z.
  Proof.
    assert (Du : ~ V u - V w == 0) by lra. assert (Dv : ~ V v - V w == 0) by lra. assert (Dw : ~ V w == 0) by lra.
    rewrite peq_coord in HP, HQ. rewrite in_triangle_bary. split.
    - intros [(x & y & r & H1 & H2 & H3 & B) Hz]. unfold in_plane in Hz. rewrite (volume_bary _ _ _ _ _ _ _ _ _ _ B) in Hz. fold V in Hz.
      destruct B as [B1 B2]. set (s := y * (V v - V w) / (- V w)). exists s.
      assert (Es : s * - V w == y * (V v - V w)) by (unfold s; field; auto).
      assert (Es' : (1 - s) * - V w == x * (V u - V w)).
      { setoid_replace ((1 - s) * - V w) with (- V w - s * - V w) by ring. rewrite Es. assert (E : r == 1 - x - y) by lra. rewrite E in Hz. lra. }
      split.
      + split; nra.
      + apply peq_coord. intros k. rewrite coord_along, HP, HQ, !coord_along, B2.
        assert (Ex : x == (1 - s) * - V w / (V u - V w)) by (rewrite Es'; field; auto).
        assert (Ey : y == s * - V w / (V v - V w)) by (rewrite Es; field; auto).
        assert (Er : r == 1 - x - y) by lra. rewrite Er, Ex, Ey. field. auto.
    - intros (s & Hs & E). rewrite peq_coord in E.
      set (x := (1 - s) * - V w / (V u - V w)). set (y := s * - V w / (V v - V w)).
      assert (Ex : x * (V u - V w) == (1 - s) * - V w) by (unfold x; field; auto).
      assert (Ey : y * (V v - V w) == s * - V w) by (unfold y; field; auto).
      assert (B : bary u v w z x y (1 - x - y)).
      { split; [ring|]. intros k. rewrite E, coord_along, HP, HQ, !coord_along. unfold x, y. field. auto. }
      assert (Hx : 0 <= x) by (destruct Hu as [[? ?]|[? ?]]; nra).
      assert (Hy : 0 <= y) by (destruct Hv as [[? ?]|[? ?]]; nra).
      assert (Hz : V z == 0).
      { unfold V. rewrite (volume_bary _ _ _ _ _ _ _ _ _ _ B). fold V. lra. }
      split; auto. exists x, y, (1 - x - y). split; auto. split; auto. split; auto.
      unfold V in Hz. rewrite (volume_bary _ _ _ _ _ _ _ _ _ _ B) in Hz. fold V in Hz.
      destruct Hu as [[? ?]|[? ?]], Hv as [[? ?]|[? ?]]; try lra; nra.
  Qed.
  Lemma cut_left : between u w P /\ in_plane a b c P.
  Proof.
    clear HQ Hv Q v.
    split.
    - exists (V u / (V u - V w)). split; auto. destruct Hu as [[? ?]|[? ?]].
      + split; [apply Qlt_le_weak, Qdiv_pos; lra|apply Qlt_le_weak, Qdiv_le_1; lra].
      + setoid_replace (V u / (V u - V w)) with (- V u / (V w - V u)) by (field; lra).
        split; [apply Qlt_le_weak, Qdiv_pos; lra|apply Qlt_le_weak, Qdiv_le_1; lra].
    - unfold in_plane. rewrite (volume_peq _ _ _ _ _ HP), volume_along. fold V. field. lra.
  Qed.
  Lemma cut_apart x : ~ volume u v w x == 0 -> ~ peq P Q.
  Proof.
    intros Hx E. assert (F := frame_drop _ _ _ _ Hx).
    assert (Du : ~ V u - V w == 0) by lra. assert (Dv : ~ V v - V w == 0) by lra.
    set (s := V u / (V u - V w)). set (t := V v / (V v - V w)).
    assert (B : bary u v w P (1 - s) 0 s).
    { split; [ring|]. intros k. rewrite peq_coord in HP. rewrite HP, coord_along. unfold s. ring. }
    assert (B' : bary u v w P 0 (1 - t) t).
    { split; [ring|]. intros k. rewrite peq_coord in HQ, E. rewrite E, HQ, coord_along. unfold t. ring. }
    destruct (bary_unique _ _ _ _ _ _ _ _ _ _ _ _ F B B') as (E1 & _ & _).
    assert (Z : V u - V w == V u). { transitivity (s * (V u - V w)); [|unfold s; field; auto]. assert (S : s == 1) by lra. rewrite S. ring. }
    lra.
  Qed.
End Cut.
Lemma cut_sym a b c u w : ~ volume a b c u - volume a b c w == 0 ->
  peq (along u w (volume a b c u / (volume a b c u - volume a b c w))) (along w u (volume a b c w / (volume a b c w - volume a b c u))).
Proof. intros H. apply peq_coord. intros k. rewrite !coord_along. field. split; intros E; apply H; lra. Qed.

(** ** the answer for two cut points *)
Section Answer.
  Variable eps : Q.
  Hypothesis He : 0 < eps.
  Variable p1 q1 r1 a b c : point.
  Hypothesis GP : general_position eps p1 q1 r1 a b c.

  Lemma answer_lemma P Q : cut_point p1 q1 r1 a b c P -> cut_point p1 q1 r1 a b c Q -> ~ peq P Q ->
    (forall z, in_triangle p1 q1 r1 z /\ in_plane a b c z <-> between P Q z) ->
    exact_answer (in_triangle p1 q1 r1) (in_triangle a b c) (intersect_with_coplanar_segment eps a b c P Q (drop_of a b c)).
  Proof.
    intros HP HQ N HPQ. unfold intersect_with_coplanar_segment.
    destruct (pos_of (drop_of a b c)) as [i j] eqn:Epos. cbn [fst snd].
    assert (Ei : i = fst (pos_of (drop_of a b c))) by (rewrite Epos; auto).
    assert (Ej : j = snd (pos_of (drop_of a b c))) by (rewrite Epos; auto).
    destruct GP as [G1 G2 G3 G4 G5 G6]. destruct (drop_spec a b c) as [Dlt _].
    assert (Hp1 : ~ volume a b c p1 == 0) by (apply G1; simpl; auto).
    assert (F : ~ frame i j a b c == 0) by (rewrite Ei, Ej; apply (frame_drop _ _ _ _ Hp1)).
    destruct (plane_bary _ _ _ _ P Hp1 (proj2 HP)) as (la & lb & lc & Bp).
    destruct (plane_bary _ _ _ _ Q Hp1 (proj2 HQ)) as (ma & mb & mc & Bq).
    assert (Hcol : forall z u v w, cut_point p1 q1 r1 a b c z -> bary a b c z u v w ->
       forall x y, In (x, y) [(a, b); (b, c); (c, a)] -> eps <= colinear_measurement i j x y z).
    { intros z u v w Hz B x y Hxy. assert (A := G4 z x y Hz Hxy).
      assert (M : 2 * eps <= Qabs (comp_area (drop_of a b c) z x z y)).
      { destruct Hxy as [Q1|[Q1|[Q1|[]]]]; inversion Q1; subst x y.
        - eapply area_at_least_drop; [|exact A]. intros k. apply (comp_area_bary k _ _ _ _ _ _ _ B).
        - eapply area_at_least_drop; [|exact A]. intros k. rewrite (comp_area_bary k _ _ _ _ _ _ _ (bary_rot _ _ _ _ _ _ _ B)), comp_area_rot. reflexivity.
        - eapply area_at_least_drop; [|exact A]. intros k.
          rewrite (comp_area_bary k _ _ _ _ _ _ _ (bary_rot _ _ _ _ _ _ _ (bary_rot _ _ _ _ _ _ _ B))), <- (comp_area_rot k c a b). reflexivity. }
      rewrite <- det2_comp, <- Ei, <- Ej in M by auto. unfold colinear_measurement. lra. }
    assert (Hpar : forall x y, In (x, y) [(a, b); (b, c); (c, a)] -> det2 i j (psub x y) (psub P Q) == 0 \/ eps <= Qabs (det2 i j (psub x y) (psub P Q))).
    { intros x y Hxy.
      assert (Dsgn : Qabs (det2 i j (psub x y) (psub P Q)) == Qabs (comp_area (drop_of a b c) x y P Q)).
      { rewrite <- det2_comp, <- Ei, <- Ej by auto. rewrite !D_psub.
        match goal with |- Qabs ?u == Qabs ?v => setoid_replace u with v by ring; reflexivity end. }
      destruct (G5 P Q x y HP HQ N Hxy) as [(A1 & A2 & A3)|A].
      { left. assert (Z0 : comp_area (drop_of a b c) x y P Q == 0) by (destruct (drop_of a b c) as [|[|d]]; auto).
        rewrite Z0 in Dsgn. destruct (Qlt_le_dec 0 (det2 i j (psub x y) (psub P Q))) as [L|L]; [rewrite Qabs_pos in Dsgn; [exact Dsgn|lra]|rewrite Qabs_neg in Dsgn; [|lra]].
        setoid_replace (det2 i j (psub x y) (psub P Q)) with (- - det2 i j (psub x y) (psub P Q)) by ring. rewrite Dsgn. reflexivity. }
      right.
      assert (M : eps <= Qabs (comp_area (drop_of a b c) x y P Q)).
      { destruct Hxy as [Q1|[Q1|[Q1|[]]]]; inversion Q1; subst x y.
        - eapply area_at_least_drop; [|exact A]. intros k. apply (comp_area_parallel k _ _ _ _ _ _ _ _ _ _ _ Bp Bq).
        - eapply area_at_least_drop; [|exact A]. intros k.
          rewrite (comp_area_parallel k _ _ _ _ _ _ _ _ _ _ _ (bary_rot _ _ _ _ _ _ _ Bp) (bary_rot _ _ _ _ _ _ _ Bq)), comp_area_rot. reflexivity.
        - eapply area_at_least_drop; [|exact A]. intros k.
          rewrite (comp_area_parallel k _ _ _ _ _ _ _ _ _ _ _ (bary_rot _ _ _ _ _ _ _ (bary_rot _ _ _ _ _ _ _ Bp)) (bary_rot _ _ _ _ _ _ _ (bary_rot _ _ _ _ _ _ _ Bq))), <- (comp_area_rot k c a b). reflexivity. }
      rewrite Dsgn. exact M. }
    assert (Hfar : forall w, on_edges a b c w -> apart eps P w /\ apart eps Q w) by (intros w Hw; split; apply G3; auto).
    assert (Hones : forall z, between P Q z -> on_edges a b c z -> apart eps z (mk_point 1 1 1)).
    { intros z Hz Hw. apply G6; auto. apply HPQ in Hz. tauto. }
    (* no vertex of the second triangle on the line *)
    assert (OP : forall z, cut_point p1 q1 r1 a b c z -> volume p1 q1 r1 z == 0).
    { intros z [[Hz|[Hz|Hz]] _]; destruct Hz as (t & _ & E); rewrite (volume_peq _ _ _ _ _ E), volume_along;
        destruct (volume_own p1 q1 r1) as (H1 & H2 & H3); rewrite ?H1, ?H2, ?H3; ring. }
    assert (NV : forall x y z l l' l'' m m' m'', bary x y z P l l' l'' -> bary x y z Q m m' m'' -> ~ volume p1 q1 r1 z == 0 -> ~ l * m' - l' * m == 0).
    { intros x y z l l' l'' m m' m'' B B' Vz E.
      pose proof (OP _ HP) as E1. rewrite (volume_bary _ _ _ _ _ _ _ _ _ _ B) in E1.
      pose proof (OP _ HQ) as E2. rewrite (volume_bary _ _ _ _ _ _ _ _ _ _ B') in E2.
      set (Vx := volume p1 q1 r1 x) in *. set (Vy := volume p1 q1 r1 y) in *. set (Vz' := volume p1 q1 r1 z) in *.
      assert (Z1 : (l'' * m' - m'' * l') * Vz' == 0).
      { transitivity (m' * (l * Vx + l' * Vy + l'' * Vz') - l' * (m * Vx + m' * Vy + m'' * Vz') - (l * m' - l' * m) * Vx); [ring|].
        rewrite E1, E2, E. ring. }
      assert (Z2 : (l'' * m - m'' * l) * Vz' == 0).
      { transitivity (m * (l * Vx + l' * Vy + l'' * Vz') - l * (m * Vx + m' * Vy + m'' * Vz') + (l * m' - l' * m) * Vy); [ring|].
        rewrite E1, E2, E. ring. }
      apply Qmult_integral in Z1 as [Z1|Z1]; [|contradiction]. apply Qmult_integral in Z2 as [Z2|Z2]; [|contradiction].
      apply N. destruct B as [S1 T1], B' as [S2 T2].
      assert (X : m'' == l'').
      { transitivity (m'' * (l + l' + l'')); [rewrite S1; ring|]. transitivity (l'' * (m + m' + m'')); [|rewrite S2; ring]. lra. }
      assert (Y : m == l).
      { transitivity (m * (l + l' + l'')); [rewrite S1; ring|]. transitivity (l * (m + m' + m'')); [|rewrite S2; ring]. lra. }
      assert (Z : m' == l') by lra.
      apply peq_coord. intros k. rewrite T1, T2, X, Y, Z. reflexivity. }
    assert (Nc := NV a b c _ _ _ _ _ _ Bp Bq (G2 c (or_intror (or_intror (or_introl eq_refl))))).
    assert (Na := NV b c a _ _ _ _ _ _ (bary_rot _ _ _ _ _ _ _ Bp) (bary_rot _ _ _ _ _ _ _ Bq) (G2 a (or_introl eq_refl))).
    assert (Nb := NV c a b _ _ _ _ _ _ (bary_rot _ _ _ _ _ _ _ (bary_rot _ _ _ _ _ _ _ Bp)) (bary_rot _ _ _ _ _ _ _ (bary_rot _ _ _ _ _ _ _ Bq)) (G2 b (or_intror (or_introl eq_refl)))).
    assert (L := coplanar_segment_lemma i j eps He a b c P Q la lb lc ma mb mc F Bp Bq (Hcol P _ _ _ HP Bp) (Hcol Q _ _ _ HQ Bq) Hpar Hfar Hones Nc Na Nb).
    unfold segment_answer, F_ok in L. unfold exact_answer.
    destruct (coplanar_segment eps i j a b c P Q) as [[[x|] [y|]]|]; try contradiction.
    - destruct L as (s1 & s2 & H1 & H2 & Ne & X & Y & L). split.
      { intros E. apply N. apply peq_coord. intros k. rewrite peq_coord in X, Y, E. specialize (E k). rewrite X, Y, !coord_along in E.
        assert (Z : (s1 - s2) * (coord Q k - coord P k) == 0) by lra. apply Qmult_integral in Z as [Z|Z]; [exfalso; apply Ne; lra|lra]. }
      intros z. split.
      + intros [Hz Hz']. assert (Hb : between P Q z) by (apply HPQ; split; [auto|apply triangle_in_plane; auto]).
        destruct Hb as (s & Hs & E). assert (Is : in_triangle a b c (along P Q s)) by (eapply in_triangle_peq; eauto).
        apply L in Is; auto.
        assert (Es : ~ s2 - s1 == 0) by (intros Z; apply Ne; lra).
        * exists ((s - s1) / (s2 - s1)). split.
          -- destruct Is as [[A1 A2]|[A1 A2]].
             ++ split; [apply Qle_shift_div_l; lra|apply Qle_shift_div_r; lra].
             ++ setoid_replace ((s - s1) / (s2 - s1)) with ((s1 - s) / (s1 - s2)) by (field; split; lra).
                split; [apply Qle_shift_div_l; lra|apply Qle_shift_div_r; lra].
          -- rewrite peq_coord in *. intros k. rewrite E, !coord_along, X, Y, !coord_along. field. lra.
      + intros (t & Ht & E). set (s := s1 + t * (s2 - s1)).
        assert (Hs : 0 <= s <= 1) by (unfold s; nra).
        assert (Ez : peq z (along P Q s)).
        { rewrite peq_coord in *. intros k. rewrite E, !coord_along, X, Y, !coord_along. unfold s. ring. }
        assert (Is : in_triangle a b c (along P Q s)).
        { apply L; auto. unfold s. destruct (Qlt_le_dec s1 s2); [left|right]; nra. }
        split; [|eapply in_triangle_peq; [apply peq_sym; exact Ez|auto]].
        apply (proj2 (HPQ z)). exists s. split; auto.
    - intros z [Hz Hz']. assert (Hb : between P Q z) by (apply HPQ; split; [auto|apply triangle_in_plane; auto]).
      destruct Hb as (s & Hs & E). apply (L s Hs). eapply in_triangle_peq; eauto.
  Qed.
End Answer.

(** a triangle strictly on one side of a plane *)
Lemma one_side a b c p q r z : (0 < volume a b c p /\ 0 < volume a b c q /\ 0 < volume a b c r) \/ (volume a b c p < 0 /\ volume a b c q < 0 /\ volume a b c r < 0) ->
  in_triangle p q r z -> ~ in_plane a b c z.
Proof.
  rewrite in_triangle_bary. intros H (u & v & w & H1 & H2 & H3 & B) E. unfold in_plane in E. rewrite (volume_bary _ _ _ _ _ _ _ _ _ _ B) in E.
  destruct B as [B _].
  set (x := volume a b c p) in *. set (y := volume a b c q) in *. set (t := volume a b c r) in *.
  destruct H as [(? & ? & ?)|(? & ? & ?)].
  - assert (0 <= u * x) by nra. assert (0 <= v * y) by nra. assert (0 <= w * t) by nra.
    assert (u * x == 0) by lra. assert (v * y == 0) by lra. assert (w * t == 0) by lra.
    assert (Z : forall f g, 0 < g -> f * g == 0 -> f == 0) by (intros f g Hg Q; apply Qmult_integral in Q as [Q|Q]; [auto|lra]).
    assert (u == 0) by (eapply Z; [|eassumption]; auto). assert (v == 0) by (eapply Z; [|eassumption]; auto). assert (w == 0) by (eapply Z; [|eassumption]; auto). lra.
  - assert (u * x <= 0) by nra. assert (v * y <= 0) by nra. assert (w * t <= 0) by nra.
    assert (u * x == 0) by lra. assert (v * y == 0) by lra. assert (w * t == 0) by lra.
    assert (Z : forall f g, g < 0 -> f * g == 0 -> f == 0) by (intros f g Hg Q; apply Qmult_integral in Q as [Q|Q]; [auto|lra]).
    assert (u == 0) by (eapply Z; [|eassumption]; auto). assert (v == 0) by (eapply Z; [|eassumption]; auto). assert (w == 0) by (eapply Z; [|eassumption]; auto). lra.
Qed.
Lemma nonzero_cases x : ~ x == 0 -> 0 < x \/ x < 0.
Proof. intros H. destruct (Q_dec x 0) as [[?|?]|?]; auto. contradiction. Qed.

Lemma triangle_triangle_lemma eps p1 q1 r1 a b c : 0 < eps -> general_position eps p1 q1 r1 a b c ->
  exists r, triangle_triangle_intersection eps p1 q1 r1 a b c = Ok r /\ exact_answer (in_triangle p1 q1 r1) (in_triangle a b c) r.
Proof.
  intros He GP. pose proof GP as [G1 G2 _ _ _ _].
  set (V := volume a b c). set (W := volume p1 q1 r1).
  assert (Vp : ~ V p1 == 0) by (apply G1; simpl; auto). assert (Vq : ~ V q1 == 0) by (apply G1; simpl; auto). assert (Vr : ~ V r1 == 0) by (apply G1; simpl; auto).
  assert (Wa : ~ W a == 0) by (apply G2; simpl; auto). assert (Wb : ~ W b == 0) by (apply G2; simpl; auto). assert (Wc : ~ W c == 0) by (apply G2; simpl; auto).
  assert (SV : forall x y, ~ V x == 0 -> ~ V y == 0 -> (sign (coplanar_measurement a b c x) =? sign (coplanar_measurement a b c y))%Z = true <-> (0 < V x <-> 0 < V y))
    by (intros; apply measurement_sign; auto).
  assert (SW : forall x y, ~ W x == 0 -> ~ W y == 0 -> (sign (coplanar_measurement p1 q1 r1 x) =? sign (coplanar_measurement p1 q1 r1 y))%Z = true <-> (0 < W x <-> 0 < W y))
    by (intros; apply measurement_sign; auto).
  assert (Sne : forall x, (sign x =? 0)%Z = false) by (intros x; unfold sign; destruct (Qle_bool 0 x); auto).
  unfold triangle_triangle_intersection, triangle_triangle_with. cbv zeta. rewrite !Sne. cbn [negb].
  rewrite !andb_true_r.
  destruct ((sign (coplanar_measurement a b c p1) =? sign (coplanar_measurement a b c q1))%Z && (sign (coplanar_measurement a b c q1) =? sign (coplanar_measurement a b c r1))%Z) eqn:T1.
  { cbn [orb]. exists None. split; auto. intros z [Hz Hz']. apply andb_true_iff in T1 as [A B]. apply SV in A, B; auto.
    apply (one_side a b c p1 q1 r1 z); auto; [|apply triangle_in_plane; auto]. fold V.
    destruct (nonzero_cases _ Vp), (nonzero_cases _ Vq), (nonzero_cases _ Vr); try (exfalso; lra); auto. }
  destruct ((sign (coplanar_measurement p1 q1 r1 a) =? sign (coplanar_measurement p1 q1 r1 b))%Z && (sign (coplanar_measurement p1 q1 r1 b) =? sign (coplanar_measurement p1 q1 r1 c))%Z) eqn:T2.
  { cbn [orb]. exists None. split; auto. intros z [Hz Hz']. apply andb_true_iff in T2 as [A B]. apply SW in A, B; auto.
    apply (one_side p1 q1 r1 a b c z); auto; [|apply triangle_in_plane; auto]. fold W.
    destruct (nonzero_cases _ Wa), (nonzero_cases _ Wb), (nonzero_cases _ Wc); try (exfalso; lra); auto. }
  cbn [orb].
  assert (K : forall x y, (sign x =? sign y)%Z = (sign y =? sign x)%Z) by (intros; apply Z.eqb_sym).
  assert (OPP : forall x y, ~ V x == 0 -> ~ V y == 0 -> (sign (coplanar_measurement a b c x) =? sign (coplanar_measurement a b c y))%Z = false -> 0 < V x /\ V y < 0 \/ V x < 0 /\ 0 < V y).
  { intros x y Hx Hy E. destruct (nonzero_cases _ Hx), (nonzero_cases _ Hy); auto; exfalso;
      (assert (T : (sign (coplanar_measurement a b c x) =? sign (coplanar_measurement a b c y))%Z = true) by (apply SV; auto; split; intros; lra)); congruence. }
  assert (TR : forall x y z, (sign x =? sign y)%Z = true -> (sign y =? sign z)%Z = true -> (sign x =? sign z)%Z = true).
  { intros x y z. rewrite !Z.eqb_eq. congruence. }
  assert (PG : (sign (coplanar_measurement a b c r1) =? sign (coplanar_measurement a b c p1))%Z || (sign (coplanar_measurement a b c q1) =? sign (coplanar_measurement a b c r1))%Z
     || (sign (coplanar_measurement a b c p1) =? sign (coplanar_measurement a b c q1))%Z = true).
  { unfold sign. destruct (Qle_bool 0 (coplanar_measurement a b c p1)), (Qle_bool 0 (coplanar_measurement a b c q1)), (Qle_bool 0 (coplanar_measurement a b c r1)); auto. }
  destruct (sign (coplanar_measurement a b c r1) =? sign (coplanar_measurement a b c p1))%Z eqn:RP;
    [|destruct (sign (coplanar_measurement a b c q1) =? sign (coplanar_measurement a b c r1))%Z eqn:QR;
      [|destruct (sign (coplanar_measurement a b c p1) =? sign (coplanar_measurement a b c q1))%Z eqn:PQ; [|discriminate]]].
  - (* q1 alone *)
    rewrite orb_true_r. eexists. split; [reflexivity|].
    assert (PQ : (sign (coplanar_measurement a b c p1) =? sign (coplanar_measurement a b c q1))%Z = false).
    { apply not_true_is_false. intros E. rewrite E in T1. cbn [andb] in T1. rewrite K in T1. rewrite (TR _ _ _ RP E) in T1. discriminate. }
    assert (RQ : (sign (coplanar_measurement a b c r1) =? sign (coplanar_measurement a b c q1))%Z = false).
    { apply not_true_is_false. intros E. rewrite K in RP. rewrite (TR _ _ _ RP E) in PQ. discriminate. }
    apply OPP in PQ, RQ; auto.
    assert (D1 : ~ V p1 - V q1 == 0) by lra. assert (D2 : ~ V q1 - V r1 == 0) by lra. assert (D3 : ~ V r1 - V q1 == 0) by lra.
    destruct (cut_spec a b c p1 q1 D1) as (s & -> & Es). destruct (cut_spec a b c q1 r1 D2) as (t & -> & Et).
    assert (HP : peq (along p1 q1 s) (along p1 q1 (V p1 / (V p1 - V q1)))) by (apply peq_coord; intros k; rewrite !coord_along, Es; reflexivity).
    assert (HQ : peq (along q1 r1 t) (along r1 q1 (V r1 / (V r1 - V q1)))).
    { eapply peq_trans; [|apply (cut_sym a b c q1 r1 D2)]. apply peq_coord; intros k; rewrite !coord_along, Et; reflexivity. }
    destruct (cut_left a b c p1 q1 PQ _ HP) as [C1 C2]. destruct (cut_left a b c r1 q1 RQ _ HQ) as [C3 C4].
    apply answer_lemma; auto.
    + split; auto. left. auto.
    + split; auto. right; left. apply between_sym. auto.
    + apply (cut_apart a b c p1 r1 q1 PQ RQ _ _ HP HQ a).
      intros E. apply Wa. unfold W. rewrite <- (Qopp_involutive (volume p1 q1 r1 a)).
      setoid_replace (volume p1 q1 r1 a) with (- volume p1 r1 q1 a) by (unfold volume, area_x, area_y, area_z; ring). rewrite E. ring.
    + intros z. rewrite <- (cut_set a b c p1 r1 q1 PQ RQ _ _ HP HQ z). rewrite (in_triangle_rot p1 r1 q1), (in_triangle_perm r1 q1 p1), (in_triangle_rot p1 q1 r1). tauto.
  - (* p1 alone *)
    rewrite orb_true_r. cbn [orb]. eexists. split; [reflexivity|].
    assert (QP : (sign (coplanar_measurement a b c q1) =? sign (coplanar_measurement a b c p1))%Z = false).
    { apply not_true_is_false. intros E. rewrite K in QR. rewrite (TR _ _ _ QR E) in RP. discriminate. }
    apply OPP in QP, RP; auto.
    assert (D1 : ~ V p1 - V q1 == 0) by lra. assert (D2 : ~ V r1 - V p1 == 0) by lra.
    destruct (cut_spec a b c p1 q1 D1) as (s & -> & Es). destruct (cut_spec a b c r1 p1 D2) as (t & -> & Et).
    assert (HP : peq (along p1 q1 s) (along q1 p1 (V q1 / (V q1 - V p1)))).
    { eapply peq_trans; [|apply (cut_sym a b c p1 q1 D1)]. apply peq_coord; intros k; rewrite !coord_along, Es; reflexivity. }
    assert (HQ : peq (along r1 p1 t) (along r1 p1 (V r1 / (V r1 - V p1)))) by (apply peq_coord; intros k; rewrite !coord_along, Et; reflexivity).
    destruct (cut_left a b c q1 p1 QP _ HP) as [C1 C2]. destruct (cut_left a b c r1 p1 RP _ HQ) as [C3 C4].
    apply answer_lemma; auto.
    + split; auto. left. apply between_sym. auto.
    + split; auto. right; right. auto.
    + apply (cut_apart a b c q1 r1 p1 QP RP _ _ HP HQ a).
      intros E. apply Wa. unfold W. rewrite <- E. unfold volume, area_x, area_y, area_z; ring.
    + intros z. rewrite <- (cut_set a b c q1 r1 p1 QP RP _ _ HP HQ z). rewrite (in_triangle_rot p1 q1 r1). tauto.
  - (* r1 alone *)
    cbn [orb]. eexists. split; [reflexivity|].
    assert (PR : (sign (coplanar_measurement a b c p1) =? sign (coplanar_measurement a b c r1))%Z = false) by (rewrite K; auto).
    apply OPP in QR, PR; auto.
    assert (D1 : ~ V q1 - V r1 == 0) by lra. assert (D2 : ~ V r1 - V p1 == 0) by lra.
    destruct (cut_spec a b c q1 r1 D1) as (s & -> & Es). destruct (cut_spec a b c r1 p1 D2) as (t & -> & Et).
    assert (HP : peq (along q1 r1 s) (along q1 r1 (V q1 / (V q1 - V r1)))) by (apply peq_coord; intros k; rewrite !coord_along, Es; reflexivity).
    assert (HQ : peq (along r1 p1 t) (along p1 r1 (V p1 / (V p1 - V r1)))).
    { eapply peq_trans; [|apply (cut_sym a b c r1 p1 D2)]. apply peq_coord; intros k; rewrite !coord_along, Et; reflexivity. }
    destruct (cut_left a b c q1 r1 QR _ HP) as [C1 C2]. destruct (cut_left a b c p1 r1 PR _ HQ) as [C3 C4].
    apply answer_lemma; auto.
    + split; auto. right; left. auto.
    + split; auto. right; right. apply between_sym. auto.
    + apply (cut_apart a b c q1 p1 r1 QR PR _ _ HP HQ a).
      intros E. apply Wa. unfold W.
      setoid_replace (volume p1 q1 r1 a) with (- volume q1 p1 r1 a) by (unfold volume, area_x, area_y, area_z; ring). rewrite E. ring.
    + intros z. rewrite <- (cut_set a b c q1 p1 r1 QR PR _ _ HP HQ z). rewrite (in_triangle_perm p1 q1 r1). tauto.
Qed.
