(** * Lemmas: intersecting triangles, C89: what holds of all inputs; checking general position *)
From Coq Require Import List Arith ZArith Bool QArith Qabs Qfield Lia Lqa.
From Verif Require Import Base BaseProof FracModel SegModel SegProof TriModel TriSpec TriProof TriProof2 TriProof3 TriProof4.
Import ListNotations.
Local Open Scope Q_scope.

Lemma sign_pigeon x y z : ((sign x =? sign y)%Z && negb (sign y =? 0)%Z) || ((sign y =? sign z)%Z && negb (sign z =? 0)%Z) || ((sign z =? sign x)%Z && negb (sign x =? 0)%Z) = true.
Proof. unfold sign. destruct (Qle_bool 0 x), (Qle_bool 0 y), (Qle_bool 0 z); reflexivity. Qed.
Lemma dead_branches_lemma eps tail tail' p1 q1 r1 a b c :
  triangle_triangle_with eps tail p1 q1 r1 a b c = triangle_triangle_with eps tail' p1 q1 r1 a b c.
Proof.
  unfold triangle_triangle_with. cbv zeta. destruct (_ || _)%bool; auto. rewrite sign_pigeon. auto.
Qed.
Lemma total_lemma eps p1 q1 r1 a b c : exists r, triangle_triangle_intersection eps p1 q1 r1 a b c = Ok r.
Proof.
  unfold triangle_triangle_intersection, triangle_triangle_with. cbv zeta. destruct (_ || _)%bool; eauto. rewrite sign_pigeon.
  match goal with |- exists r, (let (_, _) := ?x in _) = _ => destruct x as [p q] end. eauto.
Qed.
Lemma coplanar_lemma eps p1 q1 r1 a b c :
  (forall x, In x [p1; q1; r1] -> in_plane a b c x) \/ (forall x, In x [a; b; c] -> in_plane p1 q1 r1 x) ->
  triangle_triangle_intersection eps p1 q1 r1 a b c = Ok None.
Proof.
  assert (S : forall p q r x, in_plane p q r x -> sign (coplanar_measurement p q r x) = 1%Z).
  { intros p q r x H. unfold sign. replace (Qle_bool 0 (coplanar_measurement p q r x)) with true; auto. symmetry. apply Qle_bool_iff.
    rewrite measurement_volume. unfold in_plane in H. rewrite H. discriminate. }
  intros H. unfold triangle_triangle_intersection, triangle_triangle_with. cbv zeta.
  destruct H as [H|H].
  - rewrite (S a b c p1), (S a b c q1), (S a b c r1) by (apply H; simpl; auto). reflexivity.
  - rewrite (S p1 q1 r1 a), (S p1 q1 r1 b), (S p1 q1 r1 c) by (apply H; simpl; auto). rewrite orb_true_r. reflexivity.
Qed.

(** the points returned lie in the plane of the second triangle *)
Lemma plane_along a b c x y t : in_plane a b c x -> in_plane a b c y -> in_plane a b c (along x y t).
Proof. unfold in_plane. intros H1 H2. rewrite volume_along, H1, H2. ring. Qed.
Lemma line_line_plane eps i j a b c x y p q u v : in_plane a b c x -> in_plane a b c y -> in_plane a b c p -> in_plane a b c q ->
  line_line_intersection eps i j x y p q = Some (u, v) -> in_plane a b c u /\ forall w, v = Some w -> in_plane a b c w.
Proof.
  intros Hx Hy Hp Hq. unfold line_line_intersection. cbv zeta.
  repeat match goal with |- (if ?b then _ else _) = _ -> _ => destruct b end; intros E; inversion E; subst; (split; [auto using plane_along|]); intros w Ew; inversion Ew; subst; auto.
Qed.
Lemma cut_plane a b c p q : ~ (sign (coplanar_measurement a b c p) = sign (coplanar_measurement a b c q)) ->
  in_plane a b c (line_plane_intersection a b c p q).
Proof.
  intros H. assert (D : ~ volume a b c p - volume a b c q == 0).
  { intros E. apply H. apply Z.eqb_eq. apply sign_eq. rewrite !measurement_volume.
    assert (X : volume a b c p == volume a b c q) by lra. rewrite X. tauto. }
  destruct (cut_spec a b c p q D) as (s & -> & Es). unfold in_plane. rewrite volume_along, Es. field. auto.
Qed.
Lemma in_plane_lemma eps p1 q1 r1 a b c x y : triangle_triangle_intersection eps p1 q1 r1 a b c = Ok (Some (x, y)) ->
  exists u, x = Some u /\ in_plane a b c u /\ forall v, y = Some v -> in_plane a b c v.
Proof.
  unfold triangle_triangle_intersection, triangle_triangle_with. cbv zeta.
  destruct (_ || _)%bool eqn:T; [discriminate|]. rewrite sign_pigeon.
  match goal with |- (let (_, _) := ?x in _) = _ -> _ => destruct x as [p q] eqn:PQ end. intros E.
  assert (H : in_plane a b c p /\ in_plane a b c q).
  { apply orb_false_iff in T as [T _].
    set (sp := sign (coplanar_measurement a b c p1)) in *. set (sq := sign (coplanar_measurement a b c q1)) in *. set (sr := sign (coplanar_measurement a b c r1)) in *.
    assert (N0 : forall z, (sign z =? 0)%Z = false) by (intros z; unfold sign; destruct (Qle_bool 0 z); auto).
    assert (E1 : (sp =? 0)%Z = false) by apply N0. assert (E3 : (sr =? 0)%Z = false) by apply N0.
    rewrite E1, E3 in PQ. simpl in PQ. rewrite !andb_true_r in PQ.
    destruct (Z.eqb_spec sr sp) as [Q1|Q1]; [|destruct (Z.eqb_spec sq sr) as [Q2|Q2]]; inversion PQ; subst p q.
    - assert (~ sp = sq). { intros Q. rewrite Q in T. rewrite Z.eqb_refl in T. simpl in T. apply Z.eqb_neq in T. congruence. }
      split; apply cut_plane; fold sp sq sr; congruence.
    - split; apply cut_plane; fold sp sq sr; congruence.
    - split; apply cut_plane; fold sp sq sr; congruence. }
  destruct H as [Hp Hq]. inversion E as [E']. clear E PQ T. revert E'.
  destruct (volume_own a b c) as (Ha & Hb & Hc).
  unfold intersect_with_coplanar_segment, coplanar_segment. cbv zeta.
  set (i := fst _). set (j := snd _).
  assert (L : forall u v, In (u, v) [(a, b); (b, c); (c, a)] -> forall s t, line_line_intersection eps i j u v p q = Some (s, t) -> in_plane a b c s /\ forall w, t = Some w -> in_plane a b c w).
  { intros u v Huv s t. destruct Huv as [Q|[Q|[Q|[]]]]; inversion Q; subst; apply line_line_plane; auto. }
  assert (L1 := L a b (or_introl eq_refl)). assert (L2 := L b c (or_intror (or_introl eq_refl))). assert (L3 := L c a (or_intror (or_intror (or_introl eq_refl)))).
  destruct (line_line_intersection eps i j a b p q) as [[x1 y1]|], (line_line_intersection eps i j b c p q) as [[x2 y2]|], (line_line_intersection eps i j c a p q) as [[x3 y3]|];
  try (assert (M1 := L1 _ _ eq_refl)); try (assert (M2 := L2 _ _ eq_refl)); try (assert (M3 := L3 _ _ eq_refl)); clear L L1 L2 L3;
  unfold last_crossing; cbn [filter is_hit];
  repeat match goal with |- (if ?b then _ else _) = _ -> _ => destruct b end; try discriminate;
  repeat match goal with |- context [if ?b then _ else _] => destruct b end; try discriminate;
  intros Q; inversion Q; subst; eexists; (split; [reflexivity|]); (split; [tauto|]); intros w Hw; try (inversion Hw; subst); auto; try tauto;
  repeat match goal with M : _ /\ _ |- _ => destruct M end; auto.
Qed.

(** ** a check of general position *)
Definition edges (a b c : point) : list (point * point) := [(a, b); (b, c); (c, a)].
Definition cuts (p1 q1 r1 a b c : point) : list point :=
  concat (map (fun e => let x := volume a b c (fst e) in let y := volume a b c (snd e) in
    if Qltb (x * y) 0 then [along (fst e) (snd e) (x / (x - y))] else []) (edges p1 q1 r1)).
Definition far_line (eps : Q) (z : point) (e : point * point) : bool :=
  let '(x, y) := e in
  Qle_bool (eps * eps * sqnorm (psub y x)) (area_x z x x y * area_x z x x y + area_y z x x y * area_y z x x y + area_z z x x y * area_z z x x y)
  && Qltb 0 (sqnorm (psub y x)).
Definition area_check (m : Q) (a b c d : point) : bool :=
  Qle_bool m (Qabs (area_x a b c d)) || Qle_bool m (Qabs (area_y a b c d)) || Qle_bool m (Qabs (area_z a b c d)).
Definition parallel_check (a b c d : point) : bool :=
  Qeq_bool (area_x a b c d) 0 && Qeq_bool (area_y a b c d) 0 && Qeq_bool (area_z a b c d) 0.
Definition peqb (x y : point) : bool := Qeq_bool (px x) (px y) && Qeq_bool (py x) (py y) && Qeq_bool (pz x) (pz y).
Definition gp_check (eps : Q) (p1 q1 r1 a b c : point) : bool :=
  forallb (fun x => negb (Qeq_bool (volume a b c x) 0)) [p1; q1; r1] &&
  forallb (fun x => negb (Qeq_bool (volume p1 q1 r1 x) 0)) [a; b; c] &&
  forallb (fun z => forallb (fun e => far_line eps z e && area_check (2 * eps) z (fst e) z (snd e)) (edges a b c)) (cuts p1 q1 r1 a b c) &&
  forallb (fun z => forallb (fun z' => peqb z z' || forallb (fun e => parallel_check (fst e) (snd e) z z' || area_check eps (fst e) (snd e) z z') (edges a b c)) (cuts p1 q1 r1 a b c)) (cuts p1 q1 r1 a b c) &&
  forallb (far_line eps (mk_point 1 1 1)) (edges a b c).

Lemma far_line_apart eps z x y w : far_line eps z (x, y) = true -> between x y w -> apart eps z w.
Proof.
  unfold far_line. rewrite andb_true_iff, Qle_bool_iff, Qltb_lt. intros [H1 H2] (t & _ & E). rewrite peq_coord in E.
  assert (Ex := E 0%nat). assert (Ey := E 1%nat). assert (Ez := E 2%nat). simpl in Ex, Ey, Ez.
  unfold apart. rewrite Ex, Ey, Ez. apply (Qmult_le_l _ _ (sqnorm (psub y x))); auto.
  eapply Qle_trans; [rewrite Qmult_comm; exact H1|]. unfold sqnorm, psub, area_x, area_y, area_z. cbn [px py pz].
  clear. set (A := px x - px z). set (B := py x - py z). set (C := pz x - pz z). set (D := px y - px x). set (E := py y - py x). set (F := pz y - pz x).
  setoid_replace (px z - (px x + t * D)) with (- (A + t * D)) by (unfold A; ring).
  setoid_replace (py z - (py x + t * E)) with (- (B + t * E)) by (unfold B; ring).
  setoid_replace (pz z - (pz x + t * F)) with (- (C + t * F)) by (unfold C; ring).
  clearbody A B C D E F.
  assert (S : 0 <= (D * (A + t * D) + E * (B + t * E) + F * (C + t * F)) * (D * (A + t * D) + E * (B + t * E) + F * (C + t * F))).
  { set (g := D * (A + t * D) + E * (B + t * E) + F * (C + t * F)). nra. }
  match goal with |- ?L <= ?R => assert (Id : R - L == (D * (A + t * D) + E * (B + t * E) + F * (C + t * F)) * (D * (A + t * D) + E * (B + t * E) + F * (C + t * F))) by ring end.
  lra.
Qed.
Lemma area_check_ok m a b c d : area_check m a b c d = true -> area_at_least m a b c d.
Proof. unfold area_check, area_at_least. rewrite !orb_true_iff, !Qle_bool_iff. tauto. Qed.
Lemma area_at_least_peq m a b c d a' b' c' d' : peq a a' -> peq b b' -> peq c c' -> peq d d' -> area_at_least m a b c d -> area_at_least m a' b' c' d'.
Proof.
  intros (A1 & A2 & A3) (B1 & B2 & B3) (C1 & C2 & C3) (D1 & D2 & D3). unfold area_at_least, area_x, area_y, area_z.
  rewrite A1, A2, A3, B1, B2, B3, C1, C2, C3, D1, D2, D3. auto.
Qed.
Lemma peqb_ok x y : peqb x y = true <-> peq x y.
Proof. unfold peqb, peq. rewrite !andb_true_iff, !Qeq_bool_iff. tauto. Qed.
Lemma cuts_ok p1 q1 r1 a b c z : (forall x, In x [p1; q1; r1] -> ~ volume a b c x == 0) -> cut_point p1 q1 r1 a b c z ->
  exists z', In z' (cuts p1 q1 r1 a b c) /\ peq z z'.
Proof.
  intros V [He Hp].
  assert (G : forall u w, In (u, w) (edges p1 q1 r1) -> between u w z -> ~ volume a b c u == 0 -> ~ volume a b c w == 0 -> exists z', In z' (cuts p1 q1 r1 a b c) /\ peq z z').
  { intros u w Hin (t & Ht & E) Vu Vw. unfold in_plane in Hp. rewrite (volume_peq _ _ _ _ _ E), volume_along in Hp.
    set (x := volume a b c u) in *. set (y := volume a b c w) in *.
    assert (N : ~ x - y == 0). { intros Q. apply Vu. assert (X : y == x) by lra. rewrite X in Hp. lra. }
    assert (T : t == x / (x - y)). { apply (Qmult_inj_r _ _ (x - y)); auto. setoid_replace (x / (x - y) * (x - y)) with x by (field; auto). lra. }
    assert (S : x * y < 0).
    { destruct (nonzero_cases _ Vu), (nonzero_cases _ Vw); nra. }
    exists (along u w (x / (x - y))). split.
    - unfold cuts. apply in_concat. eexists. split; [apply in_map; exact Hin|]. cbn [fst snd]. fold x y.
      rewrite (proj2 (Qltb_lt _ _) S). simpl; auto.
    - eapply peq_trans; [exact E|]. apply peq_coord. intros k. rewrite !coord_along, T. reflexivity. }
  destruct He as [H|[H|H]].
  - apply (G p1 q1); auto; try (apply V; simpl; auto). simpl; auto.
  - apply (G q1 r1); auto; try (apply V; simpl; auto). simpl; auto.
  - apply (G r1 p1); auto; try (apply V; simpl; auto). simpl; auto.
Qed.
Lemma gp_check_ok eps p1 q1 r1 a b c : gp_check eps p1 q1 r1 a b c = true -> general_position eps p1 q1 r1 a b c.
Proof.
  unfold gp_check. rewrite !andb_true_iff. intros [[[[H1 H2] H3] H4] H5].
  rewrite forallb_forall in H1, H2, H3, H4, H5.
  assert (V1 : forall x, In x [p1; q1; r1] -> ~ volume a b c x == 0).
  { intros x Hx E. apply H1 in Hx. apply negb_true_iff in Hx. apply Qeq_bool_iff in E. congruence. }
  split.
  - exact V1.
  - intros x Hx E. apply H2 in Hx. apply negb_true_iff in Hx. apply Qeq_bool_iff in E. congruence.
  - intros z w Hz Hw. destruct (cuts_ok _ _ _ _ _ _ _ V1 Hz) as (z' & Iz & Ez). specialize (H3 _ Iz). rewrite forallb_forall in H3.
    apply (apart_peq eps z' w z w); [apply peq_sym; auto|apply peq_refl|].
    assert (G : forall x y, In (x, y) (edges a b c) -> between x y w -> apart eps z' w).
    { intros x y Hxy Hb. apply H3 in Hxy. apply andb_true_iff in Hxy as [Q _]. eapply far_line_apart; eauto. }
    destruct Hw as [Hw|[Hw|Hw]]; (eapply G; [|exact Hw]); simpl; auto.
  - intros z x y Hz Hxy. destruct (cuts_ok _ _ _ _ _ _ _ V1 Hz) as (z' & Iz & Ez). specialize (H3 _ Iz). rewrite forallb_forall in H3.
    specialize (H3 (x, y) Hxy). apply andb_true_iff in H3 as [_ Q]. apply area_check_ok in Q. cbn [fst snd] in Q.
    eapply area_at_least_peq; [| | | |exact Q]; auto using peq_refl, peq_sym.
  - intros z w x y Hz Hw N Hxy. destruct (cuts_ok _ _ _ _ _ _ _ V1 Hz) as (z' & Iz & Ez), (cuts_ok _ _ _ _ _ _ _ V1 Hw) as (w' & Iw & Ew).
    specialize (H4 _ Iz). rewrite forallb_forall in H4. specialize (H4 _ Iw). apply orb_true_iff in H4 as [Q|Q].
    + exfalso. apply N. apply peqb_ok in Q. eapply peq_trans; [exact Ez|]. eapply peq_trans; [exact Q|]. apply peq_sym; auto.
    + rewrite forallb_forall in Q. specialize (Q (x, y) Hxy). cbn [fst snd] in Q. apply orb_true_iff in Q as [Q|Q].
      { left. unfold parallel_check in Q. rewrite !andb_true_iff, !Qeq_bool_iff in Q. destruct Q as [[Q1 Q2] Q3], Ez as (Z1 & Z2 & Z3), Ew as (W1 & W2 & W3).
        unfold parallel, area_x, area_y, area_z in *. rewrite Z1, Z2, Z3, W1, W2, W3. auto. }
      right. apply area_check_ok in Q. eapply area_at_least_peq; [| | | |exact Q]; auto using peq_refl, peq_sym.
  - intros z _ Hz. unfold apart.
    assert (G : forall x y, In (x, y) (edges a b c) -> between x y z -> apart eps (mk_point 1 1 1) z).
    { intros x y Hxy Hb. apply H5 in Hxy. eapply far_line_apart; eauto. }
    assert (A : apart eps (mk_point 1 1 1) z) by (destruct Hz as [Hw|[Hw|Hw]]; (eapply G; [|exact Hw]); simpl; auto).
    unfold apart in A. eapply Qle_trans; [exact A|]. cbn [px py pz].
    match goal with |- ?L <= ?R => assert (Id : L == R) by ring end. rewrite Id. apply Qle_refl.
Qed.
