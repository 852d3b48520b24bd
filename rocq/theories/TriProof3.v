(** * Lemmas: intersecting triangles, C89: planes and cut points *)
From Coq Require Import List Arith ZArith Bool QArith Qabs Qfield Lia Lqa.
From Verif Require Import Base FracModel SegModel SegProof TriModel TriSpec TriProof TriProof2.
Import ListNotations.
Local Open Scope Q_scope.

(** ** volumes *)
Lemma measurement_volume a b c p : coplanar_measurement a b c p == - volume a b c p / 6.
Proof. unfold coplanar_measurement, volume, det4, det3, area_x, area_y, area_z. field. Qed.
Lemma volume_along a b c p q s : volume a b c (along p q s) == volume a b c p + s * (volume a b c q - volume a b c p).
Proof. unfold volume, along. simpl. ring. Qed.
Lemma volume_peq a b c x y : peq x y -> volume a b c x == volume a b c y.
Proof. intros (H1 & H2 & H3). unfold volume. rewrite H1, H2, H3. reflexivity. Qed.
Lemma volume_bary a b c p q r z u v w : bary p q r z u v w ->
  volume a b c z == u * volume a b c p + v * volume a b c q + w * volume a b c r.
Proof.
  intros [H1 H2]. assert (Hx := H2 0%nat). assert (Hy := H2 1%nat). assert (Hz := H2 2%nat). simpl in Hx, Hy, Hz.
  unfold volume. rewrite Hx, Hy, Hz. assert (E : u == 1 - v - w) by lra. rewrite E. ring.
Qed.
Lemma volume_own a b c : volume a b c a == 0 /\ volume a b c b == 0 /\ volume a b c c == 0.
Proof. unfold volume, area_x, area_y, area_z. repeat split; ring. Qed.
Lemma triangle_in_plane a b c z : in_triangle a b c z -> in_plane a b c z.
Proof.
  rewrite in_triangle_bary. intros (u & v & w & _ & _ & _ & B). unfold in_plane.
  destruct (volume_own a b c) as (H1 & H2 & H3). rewrite (volume_bary _ _ _ _ _ _ _ _ _ _ B), H1, H2, H3. ring.
Qed.
Lemma cut_spec a b c p q : ~ volume a b c p - volume a b c q == 0 ->
  exists s, line_plane_intersection a b c p q = along p q s /\ s == volume a b c p / (volume a b c p - volume a b c q).
Proof.
  intros H. eexists. split; [reflexivity|].
  match goal with |- - ?n / ?d == _ => assert (En : n == volume a b c p); [|assert (Ed : d == volume a b c q - volume a b c p)] end.
  - unfold det4, det3, volume, area_x, area_y, area_z. ring.
  - unfold det4, det3, volume, area_x, area_y, area_z, psub. simpl. ring.
  - rewrite En, Ed. field. split; intros E; apply H; lra.
Qed.
Lemma sign_eq x y : (sign x =? sign y)%Z = true <-> (0 <= x <-> 0 <= y).
Proof.
  unfold sign. destruct (Qle_bool 0 x) eqn:E1, (Qle_bool 0 y) eqn:E2; qb; simpl; (split; [intros Q|intros [Q G]]); try discriminate; try reflexivity;
    try (split; intros; lra).
  - specialize (Q E1). lra.
  - specialize (G E2). lra.
Qed.
Lemma measurement_sign a b c x y : ~ volume a b c x == 0 -> ~ volume a b c y == 0 ->
  ((sign (coplanar_measurement a b c x) =? sign (coplanar_measurement a b c y))%Z = true <->
   (0 < volume a b c x <-> 0 < volume a b c y)).
Proof.
  intros Hx Hy. rewrite sign_eq, !measurement_volume.
  assert (E : forall v, ~ v == 0 -> (0 <= - v / 6 <-> ~ 0 < v)).
  { intros v Hv. setoid_replace (- v / 6) with (- v * (1 # 6)) by field.
    split; intros H; [lra|]. destruct (Q_dec v 0) as [[?|?]|?]; [lra|contradiction|contradiction]. }
  rewrite !E by auto. split; intros H; [|tauto].
  destruct (Qlt_le_dec 0 (volume a b c x)), (Qlt_le_dec 0 (volume a b c y)); split; intros; auto; exfalso.
  - apply (proj2 H); [lra|auto].
  - lra.
  - lra.
  - apply (proj1 H); [lra|auto].
Qed.

(** ** the projection *)
Definition comp_area (k : nat) (a b c d : point) : Q :=
  match k with 0%nat => area_x a b c d | 1%nat => area_y a b c d | _ => area_z a b c d end.
Lemma det2_comp drop a b c d : (drop < 3)%nat ->
  Qabs (det2 (fst (pos_of drop)) (snd (pos_of drop)) (psub b a) (psub d c)) == Qabs (comp_area drop a b c d).
Proof.
  intros H. destruct drop as [|[|[|drop]]]; [| | |lia]; cbn [pos_of fst snd comp_area]; rewrite D_psub; cbn [coord]; unfold area_x, area_y, area_z.
  - apply Qabs_wd. ring.
  - rewrite <- Qabs_opp. apply Qabs_wd. ring.
  - apply Qabs_wd. ring.
Qed.
Lemma argmax_abs_spec n : (argmax_abs n < 3)%nat /\ forall k, Qabs (coord n k) <= Qabs (coord n (argmax_abs n)).
Proof.
  unfold argmax_abs. destruct (Qle_bool (Qabs (py n)) (Qabs (px n))) eqn:E1, (Qle_bool (Qabs (pz n)) (Qabs (px n))) eqn:E2,
    (Qle_bool (Qabs (pz n)) (Qabs (py n))) eqn:E3; simpl; qb; (split; [lia|]); intros [|[|k]]; simpl; lra.
Qed.
Lemma drop_spec a b c : (drop_of a b c < 3)%nat /\ forall k, Qabs (comp_area k a b a c) <= Qabs (comp_area (drop_of a b c) a b a c).
Proof.
  unfold drop_of. destruct (argmax_abs_spec (pcross (psub a b) (psub c b))) as [H1 H2]. split; auto.
  assert (E : forall k, Qabs (comp_area k a b a c) == Qabs (coord (pcross (psub a b) (psub c b)) k)).
  { intros k. rewrite <- Qabs_opp. apply Qabs_wd. destruct k as [|[|k]]; simpl; unfold area_x, area_y, area_z; ring. }
  intros k. rewrite !E. apply H2.
Qed.
Lemma frame_drop a b c x : ~ volume a b c x == 0 ->
  ~ frame (fst (pos_of (drop_of a b c))) (snd (pos_of (drop_of a b c))) a b c == 0.
Proof.
  intros H E. destruct (drop_spec a b c) as [H1 H2]. unfold frame in E.
  assert (Z : Qabs (comp_area (drop_of a b c) a b a c) == 0) by (rewrite <- det2_comp, E; auto; reflexivity).
  assert (A : forall k, comp_area k a b a c == 0).
  { intros k. specialize (H2 k). rewrite Z in H2. pose proof (Qabs_nonneg (comp_area k a b a c)).
    destruct (Qlt_le_dec 0 (comp_area k a b a c)) as [?|?]; [rewrite Qabs_pos in H2; lra|rewrite Qabs_neg in H2; lra]. }
  apply H. assert (X := A 0%nat). assert (Y := A 1%nat). assert (W := A 2%nat). simpl in *. unfold volume. rewrite X, Y, W. ring.
Qed.
(** in the plane, areas are multiples of the area of the triangle *)
Lemma comp_area_bary k a b c z u v w : bary a b c z u v w -> comp_area k z a z b == w * comp_area k a b a c.
Proof.
  intros [H1 H2]. assert (Hx := H2 0%nat). assert (Hy := H2 1%nat). assert (Hz := H2 2%nat). simpl in Hx, Hy, Hz.
  assert (E : u == 1 - v - w) by lra.
  destruct k as [|[|k]]; simpl; unfold area_x, area_y, area_z; rewrite Hx, Hy || rewrite Hx, Hz || rewrite Hy, Hz; rewrite ?Hx, ?Hy, ?Hz, E; ring.
Qed.
Lemma comp_area_parallel k a b c p q u v w u' v' w' : bary a b c p u v w -> bary a b c q u' v' w' ->
  comp_area k a b p q == (w' - w) * comp_area k a b a c.
Proof.
  intros [H1 H2] [G1 G2]. assert (Hx := H2 0%nat). assert (Hy := H2 1%nat). assert (Hz := H2 2%nat).
  assert (Gx := G2 0%nat). assert (Gy := G2 1%nat). assert (Gz := G2 2%nat). simpl in Hx, Hy, Hz, Gx, Gy, Gz.
  assert (E : u == 1 - v - w) by lra. assert (E' : u' == 1 - v' - w') by lra.
  destruct k as [|[|k]]; simpl; unfold area_x, area_y, area_z; rewrite ?Hx, ?Hy, ?Hz, ?Gx, ?Gy, ?Gz, E, E'; ring.
Qed.
Lemma comp_area_rot k a b c : comp_area k b c b a == comp_area k a b a c.
Proof. destruct k as [|[|k]]; simpl; unfold area_x, area_y, area_z; ring. Qed.
Lemma area_at_least_drop m a b c x y z d f : (forall k, comp_area k x y z d == f * comp_area k a b a c) ->
  area_at_least m x y z d -> m <= Qabs (comp_area (drop_of a b c) x y z d).
Proof.
  intros H A. destruct (drop_spec a b c) as [_ D].
  assert (M : forall k, Qabs (comp_area k x y z d) <= Qabs (comp_area (drop_of a b c) x y z d)).
  { intros k. rewrite (H k), (H (drop_of a b c)), !Qabs_Qmult. specialize (D k). pose proof (Qabs_nonneg f).
    rewrite (Qmult_comm (Qabs f)), (Qmult_comm (Qabs f)). apply Qmult_le_compat_r; auto. }
  destruct A as [A|[A|A]]; (eapply Qle_trans; [exact A|]).
  - exact (M 0%nat).
  - exact (M 1%nat).
  - exact (M 2%nat).
Qed.

(** a point of the plane has coordinates with respect to the triangle *)
Lemma plane_bary a b c x p : ~ volume a b c x == 0 -> in_plane a b c p -> exists u v w, bary a b c p u v w.
Proof.
  intros Hx Hp. assert (F := frame_drop a b c x Hx). unfold in_plane in Hp.
  destruct (drop_spec a b c) as [D _]. destruct (drop_of a b c) as [|[|[|d]]]; [| | |lia]; simpl in F; unfold frame in F; rewrite D_psub in F; simpl in F; clear D Hx.
  - set (N := (py b - py a) * (pz c - pz a) - (py c - py a) * (pz b - pz a)) in *.
    set (v := ((py p - py a) * (pz c - pz a) - (py c - py a) * (pz p - pz a)) / N).
    set (w := ((py b - py a) * (pz p - pz a) - (py p - py a) * (pz b - pz a)) / N).
    exists (1 - v - w), v, w. split; [ring|].
    assert (Ey : py p == (1 - v - w) * py a + v * py b + w * py c) by (unfold v, w, N; field; exact F).
    assert (Ez : pz p == (1 - v - w) * pz a + v * pz b + w * pz c) by (unfold v, w, N; field; exact F).
    intros [|[|k]]; simpl; auto.
    apply (Qmult_inj_l _ _ N); auto. unfold volume, area_x, area_y, area_z in Hp.
    assert (Hp' : N * px p == N * px a - ((pz b - pz a) * (px c - px a) - (px b - px a) * (pz c - pz a)) * (py p - py a) - ((px b - px a) * (py c - py a) - (py b - py a) * (px c - px a)) * (pz p - pz a)).
    { unfold N. lra. }
    rewrite Hp', Ey, Ez. unfold N. ring.
  - set (N := (px b - px a) * (pz c - pz a) - (px c - px a) * (pz b - pz a)) in *.
    set (v := ((px p - px a) * (pz c - pz a) - (px c - px a) * (pz p - pz a)) / N).
    set (w := ((px b - px a) * (pz p - pz a) - (px p - px a) * (pz b - pz a)) / N).
    exists (1 - v - w), v, w. split; [ring|].
    assert (Ex : px p == (1 - v - w) * px a + v * px b + w * px c) by (unfold v, w, N; field; exact F).
    assert (Ez : pz p == (1 - v - w) * pz a + v * pz b + w * pz c) by (unfold v, w, N; field; exact F).
    intros [|[|k]]; simpl; auto.
    apply (Qmult_inj_l _ _ N); auto. unfold volume, area_x, area_y, area_z in Hp.
    assert (Hp' : N * py p == N * py a + ((py b - py a) * (pz c - pz a) - (pz b - pz a) * (py c - py a)) * (px p - px a) + ((px b - px a) * (py c - py a) - (py b - py a) * (px c - px a)) * (pz p - pz a)).
    { unfold N. lra. }
    rewrite Hp', Ex, Ez. unfold N. ring.
  - set (N := (px b - px a) * (py c - py a) - (px c - px a) * (py b - py a)) in *.
    set (v := ((px p - px a) * (py c - py a) - (px c - px a) * (py p - py a)) / N).
    set (w := ((px b - px a) * (py p - py a) - (px p - px a) * (py b - py a)) / N).
    exists (1 - v - w), v, w. split; [ring|].
    assert (Ex : px p == (1 - v - w) * px a + v * px b + w * px c) by (unfold v, w, N; field; exact F).
    assert (Ey : py p == (1 - v - w) * py a + v * py b + w * py c) by (unfold v, w, N; field; exact F).
    intros [|[|k]]; simpl; auto.
    apply (Qmult_inj_l _ _ N); auto. unfold volume, area_x, area_y, area_z in Hp.
    assert (Hp' : N * pz p == N * pz a - ((py b - py a) * (pz c - pz a) - (pz b - pz a) * (py c - py a)) * (px p - px a) - ((pz b - pz a) * (px c - px a) - (px b - px a) * (pz c - pz a)) * (py p - py a)).
    { unfold N. lra. }
    rewrite Hp', Ex, Ey. unfold N. ring.
Qed.
