(** * Lemmas: intersecting quadrilaterals, C90 *)
From Coq Require Import List Arith ZArith Bool QArith Qabs Qfield Lia Lqa.
From Verif Require Import Base BaseProof FracModel SegModel SegProof TriModel TriSpec TriProof TriProof2 TriProof3 TriProof4.
Import ListNotations.
Local Open Scope Q_scope.

(** ** the first and the last of a list of points *)
Lemma best_min k l : forall x, In (best_from Qltb k x l) (x :: l) /\
  forall y, In y (x :: l) -> coord (best_from Qltb k x l) k <= coord y k.
Proof.
  induction l as [|y l IH]; intros x; simpl.
  - split; auto. intros z [->|[]]. lra.
  - destruct (Qltb (coord y k) (coord x k)) eqn:E.
    + apply Qltb_lt in E. destruct (IH y) as [H1 H2]. split; [right; exact H1|].
      intros z [<-|Hz]; [|apply H2; auto]. specialize (H2 y (or_introl eq_refl)). lra.
    + apply Qltb_ge in E. destruct (IH x) as [H1 H2]. split; [destruct H1; auto; right; right; auto|].
      intros z [<-|[<-|Hz]]; [apply H2; left; auto| |apply H2; right; auto]. specialize (H2 x (or_introl eq_refl)). lra.
Qed.
Lemma best_max k l : forall x, In (best_from (fun x y => Qltb y x) k x l) (x :: l) /\
  forall y, In y (x :: l) -> coord y k <= coord (best_from (fun x y => Qltb y x) k x l) k.
Proof.
  induction l as [|y l IH]; intros x; simpl.
  - split; auto. intros z [->|[]]. lra.
  - destruct (Qltb (coord x k) (coord y k)) eqn:E.
    + apply Qltb_lt in E. destruct (IH y) as [H1 H2]. split; [right; exact H1|].
      intros z [<-|Hz]; [|apply H2; auto]. specialize (H2 y (or_introl eq_refl)). lra.
    + apply Qltb_ge in E. destruct (IH x) as [H1 H2]. split; [destruct H1; auto; right; right; auto|].
      intros z [<-|[<-|Hz]]; [apply H2; left; auto| |apply H2; right; auto]. specialize (H2 x (or_introl eq_refl)). lra.
Qed.

(** ** points of two planes *)
Section Line.
  Variable p q r a b c : point.
  Variable x0 y0 : point.
  Hypothesis Hr : exists x, In x [p; q; r] /\ ~ in_plane a b c x.
  Hypothesis Ho : ~ volume p q r a == 0.
  Hypothesis Hx : in_plane p q r x0 /\ in_plane a b c x0.
  Hypothesis Hy : in_plane p q r y0 /\ in_plane a b c y0.
  Notation ox := (area_x p q p r). Notation oy := (area_y p q p r). Notation oz := (area_z p q p r).
  Notation tx := (area_x a b a c). Notation ty := (area_y a b a c). Notation tz := (area_z a b a c).

  Lemma plane_diff u v w x y : in_plane u v w x -> in_plane u v w y ->
    area_x u v u w * (px y - px x) + area_y u v u w * (py y - py x) + area_z u v u w * (pz y - pz x) == 0.
  Proof. unfold in_plane, volume. intros H1 H2. lra. Qed.

  (** the direction of the common line *)
  Lemma direction_nonzero : ~ (oy * tz - oz * ty == 0 /\ oz * tx - ox * tz == 0 /\ ox * ty - oy * tx == 0).
  Proof.
    intros (H1 & H2 & H3). destruct Hr as (x & Ix & Nx). apply Nx. unfold in_plane.
    assert (Px : in_plane p q r x).
    { unfold in_plane. destruct (volume_own p q r) as (? & ? & ?). destruct Ix as [<-|[<-|[<-|[]]]]; auto. }
    pose proof (plane_diff _ _ _ _ _ (proj1 Hx) Px) as E.
    assert (V : volume a b c x == tx * (px x - px x0) + ty * (py x - py x0) + tz * (pz x - pz x0)).
    { destruct Hx as [_ K]. unfold in_plane in K. unfold volume in *. lra. }
    set (dx := px x - px x0) in *. set (dy := py x - py x0) in *. set (dz := pz x - pz x0) in *.
    assert (Z1 : ox * volume a b c x == 0).
    { rewrite V. transitivity (tx * (ox * dx + oy * dy + oz * dz) + (ox * ty - oy * tx) * dy - (oz * tx - ox * tz) * dz); [ring|]. rewrite E, H2, H3. ring. }
    assert (Z2 : oy * volume a b c x == 0).
    { rewrite V. transitivity (ty * (ox * dx + oy * dy + oz * dz) - (ox * ty - oy * tx) * dx + (oy * tz - oz * ty) * dz); [ring|]. rewrite E, H1, H3. ring. }
    assert (Z3 : oz * volume a b c x == 0).
    { rewrite V. transitivity (tz * (ox * dx + oy * dy + oz * dz) + (oz * tx - ox * tz) * dx - (oy * tz - oz * ty) * dy); [ring|]. rewrite E, H1, H2. ring. }
    apply Qmult_integral in Z1 as [Z1|Z1]; auto. apply Qmult_integral in Z2 as [Z2|Z2]; auto. apply Qmult_integral in Z3 as [Z3|Z3]; auto.
    exfalso. apply Ho. unfold volume. rewrite Z1, Z2, Z3. ring.
  Qed.
  Definition dir (k : nat) : Q := match k with 0%nat => oy * tz - oz * ty | 1%nat => oz * tx - ox * tz | _ => ox * ty - oy * tx end.
  Lemma along_direction z : in_plane p q r z -> in_plane a b c z ->
    forall i j, (coord z i - coord x0 i) * dir j == (coord z j - coord x0 j) * dir i.
  Proof.
    intros H1 H2. pose proof (plane_diff _ _ _ _ _ (proj1 Hx) H1) as E1. pose proof (plane_diff _ _ _ _ _ (proj2 Hx) H2) as E2.
    set (dx := px z - px x0) in *. set (dy := py z - py x0) in *. set (dz := pz z - pz x0) in *.
    assert (A : dx * dir 1 == dy * dir 0). { simpl. transitivity (dy * (oy * tz - oz * ty) + oz * (tx * dx + ty * dy + tz * dz) - tz * (ox * dx + oy * dy + oz * dz)); [ring|]. rewrite E1, E2. ring. }
    assert (B : dy * dir 2 == dz * dir 1). { simpl. transitivity (dz * (oz * tx - ox * tz) + ox * (tx * dx + ty * dy + tz * dz) - tx * (ox * dx + oy * dy + oz * dz)); [ring|]. rewrite E1, E2. ring. }
    assert (C : dz * dir 0 == dx * dir 2). { simpl. transitivity (dx * (ox * ty - oy * tx) + oy * (tx * dx + ty * dy + tz * dz) - ty * (ox * dx + oy * dy + oz * dz)); [ring|]. rewrite E1, E2. ring. }
    intros [|[|i]] [|[|j]].
    - reflexivity.
    - exact A.
    - symmetry. exact C.
    - symmetry. exact A.
    - reflexivity.
    - exact B.
    - exact C.
    - symmetry. exact B.
    - reflexivity.
  Qed.
  Lemma common_line z k : in_plane p q r z -> in_plane a b c z -> ~ coord y0 k - coord x0 k == 0 ->
    peq z (along x0 y0 ((coord z k - coord x0 k) / (coord y0 k - coord x0 k))).
  Proof.
    intros H1 H2 Hk. apply peq_coord. intros i. rewrite coord_along.
    pose proof (along_direction z H1 H2) as Z. pose proof (along_direction y0 (proj1 Hy) (proj2 Hy)) as Y.
    assert (Dk : ~ dir k == 0).
    { intros E. apply direction_nonzero.
      assert (N : forall j, dir j == 0).
      { intros j. pose proof (Y k j) as Q. rewrite E in Q. apply (Qmult_inj_l (dir j) 0 _ Hk). rewrite Q. ring. }
      split; [exact (N 0%nat)|split; [exact (N 1%nat)|exact (N 2%nat)]]. }
    assert (Ez : coord z i - coord x0 i == (coord z k - coord x0 k) * dir i / dir k) by (rewrite <- (Z i k); field; auto).
    assert (Ey : coord y0 i - coord x0 i == (coord y0 k - coord x0 k) * dir i / dir k) by (rewrite <- (Y i k); field; auto).
    rewrite Ey. assert (G : coord z i == coord x0 i + (coord z k - coord x0 k) * dir i / dir k) by lra.
    rewrite G. field. auto.
  Qed.
End Line.

(** the kept coordinate is not constant on a line of the plane *)
Lemma kept_coordinate p q r x a b : ~ volume p q r x == 0 -> in_plane p q r a -> in_plane p q r b -> ~ peq a b ->
  let i := fst (pos_of (drop_of p q r)) in let j := snd (pos_of (drop_of p q r)) in
  let k := if Qle_bool (Qabs (coord a i - coord b i)) (Qabs (coord a j - coord b j)) then j else i in
  ~ coord b k - coord a k == 0.
Proof.
  intros Hx Ha Hb N i j k E. assert (F := frame_drop _ _ _ _ Hx). fold i j in F.
  assert (A0 : forall t, 0 <= Qabs t) by apply Qabs_nonneg.
  assert (Z : coord a i - coord b i == 0 /\ coord a j - coord b j == 0).
  { assert (AZ : forall t, Qabs t <= 0 -> t == 0).
    { intros t Ht. destruct (Qlt_le_dec 0 t) as [?|?]; [rewrite Qabs_pos in Ht; lra|rewrite Qabs_neg in Ht; lra]. }
    unfold k in E. destruct (Qle_bool (Qabs (coord a i - coord b i)) (Qabs (coord a j - coord b j))) eqn:Q; qb.
    - assert (Ej : coord a j - coord b j == 0) by lra. split; auto. apply AZ. rewrite Ej in Q. exact Q.
    - assert (Ei : coord a i - coord b i == 0) by lra. split; auto. apply AZ. rewrite Ei in H. simpl in H. apply Qlt_le_weak. exact H. }
  destruct Z as [Zi Zj].
  destruct (plane_bary _ _ _ _ a Hx Ha) as (u & v & w & B), (plane_bary _ _ _ _ b Hx Hb) as (u' & v' & w' & B').
  assert (Ai : coord a i == coord b i) by lra. assert (Aj : coord a j == coord b j) by lra.
  assert (W : w * frame i j p q r == w' * frame i j p q r).
  { rewrite <- (bary_area i j _ _ _ _ _ _ _ B), <- (bary_area i j _ _ _ _ _ _ _ B'). rewrite !D_psub, Ai, Aj. reflexivity. }
  apply Qmult_inj_r in W; auto.
  pose proof (bary_rot _ _ _ _ _ _ _ B) as C. pose proof (bary_rot _ _ _ _ _ _ _ B') as C'.
  assert (U : u * frame i j q r p == u' * frame i j q r p).
  { rewrite <- (bary_area i j _ _ _ _ _ _ _ C), <- (bary_area i j _ _ _ _ _ _ _ C'). rewrite !D_psub, Ai, Aj. reflexivity. }
  rewrite frame_rot in U. apply Qmult_inj_r in U; auto.
  apply N. apply peq_coord. intros m. destruct B as [B1 B2], B' as [B1' B2']. rewrite B2, B2', U, W.
  assert (V : v == v') by lra. rewrite V. reflexivity.
Qed.

(** ** the union of exact answers *)
Definition ends_ok (S : point -> Prop) (l : list point) : Prop := forall x, In x l -> S x.
Fixpoint covered (l : list point) (z : point) : Prop :=
  match l with x :: y :: l' => between x y z \/ covered l' z | _ => False end.
Lemma covered_between l : forall z k m M, covered l z -> (forall x, In x l -> m <= coord x k <= M) -> m <= coord z k <= M.
Proof.
  assert (G : forall n l, (length l <= n)%nat -> forall z k m M, covered l z -> (forall x, In x l -> m <= coord x k <= M) -> m <= coord z k <= M).
  { induction n as [|n IH]; intros l' Hn z k m M C H.
    - destruct l'; [destruct C|simpl in Hn; lia].
    - destruct l' as [|x [|y l']]; [destruct C|destruct C|]. destruct C as [(t & Ht & E)|C].
      + rewrite peq_coord in E. rewrite E, coord_along.
        assert (H1 := H x (or_introl eq_refl)). assert (H2 := H y (or_intror (or_introl eq_refl))). nra.
      + apply (IH l'); auto; [simpl in Hn; lia|]. intros w Hw. apply H. right; right; auto. }
  intros. eapply G; eauto.
Qed.
Definition even_points (l : list point) : Prop := exists n, length l = (2 * n)%nat.
Lemma covered_app l l' z : even_points l -> (covered (l ++ l') z <-> covered l z \/ covered l' z).
Proof.
  assert (G : forall n l, length l = (2 * n)%nat -> (covered (l ++ l') z <-> covered l z \/ covered l' z)).
  { induction n as [|n IH]; intros m Hm.
    - destruct m; [simpl; tauto|simpl in Hm; lia].
    - destruct m as [|x [|y m]]; [simpl in Hm; lia|simpl in Hm; lia|]. simpl. rewrite IH by (simpl in Hm; lia). tauto. }
  intros [n Hn]. eapply G; eauto.
Qed.
Definition ends_of (r : intersection) : list point := match r with Some (Some x, Some y) => [x; y] | _ => [] end.
Lemma exact_ends A B r : exact_answer A B r -> even_points (ends_of r) /\ (forall z, A z /\ B z <-> covered (ends_of r) z) /\
  (forall x, In x (ends_of r) -> A x /\ B x) /\
  match ends_of r with x :: y :: _ => ~ peq x y | _ => True end.
Proof.
  unfold exact_answer. destruct r as [[[x|] [y|]]|]; try contradiction; simpl.
  - intros [N H]. split; [exists 1%nat; reflexivity|]. split; [intros z; rewrite H; tauto|]. split; auto.
    intros w [<-|[<-|[]]]; apply H; [apply between_left|apply between_right].
  - intros H. split; [exists 0%nat; reflexivity|]. split; [intros z; split; [apply H|tauto]|]. split; auto. intros x [].
Qed.
Lemma even_app l l' : even_points l -> even_points l' -> even_points (l ++ l').
Proof. intros [n Hn] [m Hm]. exists (n + m)%nat. rewrite app_length. lia. Qed.
Lemma points_of_exact A B r : exact_answer A B r ->
  match r with None => Ok [] | Some (Some x, Some y) => Ok [x; y] | Some _ => Err ValueError end = Ok (ends_of r).
Proof. destruct r as [[[x|] [y|]]|]; simpl; tauto. Qed.

Section Quads.
  Variable eps : Q.
  Hypothesis He : 0 < eps.
  Variable o0 o1 o2 o3 t0 t1 t2 t3 : point.
  Hypothesis G1 : general_position eps o0 o1 o3 t0 t1 t3.
  Hypothesis G2 : general_position eps o0 o1 o3 t1 t2 t3.
  Hypothesis G3 : general_position eps o1 o2 o3 t0 t1 t3.
  Hypothesis G4 : general_position eps o1 o2 o3 t1 t2 t3.
  Hypothesis Po : in_plane o0 o1 o3 o2.
  Hypothesis Pt : in_plane t0 t1 t3 t2.
  Hypothesis Co : convex (in_quad o0 o1 o2 o3).
  Hypothesis Ct : convex (in_quad t0 t1 t2 t3).
  Variable more more' : list point.

  Lemma quad_plane a b c d z : in_plane a b d c -> in_quad a b c d z -> in_plane a b d z.
  Proof.
    intros H [Hz|Hz]; [apply triangle_in_plane; auto|]. apply in_triangle_bary in Hz as (u & v & w & _ & _ & _ & B).
    unfold in_plane in *. destruct (volume_own a b d) as (? & E1 & E2). rewrite (volume_bary _ _ _ _ _ _ _ _ _ _ B), E1, E2, H. ring.
  Qed.

  Lemma polygon_lemma : exists r, polygon_polygon_intersection eps (o0 :: o1 :: o2 :: o3 :: more) (t0 :: t1 :: t2 :: t3 :: more') = Ok r /\
    exact_answer (in_quad o0 o1 o2 o3) (in_quad t0 t1 t2 t3) r.
  Proof.
    destruct (triangle_triangle_lemma _ _ _ _ _ _ _ He G1) as (d1 & E1 & X1). destruct (triangle_triangle_lemma _ _ _ _ _ _ _ He G2) as (d2 & E2 & X2).
    destruct (triangle_triangle_lemma _ _ _ _ _ _ _ He G3) as (d3 & E3 & X3). destruct (triangle_triangle_lemma _ _ _ _ _ _ _ He G4) as (d4 & E4 & X4).
    unfold polygon_polygon_intersection, get_at. cbn [nth_error bind]. rewrite E1, E2, E3, E4. cbn [bind].
    unfold points_of. cbn [mapM]. rewrite (points_of_exact _ _ _ X1), (points_of_exact _ _ _ X2), (points_of_exact _ _ _ X3), (points_of_exact _ _ _ X4).
    cbn [bind concat].
    destruct (exact_ends _ _ _ X1) as (V1 & Z1 & I1 & N1), (exact_ends _ _ _ X2) as (V2 & Z2 & I2 & N2),
      (exact_ends _ _ _ X3) as (V3 & Z3 & I3 & N3), (exact_ends _ _ _ X4) as (V4 & Z4 & I4 & N4).
    set (l := ends_of d1 ++ ends_of d2 ++ ends_of d3 ++ ends_of d4 ++ []).
    assert (Hl : forall z, in_quad o0 o1 o2 o3 z /\ in_quad t0 t1 t2 t3 z <-> covered l z).
    { intros z. unfold l. rewrite !covered_app by (auto using even_app). rewrite <- Z1, <- Z2, <- Z3, <- Z4. unfold in_quad. simpl. tauto. }
    assert (Il : forall x, In x l -> in_quad o0 o1 o2 o3 x /\ in_quad t0 t1 t2 t3 x).
    { intros x Hx. unfold l in Hx. rewrite !in_app_iff in Hx. unfold in_quad.
      destruct Hx as [H|[H|[H|[H|[]]]]]; [apply I1 in H|apply I2 in H|apply I3 in H|apply I4 in H]; tauto. }
    assert (Nl : match l with x :: y :: _ => ~ peq x y | [] => True | _ => False end).
    { unfold l. destruct d1 as [[[x|] [y|]]|]; try contradiction; [exact N1|].
      destruct d2 as [[[x|] [y|]]|]; try contradiction; [exact N2|].
      destruct d3 as [[[x|] [y|]]|]; try contradiction; [exact N3|].
      destruct d4 as [[[x|] [y|]]|]; try contradiction; [exact N4|]. exact I. }
    destruct l as [|x [|y l]]; [|contradiction|].
    - exists None. split; auto. intros z Hz. apply Hl in Hz. exact Hz.
    - unfold reduce_poly_line. rewrite (surjective_pairing (pos_of (drop_of o0 o1 o3))). cbn [bind].
      set (k := if Qle_bool _ _ then _ else _). cbn [fst snd bind tl].
      set (A := best_from Qltb k x (y :: l)). set (B := best_from _ k x (y :: l)).
      exists (hit A B). split; auto.
      destruct (best_min k (y :: l) x) as [HA LA]. destruct (best_max k (y :: l) x) as [HB LB]. fold A in HA, LA. fold B in HB, LB.
      assert (OT : forall z, in_quad o0 o1 o2 o3 z /\ in_quad t0 t1 t2 t3 z -> in_plane o0 o1 o3 z /\ in_plane t0 t1 t3 z).
      { intros z [H1 H2]. split; eapply quad_plane; eauto. }
      assert (Px := OT _ (Il x (or_introl eq_refl))). assert (Py := OT _ (Il y (or_intror (or_introl eq_refl)))).
      assert (Vo : ~ volume o0 o1 o3 t0 == 0) by (apply (gp_second _ _ _ _ _ _ _ G1); simpl; auto).
      assert (Kc : ~ coord y k - coord x k == 0) by exact (kept_coordinate o0 o1 o3 t0 x y Vo (proj1 Px) (proj1 Py) Nl).
      assert (Hr : exists v, In v [o0; o1; o3] /\ ~ in_plane t0 t1 t3 v).
      { exists o0. split; [simpl; auto|]. apply (gp_first _ _ _ _ _ _ _ G1). simpl; auto. }
      assert (AB : coord A k < coord B k).
      { pose proof (LA x (or_introl eq_refl)). pose proof (LA y (or_intror (or_introl eq_refl))).
        pose proof (LB x (or_introl eq_refl)). pose proof (LB y (or_intror (or_introl eq_refl))).
        destruct (Qlt_le_dec (coord A k) (coord B k)); auto. exfalso. apply Kc. lra. }
      simpl. split.
      { intros E. rewrite peq_coord in E. rewrite (E k) in AB. lra. }
      intros z. split.
      + intros Hz. assert (Cz := proj1 (Hl z) Hz).
        assert (Bd := covered_between _ z k (coord A k) (coord B k) Cz (fun w Hw => conj (LA w Hw) (LB w Hw))).
        assert (PA := OT _ (Il A HA)). assert (PB := OT _ (Il B HB)). assert (Pz := OT _ Hz).
        exists ((coord z k - coord A k) / (coord B k - coord A k)). split.
        * split; [apply Qle_shift_div_l; lra|apply Qle_shift_div_r; lra].
        * apply (common_line o0 o1 o3 t0 t1 t3 A B Hr Vo PA PB z k); [tauto|tauto|lra].
      + intros Hz. split.
        * apply (Co A B z); [apply Il; auto|apply Il; auto|auto].
        * apply (Ct A B z); [apply Il; auto|apply Il; auto|auto].
  Qed.
End Quads.
