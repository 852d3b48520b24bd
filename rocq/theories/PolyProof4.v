(** * Lemmas: the number of turns of a polygon around a point, C92 *)
From Coq Require Import List Arith ZArith Bool Reals Lra Lia.
From Verif Require Import Base BaseProof VecBase GeoModel GeoSpec GeoProof PolyModel PolySpec PolyProof PolyProof2.
Import ListNotations.
Local Open Scope R_scope.

(** ** integers and angles *)
Lemma int_part x : IZR (Int_part x) <= x < IZR (Int_part x) + 1.
Proof. destruct (base_Int_part x). lra. Qed.
Lemma int_unique (a b : Z) : -1 < IZR a - IZR b < 1 -> a = b.
Proof. rewrite <- minus_IZR. intros [H1 H2]. apply lt_IZR in H1, H2. lia. Qed.
Lemma round_near x w : Rabs (x - IZR w) < 1 / 2 -> round x = w.
Proof.
  intros H. apply Rabs_def2 in H as [H1 H2]. unfold round. destruct (int_part x) as [I1 I2].
  destruct (Rlt_dec (x - IZR (Int_part x)) (1 / 2)) as [L|L].
  - rewrite (proj2 (Rltb_true _ _) L). apply int_unique. lra.
  - destruct (Rlt_dec (1 / 2) (x - IZR (Int_part x))) as [G|G].
    + rewrite (proj2 (Rltb_false _ _)) by lra. rewrite (proj2 (Rltb_true _ _) G). apply int_unique. rewrite plus_IZR. lra.
    + exfalso. assert (E : x = IZR (Int_part x) + 1 / 2) by lra.
      destruct (Z_lt_le_dec (Int_part x) w) as [Q|Q].
      * assert (IZR (Int_part x) + 1 <= IZR w) by (rewrite <- plus_IZR; apply IZR_le; lia). lra.
      * assert (IZR w <= IZR (Int_part x)) by (apply IZR_le; lia). lra.
Qed.
Lemma periodic k x : cos (x + 2 * PI * IZR k) = cos x /\ sin (x + 2 * PI * IZR k) = sin x.
Proof.
  destruct (Z_le_gt_dec 0 k) as [P|P].
  - replace (2 * PI * IZR k) with (2 * INR (Z.to_nat k) * PI) by (rewrite INR_IZR_INZ, Z2Nat.id by exact P; ring).
    rewrite cos_period, sin_period. auto.
  - assert (E : x = (x + 2 * PI * IZR k) + 2 * INR (Z.to_nat (- k)) * PI).
    { rewrite INR_IZR_INZ, Z2Nat.id by lia. rewrite opp_IZR. ring. }
    rewrite E at 2 4. rewrite cos_period, sin_period. auto.
Qed.
Lemma unwrapped_spec d : exists k, unwrapped d = d + 2 * PI * IZR k /\ - PI <= unwrapped d <= PI.
Proof.
  pose proof PI_RGT_0 as P. unfold unwrapped. destruct (Rlt_dec (Rabs d) PI) as [L|L].
  - rewrite (proj2 (Rltb_true _ _) L). exists 0%Z. apply Rabs_def2 in L. split; [simpl; ring|lra].
  - rewrite (proj2 (Rltb_false _ _)) by lra. unfold Rmod. set (j := Int_part ((d + PI) / (2 * PI))).
    assert (J : IZR j <= (d + PI) / (2 * PI) < IZR j + 1) by apply int_part.
    assert (E : (d + PI) / (2 * PI) * (2 * PI) = d + PI) by (field; lra).
    assert (B : - PI <= d + PI - 2 * PI * IZR j - PI < PI).
    { destruct J as [J1 J2]. apply (Rmult_le_compat_r (2 * PI)) in J1; [|lra]. apply (Rmult_lt_compat_r (2 * PI)) in J2; [|lra]. rewrite E in J1, J2. lra. }
    destruct (Req_EM_T _ _) as [Q|Q].
    + destruct (Rltb 0 d).
      * exists (- (j - 1))%Z. rewrite opp_IZR, minus_IZR. split; lra.
      * exists (- j)%Z. rewrite opp_IZR. split; lra.
    + exists (- j)%Z. rewrite opp_IZR. split; lra.
Qed.

(** ** polar coordinates *)
Definition len2 (u : R * R) : R := sqrt (fst u * fst u + snd u * snd u).
Lemma len2_sq u : len2 u * len2 u = fst u * fst u + snd u * snd u.
Proof. unfold len2. apply sqrt_sqrt. nra. Qed.
Lemma len2_nonneg u : 0 <= len2 u.
Proof. apply sqrt_pos. Qed.
Lemma len2_pos u : u <> (0, 0) -> 0 < len2 u.
Proof.
  intros N. destruct (Rle_lt_or_eq_dec 0 (len2 u) (len2_nonneg u)) as [H|H]; [exact H|]. exfalso. apply N.
  pose proof (len2_sq u) as E. rewrite <- H in E. destruct u as [a b]. simpl in E. f_equal; nra.
Qed.
Definition polar (u : R * R) (a : R) : Prop := fst u = len2 u * cos a /\ snd u = len2 u * sin a.
Lemma polar_right x y : 0 < x -> polar (x, y) (atan (y / x)).
Proof.
  intros H. set (a := atan (y / x)).
  assert (C : 0 < cos a) by (apply cos_gt_0; pose proof (atan_bound (y / x)); unfold a; lra).
  assert (T : sin a * x = y * cos a).
  { assert (E : tan a = y / x) by apply tan_atan. unfold tan in E. assert (E2 : sin a / cos a * cos a * x = y / x * cos a * x) by (rewrite E; reflexivity).
    replace (sin a / cos a * cos a * x) with (sin a * x) in E2 by (field; lra). replace (y / x * cos a * x) with (y * cos a) in E2 by (field; lra). exact E2. }
  pose proof (trig a) as Q. pose proof (len2_sq (x, y)) as L. pose proof (len2_nonneg (x, y)) as LN. simpl in L. set (r := len2 (x, y)) in *.
  assert (R2 : (r * cos a) * (r * cos a) = x * x).
  { transitivity ((r * r) * (cos a * cos a)); [ring|]. rewrite L.
    transitivity (x * x * (cos a * cos a) + (y * cos a) * (y * cos a)); [ring|]. rewrite <- T.
    transitivity (x * x * (sin a * sin a + cos a * cos a)); [ring|]. rewrite Q. ring. }
  assert (RC : r * cos a = x) by (apply Rsqr_inj; [apply Rmult_le_pos; lra|lra|exact R2]).
  unfold polar. simpl. fold r. split; [auto|].
  apply (Rmult_eq_reg_r x); [|lra]. rewrite <- RC at 1. transitivity (r * (y * cos a)); [ring|]. rewrite <- T. ring.
Qed.
Lemma polar_arctan2 x y : (x, y) <> (0, 0) -> polar (x, y) (arctan2 y x).
Proof.
  intros N. unfold arctan2.
  destruct (Rtotal_order x 0) as [H|[->|H]].
  - rewrite (proj2 (Rltb_false 0 x)), (proj2 (Rltb_true x 0)) by lra.
    destruct (polar_right (- x) (- y)) as [P1 P2]; [lra|]. simpl in P1, P2.
    assert (El : len2 (- x, - y) = len2 (x, y)) by (unfold len2; simpl; f_equal; ring). rewrite El in P1, P2.
    replace (- y / - x) with (y / x) in P1, P2 by (field; lra).
    unfold polar. simpl. destruct (Rleb 0 y).
    + rewrite neg_cos, neg_sin. lra.
    + replace (atan (y / x) - PI) with (- (PI - atan (y / x))) by ring. rewrite cos_neg, sin_neg, Rtrigo_facts.cos_pi_minus, Rtrigo_facts.sin_pi_minus. lra.
  - rewrite (proj2 (Rltb_false 0 0)) by lra.
    assert (L : len2 (0, y) = Rabs y) by (unfold len2; simpl; replace (0 * 0 + y * y) with (Rsqr y) by (unfold Rsqr; ring); apply sqrt_Rsqr_abs).
    unfold polar. simpl. rewrite L. destruct (Rtotal_order y 0) as [Y|[->|Y]].
    + rewrite (proj2 (Rltb_false 0 y)), (proj2 (Rltb_true y 0)) by lra. rewrite cos_neg, sin_neg, cos_PI2, sin_PI2, Rabs_left by lra. lra.
    + exfalso. apply N. reflexivity.
    + rewrite (proj2 (Rltb_true 0 y)) by lra. rewrite cos_PI2, sin_PI2, Rabs_right by lra. lra.
  - rewrite (proj2 (Rltb_true 0 x)) by lra. apply polar_right. exact H.
Qed.
Lemma polar_between u v a b : polar u a -> polar v b ->
  fst u * fst v + snd u * snd v = len2 u * len2 v * cos (b - a) /\ fst u * snd v - snd u * fst v = len2 u * len2 v * sin (b - a).
Proof.
  intros [U1 U2] [V1 V2]. rewrite cos_minus, sin_minus. set (r := len2 u) in *. set (s := len2 v) in *. rewrite U1, U2, V1, V2. split; ring.
Qed.
Lemma sin_zero x : - PI < x < PI -> sin x = 0 -> x = 0.
Proof.
  intros B S. destruct (Rtotal_order x 0) as [H|[H|H]]; [|exact H|].
  - pose proof (sin_gt_0 (- x)). rewrite sin_neg in H0. lra.
  - pose proof (sin_gt_0 x). lra.
Qed.
Lemma angle_unique u v a b : u <> (0, 0) -> v <> (0, 0) -> angle_between u v a -> angle_between u v b -> a = b.
Proof.
  intros Nu Nv (Ba & Ca & Sa) (Bb & Cb & Sb). cbv zeta in *. fold (len2 u) in *. fold (len2 v) in *.
  pose proof (len2_pos u Nu) as Lu. pose proof (len2_pos v Nv) as Lv.
  assert (P : 0 < len2 u * len2 v) by nra.
  assert (Ec : cos a = cos b) by (apply (Rmult_eq_reg_l (len2 u * len2 v)); lra).
  assert (Es : sin a = sin b) by (apply (Rmult_eq_reg_l (len2 u * len2 v)); lra).
  assert (H : (a - b) / 2 = 0); [|lra]. apply sin_zero; [lra|].
  assert (C1 : cos (a - b) = 1). { rewrite cos_minus, Ec, Es. pose proof (trig b). lra. }
  replace (a - b) with (2 * ((a - b) / 2)) in C1 by field. rewrite cos_2a_sin in C1. nra.
Qed.
Lemma not_on_segment u v p : ~ on_segment2 u v p -> forall a, - PI <= a <= PI ->
  let u' := minus2 u p in let v' := minus2 v p in
  fst u' * fst v' + snd u' * snd v' = len2 u' * len2 v' * cos a -> fst u' * snd v' - snd u' * fst v' = len2 u' * len2 v' * sin a ->
  u' <> (0, 0) /\ v' <> (0, 0) /\ angle_between u' v' a.
Proof.
  intros N a B u' v' Ec Es.
  assert (Nu : u' <> (0, 0)).
  { intros E. apply N. exists 0. split; [lra|]. unfold u', minus2 in E. injection E as E1 E2. lra. }
  assert (Nv : v' <> (0, 0)).
  { intros E. apply N. exists 1. split; [lra|]. unfold v', minus2 in E. injection E as E1 E2. lra. }
  split; [exact Nu|]. split; [exact Nv|]. unfold angle_between. cbv zeta. fold (len2 u') (len2 v'). split; [|auto].
  pose proof (len2_pos u' Nu) as Lu. pose proof (len2_pos v' Nv) as Lv.
  assert (Bad : cos a = -1 -> sin a = 0 -> False).
  { intros C S. rewrite C in Ec. rewrite S in Es. rewrite Rmult_0_r in Es.
    assert (X : len2 v' * fst u' + len2 u' * fst v' = 0 /\ len2 v' * snd u' + len2 u' * snd v' = 0).
    { pose proof (len2_sq u') as Qu. pose proof (len2_sq v') as Qv. set (r := len2 u') in *. set (s := len2 v') in *.
      assert (Z : (s * fst u' + r * fst v') * (s * fst u' + r * fst v') + (s * snd u' + r * snd v') * (s * snd u' + r * snd v') = 0).
      { transitivity ((s * s) * (fst u' * fst u' + snd u' * snd u') + (r * r) * (fst v' * fst v' + snd v' * snd v') + 2 * r * s * (fst u' * fst v' + snd u' * snd v')); [ring|].
        rewrite Ec, <- Qu, <- Qv. ring. }
      exact (Rplus_sqr_eq_0 _ _ Z). }
    destruct X as [X1 X2]. apply N. exists (len2 u' / (len2 u' + len2 v')). set (r := len2 u') in *. set (s := len2 v') in *.
    assert (D : 0 < r + s) by lra. split.
    - split; [apply Rlt_le, Rdiv_lt_0_compat; lra|]. apply (Rmult_le_reg_r (r + s)); [exact D|]. replace (r / (r + s) * (r + s)) with r by (field; lra). lra.
    - clearbody r s. unfold u', v', minus2 in X1, X2. simpl in X1, X2. split; apply (Rmult_eq_reg_r (r + s)); try lra.
      + replace ((fst u + r / (r + s) * (fst v - fst u)) * (r + s)) with (fst u * (r + s) + r * (fst v - fst u)) by (field; lra). lra.
      + replace ((snd u + r / (r + s) * (snd v - snd u)) * (r + s)) with (snd u * (r + s) + r * (snd v - snd u)) by (field; lra). lra. }
  split.
  - destruct (Req_dec a (- PI)) as [E|E]; [|lra]. exfalso. subst a. apply Bad; [rewrite cos_neg; apply cos_PI|rewrite sin_neg, sin_PI; ring].
  - destruct (Req_dec a PI) as [E|E]; [|lra]. exfalso. subst a. apply Bad; [apply cos_PI|apply sin_PI].
Qed.

Lemma corner2_mod pts i : corner2 pts (i mod length pts) = corner2 pts i.
Proof.
  unfold corner2. destruct (Nat.eq_dec (length pts) 0) as [E|E]; [destruct pts; [|discriminate]|rewrite Nat.mod_mod by exact E; reflexivity].
  rewrite !nth_overflow by (simpl; lia). reflexivity.
Qed.
Lemma corner2_lt pts i : (i < length pts)%nat -> corner2 pts i = nth i pts (0, 0).
Proof. intros H. unfold corner2. rewrite Nat.mod_small by exact H. reflexivity. Qed.
Lemma fold_suml l : fold_right Rplus 0 l = suml l.
Proof. induction l; simpl; [reflexivity|]. rewrite IHl. reflexivity. Qed.
Lemma suml_app l l' : suml (l ++ l') = suml l + suml l'.
Proof. induction l; simpl; lra. Qed.
Lemma telescope (a : nat -> R) : forall m s, suml (map (fun i => a (i + 1)%nat - a i) (seq s m)) = a (s + m)%nat - a s.
Proof. induction m as [|m IH]; intros s; cbn [seq map suml]; [rewrite Nat.add_0_r; ring|]. rewrite IH. replace (S s + m)%nat with (s + S m)%nat by lia. replace (s + 1)%nat with (S s) by lia. ring. Qed.
Lemma diff_seq l : diff l = map (fun i => nth (i + 1) l 0 - nth i l 0) (seq 0 (length l - 1)).
Proof.
  assert (G : forall l x, map (fun p => snd p - fst p) (combine (x :: l) l) = map (fun i => nth (i + 1) (x :: l) 0 - nth i (x :: l) 0) (seq 0 (length l))).
  { clear l. induction l as [|y l IH]; intros x; [reflexivity|].
    change (combine (x :: y :: l) (y :: l)) with ((x, y) :: combine (y :: l) l). cbn [map fst snd]. rewrite IH. cbn [length seq map]. f_equal.
    rewrite <- seq_shift, map_map. apply map_ext. intros i. reflexivity. }
  destruct l as [|x l]; [reflexivity|]. cbn [diff length]. rewrite G. replace (S (length l) - 1)%nat with (length l) by lia. reflexivity.
Qed.
Lemma multiple (f : nat -> R) : (forall i, exists k, f i = 2 * PI * IZR k) -> forall m s, exists k, suml (map f (seq s m)) = 2 * PI * IZR k.
Proof.
  intros H. induction m as [|m IH]; intros s; cbn [seq map suml]; [exists 0%Z; simpl; ring|].
  destruct (H s) as [k Ek]. destruct (IH (S s)) as [k' Ek']. exists (k + k')%Z. rewrite Ek, Ek', plus_IZR. ring.
Qed.
Lemma suml_sub (f g : nat -> R) m s : suml (map (fun i => f i - g i) (seq s m)) = suml (map f (seq s m)) - suml (map g (seq s m)).
Proof. revert s. induction m as [|m IH]; intros s; cbn [seq map suml]; [ring|]. rewrite IH. ring. Qed.

Section Winding.
  Variable p : R * R.
  Variable pts : list (R * R).
  Hypothesis Off : forall i, (i < length pts)%nat -> ~ on_segment2 (corner2 pts i) (corner2 pts (i + 1)) p.
  Let m := length pts.
  Let angle i := arctan2 (snd (corner2 pts i) - snd p) (fst (corner2 pts i) - fst p).
  Let theta i := unwrapped (angle (i + 1)%nat - angle i).
  Lemma off_corner i : (i < m)%nat -> minus2 (corner2 pts i) p <> (0, 0).
  Proof. intros L E. apply (Off i L). exists 0. unfold minus2 in E. injection E as E1 E2. split; [lra|]. lra. Qed.
  Lemma off_corner' i : (0 < m)%nat -> minus2 (corner2 pts i) p <> (0, 0).
  Proof. intros L. rewrite <- corner2_mod. apply off_corner. apply Nat.mod_upper_bound. unfold m in L. lia. Qed.
  Lemma theta_angle i : (i < m)%nat -> angle_between (minus2 (corner2 pts i) p) (minus2 (corner2 pts (i + 1)) p) (theta i).
  Proof.
    intros L. destruct (unwrapped_spec (angle (i + 1)%nat - angle i)) as (k & Ek & Bk). fold (theta i) in Ek, Bk.
    pose proof (polar_arctan2 _ _ (off_corner i L)) as P1. fold (angle i) in P1.
    pose proof (polar_arctan2 _ _ (off_corner' (i + 1) ltac:(lia))) as P2. fold (angle (i + 1)%nat) in P2.
    destruct (polar_between _ _ _ _ P1 P2) as [Hc Hs]. destruct (periodic k (angle (i + 1)%nat - angle i)) as [Pc Ps].
    rewrite <- Ek in Pc, Ps. rewrite <- Pc in Hc. rewrite <- Ps in Hs.
    apply (not_on_segment _ _ p (Off i L) (theta i) Bk Hc Hs).
  Qed.
  Lemma closed_sum : exists w, suml (map theta (seq 0 m)) = 2 * PI * IZR w.
  Proof.
    destruct (multiple (fun i => theta i - (angle (i + 1)%nat - angle i))) with (m := m) (s := 0%nat) as [k Ek].
    { intros i. destruct (unwrapped_spec (angle (i + 1)%nat - angle i)) as (k & E & _). exists k. unfold theta. rewrite E. ring. }
    rewrite (suml_sub theta) in Ek. rewrite telescope in Ek. exists k. rewrite <- Ek.
    assert (angle (0 + m)%nat = angle 0%nat); [|lra].
    unfold angle. destruct (Nat.eq_dec m 0) as [E|E]; [rewrite E; reflexivity|].
    rewrite <- (corner2_mod pts (0 + m)). simpl. fold m. rewrite Nat.mod_same by exact E. reflexivity.
  Qed.
  Lemma open_sum : (0 < m)%nat -> rsum_list (map unwrapped (diff (map (fun q => arctan2 (snd q - snd p) (fst q - fst p)) pts))) = suml (map theta (seq 0 (m - 1))).
  Proof.
    intros L. unfold rsum_list. rewrite fold_suml, diff_seq, map_map, map_length. fold m. f_equal. apply map_ext_in. intros i I. apply in_seq in I.
    unfold theta. f_equal. unfold angle. rewrite !corner2_lt by (fold m; lia).
    assert (N : forall j, (j < m)%nat -> nth j (map (fun q => arctan2 (snd q - snd p) (fst q - fst p)) pts) 0 =
      arctan2 (snd (nth j pts (0, 0)) - snd p) (fst (nth j pts (0, 0)) - fst p)).
    { intros j Lj. rewrite (nth_indep _ 0 ((fun q => arctan2 (snd q - snd p) (fst q - fst p)) (0, 0))) by (rewrite map_length; exact Lj).
      rewrite (map_nth (fun q => arctan2 (snd q - snd p) (fst q - fst p))). reflexivity. }
    rewrite !N by lia. reflexivity.
  Qed.
  Lemma winding_lemma : turns_around p pts (winding_number p pts).
  Proof.
    pose proof PI_RGT_0 as Pi. destruct closed_sum as [w Ew].
    assert (T : turns_around p pts w).
    { exists (map theta (seq 0 m)). split; [rewrite map_length, seq_length; reflexivity|]. split.
      - intros i L. fold m in L. rewrite (nth_indep _ 0 (theta 0)) by (rewrite map_length, seq_length; exact L). rewrite map_nth, seq_nth by exact L. apply theta_angle. exact L.
      - rewrite fold_suml. exact Ew. }
    replace (winding_number p pts) with w; [exact T|]. unfold winding_number. symmetry. apply round_near.
    destruct (Nat.eq_dec m 0) as [E|E].
    { assert (pts = []) by (destruct pts; [reflexivity|discriminate]). subst pts. simpl in *.
      assert (IZR w = 0) by nra. rewrite H. unfold Rdiv. rewrite Rmult_0_l, Rminus_0_r, Rabs_R0. lra. }
    rewrite open_sum by lia.
    assert (Es : seq 0 m = seq 0 (m - 1) ++ [(m - 1)%nat]) by (replace m with (S (m - 1)) at 1 by lia; rewrite seq_S; reflexivity).
    rewrite Es, map_app, suml_app in Ew. cbn [map suml] in Ew.
    destruct (theta_angle (m - 1) ltac:(lia)) as [B _].
    replace (suml (map theta (seq 0 (m - 1)))) with (2 * PI * IZR w - theta (m - 1)%nat) by lra.
    replace ((2 * PI * IZR w - theta (m - 1)%nat) / (2 * PI) - IZR w) with (- (theta (m - 1)%nat / (2 * PI))) by (field; lra).
    rewrite Rabs_Ropp. apply Rabs_def1.
    - apply (Rmult_lt_reg_r (2 * PI)); [lra|]. replace (theta (m - 1)%nat / (2 * PI) * (2 * PI)) with (theta (m - 1)%nat) by (field; lra). lra.
    - apply (Rmult_lt_reg_r (2 * PI)); [lra|]. replace (theta (m - 1)%nat / (2 * PI) * (2 * PI)) with (theta (m - 1)%nat) by (field; lra). lra.
  Qed.
  Lemma turns_unique w w' : turns_around p pts w -> turns_around p pts w' -> w = w'.
  Proof.
    intros (l & Ll & Al & Sl) (l' & Ll' & Al' & Sl').
    assert (E : l = l').
    { apply nth_ext with (d := 0) (d' := 0); [congruence|]. intros i L. rewrite Ll in L. eapply angle_unique; [| |apply Al; exact L|apply Al'; exact L].
      - apply off_corner. exact L.
      - apply off_corner'. fold m in L. lia. }
    subst l'. rewrite Sl in Sl'. pose proof PI_RGT_0. assert (IZR w = IZR w') by nra. apply eq_IZR. exact H0.
  Qed.
End Winding.

(** a point around which every edge turns left *)
Lemma inside_turns p pts : pts <> [] -> (forall i, (i < length pts)%nat ->
    let u := minus2 (corner2 pts i) p in let v := minus2 (corner2 pts (i + 1)) p in 0 < fst u * snd v - snd u * fst v) ->
  (1 <= winding_number p pts)%Z.
Proof.
  intros N H.
  assert (Off : forall i, (i < length pts)%nat -> ~ on_segment2 (corner2 pts i) (corner2 pts (i + 1)) p).
  { intros i L (t & B & E1 & E2). pose proof (H i L) as Q. unfold minus2 in Q. simpl in Q. rewrite E1, E2 in Q.
    match type of Q with 0 < ?x => assert (x = 0) by ring end. lra. }
  destruct (winding_lemma p pts Off) as (l & Ll & Al & Sl). rewrite fold_suml in Sl.
  assert (P : 0 < suml l).
  { assert (A : forall x, In x l -> 0 < x).
    { intros x I. apply (In_nth _ _ 0) in I as (i & L & <-). rewrite Ll in L. destruct (Al i L) as (B & _ & S). pose proof (H i L) as Q. cbv zeta in Q. rewrite S in Q.
      destruct (Rlt_dec 0 (nth i l 0)) as [G|G]; [exact G|]. exfalso.
      assert (sin (nth i l 0) <= 0).
      { destruct (Req_dec (nth i l 0) 0) as [E|E]; [rewrite E, sin_0; lra|]. pose proof (sin_gt_0 (- nth i l 0)). rewrite sin_neg in H0. lra. }
      fold (len2 (minus2 (corner2 pts i) p)) (len2 (minus2 (corner2 pts (i + 1)) p)) in Q.
      pose proof (len2_nonneg (minus2 (corner2 pts i) p)). pose proof (len2_nonneg (minus2 (corner2 pts (i + 1)) p)).
      assert (0 <= len2 (minus2 (corner2 pts i) p) * len2 (minus2 (corner2 pts (i + 1)) p)) by (apply Rmult_le_pos; assumption). nra. }
    apply suml_pos; [intros; apply Rlt_le, A; assumption|]. destruct l as [|x l]; [destruct pts; [congruence|discriminate]|]. exists x. split; [left; reflexivity|apply A; left; reflexivity]. }
  rewrite Sl in P. pose proof PI_RGT_0. assert (0 < IZR (winding_number p pts)) by nra. apply lt_IZR in H1. lia.
Qed.
(** a point that a line separates from all corners *)
Lemma outside_turns p pts d : (forall q, In q pts -> let u := minus2 q p in 0 < fst d * fst u + snd d * snd u) -> winding_number p pts = 0%Z.
Proof.
  intros H. assert (Hc : (0 < length pts)%nat -> forall i, let u := minus2 (corner2 pts i) p in 0 < fst d * fst u + snd d * snd u).
  { intros L i. apply H. unfold corner2. apply nth_In. apply Nat.mod_upper_bound. lia. }
  assert (Off : forall i, (i < length pts)%nat -> ~ on_segment2 (corner2 pts i) (corner2 pts (i + 1)) p).
  { intros i L (t & B & E1 & E2). pose proof (Hc ltac:(lia) i) as Q1. pose proof (Hc ltac:(lia) (i + 1)%nat) as Q2. unfold minus2 in Q1, Q2. cbv zeta in Q1, Q2. simpl in Q1, Q2.
    assert (Z : (1 - t) * (fst d * (fst (corner2 pts i) - fst p) + snd d * (snd (corner2 pts i) - snd p))
      + t * (fst d * (fst (corner2 pts (i + 1)) - fst p) + snd d * (snd (corner2 pts (i + 1)) - snd p)) = 0).
    { rewrite E1, E2. ring. }
    destruct (Req_dec t 0) as [->|T]; nra. }
  apply (turns_unique p pts Off _ _ (winding_lemma p pts Off)).
  set (u := fun i => minus2 (corner2 pts i) p).
  set (x := fun i => fst d * fst (u i) + snd d * snd (u i)). set (y := fun i => fst d * snd (u i) - snd d * fst (u i)).
  set (phi := fun i => atan (y i / x i)).
  exists (map (fun i => phi (i + 1)%nat - phi i) (seq 0 (length pts))). split; [rewrite map_length, seq_length; reflexivity|]. split.
  - intros i L. rewrite (nth_indep _ 0 (phi (0 + 1)%nat - phi 0%nat)) by (rewrite map_length, seq_length; exact L).
    rewrite (map_nth (fun i => phi (i + 1)%nat - phi i)), seq_nth by exact L. simpl.
    assert (X : forall j, 0 < x j) by (intros j; apply (Hc ltac:(lia) j)).
    pose proof (polar_right (x i) (y i) (X i)) as P1. pose proof (polar_right (x (i + 1)%nat) (y (i + 1)%nat) (X (i + 1)%nat)) as P2.
    destruct (polar_between _ _ _ _ P1 P2) as [Ec Es]. fold (phi i) in Ec, Es. fold (phi (i + 1)%nat) in Ec, Es. simpl in Ec, Es.
    assert (D : 0 < fst d * fst d + snd d * snd d). { pose proof (X i) as Xi. unfold x in Xi. destruct (Req_dec (fst d) 0) as [E|E]; [|nra]. destruct (Req_dec (snd d) 0) as [E'|E']; [|nra]. rewrite E, E' in Xi. lra. }
    assert (Le : forall j, len2 (x j, y j) = len2 d * len2 (u j)).
    { intros j. apply Rsqr_inj; [apply len2_nonneg|apply Rmult_le_pos; apply len2_nonneg|]. unfold Rsqr.
      transitivity ((len2 d * len2 d) * (len2 (u j) * len2 (u j))); [|ring]. rewrite !len2_sq. unfold x, y. simpl. ring. }
    rewrite !Le in Ec, Es. pose proof (len2_sq d) as Ld. set (ld := len2 d) in *.
    unfold angle_between. cbv zeta. fold (u i) (u (i + 1)%nat). fold (len2 (u i)) (len2 (u (i + 1)%nat)).
    set (a := len2 (u i)) in *. set (b := len2 (u (i + 1)%nat)) in *. split; [|split].
    + pose proof (atan_bound (y i / x i)) as B1. pose proof (atan_bound (y (i + 1)%nat / x (i + 1)%nat)) as B2. unfold phi. lra.
    + apply (Rmult_eq_reg_l (ld * ld)); [|lra]. transitivity (x i * x (i + 1)%nat + y i * y (i + 1)%nat); [rewrite Ld; unfold x, y; ring|]. rewrite Ec. ring.
    + apply (Rmult_eq_reg_l (ld * ld)); [|lra]. transitivity (x i * y (i + 1)%nat - y i * x (i + 1)%nat); [rewrite Ld; unfold x, y; ring|]. rewrite Es. ring.
  - rewrite fold_suml, telescope. replace (phi (0 + length pts)%nat) with (phi 0%nat); [simpl; ring|].
    unfold phi, x, y, u. destruct (Nat.eq_dec (length pts) 0) as [E|E]; [rewrite E; reflexivity|].
    rewrite <- (corner2_mod pts (0 + length pts)). simpl. rewrite Nat.mod_same by exact E. reflexivity.
Qed.
