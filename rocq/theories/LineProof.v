(** * Lemmas: unique rows, segments meeting segments, C93 *)
From Coq Require Import List Arith ZArith Bool Reals Lra Lia Permutation Sorted.
From Verif Require Import Base VecBase VecProof GeoModel GeoSpec GeoProof GeoProof2 PolyModel LineModel LineSpec.
Import ListNotations.
Local Open Scope R_scope.

(** ** rows *)
Definition row_lt (r s : row) : Prop := row_compare r s = Lt.
Lemma row_eq r s : row_compare r s = Eq -> r = s.
Proof.
  destruct r as [[a b] c], s as [[a' b'] c']. unfold row_compare. destruct (Z.compare a a') eqn:A; try discriminate. destruct (Z.compare b b') eqn:B; try discriminate.
  intros C. apply Z.compare_eq in A, B, C. subst. reflexivity.
Qed.
Lemma row_refl r : row_compare r r = Eq.
Proof. destruct r as [[a b] c]. simpl. rewrite !Z.compare_refl. reflexivity. Qed.
Lemma row_gt r s : row_compare r s = Gt -> row_lt s r.
Proof.
  destruct r as [[a b] c], s as [[a' b'] c']. unfold row_lt, row_compare. rewrite (Z.compare_antisym a a'), (Z.compare_antisym b b'), (Z.compare_antisym c c').
  destruct (Z.compare a a'), (Z.compare b b'), (Z.compare c c'); simpl; congruence.
Qed.
Lemma row_trans r s t : row_lt r s -> row_lt s t -> row_lt r t.
Proof.
  destruct r as [[a b] c], s as [[a' b'] c'], t as [[a'' b''] c'']. unfold row_lt, row_compare.
  destruct (Z.compare_spec a a'), (Z.compare_spec a' a''), (Z.compare_spec a a''); try lia; try discriminate; try reflexivity;
  destruct (Z.compare_spec b b'), (Z.compare_spec b' b''), (Z.compare_spec b b''); try lia; try discriminate; try reflexivity;
  destruct (Z.compare_spec c c'), (Z.compare_spec c' c''), (Z.compare_spec c c''); try lia; try discriminate; try reflexivity.
Qed.
Lemma insert_In r p l x : In x (insert_row r p l) -> x = (r, p) \/ In x l.
Proof.
  induction l as [|(s, q) l IH]; simpl; [intuition|]. destruct (row_compare r s); simpl; intuition.
Qed.
Lemma insert_keeps r p l x : In x l -> In x (insert_row r p l).
Proof. induction l as [|(s, q) l IH]; simpl; [tauto|]. destruct (row_compare r s); simpl; intuition. Qed.
Lemma insert_row_in r p l : exists q, In (r, q) (insert_row r p l).
Proof.
  induction l as [|(s, q) l IH]; simpl; [exists p; left; reflexivity|]. destruct (row_compare r s) eqn:E.
  - apply row_eq in E. subst. exists q. left. reflexivity.
  - exists p. left. reflexivity.
  - destruct IH as (x & Hx). exists x. right. exact Hx.
Qed.
Lemma insert_sorted r p l : StronglySorted row_lt (map fst l) -> StronglySorted row_lt (map fst (insert_row r p l)).
Proof.
  induction l as [|(s, q) l IH]; simpl; intros H.
  - constructor; constructor.
  - inversion H as [|? ? H1 H2]; subst. destruct (row_compare r s) eqn:E.
    + exact H.
    + simpl. constructor; [exact H|]. constructor; [exact E|]. rewrite Forall_forall in *. intros x Hx. exact (row_trans _ _ _ E (H2 x Hx)).
    + simpl. constructor; [apply IH; exact H1|]. rewrite Forall_forall in *. intros x Hx. apply in_map_iff in Hx. destruct Hx as (y & <- & Hy).
      apply insert_In in Hy. destruct Hy as [->|Hy]; [apply row_gt; exact E|]. apply H2. apply in_map. exact Hy.
Qed.
Definition rows (scale : R) (points : list vec) : list (row * vec) := fold_left (fun l p => insert_row (rounded scale p) p l) points [].
Lemma rows_inv scale points : forall l0, (forall r p, In (r, p) l0 -> r = rounded scale p) -> StronglySorted row_lt (map fst l0) ->
  let l := fold_left (fun l p => insert_row (rounded scale p) p l) points l0 in
  (forall r p, In (r, p) l -> r = rounded scale p /\ (In (r, p) l0 \/ In p points)) /\ StronglySorted row_lt (map fst l) /\
  (forall x, In x l0 -> In x l) /\ (forall p, In p points -> exists q, In (rounded scale p, q) l).
Proof.
  induction points as [|a points IH]; intros l0 H0 S0; simpl.
  - split; [|split; [exact S0|split; [tauto|contradiction]]]. intros r p H. split; [exact (H0 r p H)|left; exact H].
  - assert (H1 : forall r p, In (r, p) (insert_row (rounded scale a) a l0) -> r = rounded scale p).
    { intros r p H. apply insert_In in H. destruct H as [E|H]; [congruence|exact (H0 r p H)]. }
    destruct (IH _ H1 (insert_sorted _ a _ S0)) as (I1 & I2 & I3 & I4). split; [|split; [exact I2|split]].
    + intros r p H. destruct (I1 r p H) as (E & [G|G]); split; try exact E.
      * apply insert_In in G. destruct G as [G|G]; [right; left; congruence|left; exact G].
      * right. right. exact G.
    + intros x Hx. apply I3. apply insert_keeps. exact Hx.
    + intros p [<-|Hp]; [|exact (I4 p Hp)]. destruct (insert_row_in (rounded scale a) a l0) as (q & Hq). exists q. apply I3. exact Hq.
Qed.
Lemma unique_In scale l p : In p (unique_rows scale l) -> In p l.
Proof.
  intros H. unfold unique_rows in H. apply in_map_iff in H. destruct H as ((r, q) & E & H). simpl in E. subst q.
  destruct (rows_inv scale l [] ltac:(simpl; tauto) ltac:(constructor)) as (I & _). destruct (I r p H) as (_ & [[]|G]). exact G.
Qed.
Lemma unique_covers scale l p : In p l -> exists q, In q (unique_rows scale l) /\ rounded scale q = rounded scale p.
Proof.
  intros H. destruct (rows_inv scale l [] ltac:(simpl; tauto) ltac:(constructor)) as (I & _ & _ & J). destruct (J p H) as (q & Hq).
  exists q. split; [exact (in_map snd _ _ Hq)|]. destruct (I _ _ Hq) as (E & _). symmetry. exact E.
Qed.
Lemma sorted_nodup l : StronglySorted row_lt l -> NoDup l.
Proof.
  induction 1 as [|x l H IH F]; constructor; [|exact IH]. intros I. rewrite Forall_forall in F. specialize (F x I). unfold row_lt in F. rewrite row_refl in F. discriminate.
Qed.
Lemma unique_sorted scale l : StronglySorted row_lt (map (rounded scale) (unique_rows scale l)).
Proof.
  destruct (rows_inv scale l [] ltac:(simpl; tauto) ltac:(constructor)) as (I & J & _). unfold unique_rows. rewrite map_map.
  rewrite (map_ext_in (fun x => rounded scale (snd x)) fst); [exact J|]. intros (r, p) H. destruct (I r p H) as (E & _). simpl. congruence.
Qed.
Lemma unique_rounded scale l : NoDup (map (rounded scale) (unique_rows scale l)).
Proof. apply sorted_nodup, unique_sorted. Qed.
Lemma unique_nodup scale l : NoDup (unique_rows scale l).
Proof. exact (NoDup_map_inv (rounded scale) _ (unique_rounded scale l)). Qed.
(** when different points have different rows *)
Lemma unique_same scale l p : (forall x y, In x l -> In y l -> rounded scale x = rounded scale y -> x = y) -> (In p (unique_rows scale l) <-> In p l).
Proof.
  intros D. split; [apply unique_In|]. intros H. destruct (unique_covers scale l p H) as (q & Hq & E).
  rewrite <- (D q p (unique_In _ _ _ Hq) H E). exact Hq.
Qed.
Lemma unique_const scale l z : l <> [] -> (forall x, In x l -> x = z) -> unique_rows scale l = [z].
Proof.
  intros N H. assert (D : forall p, In p (unique_rows scale l) -> p = z) by (intros p Hp; apply H, (unique_In scale), Hp).
  pose proof (unique_nodup scale l) as U. destruct (unique_rows scale l) as [|x [|y u]] eqn:E.
  - destruct l as [|a l]; [congruence|]. destruct (unique_covers scale (a :: l) a ltac:(left; reflexivity)) as (q & Hq & _). rewrite E in Hq. destruct Hq.
  - rewrite (D x) by (left; reflexivity). reflexivity.
  - exfalso. rewrite (D x), (D y) in U by (simpl; tauto). inversion U as [|? ? A _]. apply A. left. reflexivity.
Qed.
Lemma unique_nil scale l : unique_rows scale l = [] -> l = [].
Proof.
  destruct l as [|a l]; [reflexivity|]. intros E. destruct (unique_covers scale (a :: l) a ltac:(left; reflexivity)) as (q & Hq & _). rewrite E in Hq. destruct Hq.
Qed.
(** ** rounding *)
Lemma round_half x : Rabs (IZR (round x) - x) <= 1 / 2.
Proof.
  unfold round. pose proof (base_Int_part x) as (A & B). set (f := Int_part x) in *.
  destruct (Rltb (x - IZR f) (1 / 2)) eqn:E.
  - apply Rltb_true in E. apply Rabs_le. lra.
  - apply Rltb_false in E. assert (G : Rabs (IZR (f + 1) - x) <= 1 / 2) by (rewrite plus_IZR; apply Rabs_le; lra).
    destruct (Rltb (1 / 2) (x - IZR f)) eqn:E'; [exact G|]. apply Rltb_false in E'. destruct (Z.even f); [|exact G]. apply Rabs_le. lra.
Qed.
Lemma round_same scale x y : 0 < scale -> round (x * scale) = round (y * scale) -> Rabs (x - y) <= / scale.
Proof.
  intros S E. pose proof (round_half (x * scale)) as A. pose proof (round_half (y * scale)) as B. rewrite E in A. clear E.
  generalize dependent (IZR (round (y * scale))). intros k A B.
  assert (C : Rabs ((x - y) * scale) <= 1).
  { replace ((x - y) * scale) with ((k - y * scale) + - (k - x * scale)) by ring.
    eapply Rle_trans; [apply Rabs_triang|]. rewrite Rabs_Ropp. lra. }
  rewrite Rabs_mult, (Rabs_right scale) in C by lra. apply Rmult_le_reg_r with scale; [exact S|]. rewrite Rinv_l by lra. exact C.
Qed.
Lemma rounded_within scale x y : 0 < scale -> rounded scale x = rounded scale y -> within (/ scale) x y.
Proof. intros S E. unfold rounded in E. injection E as A B C. split; [|split]; apply round_same; assumption. Qed.

(** ** two segments *)
Lemma between_inj a b t s : a <> b -> between a b t = between a b s -> t = s.
Proof.
  intros N E. assert (D : vscale (t - s) (vsub b a) = vzero).
  { replace (vscale (t - s) (vsub b a)) with (vsub (between a b t) (between a b s)) by (unfold between; apply vec_ext; simpl; ring). rewrite E. apply vec_ext; simpl; ring. }
  destruct (Req_dec (t - s) 0) as [Z|Z]; [lra|]. exfalso. apply N. pose proof (f_equal vx D) as X. pose proof (f_equal vy D) as Y. pose proof (f_equal vz D) as W. simpl in X, Y, W.
  apply Rmult_integral in X, Y, W. apply vec_ext; destruct X, Y, W; lra.
Qed.
Lemma cross_left u v : cross u v <> vzero -> u <> vzero.
Proof. intros H ->. apply H. apply vec_ext; simpl; ring. Qed.
Lemma cross_right u v : cross u v <> vzero -> v <> vzero.
Proof. intros H ->. apply H. apply vec_ext; simpl; ring. Qed.
Lemma cross_at_unique ctol ptol l m z w : cross_at ctol ptol l m z -> meet l m w -> w = z.
Proof.
  intros (C & ((t & Ht & E) & (s & Hs & F)) & _) ((t' & Ht' & E') & (s' & Hs' & F')).
  destruct l as (a, b), m as (c, d). simpl in *.
  assert (D : vscale (t - t') (vsub b a) = vscale (s - s') (vsub d c)).
  { replace (vscale (t - t') (vsub b a)) with (vsub (between a b t) (between a b t')) by (unfold between; apply vec_ext; simpl; ring).
    replace (vscale (s - s') (vsub d c)) with (vsub (between c d s) (between c d s')) by (unfold between; apply vec_ext; simpl; ring).
    rewrite <- E, <- E', <- F, <- F'. reflexivity. }
  assert (G : vscale (t - t') (cross (vsub b a) (vsub d c)) = vzero).
  { replace (vscale (t - t') (cross (vsub b a) (vsub d c))) with (cross (vscale (t - t') (vsub b a)) (vsub d c)) by (apply vec_ext; simpl; ring).
    rewrite D. apply vec_ext; simpl; ring. }
  assert (T : t = t').
  { destruct (Req_dec (t - t') 0); [lra|]. exfalso. apply C. pose proof (f_equal vx G) as X. pose proof (f_equal vy G) as Y. pose proof (f_equal vz G) as W. simpl in X, Y, W.
    apply Rmult_integral in X, Y, W. apply vec_ext; simpl; destruct X, Y, W; lra. }
  rewrite E', E, T. reflexivity.
Qed.
Section Lines.
  Variable lstsq : vec -> vec -> vec -> R * R.
  Variable ctol ptol eps : R.
  Hypothesis Ls : solves lstsq.
  Hypothesis C0 : 0 <= ctol <= 1 / 100000000.
  Hypothesis P0 : 0 <= ptol.
  Hypothesis E0 : 0 <= eps.
  Lemma ends_apart e c d : (forall x, ~ near_segment ctol ptol e c d x) -> point_line_intersection ctol e c d ptol = None.
  Proof.
    intros H. destruct (point_line_intersection ctol e c d ptol) as [x|] eqn:E; [|reflexivity]. exfalso. apply (H x). apply segment_sound; [exact P0|exact E].
  Qed.
  Lemma line_apart a b c d : apart ctol ptol eps (a, b) (c, d) -> line_line_intersection lstsq ctol ptol a b c d eps = Ok LL_none.
  Proof.
    intros (N & F). simpl in *. unfold line_line_intersection, points_line_intersection. cbn [map].
    rewrite (ends_apart a c d), (ends_apart b c d) by (intros x; apply N; tauto). cbn [is_some flat_map app].
    unfold line_line_compute. destruct (lstsq (vsub b a) (vsub d c) (vsub c a)) as (t, s).
    destruct (allclose eps _ _) eqn:A; [|reflexivity].
    destruct ((Rltb 0 t || isclose eps t 0) && (Rltb t 1 || isclose eps t 1)) eqn:T; [|reflexivity].
    destruct ((Rltb 0 s || isclose eps s 0) && (Rltb s 1 || isclose eps s 1)) eqn:S'; [|reflexivity].
    exfalso. apply (F t s (range_test eps t E0 T) (range_test eps s E0 S')). apply allclose_true. exact A.
  Qed.
  Lemma line_crosses a b c d z : cross_at ctol ptol (a, b) (c, d) z -> line_line_intersection lstsq ctol ptol a b c d eps = Ok (LL_points [z]).
  Proof.
    intros (C & ((t & Ht & E) & (s & Hs & F)) & N). simpl in *.
    assert (AB : a <> b) by (intros ->; apply C; apply vec_ext; simpl; ring).
    unfold line_line_intersection, points_line_intersection. cbn [map].
    destruct (point_line_intersection ctol a c d ptol) as [x|] eqn:Ea; [pose proof (segment_sound _ _ _ _ _ _ P0 Ea) as Na; destruct (N a x ltac:(tauto) Na) as (Za & Xa)|];
    (destruct (point_line_intersection ctol b c d ptol) as [y|] eqn:Eb; [pose proof (segment_sound _ _ _ _ _ _ P0 Eb) as Nb; destruct (N b y ltac:(tauto) Nb) as (Zb & Yb)|]);
    cbn [is_some flat_map app].
    - congruence.
    - subst x. rewrite Za. rewrite default_refl. reflexivity.
    - subst y. rewrite Zb. rewrite default_refl. reflexivity.
    - assert (R : vsub (vscale t (vsub b a)) (vscale s (vsub d c)) = vsub c a).
      { rewrite E in F. unfold between in F. pose proof (f_equal vx F) as X. pose proof (f_equal vy F) as Y. pose proof (f_equal vz F) as W. simpl in X, Y, W. apply vec_ext; simpl; lra. }
      unfold line_line_compute. rewrite (least_squares_exact (vsub b a) (vsub d c) (vsub c a) t s _ C R (Ls _ _ _)).
      replace (vadd a (vscale t (vsub b a))) with z by (rewrite E; reflexivity). replace (vadd c (vscale s (vsub d c))) with z by (rewrite F; reflexivity).
      rewrite allclose_refl by exact E0. rewrite (test_range eps t E0 Ht), (test_range eps s E0 Hs). reflexivity.
  Qed.
  (** what is found for several lines *)
  Definition finds (m l : segment) (o : option vec) : Prop := match o with Some z => cross_at ctol ptol l m z | None => apart ctol ptol eps l m end.
  Definition somes (l : list (option vec)) : list vec := flat_map (fun o => match o with Some z => [z] | None => [] end) l.
  Lemma clear_finds m l : clear_cut ctol ptol eps l m -> exists o, finds m l o.
  Proof. intros [H|(z & H)]; [exists None|exists (Some z)]; exact H. Qed.
  Lemma finds_meet m l o : 0 <= eps -> finds m l o -> forall z, meet l m z <-> o = Some z.
  Proof.
    intros _ H z. destruct o as [w|]; simpl in H.
    - split; [intros M; f_equal; symmetry; exact (cross_at_unique _ _ _ _ _ _ H M)|]. intros G. injection G as <-. exact (proj1 (proj2 H)).
    - split; [|discriminate]. intros ((t & Ht & E) & (s & Hs & F)). exfalso. apply (proj2 H t s); [lra|lra|]. rewrite <- E, <- F. apply allclose_true, allclose_refl. exact E0.
  Qed.
  Lemma ll_found lines c d answers : Forall2 (finds (c, d)) lines answers ->
    lines_line_intersection lstsq ctol ptol lines c d eps = Ok (somes answers).
  Proof.
    unfold lines_line_intersection. induction 1 as [|(a, b) o lines answers H F IH]; [reflexivity|].
    cbn [mapM fst snd]. destruct o as [z|]; simpl in H.
    - rewrite (line_crosses a b c d z H). cbn [bind]. destruct (mapM _ lines) as [rs|e]; cbn [bind] in IH |- *; [|discriminate]. cbn [ll_array]. rewrite IH. reflexivity.
    - rewrite (line_apart a b c d H). cbn [bind]. destruct (mapM _ lines) as [rs|e]; cbn [bind] in IH |- *; [|discriminate]. cbn [ll_array]. rewrite IH. reflexivity.
  Qed.
  Lemma answers_exist m lines : (forall l, In l lines -> clear_cut ctol ptol eps l m) -> exists answers, Forall2 (finds m) lines answers.
  Proof.
    induction lines as [|l lines IH]; intros H; [exists []; constructor|]. destruct IH as (ans & A); [intros; apply H; right; assumption|].
    destruct (clear_finds m l ltac:(apply H; left; reflexivity)) as (o & O). exists (o :: ans). constructor; assumption.
  Qed.
  Lemma answers_meet m lines answers : Forall2 (finds m) lines answers -> forall z, In z (somes answers) <-> exists l, In l lines /\ meet l m z.
  Proof.
    induction 1 as [|l o lines answers H F IH]; intros z; simpl.
    - split; [tauto|intros (? & [] & _)].
    - rewrite in_app_iff, IH. pose proof (finds_meet m l o E0 H z) as M. split.
      + intros [I|(k & K & G)]; [|exists k; tauto]. exists l. split; [tauto|]. apply M. destruct o as [w|]; [|destruct I]. destruct I as [->|[]]. reflexivity.
      + intros (k & [<-|K] & G); [|right; exists k; tauto]. left. apply M in G. rewrite G. left. reflexivity.
  Qed.
  Lemma lines_line_lemma lines c d : (forall l, In l lines -> clear_cut ctol ptol eps l (c, d)) ->
    exists out, lines_line_intersection lstsq ctol ptol lines c d eps = Ok out /\ forall z, In z out <-> exists l, In l lines /\ meet l (c, d) z.
  Proof.
    intros H. destruct (answers_exist (c, d) lines H) as (ans & A). exists (somes ans). split; [exact (ll_found lines c d ans A)|exact (answers_meet (c, d) lines ans A)].
  Qed.
End Lines.
