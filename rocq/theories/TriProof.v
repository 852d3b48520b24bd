(** * Lemmas: intersecting triangles, C89: a segment and a triangle in one plane *)
From Coq Require Import List Arith ZArith Bool QArith Qabs Qfield Lia Lqa.
From Verif Require Import Base FracModel SegModel SegProof TriModel TriSpec.
Import ListNotations.
Local Open Scope Q_scope.

(** ** one affine condition along a segment *)
Inductive kind : Type := Pos | Neg | Up (x : Q) | Dn (x : Q).
Definition ok (k : kind) (s : Q) : bool :=
  match k with Pos => true | Neg => false | Up x => Qle_bool s x | Dn x => Qle_bool x s end.
Definition wf (k : kind) : Prop := match k with Up x | Dn x => 0 < x < 1 | _ => True end.
Definition hits (k k1 k2 : kind) : option Q :=
  match k with
  | Up x | Dn x => if ok k1 x && ok k2 x then Some x else None
  | _ => None
  end.
Definition apart_hits (h h' : option Q) : Prop :=
  match h, h' with Some x, Some y => ~ x == y | _, _ => True end.
Definition last3 {A} (x y z : option A) : option A := match z with Some _ => z | None => match y with Some _ => y | None => x end end.
Definition answer (kc ka kb : kind) : option (Q * Q) :=
  let in0 := ok ka 0 && ok kb 0 && ok kc 0 in
  let in1 := ok ka 1 && ok kb 1 && ok kc 1 in
  let hc := hits kc ka kb in let ha := hits ka kb kc in let hb := hits kb kc ka in
  if in0 && in1 then Some (0, 1)
  else if negb in0 && negb in1 then
    match hc, ha, hb with
    | Some x, Some y, None | Some x, None, Some y | None, Some x, Some y => Some (x, y)
    | _, _, _ => None
    end
  else match last3 hc ha hb with Some x => Some ((if in0 then 0 else 1), x) | None => None end.

Ltac qb := repeat match goal with
  | H : Qle_bool _ _ = true |- _ => apply Qle_bool_iff in H
  | H : Qle_bool ?x ?y = false |- _ =>
      assert (y < x) by (apply Qnot_le_lt; let Q := fresh in intros Q; apply Qle_bool_iff in Q; congruence); clear H
  end.
Lemma answer_spec kc ka kb : wf kc -> wf ka -> wf kb ->
  apart_hits (hits kc ka kb) (hits ka kb kc) -> apart_hits (hits ka kb kc) (hits kb kc ka) ->
  apart_hits (hits kb kc ka) (hits kc ka kb) ->
  match answer kc ka kb with
  | None => forall s, 0 <= s <= 1 -> ok kc s && ok ka s && ok kb s = false
  | Some (x, y) => 0 <= x <= 1 /\ 0 <= y <= 1 /\ ~ x == y /\
      forall s, 0 <= s <= 1 -> (ok kc s && ok ka s && ok kb s = true <-> x <= s <= y \/ y <= s <= x)
  end.
Proof.
  assert (Z1 : forall x, 0 < x -> Qle_bool 0 x = true) by (intros; apply Qle_bool_iff; lra).
  assert (Z2 : forall x, 0 < x -> Qle_bool x 0 = false).
  { intros x H. destruct (Qle_bool x 0) eqn:E; auto. apply Qle_bool_iff in E. lra. }
  assert (Z3 : forall x, x < 1 -> Qle_bool x 1 = true) by (intros; apply Qle_bool_iff; lra).
  assert (Z4 : forall x, x < 1 -> Qle_bool 1 x = false).
  { intros x H. destruct (Qle_bool 1 x) eqn:E; auto. apply Qle_bool_iff in E. lra. }
  intros Wc Wa Wb.
  destruct kc as [| |c|c], ka as [| |a|a], kb as [| |b|b]; unfold answer, last3; cbn [ok hits wf andb negb] in *;
    repeat match goal with H : 0 < ?x /\ ?x < 1 |- _ =>
      let H1 := fresh in let H2 := fresh in destruct H as [H1 H2];
      rewrite ?(Z1 _ H1), ?(Z2 _ H1), ?(Z3 _ H2), ?(Z4 _ H2) end; cbn [andb negb];
    repeat (match goal with |- context [Qle_bool ?x ?y] => is_var x; is_var y; destruct (Qle_bool x y) eqn:? end; cbn [andb negb apart_hits]);
    cbn [andb negb apart_hits]; intros A1 A2 A3; qb; try (exfalso; lra);
    try (split; [lra|split; [lra|split; [let E := fresh in intros E; first [lra | match goal with H : ~ _ == _ |- _ => apply H; lra end]|]]]); intros s Hs; rewrite ?andb_true_r, ?andb_false_r; try reflexivity;
    try (rewrite ?andb_true_iff, ?Qle_bool_iff; split; [intros; lra | intros [?|?]; repeat split; lra]).
  all: apply not_true_is_false; rewrite ?andb_true_iff, ?Qle_bool_iff; intros; lra.
Qed.

(** ** the sign of an affine function along a segment *)
Definition kind_of (l m : Q) : kind :=
  if Qltb 0 l then if Qltb 0 m then Pos else Up (l / (l - m)) else if Qltb 0 m then Dn (l / (l - m)) else Neg.
Lemma Qdiv_le_1 x y : 0 < y -> x < y -> x / y < 1.
Proof. intros. apply Qlt_shift_div_r; lra. Qed.
Lemma Qdiv_pos x y : 0 < y -> 0 < x -> 0 < x / y.
Proof. intros. apply Qlt_shift_div_l; lra. Qed.
Lemma Qneg_div x y : ~ y == 0 -> x / y == (- x) / (- y).
Proof. intros. field. intros E. apply H. lra. Qed.
Lemma kind_cases l m : ~ l == 0 -> ~ m == 0 ->
  (0 < l /\ 0 < m /\ kind_of l m = Pos) \/ (l < 0 /\ m < 0 /\ kind_of l m = Neg) \/
  (0 < l /\ m < 0 /\ exists x, x = l / (l - m) /\ kind_of l m = Up x /\ 0 < x < 1 /\ x * (l - m) == l) \/
  (l < 0 /\ 0 < m /\ exists x, x = l / (l - m) /\ kind_of l m = Dn x /\ 0 < x < 1 /\ x * (l - m) == l).
Proof.
  intros Hl Hm. unfold kind_of. destruct (Qltb 0 l) eqn:E1, (Qltb 0 m) eqn:E2;
    rewrite ?Qltb_lt, ?Qltb_ge in *.
  - left. auto.
  - right; right; left. assert (m < 0) by (destruct (Q_dec m 0) as [[?|?]|?]; [auto|lra|contradiction]).
    split; auto. split; auto. exists (l / (l - m)). repeat split; auto.
    + apply Qdiv_pos; lra.
    + apply Qdiv_le_1; lra.
    + field. lra.
  - right; right; right. assert (l < 0) by (destruct (Q_dec l 0) as [[?|?]|?]; [auto|lra|contradiction]).
    split; auto. split; auto. exists (l / (l - m)).
    assert (E : l / (l - m) == (- l) / (m - l)) by (field; lra).
    repeat split; auto.
    + rewrite E. apply Qdiv_pos; lra.
    + rewrite E. apply Qdiv_le_1; lra.
    + field. lra.
  - right; left. repeat split; auto.
    + destruct (Q_dec l 0) as [[?|?]|?]; [auto|lra|contradiction].
    + destruct (Q_dec m 0) as [[?|?]|?]; [auto|lra|contradiction].
Qed.
Lemma kind_wf l m : ~ l == 0 -> ~ m == 0 -> wf (kind_of l m).
Proof.
  intros Hl Hm. destruct (kind_cases l m Hl Hm) as [(?&?&->)|[(?&?&->)|[(?&?&x&?&->&?&?)|(?&?&x&?&->&?&?)]]]; simpl; auto.
Qed.
Lemma kind_ok l m s : ~ l == 0 -> ~ m == 0 -> 0 <= s <= 1 -> ok (kind_of l m) s = Qle_bool 0 (l + s * (m - l)).
Proof.
  intros Hl Hm Hs. destruct (kind_cases l m Hl Hm) as [(?&?&->)|[(?&?&->)|[(?&?&x&_&->&?&E)|(?&?&x&_&->&?&E)]]]; simpl.
  - symmetry. apply Qle_bool_iff. nra.
  - symmetry. apply not_true_is_false. rewrite Qle_bool_iff. nra.
  - apply eq_true_iff_eq. rewrite !Qle_bool_iff. assert (F : l + s * (m - l) == (x - s) * (l - m)) by (rewrite <- E at 1; ring).
    rewrite F. split; intros; nra.
  - apply eq_true_iff_eq. rewrite !Qle_bool_iff. assert (F : l + s * (m - l) == (s - x) * (m - l)) by (rewrite <- E at 1; ring).
    rewrite F. split; intros; nra.
Qed.
Lemma hits_spec l m k1 k2 s : ~ l == 0 -> ~ m == 0 -> hits (kind_of l m) k1 k2 = Some s ->
  0 < s < 1 /\ s * (l - m) == l /\ ok k1 s = true /\ ok k2 s = true.
Proof.
  intros Hl Hm H. destruct (kind_cases l m Hl Hm) as [(?&?&E)|[(?&?&E)|[(?&?&x&_&E&?&F)|(?&?&x&_&E&?&F)]]]; rewrite E in H; simpl in H; try discriminate;
    destruct (ok k1 x && ok k2 x) eqn:B; inversion H; subst; apply andb_true_iff in B as [? ?]; auto.
Qed.
Lemma hits_none l m k1 k2 : ~ l == 0 -> ~ m == 0 -> hits (kind_of l m) k1 k2 = None ->
  forall s, s * (l - m) == l -> 0 <= s <= 1 -> ~ (ok k1 s = true /\ ok k2 s = true).
Proof.
  assert (OK : forall k x y, x == y -> ok k x = ok k y).
  { intros k x y E. destruct k; simpl; auto; rewrite E; auto. }
  intros Hl Hm H s Es Hs [O1 O2]. destruct (kind_cases l m Hl Hm) as [(?&?&E)|[(?&?&E)|[(?&?&x&_&E&?&F)|(?&?&x&_&E&?&F)]]]; rewrite E in H; simpl in H.
  - nra.
  - nra.
  - assert (X : s == x). { apply (Qmult_inj_r s x (l - m)); [lra|]. rewrite Es, F. reflexivity. }
    rewrite (OK k1 _ _ X) in O1. rewrite (OK k2 _ _ X) in O2. rewrite O1, O2 in H. discriminate.
  - assert (X : s == x). { apply (Qmult_inj_r s x (l - m)); [lra|]. rewrite Es, F. reflexivity. }
    rewrite (OK k1 _ _ X) in O1. rewrite (OK k2 _ _ X) in O2. rewrite O1, O2 in H. discriminate.
Qed.

(** ** points of the plane of a triangle *)
Definition bary (a b c p : point) (u v w : Q) : Prop := u + v + w == 1 /\
  forall k, coord p k == u * coord a k + v * coord b k + w * coord c k.
Lemma peq_coord x y : peq x y <-> forall k, coord x k == coord y k.
Proof.
  split.
  - intros (H1 & H2 & H3) [|[|k]]; simpl; auto.
  - intros H. split; [exact (H 0%nat)|split; [exact (H 1%nat)|exact (H 2%nat)]].
Qed.
Lemma peq_refl x : peq x x.
Proof. apply peq_coord. reflexivity. Qed.
Lemma peq_sym x y : peq x y -> peq y x.
Proof. rewrite !peq_coord. intros H k. symmetry. auto. Qed.
Lemma peq_trans x y z : peq x y -> peq y z -> peq x z.
Proof. rewrite !peq_coord. intros H1 H2 k. rewrite (H1 k). auto. Qed.
Lemma in_triangle_bary a b c p : in_triangle a b c p <-> exists u v w, 0 <= u /\ 0 <= v /\ 0 <= w /\ bary a b c p u v w.
Proof.
  split.
  - intros (u & v & w & H1 & H2 & H3 & H4 & (E1 & E2 & E3)). simpl in *. exists u, v, w. do 3 (split; auto). split; auto.
    intros [|[|k]]; simpl; auto.
  - intros (u & v & w & H1 & H2 & H3 & H4 & H5). exists u, v, w. do 4 (split; auto). split; [exact (H5 0%nat)|split; [exact (H5 1%nat)|exact (H5 2%nat)]].
Qed.
Lemma bary_rot a b c p u v w : bary a b c p u v w -> bary b c a p v w u.
Proof. intros [H1 H2]. split; [lra|]. intros k. rewrite H2. ring. Qed.
Lemma bary_peq a b c p q u v w : peq p q -> bary a b c p u v w -> bary a b c q u v w.
Proof. rewrite peq_coord. intros E [H1 H2]. split; auto. intros k. rewrite <- E. auto. Qed.
Lemma bary_along a b c p q u v w u' v' w' s : bary a b c p u v w -> bary a b c q u' v' w' ->
  bary a b c (along p q s) (u + s * (u' - u)) (v + s * (v' - v)) (w + s * (w' - w)).
Proof.
  intros [H1 H2] [H3 H4]. split.
  - transitivity ((u + v + w) + s * ((u' + v' + w') - (u + v + w))); [ring|]. rewrite H1, H3. ring.
  - intros k. rewrite coord_along, H2, H4. ring.
Qed.

Section Projected.
  Variable i j : nat.
  Notation D := (det2 i j).
  Definition frame (a b c : point) : Q := D (psub b a) (psub c a).
  Lemma D_psub u v w z : D (psub u v) (psub w z) ==
    (coord u i - coord v i) * (coord w j - coord z j) - (coord w i - coord z i) * (coord u j - coord v j).
  Proof. unfold det2. rewrite !coord_psub. reflexivity. Qed.
  Lemma frame_rot a b c : frame b c a == frame a b c.
  Proof. unfold frame. rewrite !D_psub. ring. Qed.
  (** coordinates in terms of determinants *)
  Lemma bary_area a b c p u v w : bary a b c p u v w -> D (psub a p) (psub b p) == w * frame a b c.
  Proof.
    intros [H1 H2]. unfold frame. rewrite !D_psub, (H2 i), (H2 j).
    assert (E : u == 1 - v - w) by lra. rewrite E. ring.
  Qed.
  Lemma bary_parallel a b c p q u v w u' v' w' : bary a b c p u v w -> bary a b c q u' v' w' ->
    D (psub a b) (psub p q) == (w' - w) * frame a b c.
  Proof.
    intros [H1 H2] [H3 H4]. unfold frame. rewrite !D_psub, (H2 i), (H2 j), (H4 i), (H4 j).
    assert (E : u == 1 - v - w) by lra. assert (E' : u' == 1 - v' - w') by lra. rewrite E, E'. ring.
  Qed.
  Lemma bary_unique a b c p u v w u' v' w' : ~ frame a b c == 0 -> bary a b c p u v w -> bary a b c p u' v' w' ->
    u == u' /\ v == v' /\ w == w'.
  Proof.
    intros F H H'.
    assert (G : forall x y, x * frame a b c == y * frame a b c -> x == y) by (intros x y; apply Qmult_inj_r; auto).
    assert (Ew : w == w'). { apply G. rewrite <- (bary_area _ _ _ _ _ _ _ H). apply (bary_area _ _ _ _ _ _ _ H'). }
    apply bary_rot in H, H'.
    assert (Eu : u == u').
    { apply G. rewrite <- (frame_rot a b c). rewrite <- (bary_area _ _ _ _ _ _ _ H). apply (bary_area _ _ _ _ _ _ _ H'). }
    destruct H as [H _], H' as [H' _]. repeat split; auto. lra.
  Qed.

  (** the crossing of an edge *)
  Lemma crossing eps a b c p q u v w u' v' w' : 0 < eps -> ~ frame a b c == 0 ->
    bary a b c p u v w -> bary a b c q u' v' w' ->
    ~ u == 0 -> ~ v == 0 -> ~ w == 0 -> ~ u' == 0 -> ~ v' == 0 -> ~ w' == 0 ->
    D (psub a b) (psub p q) == 0 \/ eps <= Qabs (D (psub a b) (psub p q)) ->
    eps <= colinear_measurement i j a b p -> eps <= colinear_measurement i j a b q ->
    match hits (kind_of w w') (kind_of u u') (kind_of v v') with
    | Some s => exists t, 0 <= t <= 1 /\ line_line_intersection eps i j a b p q = Some (along a b t, None) /\ peq (along a b t) (along p q s)
    | None => line_line_intersection eps i j a b p q = None
    end.
  Proof.
    intros He F Hp Hq U V W U' V' W' Hd Cp Cq.
    pose proof (bary_parallel _ _ _ _ _ _ _ _ _ _ _ Hp Hq) as Ed.
    destruct Hd as [Z|Hd].
    { assert (WW : w' == w).
      { rewrite Ed in Z. apply Qmult_integral in Z as [Z|Z]; [lra|contradiction]. }
      assert (H0 : forall k1 k2, hits (kind_of w w') k1 k2 = None).
      { intros k1 k2. destruct (kind_cases w w' W W') as [(?&?&->)|[(?&?&->)|[(?&?&_)|(?&?&_)]]]; auto; exfalso; lra. }
      rewrite H0. unfold line_line_intersection.
      assert (E0 : Qltb (Qabs (D (psub a b) (psub p q))) eps = true).
      { apply Qltb_lt. rewrite Z. exact He. }
      rewrite E0, (proj2 (Qltb_ge _ _) Cp), (proj2 (Qltb_ge _ _) Cq). reflexivity. }
    assert (Dn : ~ D (psub a b) (psub p q) == 0) by (eapply Qabs_nonzero; eauto).
    assert (WW : ~ w' - w == 0). { intros E. apply Dn. rewrite Ed, E. ring. }
    set (s0 := w / (w - w')). assert (Es0 : s0 * (w - w') == w) by (unfold s0; field; lra).
    set (t0 := v + s0 * (v' - v)).
    destruct (line_line_lemma eps i j a b p q He Hd) as [L1 L2].
    assert (Ec : forall k, coord (along a b t0) k == coord (along p q s0) k).
    { intros k. pose proof (bary_along _ _ _ _ _ _ _ _ _ _ _ s0 Hp Hq) as [B1 B2]. rewrite B2, coord_along.
      assert (Z : w + s0 * (w' - w) == 0) by (rewrite <- Es0 at 1; ring). unfold t0. rewrite Z in *.
      assert (X : u + s0 * (u' - u) == 1 - (v + s0 * (v' - v))) by lra. rewrite X. ring. }
    assert (T : forall t r, coord (along a b t) i == coord (along p q r) i -> coord (along a b t) j == coord (along p q r) j -> r == s0 /\ t == t0).
    { intros t r Ei Ej. rewrite !coord_along in Ei, Ej.
      assert (B : bary a b c (along p q r) (u + r * (u' - u)) (v + r * (v' - v)) (w + r * (w' - w))) by (apply bary_along; auto).
      assert (Z0 : D (psub a (along p q r)) (psub b (along p q r)) == 0).
      { rewrite D_psub, !coord_along. rewrite <- Ei, <- Ej. ring. }
      rewrite (bary_area _ _ _ _ _ _ _ B) in Z0. apply Qmult_integral in Z0 as [Z0|Z0]; [|contradiction].
      assert (R : r == s0). { apply (Qmult_inj_r r s0 (w - w')); [lra|]. rewrite Es0. lra. }
      split; auto.
      assert (Z1 : D (psub c (along p q r)) (psub a (along p q r)) == t * frame a b c).
      { unfold frame. rewrite !D_psub, !coord_along. rewrite <- Ei, <- Ej. ring. }
      rewrite (bary_area c a b) in Z1; [|apply bary_rot, bary_rot; eauto].
      rewrite <- (frame_rot c a b) in Z1. apply Qmult_inj_r in Z1; auto. rewrite <- Z1, R. reflexivity. }
    assert (K : forall x y, ~ x == 0 -> ~ y == 0 -> 0 <= s0 <= 1 -> (ok (kind_of x y) s0 = true <-> 0 <= x + s0 * (y - x))).
    { intros x y Hx Hy Hs. rewrite kind_ok, Qle_bool_iff; auto. reflexivity. }
    assert (SU : u + s0 * (u' - u) == 1 - t0).
    { pose proof (bary_along _ _ _ _ _ _ _ _ _ _ _ s0 Hp Hq) as [B1 B2].
      assert (Z : w + s0 * (w' - w) == 0) by (rewrite <- Es0 at 1; ring). unfold t0. lra. }
    destruct (hits _ _ _) as [s|] eqn:H.
    - destruct (hits_spec _ _ _ _ _ W W' H) as (S1 & S2 & S3 & S4).
      assert (S : s == s0). { apply (Qmult_inj_r s s0 (w - w')); [lra|]. rewrite Es0. auto. }
      assert (HS0 : 0 <= s0 <= 1) by lra.
      assert (OK : forall k, ok k s = ok k s0) by (intros [| |x|x]; simpl; rewrite ?S; auto).
      rewrite OK in S3, S4. apply K in S3, S4; auto. rewrite SU in S3. fold t0 in S4.
      destruct (L2 t0 s0) as (x & Ex & _); auto; [lra|].
      destruct (L1 _ _ Ex) as (_ & t & r & Ht & Hr & Exx & Exi & Exj).
      rewrite Exx in Exi, Exj. destruct (T t r Exi Exj) as [R1 R2].
      exists t. split; auto. split; [rewrite Ex, Exx; auto|]. apply peq_coord. intros k.
      rewrite !coord_along. specialize (Ec k). rewrite !coord_along in Ec. rewrite R2, S. auto.
    - destruct (line_line_intersection eps i j a b p q) as [[x y]|] eqn:E; auto. exfalso.
      destruct (L1 _ _ eq_refl) as (_ & t & r & Ht & Hr & Exx & Exi & Exj). rewrite Exx in Exi, Exj.
      destruct (T t r Exi Exj) as [R1 R2].
      apply (hits_none _ _ _ _ W W' H s0 Es0); [lra|]. split; apply K; auto; try lra. fold t0. lra.
  Qed.
End Projected.
