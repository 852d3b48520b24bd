(** * Lemmas: many lines, a line and a triangle, C93, C94 *)
From Coq Require Import List Arith ZArith Bool Reals Lra Lia Permutation Sorted.
From Verif Require Import Base BaseProof VecBase VecProof GeoModel GeoSpec GeoProof GeoProof2 PolyModel LineModel LineSpec LineProof.
Import ListNotations.
Local Open Scope R_scope.

Lemma allclose_default_nearly x y : allclose_default x y = true <-> nearly x y.
Proof. unfold allclose_default, isclose_default, nearly. rewrite !andb_true_iff, !Rleb_true. tauto. Qed.
Lemma mapM_each {A B} (f : A -> res B) (P : A -> B -> Prop) l : (forall x, In x l -> exists y, f x = Ok y /\ P x y) -> exists ys, mapM f l = Ok ys /\ Forall2 P l ys.
Proof.
  induction l as [|x l IH]; intros H; [exists []; split; [reflexivity|constructor]|]. destruct (H x ltac:(left; reflexivity)) as (y & E & G).
  destruct IH as (ys & E' & F); [intros; apply H; right; assumption|]. exists (y :: ys). simpl. rewrite E, E'. split; [reflexivity|]. constructor; assumption.
Qed.
Lemma Forall2_In_l {A B} (P : A -> B -> Prop) l l' x : Forall2 P l l' -> In x l -> exists y, In y l' /\ P x y.
Proof. induction 1 as [|a b l l' H F IH]; intros I; [destruct I|]. destruct I as [->|I]; [exists b; split; [left; reflexivity|exact H]|]. destruct (IH I) as (y & Y & G). exists y. split; [right; exact Y|exact G]. Qed.
Lemma Forall2_In_r {A B} (P : A -> B -> Prop) l l' y : Forall2 P l l' -> In y l' -> exists x, In x l /\ P x y.
Proof. induction 1 as [|a b l l' H F IH]; intros I; [destruct I|]. destruct I as [->|I]; [exists a; split; [left; reflexivity|exact H]|]. destruct (IH I) as (x & X & G). exists x. split; [right; exact X|exact G]. Qed.

Section Many.
  Variable lstsq : vec -> vec -> vec -> R * R.
  Variable ctol ptol eps scale : R.
  Hypothesis Ls : solves lstsq.
  Hypothesis C0 : 0 <= ctol <= 1 / 100000000.
  Hypothesis P0 : 0 <= ptol.
  Hypothesis E0 : 0 <= eps.
  Variables tools objects : list (vec * vec).
  Hypothesis clear : forall l m, In l tools -> In m objects ->
    l = m \/ (~ (nearly (fst l) (fst m) /\ nearly (snd l) (snd m)) /\ clear_cut ctol ptol eps l m).
  Lemma same_line_eq l m : In l tools -> In m objects -> (same_line l m = true <-> l = m).
  Proof.
    intros L M. unfold same_line. rewrite andb_true_iff, !allclose_default_nearly. split.
    - intros H. destruct (clear l m L M) as [E|(N & _)]; [exact E|contradiction].
    - intros ->. split; apply allclose_default_nearly, default_refl.
  Qed.
  Lemma lines_lines_found : exists outs, lines_lines lstsq ctol ptol tools objects eps = Ok outs /\
    Forall2 (fun m out => forall z, In z out <-> exists l, In l tools /\ l <> m /\ meet l m z) objects outs.
  Proof.
    unfold lines_lines. apply mapM_each. intros m M.
    destruct (lines_line_lemma lstsq ctol ptol eps Ls C0 P0 E0 (filter (fun tool => negb (same_line tool m)) tools) (fst m) (snd m)) as (out & E & G).
    - intros l L. apply filter_In in L. destruct L as (L & N). apply negb_true_iff in N. destruct (clear l m L M) as [H|(_ & H)].
      + apply (same_line_eq l m L M) in H. congruence.
      + destruct m. exact H.
    - exists out. split; [exact E|]. intros z. rewrite G. destruct m as (c, d). cbn [fst snd] in *. split.
      + intros (l & L & K). apply filter_In in L. destruct L as (L & N). apply negb_true_iff in N. exists l. split; [exact L|]. split; [|exact K].
        intros H. apply (same_line_eq l (c, d) L M) in H. congruence.
      + intros (l & L & N & K). exists l. split; [|exact K]. apply filter_In. split; [exact L|]. apply negb_true_iff. destruct (same_line l (c, d)) eqn:S'; [|reflexivity].
        apply (same_line_eq l (c, d) L M) in S'. contradiction.
  Qed.
  Notation crossing_point := (LineSpec.crossing_point tools objects).
  Lemma lines_lines_unique : 0 < scale -> exists pts, lines_lines_points lstsq ctol ptol scale tools objects eps = Ok pts /\
    NoDup pts /\ (forall z, In z pts -> crossing_point z) /\ (forall z, crossing_point z -> exists y, In y pts /\ within (/ scale) y z) /\
    ((forall y z, crossing_point y -> crossing_point z -> within (/ scale) y z -> y = z) -> forall z, In z pts <-> crossing_point z).
  Proof.
    intros S0. destruct lines_lines_found as (outs & E & F). unfold lines_lines_points. rewrite E. cbn [bind]. eexists. split; [reflexivity|].
    assert (I : forall z, In z (concat outs) <-> crossing_point z).
    { intros z. rewrite in_concat. split.
      - intros (out & O & Z). destruct (Forall2_In_r _ _ _ _ F O) as (m & M & G). apply G in Z. destruct Z as (l & L & N & K). exists l, m. tauto.
      - intros (l & m & L & M & N & K). destruct (Forall2_In_l _ _ _ _ F M) as (out & O & G). exists out. split; [exact O|]. apply G. exists l. tauto. }
    split; [apply unique_nodup|]. split; [intros z Z; apply I, (unique_In scale), Z|]. split.
    - intros z Z. apply I in Z. destruct (unique_covers scale _ z Z) as (y & Y & R). exists y. split; [exact Y|]. apply rounded_within; assumption.
    - intros D z. rewrite unique_same; [apply I|]. intros x y X Y R. apply D; [apply I; exact X|apply I; exact Y|]. apply rounded_within; assumption.
  Qed.
End Many.

Section Fails.
  Variable lstsq : vec -> vec -> vec -> R * R.
  Variable ctol ptol eps : R.
  Hypothesis Ls : solves lstsq.
  Hypothesis C0 : 0 <= ctol <= 1 / 100000000.
  Hypothesis P0 : 0 <= ptol.
  Hypothesis E0 : 0 <= eps.
  Lemma line_on a b c d : on_segment c d a -> on_segment c d b -> exists out q, line_line_intersection lstsq ctol ptol a b c d eps = Ok (LL_segment out q).
  Proof.
    intros A B. unfold line_line_intersection, points_line_intersection. cbn [map].
    destruct (segment_found ctol ptol a c d P0 A) as (x & ->). destruct (segment_found ctol ptol b c d P0 B) as (y & ->). cbn [is_some flat_map app]. eexists. eexists. reflexivity.
  Qed.
  Lemma line_Ok a b c d : exists r, line_line_intersection lstsq ctol ptol a b c d eps = Ok r /\ (r = LL_none \/ (exists x, r = LL_points [x]) \/ exists out q, r = LL_segment out q).
  Proof.
    destruct (line_line_lemma lstsq ctol ptol eps a b c d (proj2 C0) P0 E0 (Ls _ _ _)) as (r & E & _ & G & _). exists r. split; [exact E|].
    destruct r as [|out|out q]; [tauto| |right; right; exists out, q; reflexivity]. right. left. destruct (G out eq_refl) as (x & -> & _). exists x. reflexivity.
  Qed.
  Lemma ll_array_err l : (exists out q, In (LL_segment out q) l) -> ll_array l = Err ValueError.
  Proof.
    induction l as [|r l IH]; intros (out & q & I); [destruct I|]. destruct I as [->|I]; [reflexivity|]. specialize (IH ltac:(exists out, q; exact I)).
    destruct r; simpl; rewrite ?IH; reflexivity.
  Qed.
  Lemma lines_line_fails lines a b c d : In (a, b) lines -> on_segment c d a -> on_segment c d b -> lines_line_intersection lstsq ctol ptol lines c d eps = Err ValueError.
  Proof.
    intros I A B. unfold lines_line_intersection.
    destruct (mapM_each (fun line : segment => line_line_intersection lstsq ctol ptol (fst line) (snd line) c d eps)
      (fun line r => line_line_intersection lstsq ctol ptol (fst line) (snd line) c d eps = Ok r) lines) as (rs & E & F).
    - intros (x, y) _. destruct (line_Ok x y c d) as (r & H & _). exists r. split; exact H.
    - rewrite E. cbn [bind]. apply ll_array_err. destruct (Forall2_In_l _ _ _ _ F I) as (r & R & G). cbn [fst snd] in G.
      destruct (line_on a b c d A B) as (out & q & H). exists out, q. rewrite H in G. injection G as <-. exact R.
  Qed.
  Lemma lines_line_total lines c d : (exists out, lines_line_intersection lstsq ctol ptol lines c d eps = Ok out) \/ lines_line_intersection lstsq ctol ptol lines c d eps = Err ValueError.
  Proof.
    unfold lines_line_intersection.
    destruct (mapM_each (fun line : segment => line_line_intersection lstsq ctol ptol (fst line) (snd line) c d eps) (fun line r => True) lines) as (rs & E & F).
    - intros (x, y) _. destruct (line_Ok x y c d) as (r & H & _). exists r. split; [exact H|exact I].
    - rewrite E. cbn [bind]. clear. induction rs as [|r rs IH]; [left; eexists; reflexivity|]. destruct r; simpl; [exact IH| |right; reflexivity].
      destruct IH as [(out' & ->)| ->]; [left; eexists; reflexivity|right; reflexivity].
  Qed.
  Lemma lines_lines_fails tools objects l m : In l tools -> In m objects -> ~ (nearly (fst l) (fst m) /\ nearly (snd l) (snd m)) ->
    on_segment (fst m) (snd m) (fst l) -> on_segment (fst m) (snd m) (snd l) -> lines_lines lstsq ctol ptol tools objects eps = Err ValueError.
  Proof.
    intros L M N A B. unfold lines_lines. induction objects as [|o objects' IH]; [destruct M|]. cbn [mapM].
    destruct (lines_line_total (filter (fun tool => negb (same_line tool o)) tools) (fst o) (snd o)) as [(out & T)|T]; [|rewrite T; reflexivity].
    destruct M as [->|M]; [|rewrite T; cbn [bind]; rewrite (IH M); reflexivity].
    rewrite (lines_line_fails (filter (fun tool => negb (same_line tool m)) tools) (fst l) (snd l) (fst m) (snd m)); [reflexivity| |exact A|exact B].
    apply filter_In. destruct l as (a, b). split; [exact L|]. apply negb_true_iff. cbn [fst snd]; destruct (same_line (a, b) m) eqn:S'; [|reflexivity]. exfalso. apply N.
    unfold same_line in S'. apply andb_true_iff in S'. rewrite !allclose_default_nearly in S'. exact S'.
  Qed.
End Fails.

(** ** volumes *)
Lemma volume_between a b c p q s : volume6 a b c (between p q s) = (1 - s) * volume6 a b c p + s * volume6 a b c q.
Proof. unfold volume6, between, dot, cross. simpl. ring. Qed.
Lemma volume_edge a b c u v : triangle_edge a b c u v -> forall w, on_segment u v w -> in_triangle a b c w.
Proof.
  intros T w (t & Ht & ->). destruct T as [(-> & ->)|[(-> & ->)|(-> & ->)]].
  - exists t, 0. repeat split; try lra. unfold between. apply vec_ext; simpl; ring.
  - exists (1 - t), t. repeat split; try lra. unfold between. apply vec_ext; simpl; ring.
  - exists 0, (1 - t). repeat split; try lra. unfold between. apply vec_ext; simpl; ring.
Qed.
Lemma volume_in a b c w : in_triangle a b c w -> volume6 a b c w = 0.
Proof. intros (u & v & _ & _ & _ & ->). unfold volume6, dot, cross. simpl. ring. Qed.
Lemma incidence_spec p q a b c eps : 0 <= eps -> (line_triangle_incidence p q a b c eps = false <-> beside eps a b c p q).
Proof.
  intros E0. unfold line_triangle_incidence, beside. rewrite !coplanar_volume. set (P := volume6 a b c p). set (Q := volume6 a b c q).
  assert (C : forall V, isclose eps (- (V / 6)) 0 = true <-> Rabs V <= 6 * eps).
  { intros V. rewrite isclose_true. rewrite Rabs_R0. replace (- (V / 6) - 0) with (- (V / 6)) by ring. rewrite Rabs_Ropp. unfold Rdiv. rewrite Rabs_mult, (Rabs_right (/ 6)) by lra. split; intros; lra. }
  assert (D : forall V, isclose eps (- (V / 6)) 0 = false -> 6 * eps < V \/ V < - (6 * eps)).
  { intros V H. destruct (Rle_dec (Rabs V) (6 * eps)) as [G|G]; [apply C in G; congruence|]. unfold Rabs in G. destruct (Rcase_abs V); lra. }
  assert (D' : forall V, 6 * eps < V \/ V < - (6 * eps) -> isclose eps (- (V / 6)) 0 = false).
  { intros V H. destruct (isclose eps (- (V / 6)) 0) eqn:G; [|reflexivity]. exfalso. apply C in G. unfold Rabs in G. destruct (Rcase_abs V); lra. }
  split.
  - intros H. destruct (isclose eps (- (P / 6)) 0) eqn:A; [discriminate|]. destruct (isclose eps (- (Q / 6)) 0) eqn:B; [discriminate|]. simpl in H. rewrite !orb_false_r in H.
    apply D in A, B. destruct (Rltb (- (P / 6)) 0) eqn:P1, (Rltb 0 (- (Q / 6))) eqn:Q1, (Rltb 0 (- (P / 6))) eqn:P2, (Rltb (- (Q / 6)) 0) eqn:Q2; try discriminate H;
    repeat match goal with G : Rltb _ _ = true |- _ => apply Rltb_true in G | G : Rltb _ _ = false |- _ => apply Rltb_false in G end; destruct A, B; try lra; tauto.
  - intros H. rewrite (D' P), (D' Q) by lra. simpl. rewrite !orb_false_r.
    destruct (Rltb (- (P / 6)) 0) eqn:P1, (Rltb 0 (- (Q / 6))) eqn:Q1, (Rltb 0 (- (P / 6))) eqn:P2, (Rltb (- (Q / 6)) 0) eqn:Q2; try reflexivity;
    repeat match goal with G : Rltb _ _ = true |- _ => apply Rltb_true in G | G : Rltb _ _ = false |- _ => apply Rltb_false in G end; destruct H; lra.
Qed.

Section Triangle.
  Variable lstsq : vec -> vec -> vec -> R * R.
  Variable ctol ptol eps scale : R.
  Hypothesis Ls : solves lstsq.
  Hypothesis C0 : 0 <= ctol <= 1 / 100000000.
  Hypothesis P0 : 0 <= ptol.
  Hypothesis E0 : 0 <= eps.
  Notation found := (line_triangle_intersection lstsq ctol ptol scale).
  Lemma beside_none a b c p q : beside eps a b c p q -> found (p, q) a b c eps = Ok LT_none.
  Proof. intros H. unfold line_triangle_intersection. apply incidence_spec in H; [|exact E0]. rewrite H. reflexivity. Qed.
  (** points of the plane that are not just beside an edge *)
  Lemma definite_found a b c z : proper_triangle a b c -> volume6 a b c z = 0 -> (forall u v, triangle_edge a b c u v -> definite ctol eps z u v) ->
    (in_triangle a b c z -> point_triangle_intersection ctol z a b c eps = Some z) /\ (~ in_triangle a b c z -> point_triangle_intersection ctol z a b c eps = None).
  Proof.
    intros T V D. assert (Dab := D a b ltac:(unfold triangle_edge; tauto)). assert (Dbc := D b c ltac:(unfold triangle_edge; tauto)). assert (Dca := D c a ltac:(unfold triangle_edge; tauto)). split.
    - intros I. destruct (triangle_found ctol eps z a b c E0 T I) as (x & X). rewrite X. f_equal.
      destruct (triangle_sound _ _ _ _ _ _ _ E0 T X) as [(-> & H)|[(-> & H)|[(-> & H)|(_ & [H|[H|[H|(H & _)]]])]]].
      + apply (Dab a). left. split; [reflexivity|exact H].
      + apply (Dbc b). left. split; [reflexivity|exact H].
      + apply (Dca c). left. split; [reflexivity|exact H].
      + apply (Dab x H).
      + apply (Dbc x H).
      + apply (Dca x H).
      + exact H.
    - intros N. apply triangle_outside; try assumption; intros x H; apply N.
      + apply (volume_edge a b c a b ltac:(unfold triangle_edge; tauto)). apply (Dab x H).
      + apply (volume_edge a b c b c ltac:(unfold triangle_edge; tauto)). apply (Dbc x H).
      + apply (volume_edge a b c c a ltac:(unfold triangle_edge; tauto)). apply (Dca x H).
  Qed.
  Lemma three_edges a b c l : In l [(a, b); (b, c); (c, a)] <-> triangle_edge a b c (fst l) (snd l).
  Proof.
    destruct l as (u, v). simpl. unfold triangle_edge. split.
    - intros [E|[E|[E|[]]]]; injection E as <- <-; tauto.
    - intros [(-> & ->)|[(-> & ->)|(-> & ->)]]; tauto.
  Qed.
  Lemma edges_found a b c p q : (forall u v, triangle_edge a b c u v -> clear_cut ctol ptol eps (u, v) (p, q)) ->
    exists out, lines_line_intersection lstsq ctol ptol [(a, b); (b, c); (c, a)] p q eps = Ok out /\
      forall w, In w out <-> exists u v, triangle_edge a b c u v /\ on_segment u v w /\ on_segment p q w.
  Proof.
    intros H. destruct (lines_line_lemma lstsq ctol ptol eps Ls C0 P0 E0 [(a, b); (b, c); (c, a)] p q) as (out & E & G).
    - intros (u, v) L. apply three_edges in L. exact (H u v L).
    - exists out. split; [exact E|]. intros w. rewrite G. split.
      + intros ((u, v) & L & (A & B)). apply three_edges in L. exists u, v. tauto.
      + intros (u & v & L & A & B). exists (u, v). split; [apply three_edges; exact L|split; assumption].
  Qed.
  Lemma across a b c p q z : proper_triangle a b c -> crosses_plane ctol eps a b c p q z ->
    (forall u v, triangle_edge a b c u v -> clear_cut ctol ptol eps (u, v) (p, q) /\ definite ctol eps z u v) ->
    (in_triangle a b c z -> found (p, q) a b c eps = Ok (LT_points [z])) /\ (~ in_triangle a b c z -> found (p, q) a b c eps = Ok LT_none).
  Proof.
    intros T ((s & Hs & Z) & V & D & Op & Oq) G.
    destruct (definite_found a b c z T V (fun u v H => proj2 (G u v H))) as (Zin & Zout).
    destruct (edges_found a b c p q (fun u v H => proj1 (G u v H))) as (out & E & O).
    assert (VZ : (1 - s) * volume6 a b c p + s * volume6 a b c q = 0) by (rewrite <- volume_between, <- Z; exact V).
    assert (PQ : p <> q) by (intros ->; rewrite Rminus_diag_eq, Rabs_R0 in D by reflexivity; lra).
    assert (I : line_triangle_incidence p q a b c eps = true).
    { destruct (line_triangle_incidence p q a b c eps) eqn:I; [reflexivity|]. exfalso. apply incidence_spec in I; [|exact E0]. destruct I as [(A & B)|(A & B)]; nra. }
    assert (only : forall w, In w out -> w = z /\ in_triangle a b c z).
    { intros w W. apply O in W. destruct W as (u & v & L & U & (t & Ht & X)). pose proof (volume_edge a b c u v L w U) as J. pose proof (volume_in a b c w J) as VW. rewrite X, volume_between in VW.
      assert (TS : t = s). { assert (K : (t - s) * (volume6 a b c q - volume6 a b c p) = 0) by (clear - VW VZ; lra). apply Rmult_integral in K. destruct K as [K|K]; [lra|]. rewrite K, Rabs_R0 in D. lra. }
      assert (W : w = z) by (rewrite X, Z, TS; reflexivity). split; [exact W|]. rewrite <- W. exact J. }
    unfold line_triangle_intersection. rewrite I. cbn [negb].
    assert (FP : point_triangle_intersection ctol p a b c eps = None \/ p = z).
    { destruct Op as [Op|(A & B1 & B2 & B3)]; [right; exact Op|left]. apply triangle_far; assumption. }
    assert (FQ : point_triangle_intersection ctol q a b c eps = None \/ q = z).
    { destruct Oq as [Oq|(A & B1 & B2 & B3)]; [right; exact Oq|left]. apply triangle_far; assumption. }
    assert (Both : is_some (point_triangle_intersection ctol p a b c eps) && is_some (point_triangle_intersection ctol q a b c eps) = false).
    { destruct FP as [->| ->]; [reflexivity|]. destruct FQ as [->| ->]; [apply andb_false_r|congruence]. }
    rewrite Both, E. cbn [bind]. clear Both. destruct out as [|w out].
    - assert (Rest : is_some (point_triangle_intersection ctol p a b c eps) = false -> is_some (point_triangle_intersection ctol q a b c eps) = false ->
        (if isclose eps (dot (cross (vsub b a) (vsub c a)) (vsub q p)) 0 then Ok LT_none
         else if Rltb (dot (cross (vsub b a) (vsub c a)) (vsub a p) / dot (cross (vsub b a) (vsub c a)) (vsub q p)) 0 || Rltb 1 (dot (cross (vsub b a) (vsub c a)) (vsub a p) / dot (cross (vsub b a) (vsub c a)) (vsub q p)) then Ok LT_false
         else match point_triangle_intersection ctol (vadd p (vscale (dot (cross (vsub b a) (vsub c a)) (vsub a p) / dot (cross (vsub b a) (vsub c a)) (vsub q p)) (vsub q p))) a b c eps with
              | None => Ok LT_none | Some x => Ok (LT_points [x]) end) =
        match point_triangle_intersection ctol z a b c eps with None => Ok LT_none | Some x => Ok (LT_points [x]) end).
      { intros _ _. set (n := cross (vsub b a) (vsub c a)).
        assert (DN : dot n (vsub q p) = volume6 a b c q - volume6 a b c p) by (unfold n, volume6, dot, cross; simpl; ring).
        assert (DA : dot n (vsub a p) = - volume6 a b c p) by (unfold n, volume6, dot, cross; simpl; ring).
        rewrite DN, DA. destruct (isclose eps (volume6 a b c q - volume6 a b c p) 0) eqn:J.
        { exfalso. apply isclose_true in J. rewrite Rabs_R0, Rminus_0_r in J. lra. }
        assert (N0 : volume6 a b c q - volume6 a b c p <> 0) by (intros H; rewrite H, Rabs_R0 in D; lra).
        assert (DS : - volume6 a b c p / (volume6 a b c q - volume6 a b c p) = s) by (apply Rmult_eq_reg_r with (volume6 a b c q - volume6 a b c p); [|exact N0]; unfold Rdiv; rewrite Rmult_assoc, Rinv_l by exact N0; lra).
        rewrite DS. replace (Rltb s 0) with false by (symmetry; apply Rltb_false; lra). replace (Rltb 1 s) with false by (symmetry; apply Rltb_false; lra). cbn [orb].
        replace (vadd p (vscale s (vsub q p))) with z by (rewrite Z; reflexivity). reflexivity. }
      split; intros In.
      + specialize (Zin In). destruct (is_some (point_triangle_intersection ctol p a b c eps)) eqn:SP.
        { destruct FP as [F| ->]; [rewrite F in SP; discriminate|reflexivity]. }
        destruct (is_some (point_triangle_intersection ctol q a b c eps)) eqn:SQ.
        { destruct FQ as [F| ->]; [rewrite F in SQ; discriminate|reflexivity]. }
        rewrite Rest, Zin by reflexivity. reflexivity.
      + specialize (Zout In). destruct (is_some (point_triangle_intersection ctol p a b c eps)) eqn:SP.
        { exfalso. destruct FP as [F| ->]; [rewrite F in SP; discriminate|rewrite Zout in SP; discriminate]. }
        destruct (is_some (point_triangle_intersection ctol q a b c eps)) eqn:SQ.
        { exfalso. destruct FQ as [F| ->]; [rewrite F in SQ; discriminate|rewrite Zout in SQ; discriminate]. }
        rewrite Rest, Zout by reflexivity. reflexivity.
    - destruct (only w ltac:(left; reflexivity)) as (_ & J).
      rewrite (unique_const scale (w :: out) z); [|discriminate|intros x X; apply only; exact X]. split; [reflexivity|contradiction].
  Qed.
  (** a segment of the plane with both ends outside *)
  Lemma in_plane_found a b c p q : volume6 a b c p = 0 -> volume6 a b c q = 0 ->
    (forall u v, triangle_edge a b c u v -> clear_cut ctol ptol eps (u, v) (p, q)) ->
    (point_triangle_intersection ctol p a b c eps = None \/ point_triangle_intersection ctol q a b c eps = None) ->
    exists r out, found (p, q) a b c eps = Ok r /\
      (forall w, In w out <-> exists u v, triangle_edge a b c u v /\ on_segment u v w /\ on_segment p q w) /\
      (out <> [] -> is_array r = true /\ lt_points r = unique_rows scale out) /\
      (out = [] -> point_triangle_intersection ctol p a b c eps = None -> point_triangle_intersection ctol q a b c eps = None -> r = LT_none).
  Proof.
    intros Vp Vq G N. destruct (edges_found a b c p q G) as (out & E & O).
    assert (I : line_triangle_incidence p q a b c eps = true).
    { destruct (line_triangle_incidence p q a b c eps) eqn:I; [reflexivity|]. exfalso. apply incidence_spec in I; [|exact E0]. destruct I as [(A & B)|(A & B)]; rewrite Vp in A; lra. }
    unfold line_triangle_intersection. rewrite I. cbn [negb].
    assert (B : is_some (point_triangle_intersection ctol p a b c eps) && is_some (point_triangle_intersection ctol q a b c eps) = false) by (destruct N as [->| ->]; [reflexivity|apply andb_false_r]).
    rewrite B, E. cbn [bind]. destruct out as [|w out].
    - assert (K : exists r, (if is_some (point_triangle_intersection ctol p a b c eps) then Ok (LT_points [p])
         else if is_some (point_triangle_intersection ctol q a b c eps) then Ok (LT_points [q]) else Ok LT_none) = Ok r /\
         (point_triangle_intersection ctol p a b c eps = None -> point_triangle_intersection ctol q a b c eps = None -> r = LT_none)).
      { destruct (point_triangle_intersection ctol p a b c eps), (point_triangle_intersection ctol q a b c eps); cbn [is_some]; eexists; split; try reflexivity; try discriminate. }
      destruct K as (r & K & K'). exists r, []. split; [|split; [exact O|split; [congruence|intros _; exact K']]].
      rewrite <- K. replace (dot (cross (vsub b a) (vsub c a)) (vsub q p)) with (volume6 a b c q - volume6 a b c p) by (unfold volume6, dot, cross; simpl; ring).
      rewrite Vp, Vq, Rminus_0_r, isclose_refl by exact E0. reflexivity.
    - destruct (unique_rows scale (w :: out)) as [|x [|y u]] eqn:U.
      + apply unique_nil in U. discriminate.
      + exists (LT_points [x]), (w :: out). split; [reflexivity|]. split; [exact O|]. split; [|discriminate]. intros _. rewrite U. split; reflexivity.
      + exists (LT_stack (x :: y :: u)), (w :: out). split; [reflexivity|]. split; [exact O|]. split; [|discriminate]. intros _. rewrite U. split; reflexivity.
  Qed.
  Lemma edge_fails a b c p q u v : line_triangle_incidence p q a b c eps = true ->
    (point_triangle_intersection ctol p a b c eps = None \/ point_triangle_intersection ctol q a b c eps = None) ->
    triangle_edge a b c u v -> on_segment p q u -> on_segment p q v -> found (p, q) a b c eps = Err ValueError.
  Proof.
    intros I N L U V. unfold line_triangle_intersection. rewrite I. cbn [negb].
    assert (B : is_some (point_triangle_intersection ctol p a b c eps) && is_some (point_triangle_intersection ctol q a b c eps) = false) by (destruct N as [->| ->]; [reflexivity|apply andb_false_r]).
    rewrite B, (lines_line_fails lstsq ctol ptol eps Ls C0 P0 E0 _ u v); [reflexivity| |assumption|assumption]. apply (three_edges a b c (u, v)). exact L.
  Qed.
End Triangle.
