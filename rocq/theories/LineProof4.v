(** * Lemmas: lines and polygons, C94 *)
From Coq Require Import List Arith ZArith Bool Reals Lra Lia Permutation Sorted Classical.
From Verif Require Import Base BaseProof VecBase VecProof GeoModel GeoSpec GeoProof GeoProof2 PolyModel PolySpec PolyProof PolyProof2 PolyProof3 DomainProof2 LineModel LineSpec LineProof LineProof2 LineProof3.
Import ListNotations.
Local Open Scope R_scope.

Lemma mapM_nth (data : list vec) idx l : mapM (get_at data) idx = Ok l -> forall k i, nth_error idx k = Some i -> get_at data i = Ok (nth k l vzero).
Proof.
  intros E. apply mapM_Forall2 in E. induction E as [|a b is ys G F IH]; intros k i I; [destruct k; discriminate|].
  destruct k as [|k]; cbn [nth_error nth] in *; [injection I as <-; exact G|exact (IH k i I)].
Qed.
Section Polygon.
  Variable lstsq : vec -> vec -> vec -> R * R.
  Variable argsort : list R -> list nat.
  Variable delaunay : list (R * R) -> res (list (nat * nat * nat)).
  Variable ctol ptol eps scale : R.
  Hypothesis Ls : solves lstsq.
  Hypothesis Srt : sorts argsort.
  Hypothesis C0 : 0 <= ctol <= 1 / 100000000.
  Hypothesis P0 : 0 <= ptol.
  Hypothesis E0 : 0 <= eps.
  Variable n : vec.
  Variable pts : list vec.
  Hypothesis C : convex_polygon n pts.
  Hypothesis Q : convex_q pts = Ok true.
  Notation found := (line_polygon_intersection lstsq argsort delaunay ctol ptol scale).
  Notation tri := (line_triangle_intersection lstsq ctol ptol scale).
  Let m := length pts.

  Lemma edge_fan i u v : (i < m)%nat -> triangle_edge (vmean pts) (corner pts i) (corner pts (i + 1)) u v -> fan_edge pts u v.
  Proof. intros L T. exists i. split; [exact L|]. unfold triangle_edge in T. tauto. Qed.
  Lemma fan_triangle u v : fan_edge pts u v -> exists i, (i < m)%nat /\ triangle_edge (vmean pts) (corner pts i) (corner pts (i + 1)) u v.
  Proof. intros (i & L & F). exists i. split; [exact L|]. unfold triangle_edge. tauto. Qed.
  (** the results of the triangles *)
  Lemma polygon_results line (R : nat -> lt_result -> Prop) :
    (forall i, (i < m)%nat -> exists r, tri line (vmean pts) (corner pts i) (corner pts (i + 1)) eps = Ok r /\ R i r) ->
    exists rs, Forall2 R (seq 0 m) rs /\ found line pts eps =
      (if existsb is_array rs then
        let data := unique_rows scale (flat_map lt_points rs) in
        let idx := points_line_argsort argsort data (fst line) (snd line) in
        if (2 <? length data)%nat then
          do i <- get_at idx 0; do j <- get_at idx (length idx - 1); do x <- get_at data i; do y <- get_at data j; Ok (Some [x; y])
        else do l <- mapM (get_at data) idx; Ok (Some l)
      else Ok None).
  Proof.
    intros H. destruct (mapM_each (fun i => tri line (vmean pts) (corner pts i) (corner pts (i + 1)) eps) R (seq 0 m)) as (rs & E & F).
    - intros i I. apply in_seq in I. apply H. lia.
    - exists rs. split; [exact F|]. unfold line_polygon_intersection. rewrite (recognised_triangles delaunay n pts C Q). cbn [bind].
      replace (mapM (fun t : vec * vec * vec => let '(a, b, c) := t in tri line a b c eps) (map (fun i => (vmean pts, corner pts i, corner pts (i + 1))) (seq 0 (length pts)))) with (Ok rs); [reflexivity|].
      rewrite <- E. unfold m. clear. induction (seq 0 (length pts)) as [|i l IH]; [reflexivity|]. cbn [map mapM]. rewrite IH. reflexivity.
  Qed.
  Lemma points_sorted data p q : data <> [] -> NoDup data ->
    exists x y, In x data /\ In y data /\ (forall w, In w data -> norm (vsub x p) <= norm (vsub w p) <= norm (vsub y p)) /\
      (length data = 1%nat -> x = y) /\ ((2 <= length data)%nat -> x <> y) /\
      (let idx := points_line_argsort argsort data p q in
        if (2 <? length data)%nat then
          do i <- get_at idx 0; do j <- get_at idx (length idx - 1); do x <- get_at data i; do y <- get_at data j; Ok (Some [x; y])
        else do l <- mapM (get_at data) idx; Ok (Some l)) = Ok (Some (if (length data =? 1)%nat then [x] else [x; y])).
  Proof.
    intros N D. unfold points_line_argsort. set (idx := argsort (map (fun x => norm (vsub x p)) data)).
    destruct (sorted_pick argsort p data Srt) as (l & E & P & LI & S). fold idx in E, LI. cbv zeta.
    assert (LL : length l = length data) by (apply Permutation_length; exact P).
    assert (D' : NoDup l) by (apply (Permutation_NoDup (Permutation_sym P)); exact D).
    destruct l as [|x l]; [symmetry in LL; apply length_zero_iff_nil in LL; congruence|].
    exists x, (last (x :: l) vzero).
    assert (IL : In (last (x :: l) vzero) (x :: l)). { clear. revert x. induction l as [|c l IH]; intros x; [left; reflexivity|]. right. exact (IH c). }
    split; [apply (Permutation_in _ P); left; reflexivity|]. split; [apply (Permutation_in _ P); exact IL|]. split; [|split; [|split]].
    - intros w W. apply (Permutation_in _ (Permutation_sym P)) in W. split.
      + destruct W as [->|W]; [lra|]. inversion S as [|? ? _ F]; subst. rewrite Forall_forall in F. exact (F w W).
      + destruct (sorted_last _ _ w vzero S W) as [->|H]; [lra|exact H].
    - intros L1. destruct l as [|y l]; [reflexivity|]. simpl in LL. lia.
    - intros L2. destruct l as [|y l]; [simpl in LL; lia|]. change (last (x :: y :: l) vzero) with (last (y :: l) vzero). intros H. apply NoDup_cons_iff in D'. apply (proj1 D'). rewrite H.
      clear. revert y. induction l as [|c l IH]; intros y; [left; reflexivity|]. right. exact (IH c).
    - assert (PK : forall k, (k < length data)%nat -> exists i, get_at idx k = Ok i /\ get_at data i = Ok (nth k (x :: l) vzero)).
      { intros k K. destruct (nth_error idx k) as [i|] eqn:I; [|apply nth_error_None in I; lia]. exists i. unfold get_at at 1. rewrite I. split; [reflexivity|].
        exact (mapM_nth data idx _ E k i I). }
      destruct (2 <? length data)%nat eqn:L2.
      + apply Nat.ltb_lt in L2. destruct (PK 0%nat ltac:(lia)) as (i & I1 & I2). destruct (PK (length idx - 1)%nat ltac:(lia)) as (j & J1 & J2).
        rewrite I1. cbn [bind]. rewrite J1. cbn [bind]. rewrite I2. cbn [bind]. rewrite J2. cbn [bind]. replace (length data =? 1)%nat with false by (symmetry; apply Nat.eqb_neq; lia).
        do 3 f_equal. f_equal. rewrite LI, <- LL. replace (length (x :: l) - 1)%nat with (length l) by (simpl; lia). clear. revert x. induction l as [|c l IH]; intros x; [reflexivity|]. exact (IH c).
      + rewrite E. cbn [bind]. apply Nat.ltb_ge in L2. destruct l as [|y [|y' l]]; simpl in LL.
        * rewrite <- LL. reflexivity.
        * rewrite <- LL. reflexivity.
        * lia.
  Qed.
  Lemma polygon_across p q z : (forall i, (i < m)%nat -> crosses_plane ctol eps (vmean pts) (corner pts i) (corner pts (i + 1)) p q z) ->
    (forall u v, fan_edge pts u v -> clear_cut ctol ptol eps (u, v) (p, q) /\ definite ctol eps z u v) ->
    (in_polygon n pts z -> found (p, q) pts eps = Ok (Some [z])) /\ (~ in_polygon n pts z -> found (p, q) pts eps = Ok None).
  Proof.
    intros H G.
    destruct (polygon_results (p, q) (fun i r => (in_triangle (vmean pts) (corner pts i) (corner pts (i + 1)) z -> r = LT_points [z]) /\
      (~ in_triangle (vmean pts) (corner pts i) (corner pts (i + 1)) z -> r = LT_none))) as (rs & F & ->).
    { intros i L. destruct (across lstsq ctol ptol eps scale Ls C0 P0 E0 (vmean pts) (corner pts i) (corner pts (i + 1)) p q z (fan_proper n pts C i L) (H i L)) as (A & B).
      - intros u v T. apply G. exact (edge_fan i u v L T).
      - destruct (classic (in_triangle (vmean pts) (corner pts i) (corner pts (i + 1)) z)) as [I|I].
        + exists (LT_points [z]). split; [exact (A I)|]. split; [reflexivity|contradiction].
        + exists LT_none. split; [exact (B I)|]. split; [contradiction|reflexivity]. }
    assert (V : forall r, In r rs -> r = LT_points [z] \/ r = LT_none).
    { intros r R. destruct (Forall2_In_r _ _ _ _ F R) as (i & _ & A & B). destruct (classic (in_triangle (vmean pts) (corner pts i) (corner pts (i + 1)) z)); tauto. }
    split.
    - intros I. destruct (in_fan n pts C z I) as (i & L & T).
      destruct (Forall2_In_l _ _ _ i F ltac:(apply in_seq; unfold m; lia)) as (r & R & A & _). rewrite (A T) in R.
      replace (existsb is_array rs) with true by (symmetry; apply existsb_exists; exists (LT_points [z]); split; [exact R|reflexivity]).
      rewrite (unique_const scale (flat_map lt_points rs) z).
      + destruct (points_sorted [z] p q ltac:(discriminate)) as (x & y & X & Y & _ & _ & _ & E); [repeat constructor; tauto|].
        cbv zeta in E |- *. cbn [fst snd]. rewrite E. destruct X as [<-|[]]. reflexivity.
      + intros N. assert (In z (flat_map lt_points rs)) by (apply in_flat_map; exists (LT_points [z]); split; [exact R|left; reflexivity]). rewrite N in H0. destruct H0.
      + intros w W. apply in_flat_map in W. destruct W as (r' & R' & W). destruct (V r' R') as [->| ->]; [destruct W as [->|[]]; reflexivity|destruct W].
    - intros I. replace (existsb is_array rs) with false; [reflexivity|]. symmetry. apply not_true_is_false. intros X. apply existsb_exists in X. destruct X as (r & R & X).
      destruct (Forall2_In_r _ _ _ _ F R) as (i & L & A & B). apply in_seq in L. apply I. apply (fan_in n pts C i z ltac:(unfold m in *; lia)).
      destruct (classic (in_triangle (vmean pts) (corner pts i) (corner pts (i + 1)) z)) as [J|J]; [exact J|]. rewrite (B J) in X. discriminate.
  Qed.
  Lemma polygon_beside p q : (forall i, (i < m)%nat -> beside eps (vmean pts) (corner pts i) (corner pts (i + 1)) p q) -> found (p, q) pts eps = Ok None.
  Proof.
    intros H. destruct (polygon_results (p, q) (fun _ r => r = LT_none)) as (rs & F & ->).
    - intros i L. exists LT_none. split; [|reflexivity]. apply beside_none; [exact E0|exact (H i L)].
    - replace (existsb is_array rs) with false; [reflexivity|]. symmetry. apply not_true_is_false. intros X. apply existsb_exists in X. destruct X as (r & R & X).
      destruct (Forall2_In_r _ _ _ _ F R) as (i & _ & ->). discriminate.
  Qed.
  (** points where the segment crosses an edge of the fan *)
  Notation fan_crossing := (LineSpec.fan_crossing pts).
  Lemma outer_end p i : (i < m)%nat -> dot n (vsub p (corner pts 0)) = 0 -> ~ in_polygon n pts p -> (forall u v x, fan_edge pts u v -> ~ near_segment ctol eps p u v x) ->
    point_triangle_intersection ctol p (vmean pts) (corner pts i) (corner pts (i + 1)) eps = None.
  Proof.
    intros L Pl N F. apply triangle_outside; [exact E0|apply (fan_proper n pts C i L)|apply (fan_volume n pts C i p L Pl)| | | |].
    - intros I. apply N. apply (fan_in n pts C i p L I).
    - intros x. apply F. apply (edge_fan i); [exact L|unfold triangle_edge; tauto].
    - intros x. apply F. apply (edge_fan i); [exact L|unfold triangle_edge; tauto].
    - intros x. apply F. apply (edge_fan i); [exact L|unfold triangle_edge; tauto].
  Qed.
  Lemma crossings_found p q : 0 < scale -> dot n (vsub p (corner pts 0)) = 0 -> dot n (vsub q (corner pts 0)) = 0 ->
    (forall i, (i < m)%nat -> point_triangle_intersection ctol p (vmean pts) (corner pts i) (corner pts (i + 1)) eps = None \/
      point_triangle_intersection ctol q (vmean pts) (corner pts i) (corner pts (i + 1)) eps = None) ->
    (forall i, (i < m)%nat -> (point_triangle_intersection ctol p (vmean pts) (corner pts i) (corner pts (i + 1)) eps = None /\
      point_triangle_intersection ctol q (vmean pts) (corner pts i) (corner pts (i + 1)) eps = None) \/
      exists w u v, triangle_edge (vmean pts) (corner pts i) (corner pts (i + 1)) u v /\ on_segment u v w /\ on_segment p q w) ->
    (forall u v, fan_edge pts u v -> clear_cut ctol ptol eps (u, v) (p, q)) ->
    (forall x y, fan_crossing p q x -> fan_crossing p q y -> within (/ scale) x y -> x = y) ->
    ((forall w, ~ fan_crossing p q w) /\ found (p, q) pts eps = Ok None) \/
    exists x y, fan_crossing p q x /\ fan_crossing p q y /\
      (forall w, fan_crossing p q w -> norm (vsub x p) <= norm (vsub w p) <= norm (vsub y p)) /\
      ((x = y /\ found (p, q) pts eps = Ok (Some [x])) \/ (x <> y /\ found (p, q) pts eps = Ok (Some [x; y]))).
  Proof.
    intros S0 Pp Pq N1 N2 G D.
    destruct (polygon_results (p, q) (fun i r => (forall w, In w (lt_points r) <-> exists u v, triangle_edge (vmean pts) (corner pts i) (corner pts (i + 1)) u v /\ on_segment u v w /\ on_segment p q w) /\
       (is_array r = true <-> lt_points r <> []))) as (rs & F & ->).
    { intros i L. destruct (in_plane_found lstsq ctol ptol eps scale Ls C0 P0 E0 (vmean pts) (corner pts i) (corner pts (i + 1)) p q
        (fan_volume n pts C i p L Pp) (fan_volume n pts C i q L Pq) (fun u v T => G u v (edge_fan i u v L T)) (N1 i L)) as (r & out & E & O & A & B).
      exists r. split; [exact E|]. destruct out as [|w0 out].
      - destruct (N2 i L) as [(X & Y)|(w & U)].
        + rewrite (B eq_refl X Y). cbn [lt_points is_array]. split; [intros w; rewrite <- O; tauto|]. split; [discriminate|congruence].
        + exfalso. apply O in U. destruct U.
      - destruct (A ltac:(discriminate)) as (A1 & A2). rewrite A1, A2. split.
        + intros w. rewrite unique_same; [apply O|]. intros x y X Y R. apply D; [| |apply rounded_within; assumption].
          * apply O in X. destruct X as (u & v & T & X). exists u, v. split; [exact (edge_fan i u v L T)|exact X].
          * apply O in Y. destruct Y as (u & v & T & Y). exists u, v. split; [exact (edge_fan i u v L T)|exact Y].
        + split; [|reflexivity]. intros _ K. apply unique_nil in K. discriminate. }
    assert (W : forall w, In w (flat_map lt_points rs) <-> fan_crossing p q w).
    { intros w. rewrite in_flat_map. split.
      - intros (r & R & I). destruct (Forall2_In_r _ _ _ _ F R) as (i & L & A & _). apply in_seq in L. apply A in I. destruct I as (u & v & T & I). exists u, v. split; [|exact I]. apply (edge_fan i u v); [unfold m in *; lia|exact T].
      - intros (u & v & T & I). apply fan_triangle in T. destruct T as (i & L & T). destruct (Forall2_In_l _ _ _ i F ltac:(apply in_seq; lia)) as (r & R & A & _). exists r. split; [exact R|]. apply A. exists u, v. tauto. }
    assert (WU : forall w, In w (unique_rows scale (flat_map lt_points rs)) <-> fan_crossing p q w).
    { intros w. rewrite unique_same; [apply W|]. intros x y X Y R. apply D; [apply W; exact X|apply W; exact Y|apply rounded_within; assumption]. }
    destruct (existsb is_array rs) eqn:X.
    - right. apply existsb_exists in X. destruct X as (r & R & X). destruct (Forall2_In_r _ _ _ _ F R) as (i & _ & _ & A). apply A in X.
      assert (NE : unique_rows scale (flat_map lt_points rs) <> []).
      { intros K. apply unique_nil in K. destruct (lt_points r) as [|w l] eqn:LR; [congruence|]. assert (I : In w (flat_map lt_points rs)) by (apply in_flat_map; exists r; split; [exact R|rewrite LR; left; reflexivity]). rewrite K in I. destruct I. }
      destruct (points_sorted _ p q NE (unique_nodup scale _)) as (x & y & Ix & Iy & O & L1 & L2 & E). exists x, y. cbv zeta in E |- *. cbn [fst snd].
      split; [apply WU; exact Ix|]. split; [apply WU; exact Iy|]. split; [intros w I; apply O, WU, I|].
      destruct (Nat.eqb_spec (length (unique_rows scale (flat_map lt_points rs))) 1) as [K|K].
      + left. split; [exact (L1 K)|exact E].
      + right. split; [|exact E]. apply L2. destruct (unique_rows scale (flat_map lt_points rs)) as [|a [|b l]]; simpl in *; [congruence|lia|lia].
    - left. split; [|reflexivity]. intros w I. apply W, in_flat_map in I. destruct I as (r & R & I). destruct (Forall2_In_r _ _ _ _ F R) as (i & _ & _ & A).
      assert (K : existsb is_array rs = true) by (apply existsb_exists; exists r; split; [exact R|apply A; intros K; rewrite K in I; destruct I]). congruence.
  Qed.
  Lemma polygon_within p q : 0 < scale -> dot n (vsub p (corner pts 0)) = 0 -> dot n (vsub q (corner pts 0)) = 0 -> ~ in_polygon n pts p -> ~ in_polygon n pts q ->
    (forall u v, fan_edge pts u v -> clear_cut ctol ptol eps (u, v) (p, q) /\ forall x, ~ near_segment ctol eps p u v x /\ ~ near_segment ctol eps q u v x) ->
    (forall x y, fan_crossing p q x -> fan_crossing p q y -> within (/ scale) x y -> x = y) ->
    exists r, found (p, q) pts eps = Ok r /\ exact_ends (fun w => in_polygon n pts w /\ on_segment p q w) p r.
  Proof.
    intros S0 Pp Pq Np Nq G D.
    assert (OP : forall i, (i < m)%nat -> point_triangle_intersection ctol p (vmean pts) (corner pts i) (corner pts (i + 1)) eps = None) by (intros i L; apply (outer_end p i L Pp Np); intros u v x T; apply G; exact T).
    assert (OQ : forall i, (i < m)%nat -> point_triangle_intersection ctol q (vmean pts) (corner pts i) (corner pts (i + 1)) eps = None) by (intros i L; apply (outer_end q i L Pq Nq); intros u v x T; apply (G u v T)).
    assert (PQ : forall w, in_polygon n pts w -> on_segment p q w -> exists s t r, w = between p q r /\ 0 <= s <= r /\ r <= t <= 1 /\ fan_crossing p q (between p q s) /\ fan_crossing p q (between p q t)).
    { intros w I (r & Hr & ->). destruct (entry n pts C p _ Pp I Np) as (i & s & L & Hs & X). destruct (entry n pts C q _ Pq I Nq) as (j & t & L' & Ht & Y).
      replace (between p (between p q r) s) with (between p q (s * r)) in X by (unfold between; apply vec_ext; simpl; ring).
      replace (between q (between p q r) t) with (between p q (1 - t * (1 - r))) in Y by (unfold between; apply vec_ext; simpl; ring).
      exists (s * r), (1 - t * (1 - r)), r. split; [reflexivity|]. split; [split; nra|]. split; [split; nra|]. split.
      - exists (corner pts i), (corner pts (i + 1)). split; [exists i; split; [exact L|tauto]|]. split; [exact X|]. exists (s * r). split; [nra|reflexivity].
      - exists (corner pts j), (corner pts (j + 1)). split; [exists j; split; [exact L'|tauto]|]. split; [exact Y|]. exists (1 - t * (1 - r)). split; [nra|reflexivity]. }
    destruct (crossings_found p q S0 Pp Pq (fun i L => or_introl (OP i L)) (fun i L => or_introl (conj (OP i L) (OQ i L))) (fun u v T => proj1 (G u v T)) D) as [(N & E)|(x & y & X & Y & O & E)].
    - exists None. split; [exact E|]. intros w (I & J). destruct (PQ w I J) as (s & t & r & _ & _ & _ & K & _). exact (N _ K).
    - assert (CS : forall w, fan_crossing p q w -> in_polygon n pts w /\ on_segment p q w).
      { intros w (u & v & T & A & B). split; [exact (fan_edge_in n pts C u v w T A)|exact B]. }
      assert (Main : forall w, (in_polygon n pts w /\ on_segment p q w) <-> on_segment x y w).
      { intros w. split.
        - intros (I & J). destruct (PQ w I J) as (s & t & r & -> & Hs & Ht & Ks & Kt). pose proof (O _ Ks) as Os. pose proof (O _ Kt) as Ot.
          destruct (CS x X) as (_ & (sx & Hx & ->)). destruct (CS y Y) as (_ & (sy & Hy & ->)). rewrite !along_norm in Os, Ot by lra.
          destruct (classic (p = q)) as [->|NE].
          { assert (Z : forall k, between q q k = q) by (intros k; unfold between; apply vec_ext; simpl; ring). rewrite !Z. apply segment_same. reflexivity. }
          pose proof (norm_pos_ne p q NE) as NP. apply segment_between. split.
          + destruct Os as (Os & _). apply Rmult_le_reg_r in Os; lra.
          + destruct Ot as (_ & Ot). apply Rmult_le_reg_r in Ot; lra.
        - intros K. destruct (CS x X) as (Ix & Jx). destruct (CS y Y) as (Iy & Jy). split; [exact (polygon_convex n pts x y w Ix Iy K)|exact (segment_nest p q x y w Jx Jy K)]. }
      destruct E as [(-> & E)|(NE & E)].
      + exists (Some [y]). split; [exact E|]. intros w. rewrite Main. apply segment_same.
      + exists (Some [x; y]). split; [exact E|]. split; [|exact Main]. pose proof (O y Y) as (H & _). destruct H as [H|H]; [exact H|]. exfalso. apply NE.
        destruct (CS x X) as (_ & (sx & Hx & ->)). destruct (CS y Y) as (_ & (sy & Hy & ->)). rewrite !along_norm in H by lra.
        destruct (classic (p = q)) as [->|NPQ]; [unfold between; apply vec_ext; simpl; ring|]. pose proof (norm_pos_ne p q NPQ). replace sy with sx; [reflexivity|]. apply Rmult_eq_reg_r with (norm (vsub q p)); lra.
  Qed.
  (** a segment of the plane that contains an edge of the fan *)
  Lemma polygon_fails p q u v : dot n (vsub p (corner pts 0)) = 0 -> dot n (vsub q (corner pts 0)) = 0 -> ~ in_polygon n pts p ->
    (forall u v x, fan_edge pts u v -> ~ near_segment ctol eps p u v x) -> fan_edge pts u v -> on_segment p q u -> on_segment p q v ->
    exists e, found (p, q) pts eps = Err e.
  Proof.
    intros Pp Pq Np F T U V. apply fan_triangle in T. destruct T as (i & L & T).
    pose proof (edge_fails lstsq ctol ptol eps scale Ls C0 P0 E0 (vmean pts) (corner pts i) (corner pts (i + 1)) p q u v) as H.
    assert (I : line_triangle_incidence p q (vmean pts) (corner pts i) (corner pts (i + 1)) eps = true).
    { destruct (line_triangle_incidence p q (vmean pts) (corner pts i) (corner pts (i + 1)) eps) eqn:I; [reflexivity|]. apply incidence_spec in I; [|exact E0]. unfold beside in I; rewrite (fan_volume n pts C i p L Pp) in I. destruct I; lra. }
    specialize (H I (or_introl (outer_end p i L Pp Np F)) T U V).
    unfold line_polygon_intersection. rewrite (recognised_triangles delaunay n pts C Q). cbn [bind].
    destruct (mapM _ _) as [rs|e] eqn:M; [|exists e; reflexivity]. exfalso. apply mapM_Forall2 in M.
    destruct (Forall2_In_l _ _ _ (vmean pts, corner pts i, corner pts (i + 1)) M) as (r & _ & K).
    - apply in_map_iff. exists i. split; [reflexivity|apply in_seq; unfold m in *; lia].
    - rewrite H in K. discriminate.
  Qed.
End Polygon.
