(** * Sizes of cells and meshes *)
From Coq Require Import List Arith Bool ZArith Reals Lra Lia Psatz.
From Verif Require Import Base BaseProof MeshModel OrientModel VecBase VecProof CutModel MetricModel MetricSpec.
Import ListNotations.
Local Open Scope R_scope.

(** *** Vectors *)
Ltac vec_eq := unfold vadd, vsub, vscale, vdiv, vzero in *; simpl in *; f_equal; try ring; try (field; assumption).
Lemma cauchy_dot : forall u v, dot u v <= norm u * norm v.
Proof.
  intros u v. pose proof (norm_nonneg u) as NU. pose proof (norm_nonneg v) as NV.
  apply Rsqr_incr_0_var; [|apply Rmult_le_pos; assumption]. unfold Rsqr.
  replace (norm u * norm v * (norm u * norm v)) with ((norm u * norm u) * (norm v * norm v)) by ring. rewrite !norm_sq.
  pose proof (VecProof.lagrange u v) as L. pose proof (dot_self_nonneg (cross u v)). lra.
Qed.
Lemma norm_add : forall u v, norm (vadd u v) <= norm u + norm v.
Proof.
  intros u v. pose proof (norm_nonneg u) as NU. pose proof (norm_nonneg v) as NV.
  apply Rsqr_incr_0_var; [|lra]. unfold Rsqr. rewrite norm_sq. pose proof (cauchy_dot u v) as C.
  replace (dot (vadd u v) (vadd u v)) with (dot u u + 2 * dot u v + dot v v) by (unfold dot, vadd; simpl; ring).
  rewrite <- (norm_sq u), <- (norm_sq v). nra.
Qed.

Lemma combination_bound : forall ws l y d, length ws = length l -> (forall w, In w ws -> 0 <= w) -> (forall p, In p l -> distance p y <= d) ->
  norm (vsub (combination ws l) (vscale (sum_of ws) y)) <= sum_of ws * d.
Proof.
  induction ws as [|w ws IH]; intros [|p l] y d L P B; try discriminate.
  - unfold combination, sum_of. simpl. replace (vsub vzero (vscale 0 y)) with vzero by (destruct y; vec_eq). rewrite norm_vzero. lra.
  - injection L as L. assert (Hw : 0 <= w) by (apply P; left; reflexivity).
    specialize (IH l y d L (fun x H => P x (or_intror H)) (fun x H => B x (or_intror H))).
    assert (Hp : distance p y <= d) by (apply B; left; reflexivity). unfold distance in Hp.
    change (sum_of (w :: ws)) with (w + sum_of ws). change (combination (w :: ws) (p :: l)) with (vadd (vscale w p) (combination ws l)).
    replace (vsub (vadd (vscale w p) (combination ws l)) (vscale (w + sum_of ws) y))
      with (vadd (vscale w (vsub p y)) (vsub (combination ws l) (vscale (sum_of ws) y)))
      by (destruct p, y, (combination ws l); vec_eq).
    eapply Rle_trans; [apply norm_add|]. rewrite norm_scale, (Rabs_pos_eq w) by exact Hw.
    assert (w * norm (vsub p y) <= w * d) by (apply Rmult_le_compat_l; assumption). lra.
Qed.
Lemma hull_bound : forall l x y d, in_hull l x -> (forall p, In p l -> distance p y <= d) -> distance x y <= d.
Proof.
  intros l x y d (ws & L & P & S & ->) B. pose proof (combination_bound ws l y d L P B) as H. rewrite S in H.
  unfold distance. replace (vscale 1 y) with y in H by (destruct y; vec_eq). lra.
Qed.
Lemma hull_diameter : forall l d, (forall p q, In p l -> In q l -> distance p q <= d) -> forall x y, in_hull l x -> in_hull l y -> distance x y <= d.
Proof.
  intros l d H x y HX HY. apply (hull_bound l x y d HX). intros p Hp. unfold distance. rewrite norm_sub_sym. apply (hull_bound l y p d HY).
  intros q Hq. apply H; assumption.
Qed.
Lemma sum_zeros : forall n, sum_of (repeat 0 n) = 0.
Proof. induction n as [|n IH]; [reflexivity|]. change (0 + sum_of (repeat 0 n) = 0). rewrite IH. ring. Qed.
Lemma combination_zeros : forall l, combination (repeat 0 (length l)) l = vzero.
Proof.
  induction l as [|p l IH]; [reflexivity|]. change (vadd (vscale 0 p) (combination (repeat 0 (length l)) l) = vzero). rewrite IH. destruct p. vec_eq.
Qed.
Lemma hull_vertex : forall l p, In p l -> in_hull l p.
Proof.
  induction l as [|q l IH]; intros p H; [destruct H|]. destruct H as [->|H].
  - exists (1 :: repeat 0 (length l)). split; [simpl; rewrite repeat_length; reflexivity|]. split.
    + intros w [<-|H]; [lra|]. apply repeat_spec in H. lra.
    + split; [change (1 + sum_of (repeat 0 (length l)) = 1); rewrite sum_zeros; ring|].
      change (p = vadd (vscale 1 p) (combination (repeat 0 (length l)) l)). rewrite combination_zeros. destruct p. vec_eq.
  - destruct (IH p H) as (ws & L & P & S & E). exists (0 :: ws). split; [simpl; congruence|]. split.
    + intros w [<-|Hw]; [lra|apply P; exact Hw].
    + split; [change (0 + sum_of ws = 1); lra|]. change (p = vadd (vscale 0 q) (combination ws l)). rewrite <- E. destruct p, q. vec_eq.
Qed.

(** *** Largest and smallest *)
Lemma fold_max : forall l x, x <= fold_left Rmax l x /\ (forall y, In y l -> y <= fold_left Rmax l x) /\ (fold_left Rmax l x = x \/ In (fold_left Rmax l x) l).
Proof.
  induction l as [|a l IH]; intros x; simpl; [split; [lra|]; split; [intros y []|left; reflexivity]|].
  destruct (IH (Rmax x a)) as (H1 & H2 & H3). pose proof (Rmax_l x a) as A. pose proof (Rmax_r x a) as B. split; [lra|]. split.
  - intros y [<-|Hy]; [lra|apply H2; exact Hy].
  - destruct H3 as [H3|H3]; [|right; right; exact H3]. rewrite H3. unfold Rmax. destruct (Rle_dec x a); [right; left; reflexivity|left; reflexivity].
Qed.
Lemma fold_min : forall l x, fold_left Rmin l x <= x /\ (forall y, In y l -> fold_left Rmin l x <= y) /\ (fold_left Rmin l x = x \/ In (fold_left Rmin l x) l).
Proof.
  induction l as [|a l IH]; intros x; simpl; [split; [lra|]; split; [intros y []|left; reflexivity]|].
  destruct (IH (Rmin x a)) as (H1 & H2 & H3). pose proof (Rmin_l x a) as A. pose proof (Rmin_r x a) as B. split; [lra|]. split.
  - intros y [<-|Hy]; [lra|apply H2; exact Hy].
  - destruct H3 as [H3|H3]; [|right; right; exact H3]. rewrite H3. unfold Rmin. destruct (Rle_dec x a); [left; reflexivity|right; left; reflexivity].
Qed.
Lemma np_max_ok : forall l d, np_max l = Ok d -> In d l /\ forall y, In y l -> y <= d.
Proof.
  intros [|x l] d E; [discriminate|]. injection E as <-. destruct (fold_max l x) as (H1 & H2 & H3). split.
  - destruct H3 as [->|H3]; [left; reflexivity|right; exact H3].
  - intros y [<-|Hy]; [exact H1|apply H2; exact Hy].
Qed.
Lemma np_min_ok : forall l d, np_min l = Ok d -> In d l /\ forall y, In y l -> d <= y.
Proof.
  intros [|x l] d E; [discriminate|]. injection E as <-. destruct (fold_min l x) as (H1 & H2 & H3). split.
  - destruct H3 as [->|H3]; [left; reflexivity|right; exact H3].
  - intros y [<-|Hy]; [exact H1|apply H2; exact Hy].
Qed.

(** *** Differences *)
Lemma enum_In : forall {A} (l : list A) s i x, In (i, x) (combine (seq s (length l)) l) <-> (s <= i)%nat /\ nth_error l (i - s) = Some x.
Proof.
  induction l as [|a l IH]; intros s i x; simpl; [split; [intros []|intros (_ & H); destruct (i - s)%nat; discriminate]|]. split.
  - intros [E|H].
    + injection E as <- <-. rewrite Nat.sub_diag. split; [lia|reflexivity].
    + apply IH in H as (H1 & H2). split; [lia|]. replace (i - s)%nat with (S (i - S s)) by lia. exact H2.
  - intros (H1 & H2). destruct (Nat.eq_dec i s) as [->|N].
    + rewrite Nat.sub_diag in H2. injection H2 as ->. left. reflexivity.
    + right. apply IH. split; [lia|]. replace (i - s)%nat with (S (i - S s)) in H2 by lia. exact H2.
Qed.
Lemma differences_In : forall l v, In v (differences l) <->
  exists i j p q, i <> j /\ nth_error l i = Some p /\ nth_error l j = Some q /\ v = vsub q p.
Proof.
  intros l v. unfold differences. split.
  - intros H. apply in_flat_map in H as ((i & p) & H1 & H). apply in_flat_map in H as ((j & q) & H2 & H). simpl in H.
    apply enum_In in H1 as (_ & H1). apply enum_In in H2 as (_ & H2). rewrite Nat.sub_0_r in H1, H2.
    destruct (Nat.eqb_spec i j) as [E|N]; [destruct H|]. destruct H as [<-|[]]. exists i, j, p, q. tauto.
  - intros (i & j & p & q & N & H1 & H2 & ->). apply in_flat_map. exists (i, p). split; [apply enum_In; rewrite Nat.sub_0_r; split; [lia|exact H1]|].
    apply in_flat_map. exists (j, q). split; [apply enum_In; rewrite Nat.sub_0_r; split; [lia|exact H2]|]. simpl.
    destruct (Nat.eqb_spec i j); [contradiction|]. left. reflexivity.
Qed.
Lemma differences_nil : forall l, differences l = [] <-> (length l < 2)%nat.
Proof.
  intros l. split; intros H.
  - destruct l as [|p [|q l]]; simpl; try lia. exfalso.
    assert (I : In (vsub q p) (differences (p :: q :: l))) by (apply differences_In; exists 0%nat, 1%nat, p, q; repeat split; lia).
    rewrite H in I. destruct I.
  - destruct l as [|p [|q l]]; simpl in H; try lia; reflexivity.
Qed.

Lemma np_max_diff : forall l, (exists d, np_max (map norm (differences l)) = Ok d) <-> (2 <= length l)%nat.
Proof.
  intros l. pose proof (differences_nil l) as D. destruct (differences l) as [|v vs]; simpl.
  - split; [intros (d & E); discriminate|]. intros H. assert (length l < 2)%nat by (apply D; reflexivity). lia.
  - split; [|intros _; eexists; reflexivity]. intros _. destruct (Nat.lt_ge_cases (length l) 2) as [X|X]; [apply D in X; discriminate|exact X].
Qed.
Lemma diam_points : forall l d, np_max (map norm (differences l)) = Ok d -> is_diameter l d.
Proof.
  intros l d E. apply np_max_ok in E as (H1 & H2). apply in_map_iff in H1 as (v & <- & H1).
  apply differences_In in H1 as (i & j & p & q & N & Hp & Hq & ->). apply nth_error_In in Hp as Ip. apply nth_error_In in Hq as Iq. split.
  - exists q, p. repeat split; try (apply hull_vertex; assumption).
  - apply hull_diameter. intros a b Ha Hb. apply In_nth_error in Ha as (n & Ha). apply In_nth_error in Hb as (k & Hb).
    destruct (Nat.eq_dec n k) as [->|NE].
    + rewrite Ha in Hb. injection Hb as ->. unfold distance. replace (vsub b b) with vzero by (destruct b; vec_eq). rewrite norm_vzero. apply norm_nonneg.
    + apply H2. apply in_map_iff. exists (vsub a b). split; [reflexivity|]. apply differences_In. exists k, n, b, a. repeat split; auto.
Qed.
Lemma diameter_unique : forall l d e, is_diameter l d -> is_diameter l e -> d = e.
Proof.
  intros l d e ((x & y & X & Y & E) & U) ((x' & y' & X' & Y' & E') & U'). pose proof (U _ _ X' Y'). pose proof (U' _ _ X Y). lra.
Qed.

(** *** Cells *)
Lemma take_Forall2 : forall {A} (a : list A) idx l, take a idx = Ok l <-> Forall2 (fun i x => nth_error a i = Some x) idx l.
Proof.
  intros A a idx. unfold take. induction idx as [|i idx IH]; intros l; simpl.
  - split; [intros E; injection E as <-; constructor|intros H; inversion H; reflexivity].
  - unfold get_at at 1. destruct (nth_error a i) as [x|] eqn:E; simpl.
    + destruct (mapM (get_at a) idx) as [l'|] eqn:M; simpl.
      * split; [intros H; injection H as <-; constructor; [exact E|apply IH; reflexivity]|].
        intros H. inversion H as [|? y ? l'' H1 H2]; subst. rewrite E in H1. injection H1 as ->. apply IH in H2. injection H2 as ->. reflexivity.
      * split; [discriminate|]. intros H. inversion H as [|? y ? l'' H1 H2]; subst. apply IH in H2. discriminate.
    + split; [discriminate|]. intros H. inversion H as [|? y ? l'' H1 H2]; subst. rewrite E in H1. discriminate.
Qed.

Theorem diam_ok : forall m c d, cell_diam m c = Ok d <-> exists l, has_points m c l /\ (2 <= length l)%nat /\ is_diameter l d.
Proof.
  intros m c d. unfold cell_diam, points_of, has_points. split.
  - intros E. destruct (take (m_points vec m) (c_nodes c)) as [l|] eqn:T; [|discriminate]. simpl in E. exists l.
    split; [apply take_Forall2; exact T|]. split; [apply np_max_diff; exists d; exact E|apply diam_points; exact E].
  - intros (l & T & L & D). apply take_Forall2 in T. rewrite T. simpl. apply np_max_diff in L as (e & E). rewrite E. f_equal.
    apply (diameter_unique l); [apply diam_points; exact E|exact D].
Qed.
Theorem diam_fails : forall m c l, has_points m c l -> (length l < 2)%nat -> cell_diam m c = Err ValueError.
Proof.
  intros m c l T L. apply take_Forall2 in T. unfold cell_diam, points_of. rewrite T. simpl. apply differences_nil in L. rewrite L. reflexivity.
Qed.

(** the centroid *)
Lemma sum_repeat : forall k n, sum_of (repeat k n) = INR n * k.
Proof. intros k n. induction n as [|n IH]; [unfold sum_of; simpl; ring|]. change (k + sum_of (repeat k n) = INR (S n) * k). rewrite IH, S_INR. ring. Qed.
Lemma combination_const : forall k l, combination (repeat k (length l)) l = vscale k (vsum l).
Proof.
  intros k. induction l as [|p l IH]; [unfold combination; simpl; vec_eq|].
  change (vadd (vscale k p) (combination (repeat k (length l)) l) = vscale k (vadd p (vsum l))). rewrite IH. destruct p, (vsum l). vec_eq.
Qed.
Lemma vsum_bound : forall l x d, (forall p, In p l -> distance x p <= d) -> norm (vsub (vscale (INR (length l)) x) (vsum l)) <= INR (length l) * d.
Proof.
  induction l as [|p l IH]; intros x d H.
  - simpl. replace (vsub (vscale 0 x) vzero) with vzero by (destruct x; vec_eq). rewrite norm_vzero. lra.
  - specialize (IH x d (fun q Hq => H q (or_intror Hq))). assert (Hp : distance x p <= d) by (apply H; left; reflexivity). unfold distance in Hp.
    change (length (p :: l)) with (S (length l)). rewrite S_INR. change (vsum (p :: l)) with (vadd p (vsum l)).
    replace (vsub (vscale (INR (length l) + 1) x) (vadd p (vsum l))) with (vadd (vsub x p) (vsub (vscale (INR (length l)) x) (vsum l)))
      by (destruct x, p, (vsum l); vec_eq).
    eapply Rle_trans; [apply norm_add|]. lra.
Qed.
Lemma vsum_split : forall a x b, vsum (a ++ x :: b) = vadd x (vsum (a ++ b)).
Proof.
  induction a as [|p a IH]; intros x b; [reflexivity|]. change (vadd p (vsum (a ++ x :: b)) = vadd x (vadd p (vsum (a ++ b)))). rewrite IH.
  destruct p, x, (vsum (a ++ b)). vec_eq.
Qed.

Theorem centroid_ok : forall m c l, has_points m c l -> l <> [] -> exists g, cell_centroid m c = Ok g /\ in_hull l g /\
  vscale (INR (length l)) g = vsum l /\
  forall d p, is_diameter l d -> In p l -> distance p g * INR (length l) <= INR (length l - 1) * d.
Proof.
  intros m c l T NE. apply take_Forall2 in T. exists (vmean l). assert (L : (0 < length l)%nat) by (destruct l; [contradiction|simpl; lia]).
  assert (N : INR (length l) <> 0) by (apply not_0_INR; lia). assert (N0 : 0 < INR (length l)) by (apply lt_0_INR; exact L). split; [|split; [|split]].
  - unfold cell_centroid, points_of. rewrite T. reflexivity.
  - exists (repeat (/ INR (length l)) (length l)). split; [apply repeat_length|]. split.
    + intros w Hw. apply repeat_spec in Hw. subst. left. apply Rinv_0_lt_compat. exact N0.
    + split; [rewrite sum_repeat; field; exact N|]. rewrite combination_const. unfold vmean. destruct (vsum l). vec_eq.
  - unfold vmean. destruct (vsum l). vec_eq.
  - intros d p (_ & U) Hp. apply in_split in Hp as (a & b & E).
    pose proof (vsum_bound (a ++ b) p d) as B. assert (LL : length l = S (length (a ++ b))) by (subst l; rewrite !app_length; simpl; lia).
    assert (B' : norm (vsub (vscale (INR (length (a ++ b))) p) (vsum (a ++ b))) <= INR (length (a ++ b)) * d).
    { apply B. intros q Hq. apply U; apply hull_vertex; rewrite E; apply in_or_app; [right; left; reflexivity|].
      apply in_app_or in Hq as [Hq|Hq]; [left; exact Hq|right; right; exact Hq]. }
    assert (ES : vsum l = vadd p (vsum (a ++ b))) by (rewrite E; apply vsum_split).
    rewrite LL at 2. simpl (S _ - 1)%nat. rewrite Nat.sub_0_r. refine (Rle_trans _ _ _ _ B'). right. unfold distance.
    rewrite <- (Rabs_pos_eq (INR (length l))) by lra. rewrite Rmult_comm, <- norm_scale. f_equal. unfold vmean. rewrite ES, LL, S_INR.
    assert (N1 : INR (length (a ++ b)) + 1 <> 0) by (rewrite LL, S_INR in N; exact N).
    destruct p, (vsum (a ++ b)). vec_eq.
Qed.
