(** * Lemmas: a segment and a convex polygon of its plane, C94 *)
From Coq Require Import List Arith ZArith Bool Reals Lra Lia Permutation Sorted Classical.
From Verif Require Import Base BaseProof VecBase VecProof GeoModel GeoSpec GeoProof GeoProof2 PolyModel PolySpec PolyProof PolyProof2 PolyProof3 DomainProof2 LineModel LineSpec LineProof LineProof2.
Import ListNotations.
Local Open Scope R_scope.

Lemma side_between n a b p q s : side n a b (between p q s) = (1 - s) * side n a b p + s * side n a b q.
Proof. unfold side, between, dot, cross. simpl. ring. Qed.
Lemma dot_between n c p q s : dot n (vsub (between p q s) c) = (1 - s) * dot n (vsub p c) + s * dot n (vsub q c).
Proof. unfold between, dot. simpl. ring. Qed.
Lemma corner_wrap pts i : corner pts (i mod length pts + 1) = corner pts (i + 1).
Proof.
  destruct (Nat.eq_dec (length pts) 0) as [E|N]; [rewrite E; reflexivity|]. rewrite <- (corner_mod pts (i mod length pts + 1)), <- (corner_mod pts (i + 1)).
  rewrite Nat.add_mod_idemp_l by exact N. reflexivity.
Qed.
Lemma greatest {A} (f : A -> R) (l : list A) : l <> [] -> exists x, In x l /\ forall y, In y l -> f y <= f x.
Proof.
  induction l as [|a l IH]; [congruence|]. intros _. destruct l as [|b l].
  - exists a. split; [left; reflexivity|]. intros y [->|[]]. lra.
  - destruct IH as (x & X & G); [discriminate|]. destruct (Rle_dec (f x) (f a)) as [H|H].
    + exists a. split; [left; reflexivity|]. intros y [->|Y]; [lra|]. specialize (G y Y). lra.
    + exists x. split; [right; exact X|]. intros y [->|Y]; [lra|exact (G y Y)].
Qed.

Lemma pos_factor k D : 0 < D -> 0 <= k * D -> 0 <= k.
Proof. intros H G. destruct (Rle_dec 0 k) as [K|K]; [exact K|]. exfalso. nra. Qed.
Section Convex.
  Variable n : vec.
  Variable pts : list vec.
  Hypothesis C : convex_polygon n pts.
  Let m := length pts.
  Lemma m3 : (3 <= m)%nat. Proof. exact (proj1 C). Qed.
  Lemma polygon_side x i : in_polygon n pts x -> 0 <= side n (corner pts i) (corner pts (i + 1)) x.
  Proof.
    intros (_ & S). pose proof m3. specialize (S (i mod m)%nat ltac:(apply Nat.mod_upper_bound; lia)). unfold m in S. rewrite corner_mod, corner_wrap in S. exact S.
  Qed.
  Lemma polygon_turn i : 0 < dot n (cross (vsub (corner pts (i + 1)) (corner pts i)) (vsub (corner pts (i + 2)) (corner pts (i + 1)))).
  Proof.
    pose proof m3. pose proof (convex_turns n pts C (i mod m)%nat ltac:(apply Nat.mod_upper_bound; unfold m in *; lia)) as T. unfold m in T. rewrite corner_mod, corner_wrap in T.
    replace (i mod length pts + 2)%nat with ((i mod length pts + 1) + 1)%nat in T by lia. rewrite <- (corner_wrap pts (i mod length pts + 1)) in T.
    rewrite Nat.add_mod_idemp_l in T by (unfold m in *; lia). rewrite corner_wrap in T. replace (i + 1 + 1)%nat with (i + 2)%nat in T by lia. exact T.
  Qed.
  Lemma corner_period i : corner pts (i + m) = corner pts i.
  Proof. pose proof m3. unfold m, corner. replace (i + length pts)%nat with (i + 1 * length pts)%nat by lia. rewrite Nat.mod_add by (unfold m in *; lia). reflexivity. Qed.
  Lemma corner0_In : In (corner pts 0) pts.
  Proof. apply corner_In. exact (pts_nonempty n pts C). Qed.
  (** a point of the polygon on the line of an edge lies on the edge *)
  Lemma edge_point i x : in_polygon n pts x -> side n (corner pts i) (corner pts (i + 1)) x = 0 -> on_segment (corner pts i) (corner pts (i + 1)) x.
  Proof.
    intros I Z. pose proof m3 as M.
    set (a := vsub (corner pts (i + 1)) (corner pts i)). set (b := vsub (corner pts (i + 2)) (corner pts (i + 1))). set (y := vsub x (corner pts i)).
    pose proof (polygon_turn i) as T. fold a b in T.
    assert (A : dot n a = 0) by (apply (corner_plane n pts C), corner_In, (pts_nonempty n pts C)).
    assert (B : dot n b = 0) by (apply (corner_plane n pts C), corner_In, (pts_nonempty n pts C)).
    assert (Y : dot n y = 0).
    { pose proof (proj1 I) as P. pose proof (corner_plane n pts C i (corner pts 0) corner0_In) as Q. unfold y. revert P Q. unfold dot. simpl. lra. }
    pose proof (plane_coordinates n a b y (proj1 (proj1 (proj2 C))) A B Y) as E. unfold side in Z. fold a y in Z. rewrite Z in E.
    set (t := dot n (cross y b) / dot n (cross a b)).
    assert (X : x = between (corner pts i) (corner pts (i + 1)) t).
    { assert (Yt : y = vscale t a).
      { pose proof (f_equal vx E) as X1. pose proof (f_equal vy E) as X2. pose proof (f_equal vz E) as X3. simpl in X1, X2, X3. unfold t.
        set (D := dot n (cross a b)) in *. set (F := dot n (cross y b)) in *. clearbody D F.
        apply vec_ext; simpl; apply Rmult_eq_reg_l with D; try lra.
        - rewrite X1. field. lra.
        - rewrite X2. field. lra.
        - rewrite X3. field. lra. }
      unfold between. fold a. rewrite <- Yt. unfold y. apply vec_ext; simpl; ring. }
    exists t. split; [|exact X]. split.
    - pose proof (polygon_side x (i + m - 1) I) as S'. pose proof (polygon_turn (i + m - 1)) as T'. replace (i + m - 1 + 1)%nat with (i + m)%nat in S', T' by lia.
      replace (i + m - 1 + 2)%nat with (i + 1 + m)%nat in T' by lia. rewrite (corner_period i) in S', T'. rewrite (corner_period (i + 1)) in T'. rewrite X in S'.
      set (w := corner pts (i + m - 1)) in *. fold a in T'.
      assert (S2 : side n w (corner pts i) (between (corner pts i) (corner pts (i + 1)) t) = t * dot n (cross (vsub (corner pts i) w) a)) by (unfold side, between, a, dot, cross; simpl; ring).
      rewrite S2 in S'. exact (pos_factor _ _ T' S').
    - pose proof (polygon_side x (i + 1) I) as S'. replace (i + 1 + 1)%nat with (i + 2)%nat in S' by lia. rewrite X in S'.
      assert (S2 : side n (corner pts (i + 1)) (corner pts (i + 2)) (between (corner pts i) (corner pts (i + 1)) t) = (1 - t) * dot n (cross a b)) by (unfold side, between, a, b, dot, cross; simpl; ring).
      rewrite S2 in S'. pose proof (pos_factor _ _ T S'). lra.
  Qed.
  (** on the way into the polygon an edge is met *)
  Lemma entry p w : dot n (vsub p (corner pts 0)) = 0 -> in_polygon n pts w -> ~ in_polygon n pts p ->
    exists i s, (i < m)%nat /\ 0 <= s <= 1 /\ on_segment (corner pts i) (corner pts (i + 1)) (between p w s).
  Proof.
    intros P W N. set (g := fun i => side n (corner pts i) (corner pts (i + 1)) p). set (h := fun i => side n (corner pts i) (corner pts (i + 1)) w).
    set (neg := filter (fun i => Rltb (g i) 0) (seq 0 m)).
    assert (Hn : forall i, In i neg <-> (i < m)%nat /\ g i < 0) by (intros i; unfold neg; rewrite filter_In, in_seq, Rltb_true; intuition lia).
    assert (NE : neg <> []).
    { intros E. apply N. split; [exact P|]. intros i L. destruct (Rlt_dec (g i) 0) as [G|G]; [|unfold g in G; lra]. exfalso.
      assert (I : In i neg) by (apply Hn; split; assumption). rewrite E in I. destruct I. }
    destruct (greatest (fun i => - g i / (h i - g i)) neg NE) as (i & I & G). apply Hn in I. destruct I as (L & Gi).
    set (s := - g i / (h i - g i)).
    assert (Hpos : forall j, 0 <= h j) by (intros j; apply polygon_side; exact W).
    assert (S01 : 0 <= s <= 1).
    { unfold s. specialize (Hpos i). split; [apply Rmult_le_pos; [lra|apply Rlt_le, Rinv_0_lt_compat; lra]|]. apply Rmult_le_reg_r with (h i - g i); [lra|]. unfold Rdiv. rewrite Rmult_assoc, Rinv_l by lra. lra. }
    assert (Sj : forall j, g j < 0 -> forall s', - g j / (h j - g j) <= s' -> 0 <= (1 - s') * g j + s' * h j).
    { intros j Gj s' H. specialize (Hpos j). assert (H' : - g j <= s' * (h j - g j)).
      { apply Rmult_le_compat_r with (r := h j - g j) in H; [|lra]. unfold Rdiv in H. rewrite Rmult_assoc, Rinv_l in H by lra. lra. }
      lra. }
    exists i, s. split; [exact L|]. split; [exact S01|]. apply edge_point.
    - split; [rewrite dot_between, P, (proj1 W); ring|]. intros j Lj. rewrite side_between. change (0 <= (1 - s) * g j + s * h j).
      destruct (Rlt_dec (g j) 0) as [Gj|Gj].
      + apply Sj; [exact Gj|]. apply (G j). apply Hn. split; assumption.
      + pose proof (Hpos j). assert (0 <= (1 - s) * g j) by (apply Rmult_le_pos; lra). assert (0 <= s * h j) by (apply Rmult_le_pos; lra). lra.
    - rewrite side_between. change ((1 - s) * g i + s * h i = 0). unfold s. specialize (Hpos i). field. lra.
  Qed.
  Lemma polygon_convex x y w : in_polygon n pts x -> in_polygon n pts y -> on_segment x y w -> in_polygon n pts w.
  Proof.
    intros X Y (s & Hs & ->). split.
    - rewrite dot_between, (proj1 X), (proj1 Y). ring.
    - intros i L. rewrite side_between. pose proof (proj2 X i L) as A. pose proof (proj2 Y i L) as B. apply Rplus_le_le_0_compat; apply Rmult_le_pos; lra.
  Qed.
  Lemma fan_edge_in u v w : fan_edge pts u v -> on_segment u v w -> in_polygon n pts w.
  Proof.
    intros (i & L & F) W. apply (fan_in n pts C i w L). apply (volume_edge _ _ _ u v); [|exact W]. unfold triangle_edge. tauto.
  Qed.
  Lemma fan_volume i p : (i < m)%nat -> dot n (vsub p (corner pts 0)) = 0 -> volume6 (vmean pts) (corner pts i) (corner pts (i + 1)) p = 0.
  Proof.
    intros L Pl. unfold volume6. pose proof corner0_In as C0.
    pose proof (mean_plane n pts C (corner pts 0) C0) as M0. pose proof (corner_plane n pts C i (corner pts 0) C0) as M1.
    pose proof (corner_plane n pts C (i + 1) (corner pts 0) C0) as M2.
    set (a := vsub (corner pts i) (vmean pts)). set (b := vsub (corner pts (i + 1)) (vmean pts)). set (y := vsub p (vmean pts)).
    assert (A : dot n a = 0) by (unfold a; revert M0 M1; unfold dot; simpl; lra).
    assert (B' : dot n b = 0) by (unfold b; revert M0 M2; unfold dot; simpl; lra).
    assert (Y : dot n y = 0) by (unfold y; revert M0 Pl; unfold dot; simpl; lra).
    rewrite (cross_plane n a b (proj1 (proj1 (proj2 C))) A B'), dot_scale_l, Y. ring.
  Qed.
End Convex.

(** ** points along a segment *)
Lemma along_norm p q t : 0 <= t -> norm (vsub (between p q t) p) = t * norm (vsub q p).
Proof.
  intros T. replace (vsub (between p q t) p) with (vscale t (vsub q p)) by (unfold between; apply vec_ext; simpl; ring). rewrite norm_scale, Rabs_right by lra. reflexivity.
Qed.
Lemma norm_pos_ne p q : p <> q -> 0 < norm (vsub q p).
Proof.
  intros N. apply norm_pos. intros E. apply N. pose proof (f_equal vx E) as X. pose proof (f_equal vy E) as Y. pose proof (f_equal vz E) as Z. simpl in X, Y, Z. apply vec_ext; lra.
Qed.
Lemma between_between p q s t r : between (between p q s) (between p q t) r = between p q (s + r * (t - s)).
Proof. unfold between. apply vec_ext; simpl; ring. Qed.
Lemma segment_same x w : on_segment x x w <-> w = x.
Proof.
  split; [intros (t & _ & ->); unfold between; apply vec_ext; simpl; ring|]. intros ->. exists 0. split; [lra|]. unfold between; apply vec_ext; simpl; ring.
Qed.
Lemma segment_nest p q x y w : on_segment p q x -> on_segment p q y -> on_segment x y w -> on_segment p q w.
Proof.
  intros (s & Hs & ->) (t & Ht & ->) (r & Hr & ->). rewrite between_between. exists (s + r * (t - s)). split; [nra|reflexivity].
Qed.
Lemma segment_between p q s t r : s <= r <= t -> on_segment (between p q s) (between p q t) (between p q r).
Proof.
  intros H. destruct (Req_dec s t) as [E|N].
  - replace r with s by lra. rewrite <- E. apply segment_same. reflexivity.
  - exists ((r - s) / (t - s)). split.
    + split; [apply Rmult_le_pos; [lra|apply Rlt_le, Rinv_0_lt_compat; lra]|]. apply Rmult_le_reg_r with (t - s); [lra|]. unfold Rdiv. rewrite Rmult_assoc, Rinv_l by lra. lra.
    + rewrite between_between. f_equal. field. lra.
Qed.
(** sorting the points by the distance from [p] *)
Lemma sorted_pick argsort p (data : list vec) : sorts argsort -> let idx := argsort (map (fun x => norm (vsub x p)) data) in
  exists l, mapM (get_at data) idx = Ok l /\ Permutation l data /\ length idx = length data /\ StronglySorted (fun x y => norm (vsub x p) <= norm (vsub y p)) l.
Proof.
  intros S idx. destruct (S (map (fun x => norm (vsub x p)) data)) as (P & O). fold idx in P, O. rewrite map_length in P.
  destruct (pick_perm data idx P) as (l & E & Q). exists l. split; [exact E|]. split; [exact Q|].
  split; [rewrite (Permutation_length P), seq_length; reflexivity|].
  assert (G : map (fun i => nth i (map (fun x => norm (vsub x p)) data) 0) idx = map (fun x => norm (vsub x p)) l).
  { clear O Q. assert (B : forall i, In i idx -> (i < length data)%nat) by (intros i I; apply (Permutation_in _ P), in_seq in I; lia). clear P. clearbody idx.
    revert l E. induction idx as [|i idx IH]; intros l E; [injection E as <-; reflexivity|]. simpl in E. unfold get_at at 1 in E. destruct (nth_error data i) as [x|] eqn:X; [|discriminate].
    cbn [bind] in E. destruct (mapM (get_at data) idx) as [r|] eqn:R; [|discriminate]. injection E as <-. simpl. f_equal.
    - apply nth_error_nth. rewrite nth_error_map, X. reflexivity.
    - apply IH; [intros j J; apply B; right; exact J|reflexivity]. }
  rewrite G in O. clear - O. induction l as [|x l IH]; [constructor|]. simpl in O. inversion O as [|? ? A B]; subst. constructor; [apply IH; exact A|].
  rewrite Forall_forall in *. intros y Y. apply B. apply in_map_iff. exists y. split; [reflexivity|exact Y].
Qed.
Lemma sorted_last {A} (le : A -> A -> Prop) l x d : StronglySorted le l -> In x l -> x = last l d \/ le x (last l d).
Proof.
  induction 1 as [|a l S IH F]; intros I; [destruct I|]. destruct l as [|b l].
  - destruct I as [->|[]]. left. reflexivity.
  - change (last (a :: b :: l) d) with (last (b :: l) d). destruct I as [->|I]; [|exact (IH I)]. right. rewrite Forall_forall in F. apply F.
    clear. revert b. induction l as [|c l IH]; intros b; [left; reflexivity|]. right. exact (IH c).
Qed.
