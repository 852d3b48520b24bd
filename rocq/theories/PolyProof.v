(** * Lemmas: the fan of a convex polygon, C91 *)
From Coq Require Import List Arith ZArith Bool Reals Lra Lia.
From Verif Require Import Base BaseProof VecBase VecProof GeoModel GeoSpec GeoProof GeoProof2 PolyModel PolySpec.
Import ListNotations.
Local Open Scope R_scope.

Lemma dot_pos v : v <> vzero -> 0 < dot v v.
Proof. intros N. pose proof (norm_pos v N). pose proof (norm_sq v). nra. Qed.

(** ** sums *)
Fixpoint suml (l : list R) : R := match l with [] => 0 | x :: l' => x + suml l' end.
Lemma suml_nonneg l : (forall x, In x l -> 0 <= x) -> 0 <= suml l.
Proof. induction l as [|x l IH]; intros H; simpl; [lra|]. pose proof (H x (or_introl eq_refl)). assert (0 <= suml l) by (apply IH; intros; apply H; simpl; auto). lra. Qed.
Lemma suml_pos l : (forall x, In x l -> 0 <= x) -> (exists x, In x l /\ 0 < x) -> 0 < suml l.
Proof.
  induction l as [|x l IH]; intros H [y [I Y]]; [destruct I|]. simpl.
  assert (N : forall x, In x l -> 0 <= x) by (intros; apply H; simpl; auto).
  destruct I as [<-|I].
  - pose proof (suml_nonneg l N). lra.
  - pose proof (H x (or_introl eq_refl)). assert (0 < suml l) by (apply IH; eauto). lra.
Qed.
Lemma suml_opp l : suml (map Ropp l) = - suml l.
Proof. induction l; simpl; lra. Qed.

Definition linear (f : vec -> R) : Prop := (forall u v, f (vadd u v) = f u + f v) /\ (forall k u, f (vscale k u) = k * f u).
Lemma linear_zero f : linear f -> f vzero = 0.
Proof. intros [_ S]. replace vzero with (vscale 0 vzero) by (apply vec_ext; simpl; ring). rewrite S. ring. Qed.
Lemma linear_sub f u v : linear f -> f (vsub u v) = f u - f v.
Proof. intros [A S]. replace (vsub u v) with (vadd u (vscale (-1) v)) by (apply vec_ext; simpl; ring). rewrite A, S. ring. Qed.
Lemma linear_sum f l : linear f -> f (vsum l) = suml (map f l).
Proof. intros L. induction l as [|x l IH]; simpl; [apply linear_zero; auto|]. unfold vsum in *. simpl. rewrite (proj1 L), IH. reflexivity. Qed.
(** a linear function of the mean *)
Lemma linear_mean f l q : linear f -> l <> [] -> INR (length l) * f (vsub (vmean l) q) = suml (map (fun p => f (vsub p q)) l).
Proof.
  intros L N. rewrite linear_sub by exact L.
  assert (E : suml (map (fun p => f (vsub p q)) l) = suml (map f l) - INR (length l) * f q).
  { clear N. induction l as [|x l IH]; [simpl; ring|]. cbn [map suml length]. rewrite IH, linear_sub, S_INR by exact L. ring. }
  rewrite E, <- linear_sum by exact L. unfold vmean. replace (vdiv (vsum l) (INR (length l))) with (vscale (/ INR (length l)) (vsum l)).
  2:{ apply vec_ext; simpl; unfold Rdiv; ring. }
  rewrite (proj2 L). assert (INR (length l) <> 0). { apply not_0_INR. destruct l; simpl; [congruence|lia]. }
  field. assumption.
Qed.
Lemma linear_side n a : linear (fun y => dot n (cross a y)).
Proof. split; intros; unfold dot, cross; simpl; ring. Qed.
Lemma linear_side' n b : linear (fun y => dot n (cross y b)).
Proof. split; intros; unfold dot, cross; simpl; ring. Qed.
Lemma linear_dot n : linear (dot n).
Proof. split; intros; unfold dot; simpl; ring. Qed.

(** ** cyclic sequences *)
Lemma corner_lt pts i : (i < length pts)%nat -> corner pts i = nth i pts vzero.
Proof. intros H. unfold corner. rewrite Nat.mod_small by exact H. reflexivity. Qed.
Lemma corner_mod pts i : corner pts (i mod length pts) = corner pts i.
Proof.
  unfold corner. destruct (Nat.eq_dec (length pts) 0) as [E|E]; [destruct pts; [|discriminate]|rewrite Nat.mod_mod by exact E; reflexivity].
  rewrite !nth_overflow by (simpl; lia). reflexivity.
Qed.
Lemma corner_In pts i : pts <> [] -> In (corner pts i) pts.
Proof. intros H. unfold corner. apply nth_In. apply Nat.mod_upper_bound. destruct pts; simpl; [congruence|lia]. Qed.
Lemma In_corner pts p : In p pts -> exists i, (i < length pts)%nat /\ p = corner pts i.
Proof. intros H. apply (In_nth _ _ vzero) in H as (i & L & E). exists i. rewrite corner_lt by exact L. auto. Qed.
Lemma corner_next pts i : corner pts ((i + 1) mod length pts) = corner pts (i + 1).
Proof. apply corner_mod. Qed.

Lemma all_or_not (P : nat -> Prop) m : (forall i, P i \/ ~ P i) -> (forall i, (i < m)%nat -> P i) \/ exists i, (i < m)%nat /\ ~ P i.
Proof.
  intros D. induction m as [|m IH]; [left; intros; lia|]. destruct IH as [A|(i & L & N)]; [|right; exists i; split; [lia|exact N]].
  destruct (D m) as [Pm|N]; [|right; exists m; split; [lia|exact N]].
  left. intros i L. destruct (Nat.eq_dec i m) as [->|]; [exact Pm|apply A; lia].
Qed.
(** numbers arranged in a circle with sum zero: all are zero, or one is positive and the next is not *)
Lemma circle_lemma (g : nat -> R) m : (forall i, g (i + m)%nat = g i) -> suml (map g (seq 0 m)) = 0 ->
  (forall i, (i < m)%nat -> g i = 0) \/ exists i, (i < m)%nat /\ 0 < g i /\ g (i + 1)%nat <= 0.
Proof.
  intros Per Su. destruct (all_or_not (fun i => g i = 0) m) as [A|(k & Lk & N)]; [intros; apply Req_dec|left; exact A|right].
  assert (Pos : exists i, (i < m)%nat /\ 0 < g i).
  { destruct (all_or_not (fun i => g i <= 0) m) as [A|(i & L & H)]; [intros i; destruct (Rle_dec (g i) 0); auto| |exists i; split; [exact L|lra]].
    exfalso. assert (0 < suml (map Ropp (map g (seq 0 m)))); [|rewrite suml_opp in H; lra].
    apply suml_pos.
    - intros x I. apply in_map_iff in I as (y & <- & I). apply in_map_iff in I as (i & <- & I). apply in_seq in I. pose proof (A i ltac:(lia)). lra.
    - exists (- g k). split; [apply in_map, in_map, in_seq; lia|]. pose proof (A k Lk). lra. }
  destruct Pos as (i & Li & Pi).
  destruct (all_or_not (fun j => 0 < g (i + j)%nat -> 0 < g (i + j + 1)%nat) m) as [A|(j & Lj & H)].
  { intros j. destruct (Rlt_dec 0 (g (i + j)%nat)), (Rlt_dec 0 (g (i + j + 1)%nat)); tauto. }
  - exfalso. assert (B : forall j, (j <= m)%nat -> 0 < g (i + j)%nat).
    { induction j as [|j IH]; intros L; [rewrite Nat.add_0_r; exact Pi|]. replace (i + S j)%nat with (i + j + 1)%nat by lia. apply A; [lia|apply IH; lia]. }
    assert (0 < suml (map g (seq 0 m))); [|lra]. apply suml_pos.
    + intros x I. apply in_map_iff in I as (q & <- & I). apply in_seq in I. apply Rlt_le.
      destruct (le_lt_dec i q) as [L|L].
      * replace q with (i + (q - i))%nat by lia. apply B. lia.
      * rewrite <- Per. replace (q + m)%nat with (i + (q + m - i))%nat by lia. apply B. lia.
    + exists (g i). split; [apply in_map, in_seq; lia|exact Pi].
  - assert (H1 : 0 < g (i + j)%nat) by (destruct (Rlt_dec 0 (g (i + j)%nat)); [assumption|exfalso; apply H; tauto]).
    assert (H2 : g (i + j + 1)%nat <= 0) by (destruct (Rlt_dec 0 (g (i + j + 1)%nat)); [exfalso; apply H; tauto|lra]).
    destruct (le_lt_dec m (i + j)) as [L|L].
    + exists (i + j - m)%nat. split; [lia|]. rewrite <- (Per (i + j - m)%nat), <- (Per (i + j - m + 1)%nat).
      replace (i + j - m + m)%nat with (i + j)%nat by lia. replace (i + j - m + 1 + m)%nat with (i + j + 1)%nat by lia. auto.
    + exists (i + j)%nat. auto.
Qed.

(** ** vectors of a plane *)
Lemma plane_coordinates n a b y : n <> vzero -> dot n a = 0 -> dot n b = 0 -> dot n y = 0 ->
  vscale (dot n (cross a b)) y = vadd (vscale (dot n (cross y b)) a) (vscale (dot n (cross a y)) b).
Proof.
  intros N A B Y.
  assert (D : dot (cross a b) y = 0).
  { assert (dot n n * dot (cross a b) y = 0).
    { transitivity (dot n a * dot n (cross b y) + dot n b * dot n (cross y a) + dot n y * dot n (cross a b)); [unfold dot, cross; simpl; ring|]. rewrite A, B, Y. ring. }
    pose proof (dot_pos _ N). nra. }
  assert (E : vscale (dot n (cross a b)) y = vadd (vadd (vscale (dot n (cross y b)) a) (vscale (dot n (cross a y)) b)) (vscale (dot (cross a b) y) n)).
  { apply vec_ext; unfold dot, cross; simpl; ring. }
  rewrite E, D. apply vec_ext; simpl; ring.
Qed.

Section Convex.
  Variable n : vec.
  Variable pts : list vec.
  Hypothesis C : convex_polygon n pts.
  Let m := length pts.
  Let xc := vmean pts.
  Let nn : n <> vzero := proj1 (proj1 (proj2 C)).
  Let plane : forall p q, In p pts -> In q pts -> dot n (vsub p q) = 0 := proj2 (proj1 (proj2 C)).
  Lemma pts_nonempty : pts <> [].
  Proof. intros E. pose proof (proj1 C) as L. rewrite E in L. simpl in L. lia. Qed.
  Lemma m_pos : 0 < INR m.
  Proof. apply lt_0_INR. unfold m. pose proof (proj1 C). lia. Qed.
  Lemma mean_plane q : In q pts -> dot n (vsub xc q) = 0.
  Proof.
    intros I. pose proof (linear_mean (dot n) pts q (linear_dot n) pts_nonempty) as E.
    assert (Z : suml (map (fun p => dot n (vsub p q)) pts) = 0).
    { assert (forall l, (forall p, In p l -> In p pts) -> suml (map (fun p => dot n (vsub p q)) l) = 0).
      { induction l as [|p l IH]; intros H; simpl; [reflexivity|]. rewrite (plane p q (H p (or_introl eq_refl)) I), IH; [ring|]. intros. apply H. simpl. auto. }
      apply H. auto. }
    rewrite Z in E. pose proof m_pos. fold xc m in E. nra.
  Qed.
  Lemma corner_plane i q : In q pts -> dot n (vsub (corner pts i) q) = 0.
  Proof. intros I. apply plane; [apply corner_In, pts_nonempty|exact I]. Qed.
  (** corners lie on the left side of edges *)
  Lemma corner_side i p : (i < m)%nat -> In p pts -> 0 <= side n (corner pts i) (corner pts (i + 1)) p.
  Proof.
    intros L I. apply In_corner in I as (j & Lj & ->).
    destruct (Nat.eq_dec j i) as [->|D1].
    { unfold side. replace (vsub (corner pts i) (corner pts i)) with vzero by (apply vec_ext; simpl; ring). unfold dot, cross; simpl. lra. }
    destruct (Nat.eq_dec j ((i + 1) mod length pts)) as [->|D2].
    { rewrite corner_mod. unfold side. rewrite cross_self. unfold dot. simpl. lra. }
    apply Rlt_le, (proj2 (proj2 C)); assumption.
  Qed.
  Lemma third_corner i : (i < m)%nat -> exists j, (j < m)%nat /\ j <> i /\ j <> ((i + 1) mod m)%nat.
  Proof.
    intros L. pose proof (proj1 C) as L3. fold m in L3.
    destruct (Nat.eq_dec i 0) as [->|N0].
    { exists 2%nat. rewrite Nat.mod_small by lia. lia. }
    destruct (Nat.eq_dec i (m - 1)) as [->|N1].
    { exists 1%nat. replace (m - 1 + 1)%nat with m by lia. rewrite Nat.mod_same by lia. lia. }
    rewrite Nat.mod_small by lia. exists (if (i - 1 =? i + 1)%nat then 0 else i - 1)%nat. destruct (Nat.eqb_spec (i - 1) (i + 1)); lia.
  Qed.
  Lemma mean_side i : (i < m)%nat -> 0 < side n (corner pts i) (corner pts (i + 1)) xc.
  Proof.
    intros L. pose proof (linear_mean _ pts (corner pts i) (linear_side n (vsub (corner pts (i + 1)) (corner pts i))) pts_nonempty) as E. simpl in E.
    fold m xc in E. pose proof m_pos.
    assert (0 < suml (map (fun p => side n (corner pts i) (corner pts (i + 1)) p) pts)).
    { apply suml_pos.
      - intros x I. apply in_map_iff in I as (p & <- & I). apply corner_side; assumption.
      - destruct (third_corner i L) as (j & Lj & D1 & D2). exists (side n (corner pts i) (corner pts (i + 1)) (corner pts j)). split.
        + apply in_map_iff. exists (corner pts j). split; [reflexivity|apply corner_In, pts_nonempty].
        + apply (proj2 (proj2 C)); assumption. }
    unfold side in *. rewrite <- E in H0. nra.
  Qed.
  (** twice the area of a triangle of the fan *)
  Lemma fan_area i : (i < m)%nat -> 0 < dot n (cross (vsub (corner pts i) xc) (vsub (corner pts (i + 1)) xc)).
  Proof.
    intros L. pose proof (mean_side i L) as H. unfold side in H.
    replace (dot n (cross (vsub (corner pts i) xc) (vsub (corner pts (i + 1)) xc))) with (dot n (cross (vsub (corner pts (i + 1)) (corner pts i)) (vsub xc (corner pts i)))); [exact H|].
    unfold dot, cross. simpl. ring.
  Qed.
  Lemma fan_proper i : (i < m)%nat -> proper_triangle xc (corner pts i) (corner pts (i + 1)).
  Proof. intros L E. pose proof (fan_area i L) as H. rewrite E in H. unfold dot in H. simpl in H. lra. Qed.

  Lemma in_fan x : in_polygon n pts x -> exists i, (i < m)%nat /\ in_triangle xc (corner pts i) (corner pts (i + 1)) x.
  Proof.
    intros [Pl S].
    assert (Y : dot n (vsub x xc) = 0).
    { pose proof (mean_plane (corner pts 0) (corner_In pts 0 pts_nonempty)) as E. revert Pl E. unfold dot. simpl. lra. }
    set (g := fun i => dot n (cross (vsub (corner pts i) xc) (vsub x xc))).
    assert (Per : forall i, g (i + m)%nat = g i).
    { intros i. unfold g. rewrite <- (corner_mod pts (i + m)), <- (corner_mod pts i). fold m. replace (i + m)%nat with (i + 1 * m)%nat by lia.
      rewrite Nat.mod_add; [reflexivity|]. pose proof (proj1 C). unfold m. lia. }
    assert (Su : suml (map g (seq 0 m)) = 0).
    { pose proof (linear_mean _ pts xc (linear_side' n (vsub x xc)) pts_nonempty) as E. simpl in E. fold xc in E.
      replace (vsub xc xc) with vzero in E by (apply vec_ext; simpl; ring).
      replace (map g (seq 0 m)) with (map (fun p => dot n (cross (vsub p xc) (vsub x xc))) pts).
      { rewrite <- E. unfold dot, cross. simpl. ring. }
      transitivity (map (fun p => dot n (cross (vsub p xc) (vsub x xc))) (map (fun i => nth i pts vzero) (seq 0 m))).
      { f_equal. apply nth_ext with (d := vzero) (d' := vzero); [rewrite map_length, seq_length; reflexivity|].
        intros i L. rewrite (nth_indep (map (fun i => nth i pts vzero) (seq 0 m)) vzero (nth 0 pts vzero)) by (rewrite map_length, seq_length; exact L).
        rewrite (map_nth (fun i => nth i pts vzero)), seq_nth by exact L. reflexivity. }
      rewrite map_map. apply map_ext_in. intros i I. apply in_seq in I. unfold g. rewrite corner_lt by (fold m; lia). reflexivity. }
    assert (Cp : forall i, dot n (vsub (corner pts i) xc) = 0).
    { intros i. pose proof (mean_plane (corner pts i) (corner_In pts i pts_nonempty)) as E. revert E. unfold dot. simpl. lra. }
    assert (Build : forall i, (i < m)%nat -> 0 <= g i -> g (i + 1)%nat <= 0 -> in_triangle xc (corner pts i) (corner pts (i + 1)) x).
    { intros i L G1 G2. pose proof (fan_area i L) as A.
      set (a := vsub (corner pts i) xc) in *. set (b := vsub (corner pts (i + 1)) xc) in *.
      pose proof (plane_coordinates n a b (vsub x xc) nn (Cp i) (Cp (i + 1)%nat) Y) as E.
      set (D := dot n (cross a b)) in *.
      exists (dot n (cross (vsub x xc) b) / D), (dot n (cross a (vsub x xc)) / D).
      assert (U : dot n (cross (vsub x xc) b) = - g (i + 1)%nat) by (unfold g, b, dot, cross; simpl; ring).
      assert (V : dot n (cross a (vsub x xc)) = g i) by reflexivity.
      assert (W : D - dot n (cross (vsub x xc) b) - dot n (cross a (vsub x xc)) = side n (corner pts i) (corner pts (i + 1)) x).
      { unfold D, a, b, side, dot, cross. simpl. ring. }
      pose proof (S i L) as Si. rewrite <- W in Si.
      split; [apply Rmult_le_pos; [lra|apply Rlt_le, Rinv_0_lt_compat; exact A]|].
      split; [apply Rmult_le_pos; [lra|apply Rlt_le, Rinv_0_lt_compat; exact A]|].
      split.
      { apply (Rmult_le_reg_r D); [exact A|]. replace ((dot n (cross (vsub x xc) b) / D + dot n (cross a (vsub x xc)) / D) * D) with (dot n (cross (vsub x xc) b) + dot n (cross a (vsub x xc))) by (field; lra). lra. }
      fold a b. assert (X : x = vadd xc (vsub x xc)) by (apply vec_ext; simpl; ring). rewrite X at 1.
      f_equal. assert (Z : vsub x xc = vscale (/ D) (vscale D (vsub x xc))) by (clear - A; clearbody D; apply vec_ext; cbn [vscale vx vy vz]; field; lra).
      rewrite Z at 1. rewrite E. apply vec_ext; simpl; unfold Rdiv; ring. }
    destruct (circle_lemma g m Per Su) as [A|(i & L & G1 & G2)].
    - assert (L3 : (3 <= m)%nat) by exact (proj1 C). exists 0%nat. split; [lia|]. apply Build; [lia| |].
      + rewrite (A 0%nat) by lia. lra.
      + rewrite (A (0 + 1)%nat) by lia. lra.
    - exists i. split; [exact L|]. apply Build; [exact L|lra|lra].
  Qed.
  Lemma fan_in i x : (i < m)%nat -> in_triangle xc (corner pts i) (corner pts (i + 1)) x -> in_polygon n pts x.
  Proof.
    intros L (u & v & Hu & Hv & Huv & ->).
    assert (N0 : In (corner pts 0) pts) by (apply corner_In, pts_nonempty).
    split.
    - pose proof (mean_plane _ N0) as E0. pose proof (corner_plane i _ N0) as E1. pose proof (corner_plane (i + 1) _ N0) as E2.
      transitivity ((1 - u - v) * dot n (vsub xc (corner pts 0)) + u * dot n (vsub (corner pts i) (corner pts 0)) + v * dot n (vsub (corner pts (i + 1)) (corner pts 0))).
      + unfold dot. simpl. ring.
      + rewrite E0, E1, E2. ring.
    - intros j Lj. pose proof (mean_side j Lj) as E0.
      pose proof (corner_side j _ Lj (corner_In pts i pts_nonempty)) as E1. pose proof (corner_side j _ Lj (corner_In pts (i + 1) pts_nonempty)) as E2.
      replace (side n (corner pts j) (corner pts (j + 1)) (vadd xc (vadd (vscale u (vsub (corner pts i) xc)) (vscale v (vsub (corner pts (i + 1)) xc)))))
        with ((1 - u - v) * side n (corner pts j) (corner pts (j + 1)) xc + u * side n (corner pts j) (corner pts (j + 1)) (corner pts i)
              + v * side n (corner pts j) (corner pts (j + 1)) (corner pts (i + 1))).
      2:{ unfold side, dot, cross. simpl. ring. }
      assert (0 <= (1 - u - v) * side n (corner pts j) (corner pts (j + 1)) xc) by (apply Rmult_le_pos; lra).
      assert (0 <= u * side n (corner pts j) (corner pts (j + 1)) (corner pts i)) by (apply Rmult_le_pos; lra).
      assert (0 <= v * side n (corner pts j) (corner pts (j + 1)) (corner pts (i + 1))) by (apply Rmult_le_pos; lra).
      lra.
  Qed.
End Convex.
