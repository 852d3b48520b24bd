(** * Lemmas: the segment test of fracture networks, C63; order of the pieces, C59 *)
From Coq Require Import List Arith ZArith Bool QArith Qabs Lia Lqa Permutation.
From Verif Require Import Base BaseProof FracModel FracSpec FracProof2 SegModel.
Import ListNotations.

Section Order.
  Variable P : Type.
  Variable isect : P -> P -> P -> P -> option P.
  Variable near : P -> P -> bool.
  Variable argsort : list P -> P -> list nat.
  Variable segs : list (P * P).
  Variable shift : Z.
  Variable T : Type.
  Variable dist : P -> P -> T.
  Variable lt : T -> T -> Prop.

  Lemma represents_located n v x : represents P near n v x -> exists y, located P n v y.
  Proof. intros (t & p & c & H1 & _ & _ & H2 & _ & H3). exists p, c, t. auto. Qed.
  Lemma on_fracture_located n k v : on_fracture P isect near segs n k v -> exists y, located P n v y.
  Proof. intros (l & x & _ & R). eapply represents_located; eauto. Qed.
  Lemma located_unique n v x y : located P n v x -> located P n v y -> x = y.
  Proof. intros (c & t & H1 & H2 & H3) (c' & t' & G1 & G2 & G3). congruence. Qed.

  Lemma C59_order_lemma : segs <> [] -> (forall x, near x x = true) ->
    (forall xs o, Permutation (argsort xs o) (seq 0 (length xs))) ->
    (forall xs o i j u v x y, (i < j)%nat -> nth_error (argsort xs o) i = Some u -> nth_error (argsort xs o) j = Some v ->
       nth_error xs u = Some x -> nth_error xs v = Some y -> ~ lt (dist o y) (dist o x)) ->
    exists n, intersect_1D_fractures P isect near argsort (map (fun s => [fst s; snd s]) segs) shift = Ok n /\
    (forall i c, nth_error (n_cells P n) i = Some c -> gc_id c = i) /\
    (forall k l x, meets P isect segs k l x -> exists v, represents P near n v x) /\
    forall k a b, nth_error segs k = Some (a, b) -> exists imm chain, fracture_split P isect near segs shift n k imm chain /\
      (forall v w x y, before chain v w -> on_fracture P isect near segs n k v -> on_fracture P isect near segs n k w ->
         located P n v x -> located P n w y -> ~ lt (dist a y) (dist a x)) /\
      ((forall v x, on_fracture P isect near segs n k v -> v <> (3 * k)%nat -> located P n v x -> lt (dist a a) (dist a x)) ->
         exists l, chain = (3 * k)%nat :: l) /\
      ((forall v x, on_fracture P isect near segs n k v -> v <> (3 * k + 1)%nat -> located P n v x -> lt (dist a x) (dist a b)) ->
         exists l, chain = l ++ [(3 * k + 1)%nat]).
  Proof.
    intros Hne Hr Hp Hs. destruct (C59_lemma P isect near argsort segs shift Hr Hp Hne) as (n & E & (Ids & _ & Rp) & H).
    exists n. split; auto. split; auto. split; auto. intros k a b Hk.
    assert (HkN : (k < length segs)%nat) by (apply nth_error_Some; congruence).
    destruct (H k HkN) as (imm & chain & S & Hh & Hl & Ho). exists imm, chain. split; auto.
    assert (O : forall v w x y, before chain v w -> on_fracture P isect near segs n k v -> on_fracture P isect near segs n k w ->
         located P n v x -> located P n w y -> ~ lt (dist a y) (dist a x)).
    { intros v w x y Hb Hv Hw Lx Ly. destruct (Ho v w a b x y Hk Hb Hv Hw Lx Ly) as (xs & i & j & u1 & u2 & A & B & C & D & F).
      exact (Hs xs a i j u1 u2 x y A B C D F). }
    split; [exact O|]. destruct (fs_ends _ _ _ _ _ _ _ _ _ S) as [E1 E2]. destruct (fs_first _ _ _ _ _ _ _ _ _ S a b Hk) as [L1 L2].
    pose proof (fs_nodup _ _ _ _ _ _ _ _ _ S) as ND. pose proof (fs_members _ _ _ _ _ _ _ _ _ S) as M.
    split; intros Hlt.
    - destruct chain as [|h chain]; [destruct E1|]. destruct (Nat.eq_dec h (3 * k)) as [->|Hn]; [eauto|]. exfalso.
      destruct E1 as [E1|E1]; [congruence|]. destruct (In_nth_error _ _ E1) as (j & Hj).
      assert (B : before (h :: chain) h (3 * k)) by (exists 0%nat, (1 + j)%nat; split; [lia|]; auto).
      assert (Hoh : on_fracture P isect near segs n k h).
      { destruct (proj1 (M h) (or_introl eq_refl)) as [|[Q|Q]]; [congruence| |exact Q]. exfalso.
        assert (Hnn : ~ ~ on_fracture P isect near segs n k (3 * k + 1)).
        { intros Q'. destruct (Hl Q') as (l & El). destruct l as [|h' l]; simpl in El.
          - inversion El. subst chain. destruct E1.
          - inversion El. subst h'. apply NoDup_cons_iff in ND as [ND _]. apply ND. rewrite H2. apply in_app_iff. right. left. lia. }
        apply Hnn. intros Q'.
        assert (Hb0 : ~ on_fracture P isect near segs n k (3 * k)).
        { intros Q0. destruct (on_fracture_located _ _ _ Q') as (y & Ly). assert (y = b) by (eapply located_unique; eauto). subst y.
          subst h. exact (O _ _ _ _ B Q' Q0 L2 L1 (Hlt _ _ Q' ltac:(lia) L2)). }
        specialize (Hh Hb0). cbn [hd_error] in Hh. congruence. }
      assert (Hb0 : ~ on_fracture P isect near segs n k (3 * k)).
      { intros Q0. destruct (on_fracture_located _ _ _ Hoh) as (y & Ly). exact (O _ _ _ _ B Hoh Q0 Ly L1 (Hlt _ _ Hoh Hn Ly)). }
      specialize (Hh Hb0). cbn [hd_error] in Hh. congruence.
    - destruct (exists_last (l := chain)) as (l & z & Ez); [intros ->; destruct E1|].
      destruct (Nat.eq_dec z (3 * k + 1)) as [->|Hn]; [eauto|]. exfalso.
      assert (B : before chain (3 * k + 1) z).
      { rewrite Ez in E2. apply in_app_iff in E2 as [E2|[E2|[]]]; [|congruence]. destruct (In_nth_error _ _ E2) as (j & Hj).
        assert (j < length l)%nat by (apply nth_error_Some; congruence).
        exists j, (length l). split; auto. rewrite Ez. split; [rewrite nth_error_app1; auto|]. apply nth_error_app_new. }
      assert (Hoz : on_fracture P isect near segs n k z).
      { destruct (proj1 (M z)) as [Q|[Q|Q]]; [rewrite Ez; apply in_app_iff; simpl; auto| |congruence|exact Q]. exfalso.
        assert (Hnn : ~ ~ on_fracture P isect near segs n k (3 * k)).
        { intros Q'. specialize (Hh Q'). rewrite Ez in Hh, ND. destruct l as [|h' l]; simpl in Hh, ND.
          - subst chain. simpl in E2. destruct E2 as [|[]]; lia.
          - inversion Hh. subst h'. apply NoDup_cons_iff in ND as [ND _]. apply ND. apply in_app_iff. simpl. auto. }
        apply Hnn. intros Q'.
        assert (Hb0 : ~ on_fracture P isect near segs n k (3 * k + 1)).
        { intros Q0. subst z. exact (O _ _ _ _ B Q0 Q' L2 L1 (Hlt _ _ Q' ltac:(lia) L1)). }
        destruct (Hl Hb0) as (l' & El). rewrite Ez in El. apply app_inj_tail in El as [_ El]. congruence. }
      assert (Hb0 : ~ on_fracture P isect near segs n k (3 * k + 1)).
      { intros Q0. destruct (on_fracture_located _ _ _ Hoz) as (y & Ly). exact (O _ _ _ _ B Q0 Hoz L2 Ly (Hlt _ _ Hoz Hn Ly)). }
      destruct (Hl Hb0) as (l' & El). rewrite Ez in El. apply app_inj_tail in El as [_ El]. congruence.
  Qed.
End Order.

(** ** the segment test *)
Local Open Scope Q_scope.
Lemma Qltb_lt x y : Qltb x y = true <-> x < y.
Proof.
  unfold Qltb. rewrite negb_true_iff. split.
  - intros H. apply Qnot_le_lt. intros Q. apply Qle_bool_iff in Q. congruence.
  - intros H. destruct (Qle_bool y x) eqn:E; auto. apply Qle_bool_iff in E. lra.
Qed.
Lemma Qltb_ge x y : Qltb x y = false <-> y <= x.
Proof.
  unfold Qltb. rewrite negb_false_iff. apply Qle_bool_iff.
Qed.
Lemma coord_along a b t i : coord (along a b t) i == coord a i + t * (coord b i - coord a i).
Proof. unfold along, coord. destruct i as [|[|i]]; simpl; ring. Qed.
Lemma coord_psub a b i : coord (psub a b) i == coord a i - coord b i.
Proof. unfold psub, coord. destruct i as [|[|i]]; simpl; ring. Qed.
Lemma Qabs_nonzero x e : 0 < e -> e <= Qabs x -> ~ x == 0.
Proof. intros He H E. rewrite E in H. simpl in H. lra. Qed.

Lemma line_line_lemma eps i j a b p q : 0 < eps -> eps <= Qabs (det2 i j (psub a b) (psub p q)) ->
  (forall x y, line_line_intersection eps i j a b p q = Some (x, y) -> y = None /\ exists t u,
     0 <= t <= 1 /\ 0 <= u <= 1 /\ x = along a b t /\ coord x i == coord (along p q u) i /\ coord x j == coord (along p q u) j) /\
  (forall t u, 0 <= t <= 1 -> 0 <= u <= 1 -> coord (along a b t) i == coord (along p q u) i ->
     coord (along a b t) j == coord (along p q u) j ->
     exists x, line_line_intersection eps i j a b p q = Some (x, None) /\ coord x i == coord (along a b t) i /\ coord x j == coord (along a b t) j).
Proof.
  intros He Hd. pose proof (Qabs_nonzero _ _ He Hd) as D.
  unfold line_line_intersection. rewrite (proj2 (Qltb_ge _ _) Hd). clear Hd.
  assert (DE : forall u v w z, det2 i j (psub u v) (psub w z) ==
    (coord u i - coord v i) * (coord w j - coord z j) - (coord w i - coord z i) * (coord u j - coord v j)).
  { intros. unfold det2. rewrite !coord_psub. reflexivity. }
  assert (D' : ~ (coord a i - coord b i) * (coord p j - coord q j) - (coord p i - coord q i) * (coord a j - coord b j) == 0).
  { rewrite <- DE. exact D. }
  set (tv := det2 i j (psub a p) (psub p q) / det2 i j (psub a b) (psub p q)).
  set (uv := det2 i j (psub a p) (psub a b) / det2 i j (psub a b) (psub p q)).
  assert (Tv : tv == ((coord a i - coord p i) * (coord p j - coord q j) - (coord p i - coord q i) * (coord a j - coord p j)) /
     ((coord a i - coord b i) * (coord p j - coord q j) - (coord p i - coord q i) * (coord a j - coord b j))).
  { unfold tv. rewrite !DE. reflexivity. }
  assert (Uv : uv == ((coord a i - coord p i) * (coord a j - coord b j) - (coord a i - coord b i) * (coord a j - coord p j)) /
     ((coord a i - coord b i) * (coord p j - coord q j) - (coord p i - coord q i) * (coord a j - coord b j))).
  { unfold uv. rewrite !DE. reflexivity. }
  clearbody tv uv. clear D. split.
  - intros x y H. destruct (Qle_bool 0 tv && Qle_bool tv 1 && (Qle_bool 0 uv && Qle_bool uv 1)) eqn:E; [|discriminate].
    inversion H; subst x y. split; auto. apply andb_prop in E as [E1 E2]. apply andb_prop in E1 as [E1 E3]. apply andb_prop in E2 as [E2 E4].
    apply Qle_bool_iff in E1, E2, E3, E4. exists tv, uv. split; [auto|]. split; [auto|]. split; auto.
    rewrite !coord_along. rewrite Tv, Uv. split; field; exact D'.
  - intros t u Ht Hu Hi Hj. rewrite !coord_along in Hi, Hj.
    assert (T : tv == t).
    { rewrite Tv. apply (Qmult_inj_r _ _ _ D'). rewrite Qmult_comm, Qmult_div_r by exact D'.
      transitivity (t * ((coord a i - coord b i) * (coord p j - coord q j) - (coord p i - coord q i) * (coord a j - coord b j))
        + ((coord a i + t * (coord b i - coord a i)) - (coord p i + u * (coord q i - coord p i))) * (coord p j - coord q j)
        - ((coord a j + t * (coord b j - coord a j)) - (coord p j + u * (coord q j - coord p j))) * (coord p i - coord q i)).
      - ring.
      - rewrite Hi, Hj. ring. }
    assert (U : uv == u).
    { rewrite Uv. apply (Qmult_inj_r _ _ _ D'). rewrite Qmult_comm, Qmult_div_r by exact D'.
      transitivity (u * ((coord a i - coord b i) * (coord p j - coord q j) - (coord p i - coord q i) * (coord a j - coord b j))
        + ((coord a i + t * (coord b i - coord a i)) - (coord p i + u * (coord q i - coord p i))) * (coord a j - coord b j)
        - ((coord a j + t * (coord b j - coord a j)) - (coord p j + u * (coord q j - coord p j))) * (coord a i - coord b i)).
      - ring.
      - rewrite Hi, Hj. ring. }
    assert (B : Qle_bool 0 tv && Qle_bool tv 1 && (Qle_bool 0 uv && Qle_bool uv 1) = true).
    { repeat (apply andb_true_intro; split); apply Qle_bool_iff; rewrite ?T, ?U; tauto. }
    rewrite B. eexists. split; [reflexivity|]. rewrite !coord_along, T. split; reflexivity.
Qed.

(** parallel segments one of whose end points is on the line of the other always "intersect" *)
Lemma colinear_lemma eps i j a b p q : Qabs (det2 i j (psub a b) (psub p q)) < eps ->
  (colinear_measurement i j a b p < eps \/ colinear_measurement i j a b q < eps) ->
  line_line_intersection eps i j a b p q <> None.
Proof.
  intros H1 H2. unfold line_line_intersection. rewrite (proj2 (Qltb_lt _ _) H1).
  replace (negb (Qltb (colinear_measurement i j a b p) eps) && negb (Qltb (colinear_measurement i j a b q) eps)) with false.
  - cbv zeta. repeat match goal with |- context [if ?c then _ else _] => destruct c end; discriminate.
  - destruct H2 as [H2|H2]; rewrite (proj2 (Qltb_lt _ _) H2); simpl; auto. symmetry. apply andb_false_r.
Qed.

Definition on_segment (a b x : point) : Prop := exists t, 0 <= t <= 1 /\ coord x 0 == coord (along a b t) 0 /\ coord x 1 == coord (along a b t) 1 /\ coord x 2 == coord (along a b t) 2.
Lemma colinear_refuted_lemma : exists a b p q x y, line_line_intersection eps_12 0 1 a b p q = Some (x, y) /\
  ~ on_segment a b x /\ (forall z, ~ (on_segment a b z /\ on_segment p q z)).
Proof.
  exists (mk_point 0 0 0), (mk_point 1 0 0), (mk_point 2 0 0), (mk_point 3 0 0). do 2 eexists. split; [vm_compute; reflexivity|].
  split.
  - intros (t & Ht & Hx & _). rewrite coord_along in Hx. simpl in Hx. lra.
  - intros z [(t & Ht & Hx & _) (u & Hu & Hy & _)]. rewrite coord_along in Hx, Hy. simpl in Hx, Hy. lra.
Qed.

(** ** the rational instance *)
Lemma near_q_refl eps x : 0 < eps -> near_q eps x x = true.
Proof.
  intros H. unfold near_q. apply Qltb_lt. unfold sqnorm, psub; simpl.
  assert (0 < eps * eps) by (apply Qmult_lt_0_compat; auto).
  assert (E : forall y, y - y == 0) by (intros; ring). rewrite !E. lra.
Qed.
Lemma insert_by_perm key x l : Permutation (insert_by key x l) (x :: l).
Proof.
  induction l as [|y l IH]; simpl; auto. destruct (Qle_bool (key x) (key y)); auto. rewrite IH. apply perm_swap.
Qed.
Lemma argsort_q_perm xs o : Permutation (argsort_q xs o) (seq 0 (length xs)).
Proof.
  unfold argsort_q. cbv zeta. induction (seq 0 (length xs)) as [|x l IH]; simpl; auto. rewrite insert_by_perm. auto.
Qed.
Definition sorted_by (key : nat -> Q) (l : list nat) : Prop :=
  forall i j u v, (i < j)%nat -> nth_error l i = Some u -> nth_error l j = Some v -> key u <= key v.
Lemma sorted_by_cons key x l : (forall y, In y l -> key x <= key y) -> sorted_by key l -> sorted_by key (x :: l).
Proof.
  intros H S i j u v Hij Hi Hj. destruct j as [|j]; [lia|]. simpl in Hj. destruct i as [|i]; simpl in Hi.
  - inversion Hi; subst. apply H. eapply nth_error_In; eauto.
  - eapply (S i j); eauto. lia.
Qed.
Lemma sorted_by_tail key x l : sorted_by key (x :: l) -> sorted_by key l /\ forall y, In y l -> key x <= key y.
Proof.
  intros S. split.
  - intros i j u v Hij Hi Hj. apply (S (1 + i)%nat (1 + j)%nat); auto. lia.
  - intros y Hy. apply In_nth_error in Hy as (j & Hj). apply (S 0%nat (1 + j)%nat); auto. lia.
Qed.
Lemma insert_by_sorted key x l : sorted_by key l -> sorted_by key (insert_by key x l).
Proof.
  induction l as [|y l IH]; intros S; simpl.
  - intros i j u v Hij Hi Hj. destruct j as [|[|j]]; [lia|discriminate|discriminate].
  - apply sorted_by_tail in S as [S H]. destruct (Qle_bool (key x) (key y)) eqn:E.
    + apply Qle_bool_iff in E. apply sorted_by_cons; [|apply sorted_by_cons; auto].
      intros z [<-|Hz]; auto. specialize (H z Hz). lra.
    + assert (key y <= key x) by (destruct (Qlt_le_dec (key x) (key y)) as [Q|Q]; auto; apply Qlt_le_weak, Qle_bool_iff in Q; congruence).
      apply sorted_by_cons; auto. intros z Hz. apply (Permutation_in _ (insert_by_perm key x l)) in Hz as [<-|Hz]; auto.
Qed.
Lemma sort_sorted key l : sorted_by key (fold_right (insert_by key) [] l).
Proof.
  induction l; simpl; [|apply insert_by_sorted; auto]. intros a b ? ? _ H. destruct a; discriminate.
Qed.
Lemma argsort_q_sorted xs o i j u v x y : (i < j)%nat -> nth_error (argsort_q xs o) i = Some u -> nth_error (argsort_q xs o) j = Some v ->
  nth_error xs u = Some x -> nth_error xs v = Some y -> ~ sqnorm (psub y o) < sqnorm (psub x o).
Proof.
  intros Hij Hi Hj Hx Hy. unfold argsort_q in *. set (key := fun k => _) in *.
  pose proof (sort_sorted key (seq 0 (length xs))) as S.
  specialize (S i j u v Hij Hi Hj). unfold key in S. rewrite Hx, Hy in S. intros Q. lra.
Qed.
Lemma overlap_lemma (eps : Q) (i j k : nat) (a b p q : point) :
  Qabs (det2 i j (psub a b) (psub p q)) < eps ->
  colinear_measurement i j a b p < eps \/ colinear_measurement i j a b q < eps ->
  (k = i /\ Qabs (coord a j - coord b j) < Qabs (coord a i - coord b i)) \/ (k = j /\ Qabs (coord a i - coord b i) <= Qabs (coord a j - coord b j)) ->
  coord a k <= coord b k -> coord p k <= coord q k -> coord p k <= coord b k -> coord a k <= coord q k ->
  exists x y, line_line_intersection eps i j a b p q = Some (x, Some y) /\ (x = a \/ x = p) /\ (y = b \/ y = q) /\
    coord a k <= coord x k /\ coord p k <= coord x k /\ coord y k <= coord b k /\ coord y k <= coord q k.
Proof.
  intros D C K Hab Hpq Hpb Haq. assert (Lt : forall x y, x < y -> Qltb x y = true). { intros x y H. unfold Qltb. destruct (Qle_bool y x) eqn:E; auto. apply Qle_bool_iff in E. lra. }
  assert (Le : forall x y, x <= y -> Qle_bool x y = true) by (intros x y; apply Qle_bool_iff). assert (Nle : forall x y, Qle_bool x y = false -> y < x). { intros x y E. destruct (Qlt_le_dec y x); auto. apply Le in q0. congruence. }
  unfold line_line_intersection. cbv zeta. rewrite (Lt _ _ D).
  replace (negb (Qltb (colinear_measurement i j a b p) eps) && negb (Qltb (colinear_measurement i j a b q) eps)) with false by (destruct C as [C|C]; rewrite (Lt _ _ C); rewrite ?andb_false_r; reflexivity).
  replace (if Qle_bool (Qabs (coord a i - coord b i)) (Qabs (coord a j - coord b j)) then j else i) with k.
  2:{ destruct K as [[-> K]|[-> K]]; [|rewrite (Le _ _ K); reflexivity]. destruct (Qle_bool _ _) eqn:E; auto. apply Qle_bool_iff in E. lra. }
  rewrite (Le _ _ Hpb), (Le _ _ Haq), andb_true_r. cbn [andb].
  destruct (Qle_bool (coord p k) (coord a k)) eqn:E1, (Qle_bool (coord b k) (coord q k)) eqn:E2; cbn [andb]; try apply Qle_bool_iff in E1; try apply Qle_bool_iff in E2; try apply Nle in E1; try apply Nle in E2; do 2 eexists; (split; [reflexivity|]); (split; [auto|]); (split; [auto|]); lra.
Qed.
