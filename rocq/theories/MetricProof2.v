(** * Sizes of meshes *)
From Coq Require Import List Arith Bool ZArith Reals Lra Lia.
From Verif Require Import Base BaseProof MeshModel OrientModel VecBase VecProof CutModel MetricModel MetricSpec MetricProof.
Import ListNotations.
Local Open Scope R_scope.

Lemma Forall2_length : forall {A B} (P : A -> B -> Prop) l l', Forall2 P l l' -> length l = length l'.
Proof. intros A B P l l' H. induction H; simpl; congruence. Qed.
Lemma tag_matches_spec : forall tag c, tag_matches tag c = true <-> forall t, tag = Some t -> c_mat c = Some t.
Proof.
  intros [t|] c; simpl; [|split; [intros _ t; discriminate|reflexivity]]. destruct (c_mat c) as [u|].
  - rewrite Z.eqb_eq. split; [intros -> x E; injection E as <-; reflexivity|]. intros H. specialize (H t eq_refl). injection H as ->. reflexivity.
  - split; [discriminate|]. intros H. specialize (H t eq_refl). discriminate.
Qed.
Lemma cells_with_listed : forall m d tag l, cells_with m d tag = Ok l <-> listed d tag (m_cells vec m) l.
Proof.
  intros m d tag. unfold cells_with. induction (m_cells vec m) as [|slot cs IH]; intros l; simpl.
  - split; [intros E; injection E as <-; constructor|intros H; inversion H; reflexivity].
  - destruct slot as [c|]; simpl; [|split; [discriminate|intros H; inversion H]].
    destruct (mapM (fun slot : option cell => match slot with Some c0 => Ok c0 | None => Err AttributeError end) cs) as [xs|]; simpl in IH |- *.
    + pose proof (tag_matches_spec tag c) as TM. destruct (Nat.eqb_spec (c_dim c) d) as [E|N]; simpl.
      * destruct (tag_matches tag c) eqn:T.
        -- split.
           ++ intros H. injection H as <-. apply listed_yes; [exact E|apply TM; reflexivity|apply IH; reflexivity].
           ++ intros H. inversion H as [|? ? l' ? ? H'|? ? ? [K|(t & K1 & K2)] H']; subst.
              ** apply IH in H'. injection H' as ->. reflexivity.
              ** contradiction.
              ** exfalso. apply K2. apply TM; reflexivity.
        -- split.
           ++ intros H. injection H as <-. apply listed_no; [|apply IH; reflexivity]. right. destruct tag as [t|]; [|discriminate]. exists t. split; [reflexivity|].
              intros K. simpl in T. rewrite K, Z.eqb_refl in T. discriminate.
           ++ intros H. inversion H as [|? ? l' K1 K2 H'|? ? ? K H']; subst.
              ** apply TM in K2. discriminate.
              ** apply IH in H'. exact H'.
      * split.
        -- intros H. injection H as <-. apply listed_no; [left; exact N|apply IH; reflexivity].
        -- intros H. inversion H as [|? ? l' K1 K2 H'|? ? ? K H']; subst; [contradiction|]. apply IH in H'. exact H'.
    + split; [discriminate|]. intros H. inversion H as [|? ? l' K1 K2 H'|? ? ? K H']; subst; apply IH in H'; discriminate.
Qed.

Lemma mapM_iff : forall {A B} (f : A -> res B) l ys, mapM f l = Ok ys <-> Forall2 (fun x y => f x = Ok y) l ys.
Proof.
  intros A B f. induction l as [|x l IH]; intros ys; simpl.
  - split; [intros E; injection E as <-; constructor|intros H; inversion H; reflexivity].
  - split.
    + intros E. destruct (f x) as [y|] eqn:FX; [|discriminate]. simpl in E. destruct (mapM f l) as [ys'|] eqn:M; [|discriminate]. injection E as <-.
      constructor; [exact FX|apply IH; reflexivity].
    + intros H. inversion H as [|? y ? ys' H1 H2]; subst. rewrite H1. simpl. apply IH in H2. rewrite H2. reflexivity.
Qed.

Lemma sum_between : forall l lo hi, (forall x, In x l -> lo <= x <= hi) -> INR (length l) * lo <= sum_of l <= INR (length l) * hi.
Proof.
  induction l as [|x l IH]; intros lo hi H; [unfold sum_of; simpl; lra|]. change (length (x :: l)) with (S (length l)). rewrite S_INR.
  change (sum_of (x :: l)) with (x + sum_of l). specialize (IH lo hi (fun y Hy => H y (or_intror Hy))). assert (lo <= x <= hi) by (apply H; left; reflexivity). lra.
Qed.

(** exactly when a mesh has a size, and what it is *)
Theorem mesh_size_iff : forall m dimension dim tag lo mean hi,
  let d := match dim with Some d => d | None => dimension end in
  mesh_size m dimension dim tag = Ok (lo, mean, hi) <->
  exists cs sizes, listed d tag (m_cells vec m) cs /\ cs <> [] /\
    Forall2 (fun c s => exists l, has_points m c l /\ (2 <= length l)%nat /\ is_diameter l s) cs sizes /\
    In lo sizes /\ In hi sizes /\ (forall s, In s sizes -> lo <= s <= hi) /\ mean * INR (length cs) = sum_of sizes.
Proof.
  intros m dimension dim tag lo mean hi d. unfold mesh_size. fold d. split.
  - intros E. destruct (cells_with m d tag) as [cs|] eqn:C; [|discriminate]. simpl in E. destruct (mapM (cell_diam m) cs) as [sizes|] eqn:S; [|discriminate].
    simpl in E. destruct (np_min sizes) as [a|] eqn:MI; [|discriminate]. simpl in E. destruct (np_max sizes) as [b|] eqn:MA; [|discriminate].
    injection E as <- <- <-. exists cs, sizes. apply np_min_ok in MI as (I1 & I2). apply np_max_ok in MA as (A1 & A2). apply mapM_iff in S.
    pose proof (Forall2_length _ _ _ S) as L. repeat split; try assumption.
    + apply cells_with_listed. exact C.
    + intros ->. inversion S; subst. destruct I1.
    + clear -S. induction S as [|c s cs sizes H _ IH]; constructor; [apply diam_ok; exact H|exact IH].
    + apply I2; assumption.
    + apply A2; assumption.
    + unfold np_mean. rewrite L. change (fold_right Rplus 0 sizes) with (sum_of sizes). field. apply not_0_INR. destruct sizes; [destruct I1|simpl; lia].
  - intros (cs & sizes & C & NE & S & I1 & A1 & B & M). apply cells_with_listed in C. rewrite C. simpl.
    assert (S' : mapM (cell_diam m) cs = Ok sizes).
    { apply mapM_iff. clear -S. induction S as [|c s cs sizes H _ IH]; constructor; [apply diam_ok; exact H|exact IH]. }
    rewrite S'. simpl. pose proof (Forall2_length _ _ _ S) as L. destruct (np_min sizes) as [a|] eqn:MI; [|destruct sizes; [destruct I1|discriminate]].
    destruct (np_max sizes) as [b|] eqn:MA; [|destruct sizes; [destruct I1|discriminate]]. simpl.
    apply np_min_ok in MI as (I1' & I2). apply np_max_ok in MA as (A1' & A2).
    assert (a = lo) by (apply Rle_antisym; [apply I2; exact I1|apply B; exact I1']).
    assert (b = hi) by (apply Rle_antisym; [apply B; exact A1'|apply A2; exact A1]).
    assert (N : INR (length sizes) <> 0) by (apply not_0_INR; destruct sizes; [destruct I1|simpl; lia]).
    assert (np_mean sizes = mean).
    { unfold np_mean. change (fold_right Rplus 0 sizes) with (sum_of sizes). rewrite <- M, L. field. exact N. }
    subst. reflexivity.
Qed.

Theorem mesh_size_order : forall m dimension dim tag lo mean hi, mesh_size m dimension dim tag = Ok (lo, mean, hi) -> 0 <= lo /\ lo <= mean <= hi.
Proof.
  intros m dimension dim tag lo mean hi E. apply mesh_size_iff in E as (cs & sizes & _ & _ & S & I1 & _ & B & M).
  pose proof (Forall2_length _ _ _ S) as L. pose proof (sum_between sizes lo hi B) as SB. rewrite <- L, <- M in SB.
  assert (N : 0 < INR (length cs)) by (apply lt_0_INR; rewrite L; destruct sizes; [destruct I1|simpl; lia]). split; [|split].
  - assert (X : Forall (fun s => 0 <= s) sizes).
    { clear -S. induction S as [|c s cs sizes (l & _ & _ & (x & y & _ & _ & <-) & _) _ IH]; constructor; [apply norm_nonneg|exact IH]. }
    rewrite Forall_forall in X. apply X. exact I1.
  - apply (Rmult_le_reg_r (INR (length cs))); [exact N|]. lra.
  - apply (Rmult_le_reg_r (INR (length cs))); [exact N|]. lra.
Qed.

(** fewer cells: the sizes of the cells with one tag lie between those of all *)
Lemma listed_sub : forall d t cs l l', listed d (Some t) cs l -> listed d None cs l' -> forall c, In c l -> In c l'.
Proof.
  intros d t cs. induction cs as [|slot cs IH]; intros l l' H H' c I.
  - inversion H; subst. destruct I.
  - inversion H as [|? ? l1 K1 K2 H1|? ? ? K H1]; subst; inversion H' as [|? ? l2 J1 J2 H2|? ? ? J H2]; subst.
    + destruct I as [->|I]; [left; reflexivity|right; apply (IH l1 l2 H1 H2 c I)].
    + destruct J as [J|(u & J & _)]; [contradiction|discriminate].
    + right. apply (IH l l2 H1 H2 c I).
    + apply (IH l l' H1 H2 c I).
Qed.
Theorem mesh_size_tag : forall m dimension dim t lo mean hi lo' mean' hi',
  mesh_size m dimension dim None = Ok (lo, mean, hi) -> mesh_size m dimension dim (Some t) = Ok (lo', mean', hi') -> lo <= lo' /\ hi' <= hi.
Proof.
  intros m dimension dim t lo mean hi lo' mean' hi' E E'.
  apply mesh_size_iff in E as (cs & sizes & C & _ & S & _ & _ & B & _). apply mesh_size_iff in E' as (cs' & sizes' & C' & _ & S' & I1 & A1 & _ & _).
  assert (X : forall s, In s sizes' -> In s sizes).
  { intros s I. apply In_nth_error in I as (k & Hk). assert (exists c, nth_error cs' k = Some c) as (c & Hc).
    { destruct (nth_error cs' k) eqn:Z; [eexists; reflexivity|]. apply nth_error_None in Z. apply Forall2_length in S'.
      assert (k < length sizes')%nat by (apply nth_error_Some; congruence). lia. }
    assert (P : exists l, has_points m c l /\ (2 <= length l)%nat /\ is_diameter l s).
    { clear -S' Hk Hc. revert k Hk Hc. induction S' as [|a b l1 l2 H _ IH]; intros [|k] Hk Hc; try discriminate; simpl in Hk, Hc.
      - injection Hk as ->. injection Hc as ->. exact H.
      - apply (IH k Hk Hc). }
    pose proof (listed_sub _ _ _ _ _ C' C c (nth_error_In _ _ Hc)) as I. apply In_nth_error in I as (j & Hj).
    assert (exists s', nth_error sizes j = Some s') as (s' & Hs').
    { destruct (nth_error sizes j) eqn:Z; [eexists; reflexivity|]. apply nth_error_None in Z. apply Forall2_length in S.
      assert (j < length cs)%nat by (apply nth_error_Some; congruence). lia. }
    assert (P' : exists l, has_points m c l /\ (2 <= length l)%nat /\ is_diameter l s').
    { clear -S Hj Hs'. revert j Hj Hs'. induction S as [|a b l1 l2 H _ IH]; intros [|j] Hj Hs'; try discriminate; simpl in Hj, Hs'.
      - injection Hj as ->. injection Hs' as ->. exact H.
      - apply (IH j Hj Hs'). }
    assert (s = s').
    { apply diam_ok in P, P'. rewrite P in P'. injection P' as ->. reflexivity. }
    subst. apply (nth_error_In _ _ Hs'). }
  split; apply B; apply X; assumption.
Qed.

(** stretching and moving the points *)
Lemma differences_stretched : forall k t l, differences (map (fun p => vadd t (vscale k p)) l) = map (vscale k) (differences l).
Proof.
  intros k t l. unfold differences. rewrite map_length. generalize (seq 0 (length l)). intros s.
  assert (C : forall (s : list nat) l, combine s (map (fun p => vadd t (vscale k p)) l) = map (fun ip => (fst ip, vadd t (vscale k (snd ip)))) (combine s l)).
  { induction s0 as [|a s0 IH]; intros [|p l0]; simpl; try reflexivity. rewrite IH. reflexivity. }
  rewrite C. generalize (combine s l). intros en.
  assert (I : forall (o : nat * vec) e, flat_map (fun t0 : nat * vec => if (fst o =? fst t0)%nat then [] else [vsub (snd t0) (vadd t (vscale k (snd o)))])
      (map (fun ip => (fst ip, vadd t (vscale k (snd ip)))) e) =
    map (vscale k) (flat_map (fun t0 : nat * vec => if (fst o =? fst t0)%nat then [] else [vsub (snd t0) (snd o)]) e)).
  { intros o. induction e as [|x e IH]; [reflexivity|]. simpl. rewrite IH. destruct (fst o =? fst x)%nat; simpl; [reflexivity|]. f_equal.
    destruct (snd x), (snd o). destruct t. vec_eq. }
  assert (O : forall e e', flat_map (fun o : nat * vec => flat_map (fun t0 : nat * vec => if (fst o =? fst t0)%nat then [] else [vsub (snd t0) (snd o)])
      (map (fun ip => (fst ip, vadd t (vscale k (snd ip)))) e)) (map (fun ip => (fst ip, vadd t (vscale k (snd ip)))) e') =
    map (vscale k) (flat_map (fun o : nat * vec => flat_map (fun t0 : nat * vec => if (fst o =? fst t0)%nat then [] else [vsub (snd t0) (snd o)]) e) e')).
  { intros e. induction e' as [|o e' IH]; [reflexivity|]. simpl. rewrite IH, map_app. f_equal. exact (I o e). }
  apply O.
Qed.
Lemma np_max_scaled : forall k l, 0 <= k -> np_max (map (Rmult k) l) = do d <- np_max l; Ok (k * d).
Proof.
  intros k [|x l] Hk; [reflexivity|]. simpl. f_equal. revert x. induction l as [|y l IH]; intros x; simpl; [reflexivity|].
  rewrite <- IH. f_equal. apply RmaxRmult. exact Hk.
Qed.
Lemma np_min_scaled : forall k l, 0 <= k -> np_min (map (Rmult k) l) = do d <- np_min l; Ok (k * d).
Proof.
  intros k [|x l] Hk; [reflexivity|]. simpl. f_equal. revert x. induction l as [|y l IH]; intros x; simpl; [reflexivity|].
  rewrite <- IH. f_equal. unfold Rmin. destruct (Rle_dec x y) as [H|H], (Rle_dec (k * x) (k * y)) as [H'|H']; try reflexivity.
  - exfalso. apply H'. apply Rmult_le_compat_l; assumption.
  - assert (y < x) by lra. assert (k * y <= k * x) by (apply Rmult_le_compat_l; lra). lra.
Qed.
Lemma take_map : forall {A B} (g : A -> B) a idx, take (map g a) idx = do l <- take a idx; Ok (map g l).
Proof.
  intros A B g a idx. unfold take. induction idx as [|i idx IH]; [reflexivity|]. simpl. rewrite IH. unfold get_at.
  rewrite nth_error_map. destruct (nth_error a i); simpl; [|reflexivity]. destruct (mapM (fun i0 : nat => match nth_error a i0 with Some x => Ok x | None => Err IndexError end) idx); reflexivity.
Qed.
Lemma diam_stretched : forall k t m c, cell_diam (stretched k t m) c = do d <- cell_diam m c; Ok (Rabs k * d).
Proof.
  intros k t m c. unfold cell_diam, points_of, stretched. simpl. rewrite take_map. destruct (take (m_points vec m) (c_nodes c)) as [l|]; simpl; [|reflexivity].
  rewrite differences_stretched, map_map. rewrite <- (np_max_scaled (Rabs k)) by apply Rabs_pos. rewrite map_map. f_equal. apply map_ext. intros v. apply norm_scale.
Qed.
Theorem mesh_size_stretched : forall k t m dimension dim tag lo mean hi, mesh_size m dimension dim tag = Ok (lo, mean, hi) ->
  mesh_size (stretched k t m) dimension dim tag = Ok (Rabs k * lo, Rabs k * mean, Rabs k * hi).
Proof.
  intros k t m dimension dim tag lo mean hi. unfold mesh_size. set (d := match dim with Some d => d | None => dimension end).
  change (cells_with (stretched k t m) d tag) with (cells_with m d tag). destruct (cells_with m d tag) as [cs|]; simpl; [|discriminate].
  assert (X : forall cs, mapM (cell_diam (stretched k t m)) cs = do s <- mapM (cell_diam m) cs; Ok (map (Rmult (Rabs k)) s)).
  { clear. induction cs as [|c cs IH]; [reflexivity|]. simpl. rewrite diam_stretched, IH. destruct (cell_diam m c); simpl; [|reflexivity].
    destruct (mapM (cell_diam m) cs); reflexivity. }
  rewrite X. destruct (mapM (cell_diam m) cs) as [s|]; simpl; [|discriminate]. rewrite np_min_scaled, np_max_scaled by apply Rabs_pos.
  destruct (np_min s); simpl; [|discriminate]. destruct (np_max s); simpl; [|discriminate]. intros E. injection E as <- <- <-. f_equal. f_equal. f_equal.
  unfold np_mean. rewrite map_length. unfold Rdiv. rewrite <- Rmult_assoc. f_equal. clear. induction s as [|x s IH]; simpl; [ring|]. rewrite IH. ring.
Qed.

(** points have no diameter *)
Theorem mesh_size_points : forall m dimension dim tag,
  let d := match dim with Some d => d | None => dimension end in
  (forall c, In (Some c) (m_cells vec m) -> c_dim c = d -> (length (c_nodes c) < 2)%nat) -> forall r, mesh_size m dimension dim tag <> Ok r.
Proof.
  intros m dimension dim tag d H [[lo mean] hi] E. apply mesh_size_iff in E as (cs & sizes & C & NE & S & _). fold d in C.
  inversion S as [|c s cs' sizes' (l & T & L & _) _]; subst; [contradiction|].
  assert (I : In (Some c) (m_cells vec m) /\ c_dim c = d).
  { clear -C. remember (c :: cs') as x. revert c cs' Heqx. induction C as [|a as' l K1 K2 C' IH|a as' l K C' IH]; intros c cs' E; [discriminate| |].
    - injection E as -> ->. split; [left; reflexivity|exact K1].
    - destruct (IH c cs' E) as (I1 & I2). split; [right; exact I1|exact I2]. }
  destruct I as (I1 & I2). specialize (H c I1 I2). apply Forall2_length in T. lia.
Qed.
