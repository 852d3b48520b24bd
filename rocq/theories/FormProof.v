(** * Sums, slices and the local L2 projection *)
From Coq Require Import String List Arith Bool Lia Ring Field.
From Verif Require Import Base BaseProof FormModel FormSpec.
Import ListNotations.
Open Scope list_scope.

Section Sums.
  Context {F : scalar} (HF : is_ring F).
  Local Open Scope num_scope.
  Let HR : ring_theory (@k0 F) k1 kadd kmul ksub kopp eq := HF.
  Add Ring Kring : HR.

  Lemma ksum_ext : forall n (f g : nat -> F), (forall i, i < n -> f i = g i) -> ksum n f = ksum n g.
  Proof.
    induction n; intros f g H; simpl; [reflexivity|].
    rewrite (IHn f g) by (intros; apply H; lia). rewrite H by lia. reflexivity.
  Qed.
  Lemma ksum_zero : forall n (f : nat -> F), (forall i, i < n -> f i = k0) -> ksum n f = k0.
  Proof.
    induction n; intros f H; simpl; [reflexivity|].
    rewrite IHn by (intros; apply H; lia). rewrite H by lia. ring.
  Qed.
  Lemma ksum_add : forall n (f g : nat -> F), ksum n (fun i => f i + g i) = ksum n f + ksum n g.
  Proof. induction n; intros; simpl; [ring|]. rewrite IHn. ring. Qed.
  Lemma ksum_sub : forall n (f g : nat -> F), ksum n (fun i => f i - g i) = ksum n f - ksum n g.
  Proof. induction n; intros; simpl; [ring|]. rewrite IHn. ring. Qed.
  Lemma ksum_opp : forall n (f : nat -> F), ksum n (fun i => - f i) = - ksum n f.
  Proof. induction n; intros; simpl; [ring|]. rewrite IHn. ring. Qed.
  Lemma ksum_mul_l : forall n a (f : nat -> F), ksum n (fun i => a * f i) = a * ksum n f.
  Proof. induction n; intros; simpl; [ring|]. rewrite IHn. ring. Qed.
  Lemma ksum_mul_r : forall n a (f : nat -> F), ksum n (fun i => f i * a) = ksum n f * a.
  Proof. induction n; intros; simpl; [ring|]. rewrite IHn. ring. Qed.
  Lemma ksum_swap : forall n m (f : nat -> nat -> F),
    ksum n (fun i => ksum m (fun j => f i j)) = ksum m (fun j => ksum n (fun i => f i j)).
  Proof.
    induction n; intros m f; simpl.
    - symmetry. apply ksum_zero. reflexivity.
    - rewrite IHn. rewrite <- ksum_add. reflexivity.
  Qed.
  Lemma ksum_app : forall n m (f : nat -> F), ksum (n + m) f = ksum n f + ksum m (fun i => f (n + i)%nat).
  Proof.
    intros n m; induction m; intros f; simpl.
    - rewrite Nat.add_0_r. ring.
    - rewrite Nat.add_succ_r. simpl. rewrite IHm. ring.
  Qed.
  (** one index only *)
  Lemma ksum_single : forall n i (f : nat -> F), i < n -> (forall j, j < n -> j <> i -> f j = k0) -> ksum n f = f i.
  Proof.
    induction n; intros i f Hi H; [lia|]. simpl. destruct (Nat.eq_dec i n) as [->|Hn].
    - rewrite ksum_zero by (intros; apply H; lia). ring.
    - rewrite (IHn i f) by (try lia; intros; apply H; lia). rewrite (H n) by lia. ring.
  Qed.
  (** rows and columns *)
  Lemma ksum_grid : forall n m (f : nat -> F),
    ksum (n * m) f = ksum n (fun k => ksum m (fun c => f (k * m + c)%nat)).
  Proof.
    induction n; intros m f; simpl; [reflexivity|].
    rewrite Nat.add_comm, ksum_app, IHn. reflexivity.
  Qed.

  Lemma total_app : forall l l' : list F, total (l ++ l') = total l + total l'.
  Proof. unfold total. induction l; intros; simpl; [ring|]. rewrite IHl. ring. Qed.
  Lemma Sum_ksum : forall n (f : nat -> F), Sum n f = ksum n f.
  Proof.
    induction n; intros f; [reflexivity|]. unfold Sum in *. rewrite seq_S, map_app, total_app, IHn.
    simpl. unfold total; simpl. ring.
  Qed.
End Sums.

(** ** Slices *)
Lemma in_slice_grid : forall n m c k c', k < n -> c < m -> c' < m ->
  in_slice c (c + n * m) m (k * m + c') = if c' =? c then Some k else None.
Proof.
  intros n m c k c' Hk Hc Hc'. unfold in_slice.
  destruct (Nat.eqb_spec c' c) as [->|N].
  - replace (k * m + c - c) with (k * m) by lia. rewrite Nat.mod_mul, Nat.div_mul by lia.
    replace (c <=? k * m + c) with true by (symmetry; apply Nat.leb_le; lia).
    replace (k * m + c <? c + n * m) with true by (symmetry; apply Nat.ltb_lt; nia). reflexivity.
  - destruct (c <=? k * m + c') eqn:E1; [|reflexivity]. apply Nat.leb_le in E1.
    destruct (k * m + c' <? c + n * m) eqn:E2; [|reflexivity].
    destruct ((k * m + c' - c) mod m =? 0) eqn:E3; [exfalso|reflexivity]. apply Nat.eqb_eq in E3.
    apply Nat.mod_divide in E3; [|lia]. destruct E3 as [z Hz].
    assert (k * m + c' = z * m + c) by lia.
    assert (k = z) by nia. subst. lia.
Qed.
Lemma in_slice_unit : forall b n a, in_slice b (b + n) 1 a = if (b <=? a) && (a <? b + n) then Some (a - b) else None.
Proof.
  intros. unfold in_slice. rewrite Nat.mod_1_r, Nat.div_1_r. simpl. rewrite andb_true_r. reflexivity.
Qed.

Section Slices.
  Context {F : scalar} (HF : is_ring F).
  Local Open Scope num_scope.
  Let HR : ring_theory (@k0 F) k1 kadd kmul ksub kopp eq := HF.
  Add Ring Kring2 : HR.

  Lemma fold_sub_slice : forall b e st (v : nat -> nat -> F) n r a,
    fold_left (fun r i => sub_slice b e st (v i) r) (seq 0 n) r a =
    match in_slice b e st a with Some k => r a - ksum n (fun i => v i k) | None => r a end.
  Proof.
    induction n; intros r a.
    - simpl. destruct (in_slice b e st a); [ring|reflexivity].
    - rewrite seq_S, fold_left_app. simpl. unfold sub_slice at 1. rewrite IHn.
      destruct (in_slice b e st a); [simpl; ring|reflexivity].
  Qed.
  Lemma fold_add_block : forall b e st c f st' (m : nat -> nat -> nat -> F) n j a a',
    fold_left (fun j i => add_block b e st c f st' (m i) j) (seq 0 n) j a a' =
    match in_slice b e st a, in_slice c f st' a' with
    | Some k, Some l => j a a' + ksum n (fun i => m i k l) | _, _ => j a a' end.
  Proof.
    induction n; intros j a a'.
    - simpl. destruct (in_slice b e st a); [|reflexivity]. destruct (in_slice c f st' a'); [ring|reflexivity].
    - rewrite seq_S, fold_left_app. simpl. unfold add_block at 1. rewrite IHn.
      destruct (in_slice b e st a); [|reflexivity]. destruct (in_slice c f st' a'); [simpl; ring|reflexivity].
  Qed.
  (** an extensional fold *)
  Lemma fold_left_ext2 : forall {A B} (f g : A -> B -> A) l a,
    (forall a b, In b l -> f a b = g a b) -> fold_left f l a = fold_left g l a.
  Proof.
    induction l; intros a0 H; simpl; [reflexivity|]. rewrite H by (left; reflexivity).
    apply IHl. intros; apply H; right; assumption.
  Qed.
End Slices.

(** ** L2 projection: one field *)
Section L2.
  Context {F : scalar} (HF : is_ring F).
  Local Open Scope num_scope.
  Let HR : ring_theory (@k0 F) k1 kadd kmul ksub kopp eq := HF.
  Add Ring Kring3 : HR.

  (** the loop over the components of the residual *)
  Lemma l2_residual_loop : forall (step : nat -> (nat -> nat -> F) -> (nat -> F) -> nat -> F) (load : nat -> (nat -> nat -> F) -> nat -> F)
      n m (fv : values F),
    (forall c fc r k c', c < m -> k < n -> c' < m ->
       step c fc r (k * m + c')%nat = if c' =? c then r (k * m + c')%nat - load c fc k else r (k * m + c')%nat) ->
    forall len s r0, s + len <= m -> s + len <= length fv ->
    exists r, foldM (fun r c => do fc <- get_at fv c; Ok (step c fc r)) (seq s len) r0 = Ok r /\
      forall k c, k < n -> c < m ->
        r (k * m + c)%nat = if (s <=? c) && (c <? s + len)
                       then r0 (k * m + c)%nat - load c (nth c fv (fun _ _ => k0)) k else r0 (k * m + c)%nat.
  Proof.
    intros step load n m fv Hstep. induction len; intros s r0 H1 H2.
    - exists r0. split; [reflexivity|]. intros k c Hk Hc. rewrite Nat.add_0_r.
      destruct (Nat.leb_spec s c); destruct (Nat.ltb_spec c s); try reflexivity; lia.
    - simpl. destruct (nth_error fv s) as [fc|] eqn:E; [|apply nth_error_None in E; lia].
      unfold get_at. rewrite E. simpl.
      destruct (IHlen (S s) (step s fc r0) ltac:(lia) ltac:(lia)) as (r & R & P). exists r. split; [exact R|].
      intros k c Hk Hc. rewrite P by assumption. rewrite Hstep by (try assumption; lia).
      destruct (Nat.eqb_spec c s) as [->|N].
      + replace (S s <=? s) with false by (symmetry; apply Nat.leb_gt; lia). simpl.
        replace (s <=? s) with true by (symmetry; apply Nat.leb_le; lia).
        replace (s <? s + S len) with true by (symmetry; apply Nat.ltb_lt; lia). simpl.
        rewrite (nth_error_nth fv s (fun _ _ => k0) E). reflexivity.
      + destruct (Nat.leb_spec (S s) c); destruct (Nat.leb_spec s c); try lia; simpl; [|reflexivity].
        replace (c <? s + S len) with (c <? S (s + len)) by (f_equal; lia). reflexivity.
  Qed.

  Definition field_load (f : fe_field F) (e : element F) (w : list F) (fc : nat -> nat -> F) (k : nat) : F :=
    integral e w (fun i => Sum (if fe_lagrange f then 1 else e_dim e) (fun dir => fc dir i * t_val (e_tab e) 0 i k dir)).

  Lemma l2_residual_ok : forall f e w fv, fe_comp f <= length fv ->
    exists r, l2_residual f e w fv = Ok r /\
      forall k c, k < t_nphi (e_tab e) -> c < fe_comp f ->
        r (k * fe_comp f + c)%nat = - field_load f e w (nth c fv (fun _ _ => k0)) k.
  Proof.
    intros f e w fv Hc. unfold l2_residual.
    destruct (l2_residual_loop
      (fun c fc r => if fe_lagrange f then
            sub_slice c (c + t_nphi (e_tab e) * fe_comp f) (fe_comp f)
              (fun k => ksum (length w) (fun i => (e_det e i * weight w i * t_val (e_tab e) 0 i k 0) * fc 0 i)) r
          else
            fold_left (fun r i =>
              sub_slice c (c + t_nphi (e_tab e) * fe_comp f) (fe_comp f)
                (fun k => ksum (e_dim e) (fun d => (e_det e i * weight w i * t_val (e_tab e) 0 i k d) * fc d i)) r)
              (seq 0 (length w)) r)
      (fun c fc k => field_load f e w fc k) (t_nphi (e_tab e)) (fe_comp f) fv) with (len := fe_comp f) (s := 0) (r0 := fun _ : nat => @k0 F)
      as (r & R & P); try lia.
    - intros c fc r k c' H1 H2 H3. unfold field_load, integral. destruct (fe_lagrange f).
      + unfold sub_slice. rewrite in_slice_grid by assumption. destruct (Nat.eqb_spec c' c); [|reflexivity].
        f_equal. rewrite Sum_ksum by assumption. apply ksum_ext. intros i Hi. unfold Sum, total, weight. simpl. ring.
      + rewrite fold_sub_slice by assumption. rewrite in_slice_grid by assumption. destruct (Nat.eqb_spec c' c); [|reflexivity].
        f_equal. rewrite Sum_ksum by assumption. apply ksum_ext. intros i Hi. rewrite Sum_ksum by assumption.
        unfold weight. rewrite <- ksum_mul_l by assumption. apply ksum_ext. intros d Hd. ring.
    - exists r. split; [exact R|]. intros k c Hk Hcc. rewrite P by assumption.
      replace (0 <=? c) with true by reflexivity.
      replace (c <? 0 + fe_comp f) with true by (symmetry; apply Nat.ltb_lt; lia). simpl. ring.
  Qed.

  Definition field_mass (f : fe_field F) (e : element F) (w : list F) (k l : nat) : F :=
    integral e w (fun i => Sum (if fe_lagrange f then 1 else e_dim e) (fun dir => t_val (e_tab e) 0 i k dir * t_val (e_tab e) 0 i l dir)).

  Lemma l2_matrix_step : forall f e w c (j : nat -> nat -> F) k c1 l c2,
    c < fe_comp f -> k < t_nphi (e_tab e) -> c1 < fe_comp f -> l < t_nphi (e_tab e) -> c2 < fe_comp f ->
    fold_left (fun j i =>
        if fe_lagrange f then
          add_block c (c + t_nphi (e_tab e) * fe_comp f) (fe_comp f) c (c + t_nphi (e_tab e) * fe_comp f) (fe_comp f)
            (fun k l => (e_det e i * weight w i) * (t_val (e_tab e) 0 i k 0 * t_val (e_tab e) 0 i l 0)) j
        else
          fold_left (fun j d =>
            add_block c (c + t_nphi (e_tab e) * fe_comp f) (fe_comp f) c (c + t_nphi (e_tab e) * fe_comp f) (fe_comp f)
              (fun k l => (e_det e i * weight w i) * (t_val (e_tab e) 0 i k d * t_val (e_tab e) 0 i l d)) j)
            (seq 0 (e_dim e)) j)
        (seq 0 (length w)) j (k * fe_comp f + c1)%nat (l * fe_comp f + c2)%nat =
    if (c1 =? c) && (c2 =? c) then j (k * fe_comp f + c1)%nat (l * fe_comp f + c2)%nat + field_mass f e w k l
    else j (k * fe_comp f + c1)%nat (l * fe_comp f + c2)%nat.
  Proof.
    intros f e w c j k c1 l c2 Hc Hk H1 Hl H2. unfold field_mass, integral. destruct (fe_lagrange f).
    - rewrite fold_add_block by assumption. rewrite !in_slice_grid by assumption.
      destruct (Nat.eqb_spec c1 c); destruct (Nat.eqb_spec c2 c); simpl; try reflexivity.
      f_equal. rewrite Sum_ksum by assumption. apply ksum_ext. intros i Hi. unfold Sum, total, weight. simpl. ring.
    - assert (G : forall n j, fold_left (fun j i => fold_left (fun j d =>
            add_block c (c + t_nphi (e_tab e) * fe_comp f) (fe_comp f) c (c + t_nphi (e_tab e) * fe_comp f) (fe_comp f)
              (fun k l => (e_det e i * weight w i) * (t_val (e_tab e) 0 i k d * t_val (e_tab e) 0 i l d)) j)
            (seq 0 (e_dim e)) j) (seq 0 n) j (k * fe_comp f + c1)%nat (l * fe_comp f + c2)%nat =
          if (c1 =? c) && (c2 =? c) then j (k * fe_comp f + c1)%nat (l * fe_comp f + c2)%nat +
             ksum n (fun i => ksum (e_dim e) (fun d => (e_det e i * weight w i) * (t_val (e_tab e) 0 i k d * t_val (e_tab e) 0 i l d)))
          else j (k * fe_comp f + c1)%nat (l * fe_comp f + c2)%nat).
      { induction n; intros j0.
        - simpl. destruct ((c1 =? c) && (c2 =? c)); [ring|reflexivity].
        - rewrite seq_S, fold_left_app. cbn [fold_left Nat.add]. rewrite fold_add_block by assumption.
          rewrite !in_slice_grid by assumption. rewrite IHn.
          destruct (Nat.eqb_spec c1 c); destruct (Nat.eqb_spec c2 c); simpl; try reflexivity. ring. }
      rewrite G. destruct ((c1 =? c) && (c2 =? c)); [|reflexivity].
      f_equal. rewrite Sum_ksum by assumption. apply ksum_ext. intros i Hi. rewrite Sum_ksum by assumption.
      rewrite <- ksum_mul_l by assumption. apply ksum_ext. intros d Hd. unfold weight. ring.
  Qed.

  Lemma l2_matrix_ok : forall f e w k c1 l c2,
    k < t_nphi (e_tab e) -> c1 < fe_comp f -> l < t_nphi (e_tab e) -> c2 < fe_comp f ->
    l2_matrix f e w (k * fe_comp f + c1)%nat (l * fe_comp f + c2)%nat = if c1 =? c2 then field_mass f e w k l else k0.
  Proof.
    intros f e w k c1 l c2 Hk H1 Hl H2. unfold l2_matrix.
    match goal with |- fold_left ?g _ _ _ _ = _ =>
      assert (G : forall n, n <= fe_comp f -> fold_left g (seq 0 n) (fun _ _ => k0) (k * fe_comp f + c1)%nat (l * fe_comp f + c2)%nat =
        if (c1 =? c2) && (c1 <? n) then field_mass f e w k l else k0) end.
    { induction n; intros Hn.
      - simpl. rewrite andb_false_r. reflexivity.
      - rewrite seq_S, fold_left_app. cbn [fold_left Nat.add]. rewrite l2_matrix_step by (try assumption; lia).
        rewrite IHn by lia.
        destruct (Nat.eqb_spec c1 n); destruct (Nat.eqb_spec c2 n); destruct (Nat.eqb_spec c1 c2); simpl; try lia;
          destruct (Nat.ltb_spec c1 n); destruct (Nat.ltb_spec c1 (S n)); try lia; try reflexivity; try ring. }
    rewrite G by lia. replace (c1 <? fe_comp f) with true by (symmetry; apply Nat.ltb_lt; lia).
    rewrite andb_true_r. reflexivity.
  Qed.
End L2.
