(** * Lemmas: determinant and pseudo-inverse of the Jacobian, C56 *)
From Coq Require Import List Arith Bool Reals Lra Lia.
From Verif Require Import Base OrientProof VecBase VecProof MapModel MapSpec.
Import ListNotations.
Local Open Scope R_scope.

Lemma rsum_ext n f g : (forall k, (k < n)%nat -> f k = g k) -> rsum n f = rsum n g.
Proof. induction n; intros H; simpl; auto. rewrite IHn by (intros; apply H; lia). rewrite (H n); auto. Qed.
Lemma rsum_scal n c f : rsum n (fun k => c * f k) = c * rsum n f.
Proof. induction n; simpl; [ring|]. rewrite IHn. ring. Qed.
Lemma rsum_plus n f g : rsum n (fun k => f k + g k) = rsum n f + rsum n g.
Proof. induction n; simpl; [ring|]. rewrite IHn. ring. Qed.
Lemma rsum_swap n m f : rsum n (fun i => rsum m (fun j => f i j)) = rsum m (fun j => rsum n (fun i => f i j)).
Proof.
  induction n; simpl.
  - induction m; simpl; auto. rewrite <- IHm. ring.
  - rewrite IHn, <- rsum_plus. reflexivity.
Qed.
Lemma rsum_zero n f : (forall k, (k < n)%nat -> f k = 0) -> rsum n f = 0.
Proof. induction n; intros H; simpl; auto. rewrite IHn by (intros; apply H; lia). rewrite (H n) by lia. ring. Qed.
Lemma rsum_delta n i f : (i < n)%nat -> rsum n (fun k => (if (i =? k)%nat then 1 else 0) * f k) = f i.
Proof.
  induction n; intros H; [lia|]. simpl. destruct (Nat.eqb_spec i n) as [->|Hn].
  - rewrite rsum_zero; [ring|]. intros k Hk. destruct (Nat.eqb_spec n k); [lia|ring].
  - rewrite IHn by lia. ring.
Qed.

Section Jac.
  Variable qr : nat -> matrix -> matrix * matrix.
  Variable inv : nat -> matrix -> matrix.
  Hypothesis Hinv : is_inverse inv.

  Variable n : nat.
  Variable A Q T : matrix.
  Hypothesis Eqr : qr n A = (Q, T).
  Hypothesis Hqr : factorises n A (Q, T).

  Lemma gram i j : (i < n)%nat -> (j < n)%nat -> rsum 3 (fun k => A k i * A k j) = rsum n (fun p => T p i * T p j).
  Proof.
    intros Hi Hj. destruct Hqr as (HQ & HT & HA); cbn [fst snd] in *.
    transitivity (rsum 3 (fun k => rsum n (fun p => rsum n (fun q => T p i * (T q j * (Q k p * Q k q)))))).
    - apply rsum_ext. intros k Hk. rewrite (HA k i Hk Hi), (HA k j Hk Hj). unfold mmul.
      rewrite Rmult_comm, <- rsum_scal. apply rsum_ext. intros p Hp.
      rewrite Rmult_comm, <- rsum_scal. apply rsum_ext. intros q Hq. ring.
    - rewrite rsum_swap. apply rsum_ext. intros p Hp. rewrite rsum_swap.
      transitivity (rsum n (fun q => T p i * ((if (p =? q)%nat then 1 else 0) * T q j))).
      + apply rsum_ext. intros q Hq. rewrite rsum_scal, rsum_scal. rewrite (HQ p q Hp Hq). ring.
      + rewrite rsum_scal, rsum_delta; auto.
  Qed.
  Lemma signed i j : (i < n)%nat -> (j < n)%nat -> mmul n (sign_matrix T) T i j = sign (T i i) * T i j.
  Proof.
    intros Hi Hj. unfold mmul, sign_matrix. transitivity (rsum n (fun k => (if (i =? k)%nat then 1 else 0) * (sign (T i i) * T k j))).
    - apply rsum_ext. intros k Hk. destruct (i =? k)%nat; ring.
    - apply rsum_delta. auto.
  Qed.
  Lemma q_signed k i : (i < n)%nat -> mmul n Q (sign_matrix T) k i = Q k i * sign (T i i).
  Proof.
    intros Hi. unfold mmul, sign_matrix. transitivity (rsum n (fun l => (if (i =? l)%nat then 1 else 0) * (Q k l * sign (T i i)))).
    - apply rsum_ext. intros l Hl. destruct (Nat.eqb_spec l i) as [->|]; [rewrite Nat.eqb_refl; ring|].
      destruct (Nat.eqb_spec i l); [congruence|ring].
    - rewrite rsum_delta; auto.
  Qed.
  Lemma projected i j : (i < n)%nat -> (j < n)%nat ->
    rsum 3 (fun k => mmul n Q (sign_matrix T) k i * A k j) = mmul n (sign_matrix T) T i j.
  Proof.
    intros Hi Hj. rewrite signed by auto. destruct Hqr as (HQ & HT & HA); cbn [fst snd] in *.
    transitivity (rsum 3 (fun k => rsum n (fun l => (sign (T i i) * T l j) * (Q k i * Q k l)))).
    - apply rsum_ext. intros k Hk. rewrite q_signed, (HA k j Hk Hj) by auto. unfold mmul. rewrite <- rsum_scal.
      apply rsum_ext. intros l Hl. ring.
    - rewrite rsum_swap. transitivity (rsum n (fun l => (if (i =? l)%nat then 1 else 0) * (sign (T i i) * T l j))).
      + apply rsum_ext. intros l Hl. rewrite rsum_scal, (HQ i l Hi Hl). ring.
      + apply rsum_delta. auto.
  Qed.
  Lemma left_inverse : (1 <= n <= 3)%nat -> det n (mmul n (sign_matrix T) T) <> 0 -> forall i j, (i < n)%nat -> (j < n)%nat ->
    mmul 3 (snd (det_and_pseudo_inverse qr inv n A)) A i j = if (i =? j)%nat then 1 else 0.
  Proof.
    intros Hn Hd i j Hi Hj. unfold det_and_pseudo_inverse. rewrite Eqr. cbn [snd].
    rewrite <- (Hinv n _ Hn Hd i j Hi Hj). unfold mmul at 1. unfold mmul at 1.
    set (G := inv n (mmul n (sign_matrix T) T)).
    transitivity (rsum n (fun l => G i l * rsum 3 (fun k => mmul n Q (sign_matrix T) k l * A k j))).
    - transitivity (rsum 3 (fun k => rsum n (fun l => G i l * (mmul n Q (sign_matrix T) k l * A k j)))).
      + apply rsum_ext. intros k Hk. rewrite Rmult_comm, <- rsum_scal. apply rsum_ext. intros l Hl. unfold transpose. ring.
      + rewrite rsum_swap. apply rsum_ext. intros l Hl. apply rsum_scal.
    - unfold mmul at 2. apply rsum_ext. intros l Hl. rewrite projected; auto.
  Qed.
End Jac.

Lemma sign_abs x : sign x * x = Rabs x.
Proof.
  unfold sign. destruct (Rlt_dec 0 x); [rewrite Rabs_right; lra|]. destruct (Rlt_dec x 0); [rewrite Rabs_left; lra|].
  replace x with 0 by lra. rewrite Rabs_R0. ring.
Qed.
Lemma square_abs x y : x * x = y * y -> Rabs x = Rabs y.
Proof. intros H. apply Rsqr_eq_abs_0. exact H. Qed.

Lemma gram_dot cols i j : rsum 3 (fun k => of_columns cols k i * of_columns cols k j) = dot (nth i cols vzero) (nth j cols vzero).
Proof. unfold of_columns, dot. simpl. ring. Qed.

Lemma triple_square u v w : dot (cross u v) w * dot (cross u v) w =
  dot u u * (dot v v * dot w w - dot v w * dot v w) - dot u v * (dot u v * dot w w - dot v w * dot u w) + dot u w * (dot u v * dot v w - dot v v * dot u w).
Proof. unfold dot, cross. simpl. ring. Qed.

Lemma det_lemma qr inv cols Q T : factorises (length cols) (of_columns cols) (Q, T) -> (1 <= length cols <= 3)%nat -> qr (length cols) (of_columns cols) = (Q, T) ->
  fst (det_and_pseudo_inverse qr inv (length cols) (of_columns cols)) = measure cols /\
  fst (det_and_pseudo_inverse qr inv (length cols) (of_columns cols)) = det (length cols) (mmul (length cols) (sign_matrix T) T).
Proof.
  intros Hqr Hn E. unfold det_and_pseudo_inverse. rewrite E. cbn [fst]. split; auto.
  pose proof (gram _ _ _ _ Hqr) as Gm. destruct Hqr as (_ & HT & _). cbn [snd] in HT.
  destruct cols as [|u [|v [|w [|]]]]; simpl length in *; try lia.
  - cbn [det]. rewrite signed, sign_abs by lia. simpl. specialize (Gm 0%nat 0%nat ltac:(lia) ltac:(lia)). rewrite gram_dot in Gm. simpl in Gm.
    rewrite <- (Rabs_right (norm u)) by (apply Rle_ge, norm_nonneg). apply square_abs. rewrite norm_sq. lra.
  - cbn [det]. rewrite !signed by lia. rewrite (HT 1%nat 0%nat) by lia. 
    replace (sign (T 0%nat 0%nat) * T 0%nat 0%nat * (sign (T 1%nat 1%nat) * T 1%nat 1%nat) - sign (T 0%nat 0%nat) * T 0%nat 1%nat * (sign (T 1%nat 1%nat) * 0))
      with ((sign (T 0%nat 0%nat) * T 0%nat 0%nat) * (sign (T 1%nat 1%nat) * T 1%nat 1%nat)) by ring.
    rewrite !sign_abs, <- Rabs_mult. cbn [measure]. rewrite <- (Rabs_right (norm (cross u v))) by (apply Rle_ge, norm_nonneg).
    apply square_abs. rewrite norm_sq, lagrange.
    pose proof (Gm 0%nat 0%nat ltac:(lia) ltac:(lia)) as G00. pose proof (Gm 0%nat 1%nat ltac:(lia) ltac:(lia)) as G01. pose proof (Gm 1%nat 1%nat ltac:(lia) ltac:(lia)) as G11.
    rewrite gram_dot in G00, G01, G11. simpl in G00, G01, G11. rewrite (HT 1%nat 0%nat) in * by lia. rewrite G00, G01, G11. ring.
  - cbn [det]. rewrite !signed by lia. rewrite (HT 1%nat 0%nat), (HT 2%nat 0%nat), (HT 2%nat 1%nat) by lia.
    cbn [measure].
    match goal with |- ?x = _ => replace x with ((sign (T 0%nat 0%nat) * T 0%nat 0%nat) * (sign (T 1%nat 1%nat) * T 1%nat 1%nat) * (sign (T 2%nat 2%nat) * T 2%nat 2%nat)) by ring end.
    rewrite !sign_abs, <- !Rabs_mult. apply square_abs. rewrite triple_square.
    pose proof (Gm 0%nat 0%nat ltac:(lia) ltac:(lia)) as G00. pose proof (Gm 0%nat 1%nat ltac:(lia) ltac:(lia)) as G01. pose proof (Gm 1%nat 1%nat ltac:(lia) ltac:(lia)) as G11.
    pose proof (Gm 0%nat 2%nat ltac:(lia) ltac:(lia)) as G02. pose proof (Gm 1%nat 2%nat ltac:(lia) ltac:(lia)) as G12. pose proof (Gm 2%nat 2%nat ltac:(lia) ltac:(lia)) as G22.
    rewrite gram_dot in G00, G01, G11, G02, G12, G22. simpl in G00, G01, G11, G02, G12, G22.
    rewrite (HT 1%nat 0%nat), (HT 2%nat 0%nat), ?(HT 2%nat 1%nat) in * by lia. rewrite G00, G01, G11, G02, G12, G22. ring.
Qed.

Lemma measure_nonneg cols : 0 <= measure cols.
Proof.
  destruct cols as [|u [|v [|w [|]]]]; simpl; try lra; try apply norm_nonneg. apply Rabs_pos.
Qed.

Lemma jacobian_lemma qr inv cols : factorises (length cols) (of_columns cols) (qr (length cols) (of_columns cols)) -> is_inverse inv -> (1 <= length cols <= 3)%nat -> measure cols <> 0 ->
  let out := det_and_pseudo_inverse qr inv (length cols) (of_columns cols) in
  fst out = measure cols /\ 0 < fst out /\
  forall i j, (i < length cols)%nat -> (j < length cols)%nat -> mmul 3 (snd out) (of_columns cols) i j = if (i =? j)%nat then 1 else 0.
Proof.
  intros Hqr Hinv Hn Hm out. destruct (qr (length cols) (of_columns cols)) as [Q T] eqn:E.
  destruct (det_lemma qr inv cols Q T Hqr Hn E) as [D1 D2]. fold out in D1, D2. split; auto.
  split. { rewrite D1. pose proof (measure_nonneg cols). lra. }
  apply (left_inverse qr inv Hinv _ _ Q T E Hqr Hn). rewrite <- D2, D1. auto.
Qed.

(** The columns of the Jacobian are the edge vectors from the first node. *)
Lemma jac_columns_lemma d x0 xs : length xs = d -> (1 <= d <= 3)%nat -> jac_columns d (x0 :: xs) = map (fun x => vsub x x0) xs.
Proof.
  intros L Hd. destruct xs as [|a [|b [|c [|]]]]; simpl in L; subst d; simpl in Hd; try lia; unfold jac_columns; simpl;
    repeat f_equal; apply vec_ext; unfold lincomb, vsub, vscale, vadd, vzero; simpl; ring.
Qed.

(** ** Concrete parameters *)
Definition cofactor_inverse (n : nat) (A : matrix) : matrix := fun i j =>
  match n with
  | 1%nat => / A 0%nat 0%nat
  | 2%nat => (match i, j with
              | 0%nat, 0%nat => A 1%nat 1%nat | 0%nat, _ => - A 0%nat 1%nat
              | _, 0%nat => - A 1%nat 0%nat | _, _ => A 0%nat 0%nat end) / det 2 A
  | _ => let m a b c d := A a c * A b d - A a d * A b c in
         (match i, j with
          | 0%nat, 0%nat => m 1 2 1 2 | 0%nat, 1%nat => - m 0 2 1 2 | 0%nat, _ => m 0 1 1 2
          | 1%nat, 0%nat => - m 1 2 0 2 | 1%nat, 1%nat => m 0 2 0 2 | 1%nat, _ => - m 0 1 0 2
          | _, 0%nat => m 1 2 0 1 | _, 1%nat => - m 0 2 0 1 | _, _ => m 0 1 0 1 end)%nat / det 3 A
  end.
Lemma cofactor_inverse_ok : is_inverse cofactor_inverse.
Proof.
  intros n A Hn Hd i j Hi Hj. destruct n as [|[|[|[|n]]]]; try lia; unfold mmul; simpl rsum; unfold cofactor_inverse; cbn [det] in *.
  - assert (i = 0%nat) by lia. assert (j = 0%nat) by lia. subst. simpl. field. auto.
  - destruct i as [|[|i]], j as [|[|j]]; try lia; simpl; field; auto.
  - destruct i as [|[|[|i]]], j as [|[|[|j]]]; try lia; simpl; field; auto.
Qed.

(** the map itself *)
Lemma map_x_lemma d x0 xs p : length xs = d -> length p = d -> (1 <= d <= 3)%nat ->
  map_x d (x0 :: xs) p = vadd x0 (vsum (map (fun q => vscale (fst q) (vsub (snd q) x0)) (combine p xs))).
Proof.
  intros L1 L2 Hd. subst d.
  destruct xs as [|a [|b [|c [|]]]]; simpl in Hd; try lia; destruct p as [|p0 [|p1 [|p2 [|]]]]; simpl in L2; try discriminate;
    unfold map_x, lincomb, linear_shapes; simpl; apply vec_ext; unfold vsub, vscale, vadd, vzero; simpl; ring.
Qed.
