(** * Lemmas: fracture networks, C54, C59 *)
From Coq Require Import List Arith ZArith Bool Lia Permutation Reals Lra.
From Verif Require Import Base BaseProof FracModel FracSpec.
Import ListNotations.

(** ** pairing *)
Lemma pair_injective x y x' y' : (0 <= x -> 0 <= y -> 0 <= x' -> 0 <= y' ->
  pair_integers x y = pair_integers x' y' -> x = x' /\ y = y')%Z.
Proof.
  unfold pair_integers. rewrite !Z.pow_2_r. intros.
  destruct (Z.ltb_spec x y), (Z.ltb_spec x' y').
  - assert (y = y') by nia. subst. nia.
  - exfalso. destruct (Z.lt_trichotomy y x') as [|[|]]; nia.
  - exfalso. destruct (Z.lt_trichotomy x y') as [|[|]]; nia.
  - assert (x = x') by nia. subst. nia.
Qed.
Lemma pair_surjective z : (0 <= z -> exists x y, 0 <= x /\ 0 <= y /\ pair_integers x y = z)%Z.
Proof.
  intros Hz. set (r := Z.sqrt z). pose proof (Z.sqrt_spec z Hz) as S. fold r in S. cbv zeta in S.
  assert (0 <= r)%Z by apply Z.sqrt_nonneg. rewrite <- Z.add_1_r in S.
  destruct (Z.lt_ge_cases (z - r * r) r).
  - exists (z - r * r)%Z, r. split; [lia|]. split; [lia|]. unfold pair_integers. rewrite !Z.pow_2_r.
    destruct (Z.ltb_spec (z - r * r) r); lia.
  - exists r, (z - r * r - r)%Z. split; [lia|]. split; [lia|]. unfold pair_integers. rewrite !Z.pow_2_r.
    destruct (Z.ltb_spec r (z - r * r - r)); nia.
Qed.
Lemma pair_nonneg x y : (0 <= x -> 0 <= y -> 0 <= pair_integers x y)%Z.
Proof. unfold pair_integers. rewrite !Z.pow_2_r. destruct (Z.ltb_spec x y); nia. Qed.

Lemma unpair_lemma x y : (0 <= x)%Z -> (0 <= y)%Z ->
  (unpair_integers (IZR (pair_integers x y)) = (IZR x, IZR y) <-> x = 0%Z).
Proof.
  intros Hx Hy. pose proof (pair_nonneg x y Hx Hy) as Hz.
  assert (Hs : forall z, (0 <= z)%Z -> (sqrt (IZR z) ^ 2 = IZR z)%R).
  { intros z H. simpl. rewrite Rmult_1_r. apply sqrt_sqrt. apply IZR_le. auto. }
  unfold unpair_integers. rewrite (Hs _ Hz). replace (IZR (pair_integers x y) - IZR (pair_integers x y))%R with 0%R by ring.
  destruct (Z.eq_dec (pair_integers x y) 0) as [E|E].
  - rewrite E. rewrite sqrt_0. destruct (Rlt_dec 0 0) as [C|C]; [lra|]. unfold pair_integers in E. rewrite !Z.pow_2_r in E.
    destruct (Z.ltb_spec x y); split; intros Q; try nia.
    + assert (x = 0%Z) by nia. assert (y = 0%Z) by nia. subst. f_equal. ring.
  - assert (P : (0 < sqrt (IZR (pair_integers x y)))%R) by (apply sqrt_lt_R0, IZR_lt; lia).
    destruct (Rlt_dec 0 (sqrt (IZR (pair_integers x y)))) as [C|C]; [|lra]. split.
    + intros Q. inversion Q as [[Q1 Q2]]. apply eq_IZR. congruence.
    + intros ->. f_equal. unfold pair_integers. destruct (Z.ltb_spec 0 y).
      * rewrite Z.pow_2_r, Z.add_0_r, mult_IZR. apply sqrt_square. apply IZR_le; lia.
      * exfalso. apply E. unfold pair_integers. assert (y = 0)%Z by lia. subst y. reflexivity.
Qed.
