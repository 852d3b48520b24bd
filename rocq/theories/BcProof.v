(** * Boundary forms *)
From Coq Require Import String List Arith Bool Lia Ring Field.
From Verif Require Import Base BaseProof FormModel FormSpec FormProof FormProof2 AdModel AdModel2 AdSpec AdProof AdProof2 BcSpec.
Import ListNotations.
Open Scope list_scope.

Lemma in_slice_inv : forall b N m n a k, 0 < m -> N = n * m -> in_slice b (b + N) m a = Some k -> a = b + k * m /\ k < n.
Proof.
  intros b N m n a k Hm -> H. unfold in_slice in H.
  destruct ((b <=? a) && (a <? b + n * m) && ((a - b) mod m =? 0)) eqn:E; [|discriminate]. injection H as <-.
  apply andb_true_iff in E as [E E3]. apply andb_true_iff in E as [E1 E2].
  apply Nat.leb_le in E1. apply Nat.ltb_lt in E2. apply Nat.eqb_eq in E3.
  assert (D : a - b = m * ((a - b) / m)) by (apply Nat.div_exact; lia).
  split; [lia|]. apply Nat.div_lt_upper_bound; lia.
Qed.

Section CompLoop.
  Context {F : scalar} (HF : is_ring F).
  Let HR : ring_theory (@k0 F) k1 kadd kmul ksub kopp eq := HF.
  Add Ring KringE : HR.

  Definition st : Type := (nat -> F) * (nat -> nat -> F).

  Lemma comp_loop : forall n m base (step : st -> nat -> res st) (R : nat -> nat -> F) (J : nat -> nat -> nat -> F) (rj : st),
    (forall rj c, c < m -> exists rb jb,
       step rj c = Ok (add_slice (c + base) (c + base + n * m) m rb (fst rj),
                       add_block (c + base) (c + base + n * m) m (c + base) (c + base + n * m) m jb (snd rj)) /\
       (forall k, k < n -> rb k = R c k) /\ (forall k l, k < n -> l < n -> jb k l = J c k l)) ->
    exists rj', foldM step (seq 0 m) rj = Ok rj' /\
      (forall a, a < base \/ base + n * m <= a -> fst rj' a = fst rj a) /\
      (forall a a', a < base \/ base + n * m <= a \/ a' < base \/ base + n * m <= a' -> snd rj' a a' = snd rj a a') /\
      (forall k c, k < n -> c < m -> fst rj' (base + (k * m + c)) = kadd (fst rj (base + (k * m + c))) (R c k)) /\
      (forall k c l c', k < n -> c < m -> l < n -> c' < m ->
         snd rj' (base + (k * m + c)) (base + (l * m + c')) =
         if c =? c' then kadd (snd rj (base + (k * m + c)) (base + (l * m + c'))) (J c k l)
         else snd rj (base + (k * m + c)) (base + (l * m + c'))).
  Proof.
    intros n m base step R J rj H.
    assert (G : forall j, j <= m -> exists rj', foldM step (seq 0 j) rj = Ok rj' /\
      (forall a, a < base \/ base + n * m <= a -> fst rj' a = fst rj a) /\
      (forall a a', a < base \/ base + n * m <= a \/ a' < base \/ base + n * m <= a' -> snd rj' a a' = snd rj a a') /\
      (forall k c, k < n -> c < m -> fst rj' (base + (k * m + c)) =
          if c <? j then kadd (fst rj (base + (k * m + c))) (R c k) else fst rj (base + (k * m + c))) /\
      (forall k c l c', k < n -> c < m -> l < n -> c' < m ->
         snd rj' (base + (k * m + c)) (base + (l * m + c')) =
         if (c =? c') && (c <? j) then kadd (snd rj (base + (k * m + c)) (base + (l * m + c'))) (J c k l)
         else snd rj (base + (k * m + c)) (base + (l * m + c')))).
    { induction j; intros Hj.
      - exists rj. split; [reflexivity|]. split; [reflexivity|]. split; [reflexivity|]. split; [reflexivity|].
        intros. rewrite andb_false_r. reflexivity.
      - destruct IHj as (s & S1 & S2 & S3 & S4 & S5); [lia|].
        destruct (H s j Hj) as (rb & jb & E & ER & EJ).
        assert (Hm : 0 < m) by lia.
        assert (OUT : forall a, a < base \/ base + n * m <= a -> in_slice (j + base) (j + base + n * m) m a = None).
        { intros a Ha. destruct (in_slice (j + base) (j + base + n * m) m a) as [k|] eqn:E'; [|reflexivity].
          apply (in_slice_inv _ (n * m) m n) in E'; [|assumption|reflexivity]. nia. }
        rewrite seq_S, foldM_app_res, S1. simpl. rewrite E. simpl. eexists. split; [reflexivity|]. simpl.
        split; [|split; [|split]].
        + intros a Ha. unfold add_slice. rewrite OUT by exact Ha. apply S2. exact Ha.
        + intros a a' Ha. unfold add_block.
          destruct (in_slice (j + base) (j + base + n * m) m a) eqn:E1; [|apply S3; exact Ha].
          destruct (in_slice (j + base) (j + base + n * m) m a') eqn:E2; [|apply S3; exact Ha].
          exfalso. destruct Ha as [Ha|[Ha|Ha]].
          * rewrite OUT in E1 by lia; discriminate.
          * rewrite OUT in E1 by lia; discriminate.
          * rewrite OUT in E2 by lia; discriminate.
        + intros k c Hk Hc. unfold add_slice. rewrite in_slice_shift, (in_slice_grid n m j k c Hk Hj Hc), S4 by assumption.
          destruct (Nat.eqb_spec c j) as [->|N].
          * rewrite Nat.ltb_irrefl. replace (j <? S j) with true by (symmetry; apply Nat.ltb_lt; lia). rewrite ER by exact Hk. reflexivity.
          * replace (c <? S j) with (c <? j) by (destruct (Nat.ltb_spec c j); symmetry; [apply Nat.ltb_lt|apply Nat.ltb_ge]; lia). reflexivity.
        + intros k c l c' Hk Hc Hl Hc'. unfold add_block.
          rewrite !in_slice_shift, (in_slice_grid n m j k c Hk Hj Hc), (in_slice_grid n m j l c' Hl Hj Hc'), S5 by assumption.
          destruct (Nat.eqb_spec c j) as [->|N].
          * rewrite Nat.ltb_irrefl, andb_false_r. replace (j <? S j) with true by (symmetry; apply Nat.ltb_lt; lia). rewrite andb_true_r, (Nat.eqb_sym j c').
            destruct (c' =? j); [rewrite EJ by assumption|]; reflexivity.
          * replace (c <? S j) with (c <? j) by (destruct (Nat.ltb_spec c j); symmetry; [apply Nat.ltb_lt|apply Nat.ltb_ge]; lia). reflexivity. }
    destruct (G m (le_n m)) as (s & S1 & S2 & S3 & S4 & S5). exists s. split; [exact S1|]. split; [exact S2|]. split; [exact S3|]. split.
    - intros k c Hk Hc. rewrite S4 by assumption. replace (c <? m) with true by (symmetry; apply Nat.ltb_lt; lia). reflexivity.
    - intros k c l c' Hk Hc Hl Hc'. rewrite S5 by assumption. replace (c <? m) with true by (symmetry; apply Nat.ltb_lt; lia). rewrite andb_true_r. reflexivity.
  Qed.

  (** a block built point by point *)
  Lemma vec_points : forall n (term : nat -> res F) (v : F -> nat -> nat -> F) (val : nat -> F) (neg : bool),
    (forall i, i < n -> term i = Ok (val i)) ->
    exists b, foldM (fun b i => do t <- term i; Ok (fun k => if neg then ksub (b k) (v t i k) else kadd (b k) (v t i k))) (seq 0 n) (fun _ : nat => k0) = Ok b /\
      forall k, b k = if neg then kopp (ksum n (fun i => v (val i) i k)) else ksum n (fun i => v (val i) i k).
  Proof.
    intros n term v val neg. induction n; intros H.
    - eexists. split; [reflexivity|]. intros k. destruct neg; simpl; [ring|reflexivity].
    - destruct IHn as (b & B1 & B2); [intros; apply H; lia|]. rewrite seq_S, foldM_app_res, B1. simpl. rewrite H by lia. simpl.
      eexists. split; [reflexivity|]. intros k. simpl. destruct neg; rewrite B2; ring.
  Qed.
  Lemma mat_points : forall n (term : nat -> res F) (v : F -> nat -> nat -> nat -> F) (val : nat -> F),
    (forall i, i < n -> term i = Ok (val i)) ->
    exists b, foldM (fun b i => do t <- term i; Ok (fun k l => kadd (b k l) (v t i k l))) (seq 0 n) (fun _ _ : nat => k0) = Ok b /\
      forall k l, b k l = ksum n (fun i => v (val i) i k l).
  Proof.
    intros n term v val. induction n; intros H.
    - eexists. split; [reflexivity|]. reflexivity.
    - destruct IHn as (b & B1 & B2); [intros; apply H; lia|]. rewrite seq_S, foldM_app_res, B1. simpl. rewrite H by lia. simpl.
      eexists. split; [reflexivity|]. intros k l. simpl. rewrite B2. reflexivity.
  Qed.
End CompLoop.
