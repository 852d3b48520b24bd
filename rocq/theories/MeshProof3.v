(** * Lemmas: the whole of [build_conformal_mesh] *)
From Coq Require Import List Arith ZArith Bool Lia Permutation Sorted.
From Verif Require Import Base BaseProof MeshModel MeshSpec MeshProof1 MeshProof2.
Import ListNotations.

Lemma foldM_app {A S} (f : S -> A -> res S) l1 l2 s :
  foldM f (l1 ++ l2) s = bind (foldM f l1 s) (foldM f l2).
Proof. revert s; induction l1; simpl; intros; auto. destruct (f s a); simpl; auto. Qed.

Definition row_step (E : entities) (cs : cells) (r : nat * list nat * option Z) : res cells :=
  do (c', _) <- insert_row E (fst (fst r)) cs (snd (fst r)) (snd r); Ok c'.

Lemma insert_block_rows E b cs :
  insert_block E cs b =
  foldM (row_step E) (map (fun rp => (block_dim (fst b), fst rp, snd rp))
                          (combine (b_rows (fst b)) (snd b))) cs.
Proof.
  unfold insert_block. generalize (combine (b_rows (fst b)) (snd b)) as l.
  intros l; revert cs; induction l; simpl; intros; auto.
  unfold row_step at 1. simpl. destruct (insert_row _ _ _ _ _) as [[c i]|]; simpl; auto.
Qed.

Lemma blocks_rows E bl cs :
  foldM (insert_block E) bl cs
  = foldM (row_step E)
      (flat_map (fun bp => map (fun rp => (block_dim (fst bp), fst rp, snd rp))
                          (combine (b_rows (fst bp)) (snd bp))) bl) cs.
Proof.
  revert cs; induction bl; simpl; intros; auto.
  rewrite insert_block_rows, foldM_app. destruct (foldM _ _ cs); simpl; auto.
Qed.

Definition tag_step (E : entities) (i : nat) (m : option Z) (r : nat * list nat * option Z) : option Z :=
  if eqb (look E (fst (fst r)) (sort_nat (snd (fst r)))) (Some i)
  then match snd r with Some t => Some t | None => m end else m.

Record run_spec (E : entities) (N : nat) (rows : list (nat * list nat * option Z)) (cs cs' : cells) : Prop := {
  rs_inv : Inv E N cs';
  rs_ext : ext cs cs';
  rs_rows : forall r, In r rows -> fst (fst r) <= 3 ->
     exists id, look E (fst (fst r)) (sort_nat (snd (fst r))) = Some id /\ present cs' id;
  rs_mat : forall i, matof cs' i = fold_left (tag_step E i) rows (matof cs i);
  rs_new : forall i n, look E 0 [n] = Some i -> present cs' i ->
     present cs i \/ exists r, In r rows /\ fst (fst r) <= 3 /\ In n (snd (fst r)) }.

Lemma run_rows E N rows cs cs' :
  (forall r, In r rows -> fst (fst r) = 0 -> length (snd (fst r)) = 1) ->
  Inv E N cs -> foldM (row_step E) rows cs = Ok cs' -> run_spec E N rows cs cs'.
Proof.
  revert cs; induction rows as [|[[d row] tag] rows IH]; simpl; intros cs HL HI E0.
  - inversion E0; subst. constructor; simpl; auto using ext_refl; tauto.
  - apply bind_Ok in E0 as (cs1 & E1 & E0).
    unfold row_step in E1; simpl in E1. apply bind_Ok in E1 as ([c1 id] & E1 & E2).
    inversion E2; subst; clear E2.
    destruct (le_lt_dec d 3) as [Ld|Ld].
    + apply insert_row_spec with (N := N) in E1; auto.
      2:{ intros Hd; specialize (HL (d, row, tag) (or_introl eq_refl)); auto. }
      destruct E1 as [I1 X1 L1 P1 M1 N1].
      apply IH in E0; auto. destruct E0 as [I2 X2 R2 M2 N2].
      constructor; auto.
      * eapply ext_trans; eauto.
      * intros r [<-|Hr] Hd; auto. simpl. exists id; split; auto. eapply ext_present; eauto.
      * intros i. rewrite M2. cbn [fold_left]. f_equal. rewrite M1. unfold tag_step. simpl. rewrite L1.
        destruct (i =? id) eqn:Ei.
        -- apply Nat.eqb_eq in Ei; subst. rewrite eqb_refl; auto.
        -- apply Nat.eqb_neq in Ei. replace (eqb (Some id) (Some i)) with false; auto.
           symmetry; apply eqb_false; congruence.
      * intros i n Hl Hp. destruct (N2 i n Hl Hp) as [Hp1|(r & Hr & Hrd & Hn)].
        -- apply N1 in Hp1 as [Hp1|[_ Hn]]; auto. right. exists (d, row, tag). simpl. auto.
        -- right. exists r; simpl; auto.
    + assert (cs1 = cs /\ forall k, look E d k = None) as [-> Hnone].
      { destruct d as [|[|[|[|d]]]]; try lia. simpl in E1. inversion E1; auto. }
      apply IH in E0; auto. destruct E0 as [I2 X2 R2 M2 N2].
      constructor; auto.
      * intros r [<-|Hr] Hd; auto. simpl in Hd; lia.
      * intros i. rewrite M2. cbn [fold_left]. f_equal. unfold tag_step. simpl. rewrite Hnone. reflexivity.
      * intros i n Hl Hp. destruct (N2 i n Hl Hp) as [Hp1|(r & Hr & Hrd & Hn)]; auto.
        right. exists r; simpl; auto.
Qed.

(** entity maps satisfy [look_ok] *)
Section EntsOk.
  Variables (np : nat) (blocks : list block) (E : entities) (L1 L2 L3 : list (list nat)).
  Hypothesis W : well_shaped blocks.
  Hypothesis EO : ents_ok np blocks E L1 L2 L3.
  Let N := np + length L1 + length L2 + length L3.

  Lemma look_0_iff n i : look E 0 [n] = Some i <-> n = i /\ i < np.
  Proof.
    simpl. rewrite (eo_0 _ _ _ _ _ _ EO).
    assert (Hq := dget_numbered_gen (seq 0 np) 0 n i (seq_NoDup _ _)).
    rewrite seq_length in Hq. rewrite Hq. rewrite Nat.sub_0_r. split.
    - intros [_ Hn]. assert (i < np).
      { rewrite <- (seq_length np 0). apply nth_error_Some; congruence. }
      apply nth_error_nth with (d := 0) in Hn. rewrite seq_nth in Hn; auto.
    - intros [-> Hi]. split; [lia|].
      rewrite (nth_error_nth' _ 0) by (rewrite seq_length; auto). rewrite seq_nth; auto.
  Qed.
  Lemma look_1_iff k i : look E 1 k = Some i <-> np <= i /\ nth_error L1 (i - np) = Some k.
  Proof. simpl. rewrite (eo_1 _ _ _ _ _ _ EO). apply dget_numbered, EO. Qed.
  Lemma look_2_iff k i : look E 2 k = Some i <->
    np + length L1 <= i /\ nth_error L2 (i - (np + length L1)) = Some k.
  Proof. simpl. rewrite (eo_2 _ _ _ _ _ _ EO). apply dget_numbered, EO. Qed.
  Lemma look_3_iff k i : look E 3 k = Some i <->
    np + length L1 + length L2 <= i /\ nth_error L3 (i - (np + length L1 + length L2)) = Some k.
  Proof. simpl. rewrite (eo_3 _ _ _ _ _ _ EO). apply dget_numbered, EO. Qed.

  (* position ranges *)
  Lemma look_range d k i : look E d k = Some i ->
    (d = 0 /\ k = [i] /\ i < np) \/
    (d = 1 /\ In k L1 /\ np <= i < np + length L1) \/
    (d = 2 /\ In k L2 /\ np + length L1 <= i < np + length L1 + length L2) \/
    (d = 3 /\ In k L3 /\ np + length L1 + length L2 <= i < N).
  Proof.
    intros H. destruct d as [|[|[|[|d]]]].
    - left. destruct k as [|n [|? ?]]; try discriminate. apply look_0_iff in H as [-> ?]; auto.
    - right; left. apply look_1_iff in H as [Hl H]. pose proof (nth_error_In _ _ H).
      assert (i - np < length L1) by (apply nth_error_Some; congruence). repeat split; auto; lia.
    - right; right; left. apply look_2_iff in H as [Hl H]. pose proof (nth_error_In _ _ H).
      assert (i - (np + length L1) < length L2) by (apply nth_error_Some; congruence).
      repeat split; auto; lia.
    - right; right; right. apply look_3_iff in H as [Hl H]. pose proof (nth_error_In _ _ H).
      assert (i - (np + length L1 + length L2) < length L3) by (apply nth_error_Some; congruence).
      unfold N; repeat split; auto; lia.
    - discriminate.
  Qed.

  Lemma occurs_len d k : occurs blocks d k -> length k = d + 1.
  Proof.
    intros (b & kk & row & ix & _ & _ & _ & Hi & _ & Hp).
    rewrite (Permutation_length Hp). unfold select. rewrite map_length.
    apply (ref_sub_length kk d ix Hi).
  Qed.
  Lemma occurs_sorted d k : occurs blocks d k -> Sorted le k.
  Proof. intros (b & kk & row & ix & _ & _ & _ & _ & H & _); auto. Qed.

  Lemma ents_look_ok : look_ok E N.
  Proof.
    constructor.
    - intros d k d' k' i H H'.
      assert (d = d').
      { apply look_range in H; apply look_range in H'. lia. }
      subst d'. split; auto.
      destruct d as [|[|[|[|d]]]]; [| | | |discriminate].
      + destruct k as [|n [|? ?]]; try discriminate. destruct k' as [|n' [|? ?]]; try discriminate.
        apply look_0_iff in H, H'. f_equal; lia.
      + apply look_1_iff in H, H'. destruct H, H'; congruence.
      + apply look_2_iff in H, H'. destruct H, H'; congruence.
      + apply look_3_iff in H, H'. destruct H, H'; congruence.
    - intros d k i H. apply look_range in H.
      destruct H as [(-> & -> & _)|[(-> & H & _)|[(-> & H & _)|(-> & H & _)]]]; auto;
      apply EO in H; apply occurs_len in H; auto.
    - intros d k i H. apply look_range in H. unfold N in *. lia.
    - intros d k i H. apply look_range in H.
      destruct H as [(-> & -> & _)|[(-> & H & _)|[(-> & H & _)|(-> & H & _)]]]; auto;
      apply EO in H; apply occurs_sorted in H; auto.
    - intros n i H. apply look_0_iff in H; tauto.
  Qed.

  Lemma ents_n_cells : n_cells E = N.
  Proof.
    unfold n_cells. rewrite (eo_0 _ _ _ _ _ _ EO), (eo_1 _ _ _ _ _ _ EO),
      (eo_2 _ _ _ _ _ _ EO), (eo_3 _ _ _ _ _ _ EO).
    rewrite !length_numbered, combine_length, seq_length, Nat.min_id. reflexivity.
  Qed.
End EntsOk.

Lemma cell_at_empty n i c : ~ cell_at (repeat None n) i c.
Proof.
  unfold cell_at. intros H. apply nth_error_In in H. apply repeat_spec in H. discriminate.
Qed.

Lemma input_rows_0 blocks physical r :
  well_shaped blocks -> In r (input_rows blocks physical) -> fst (fst r) = 0 -> length (snd (fst r)) = 1.
Proof.
  intros [W1 W2] Hr Hd. unfold input_rows in Hr. apply in_flat_map in Hr as ([b p] & Hb & Hr).
  apply in_map_iff in Hr as ([row t] & <- & Hr). simpl in *.
  apply in_combine_l in Hb. apply in_combine_l in Hr.
  destruct (b_kind b) eqn:K; unfold block_dim in Hd; rewrite K in Hd; simpl in Hd; try discriminate.
  - apply (W1 b 0 row); auto. rewrite K; auto.
  - subst d. destruct (W2 b); auto.
Qed.

Theorem build_main np blocks physical cs :
  well_shaped blocks -> build_conformal_mesh np blocks physical = Ok cs ->
  exists E L1 L2 L3, ents_ok np blocks E L1 L2 L3 /\ L1 <> [] /\
    length cs = np + length L1 + length L2 + length L3 /\
    run_spec E (np + length L1 + length L2 + length L3) (input_rows blocks physical)
      (repeat None (np + length L1 + length L2 + length L3)) cs.
Proof.
  intros W H. unfold build_conformal_mesh in H. apply bind_Ok in H as (E & HE & H).
  apply build_entities_ok in HE as (L1 & L2 & L3 & EO & NE); auto.
  rewrite blocks_rows in H. rewrite (ents_n_cells _ _ _ _ _ _ EO) in H.
  exists E, L1, L2, L3.
  assert (R : run_spec E (np + length L1 + length L2 + length L3) (input_rows blocks physical)
      (repeat None (np + length L1 + length L2 + length L3)) cs).
  { apply run_rows; auto.
    - intros r Hr. eapply input_rows_0; eauto.
    - constructor.
      + eapply ents_look_ok; eauto.
      + apply repeat_length.
      + intros i c Hc. exfalso. eapply cell_at_empty; eauto. }
  split; [exact EO|split; [exact NE|split; [|exact R]]]. apply (iv_len _ _ _ (rs_inv _ _ _ _ _ R)).
Qed.
