(** * Lemmas about Mesh.append_cells *)
From Coq Require Import List Arith ZArith Bool Lia.
From Verif Require Import Base BaseProof MeshModel MeshSpec MeshExamples.
Import ListNotations.

Lemma fold_min_spec l x :
  (forall y, In y (x :: l) -> fold_left Nat.min l x <= y) /\ In (fold_left Nat.min l x) (x :: l).
Proof.
  revert x; induction l as [|a l IH]; simpl; intros x.
  - split; [intros y [->|[]]; auto | auto].
  - destruct (IH (Nat.min x a)) as [H1 H2]. simpl in *. split.
    + intros y [->|[->|Hy]].
      * transitivity (Nat.min y a); [apply H1; auto|lia].
      * transitivity (Nat.min x y); [apply H1; auto|lia].
      * apply H1; auto.
    + destruct H2 as [H2|H2]; auto. rewrite <- H2. destruct (Nat.min_dec x a) as [->| ->]; auto.
Qed.
Lemma min_id_spec l m : min_id l = Ok m ->
  (forall c, In c l -> m <= c_id c) /\ exists c, In c l /\ c_id c = m.
Proof.
  destruct l as [|c l]; simpl; [discriminate|]. intros H; inversion H; subst; clear H.
  destruct (fold_min_spec (map c_id l) (c_id c)) as [H1 H2]. split.
  - intros c' [->|Hc]; apply H1; [left; auto|right; apply in_map; auto].
  - destruct H2 as [H2|H2]; [eauto|]. apply in_map_iff in H2 as (c' & E & Hc). eauto.
Qed.

Lemma append_Ok_iff cs new cs' :
  append_cells cs new = Ok cs' <->
  new <> [] /\ (forall c, In c new -> length cs <= c_id c) /\ cs' = cs ++ map Some new.
Proof.
  unfold append_cells. destruct (min_id new) as [m|e] eqn:E; simpl.
  - destruct (min_id_spec _ _ E) as [M1 (c & M2 & M3)].
    destruct (Z.leb_spec (Z.of_nat m) (Z.of_nat (length cs) - 1)); split.
    + discriminate.
    + intros (_ & H1 & _). specialize (H1 c M2). lia.
    + intros H'; inversion H'; subst. repeat split; auto.
      * destruct new; [destruct M2|discriminate].
      * intros c' Hc. specialize (M1 c' Hc). lia.
    + intros (_ & _ & ->); auto.
  - destruct new; simpl in *; [|discriminate]. split; [discriminate|]. intros ([] & _); auto.
Qed.

Lemma append_keeps cs new cs' :
  append_cells cs new = Ok cs' ->
  (forall i, i < length cs -> nth_error cs' i = nth_error cs i) /\
  length cs' = length cs + length new /\
  (id_is_index cs ->
     (id_is_index cs' <-> map c_id new = seq (length cs) (length new))).
Proof.
  rewrite append_Ok_iff. intros (NE & GE & ->). split; [|split].
  - intros i Hi. apply nth_error_app1; auto.
  - rewrite app_length, map_length; auto.
  - intros I. split.
    + intros I'. apply nth_ext with (d := 0) (d' := 0); [rewrite map_length, seq_length; auto|].
      intros k Hk. rewrite map_length in Hk. rewrite seq_nth by auto.
      destruct (nth_error new k) as [c|] eqn:E; [|apply nth_error_None in E; lia].
      rewrite (nth_error_nth (map c_id new) k 0 (x := c_id c)) by (rewrite nth_error_map, E; auto).
      apply I'. unfold cell_at. rewrite nth_error_app2 by lia.
      replace (length cs + k - length cs) with k by lia. rewrite nth_error_map, E; auto.
    + intros E i c Hc. unfold cell_at in Hc. destruct (Nat.lt_ge_cases i (length cs)).
      * rewrite nth_error_app1 in Hc by auto. apply I; auto.
      * rewrite nth_error_app2 in Hc by auto. rewrite nth_error_map in Hc.
        destruct (nth_error new (i - length cs)) as [c0|] eqn:En; simpl in Hc; inversion Hc; subst.
        assert (Hl : i - length cs < length new) by (apply nth_error_Some; congruence).
        assert (nth_error (map c_id new) (i - length cs) = Some (c_id c)) by (rewrite nth_error_map, En; auto).
        rewrite E in H0. rewrite (nth_error_nth' _ 0) in H0 by (rewrite seq_length; auto).
        rewrite seq_nth in H0 by auto. inversion H0. lia.
Qed.

Lemma C08_lemma cs new :
  (forall cs', append_cells cs new = Ok cs' ->
     (forall i, i < length cs -> nth_error cs' i = nth_error cs i) /\
     length cs' = length cs + length new /\
     (id_is_index cs -> (id_is_index cs' <-> map c_id new = seq (length cs) (length new)))) /\
  ((exists c, In c new /\ c_id c < length cs) -> append_cells cs new = Err ValueError) /\
  (new <> [] -> (forall c, In c new -> length cs <= c_id c) ->
     append_cells cs new = Ok (cs ++ map Some new)).
Proof.
  split; [apply append_keeps|split].
  - intros (c & Hc & Hl). unfold append_cells. destruct (min_id new) as [m|e] eqn:E; simpl.
    + destruct (min_id_spec _ _ E) as [M _]. specialize (M c Hc).
      destruct (Z.leb_spec (Z.of_nat m) (Z.of_nat (length cs) - 1)); auto; lia.
    + destruct new; [destruct Hc|discriminate].
  - intros NE H. apply append_Ok_iff. auto.
Qed.

Lemma C08_ex2_ids : id_is_index ex2.
Proof. intros i c Hc. apply (proj2 (proj1 ex2_good) i c Hc). Qed.

Lemma C08_refuted_lemma :
  (exists cs new cs', id_is_index cs /\ append_cells cs new = Ok cs' /\ ~ id_is_index cs' /\
     NoDup (map c_id new)) /\
  (exists cs new cs', id_is_index cs /\ append_cells cs new = Ok cs' /\ ~ NoDup (map c_id new)).
Proof.
  split; exists ex2.
  - exists [mk_cell 0 20 [4] None [[20]]]. eexists. split; [exact C08_ex2_ids|].
    split; [reflexivity|]. split; [|repeat constructor; auto].
    intros I. specialize (I 11 _ eq_refl). discriminate.
  - exists [mk_cell 0 11 [4] None [[11]]; mk_cell 0 11 [5] None [[11]]]. eexists.
    split; [exact C08_ex2_ids|]. split; [reflexivity|]. simpl. intros ND; inversion ND; subst.
    apply H1; left; auto.
Qed.
