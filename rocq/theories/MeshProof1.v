(** * Lemmas: the entity maps of [build_conformal_mesh] *)
From Coq Require Import List Arith ZArith Bool Lia Permutation Sorted.
From Verif Require Import Base BaseProof MeshModel MeshSpec.
Import ListNotations.

(** a dict that numbers the keys [K] from [s] on *)
Definition numbered (K : list (list nat)) (s : nat) : dict (list nat) nat :=
  combine K (seq s (length K)).

Lemma dkeys_combine {A B} (K : list A) (V : list B) :
  length K = length V -> dkeys (combine K V) = K.
Proof.
  unfold dkeys; revert V; induction K; destruct V; simpl; intros; try discriminate; auto.
  f_equal; auto.
Qed.
Lemma dvals_combine {A B} (K : list A) (V : list B) :
  length K = length V -> dvals (combine K V) = V.
Proof.
  unfold dvals; revert V; induction K; destruct V; simpl; intros; try discriminate; auto.
  f_equal; auto.
Qed.
Lemma combine_app {A B} (K1 K2 : list A) (V1 V2 : list B) :
  length K1 = length V1 -> combine (K1 ++ K2) (V1 ++ V2) = combine K1 V1 ++ combine K2 V2.
Proof. revert V1; induction K1; destruct V1; simpl; intros; try discriminate; auto. f_equal; auto. Qed.

Lemma dget_numbered_gen {A} `{EqDec A} (K : list A) s k i :
  NoDup K ->
  dget (combine K (seq s (length K))) k = Some i <-> s <= i /\ nth_error K (i - s) = Some k.
Proof.
  revert s; induction K as [|a K IH]; intros s ND; simpl.
  - split; [discriminate|]. intros [_ E]; destruct (i - s); discriminate.
  - inversion ND; subst. destruct (eq_dec k a) as [->|N].
    + split.
      * intros E; inversion E; subst. rewrite Nat.sub_diag; simpl; auto.
      * intros [L E]. destruct (i - s) eqn:D.
        -- f_equal; lia.
        -- simpl in E. apply nth_error_In in E; contradiction.
    + rewrite IH by auto. split.
      * intros [L E]. split; [lia|]. replace (i - s) with (S (i - S s)) by lia; auto.
      * intros [L E]. destruct (i - s) eqn:D; simpl in E; [congruence|].
        split; [lia|]. replace (i - S s) with n by lia; auto.
Qed.
Lemma dget_numbered K s k i :
  NoDup K -> dget (numbered K s) k = Some i <-> s <= i /\ nth_error K (i - s) = Some k.
Proof. apply dget_numbered_gen. Qed.
Lemma length_numbered K s : length (numbered K s) = length K.
Proof. unfold numbered. rewrite combine_length, seq_length; lia. Qed.

Lemma number_keys_spec keys K s :
  NoDup K ->
  exists K', NoDup K' /\ (forall k, In k K' <-> In k K \/ In k keys) /\
    number_keys keys (numbered K s, s + length K) = (numbered K' s, s + length K').
Proof.
  revert K; induction keys as [|k keys IH]; intros K ND.
  - exists K; split; [auto|split]; [simpl; tauto | reflexivity].
  - unfold number_keys; simpl. fold (number_keys keys).
    destruct (dget (numbered K s) k) as [v|] eqn:E.
    + destruct (IH K ND) as (K' & N' & I' & E'). exists K'; repeat split; auto.
      * intros Hk; apply I' in Hk; tauto.
      * intros [Hk|[->|Hk]]; apply I'; auto. left.
        apply dget_numbered in E as [_ E]; auto. apply nth_error_In in E; auto.
    + assert (NI : ~ In k K).
      { apply dget_None in E. unfold numbered in E. rewrite dkeys_combine in E; auto.
        rewrite seq_length; auto. }
      destruct (IH (K ++ [k])) as (K' & N' & I' & E').
      { apply NoDup_app_single; auto. }
      exists K'; split; [auto|split].
      * intros x; rewrite I', in_app_iff; simpl; tauto.
      * rewrite dset_new by auto.
        replace (numbered K s ++ [(k, s + length K)]) with (numbered (K ++ [k]) s).
        2:{ unfold numbered. rewrite app_length, Nat.add_1_r, seq_S; simpl.
            rewrite combine_app; simpl; auto. rewrite seq_length; auto. }
        rewrite app_length in E'; simpl in E'.
        replace (S (s + length K)) with (s + (length K + 1)) by lia. exact E'.
Qed.

Lemma number_points_acc n s m :
  m = combine (seq 0 s) (seq 0 s) ->
  fold_left (fun '(m, vid) i => (dset m i vid, S vid)) (seq s n) (m, s)
  = (combine (seq 0 (s + n)) (seq 0 (s + n)), s + n).
Proof.
  revert s m; induction n as [|n IH]; intros s m ->; simpl.
  - rewrite Nat.add_0_r; auto.
  - rewrite IH; [f_equal; [f_equal; f_equal; lia | lia]|].
    rewrite dset_new.
    + rewrite seq_S, combine_app by auto. reflexivity.
    + apply dget_None. rewrite dkeys_combine by auto. rewrite in_seq; lia.
Qed.
Lemma number_points_eq n : number_points n = combine (seq 0 n) (seq 0 n).
Proof. unfold number_points. rewrite number_points_acc by reflexivity. reflexivity. Qed.

Lemma np_max_seq s n : n <> 0 -> np_max (seq s n) = Ok (s + n - 1).
Proof.
  destruct n; [tauto|]. intros _. simpl. f_equal.
  destruct (fold_max_spec (seq (S s) n) s) as [H1 H2].
  assert (In (s + n) (s :: seq (S s) n)).
  { destruct n; [left; lia|right; apply in_seq; lia]. }
  apply H1 in H. simpl in H2; rewrite in_seq in H2. lia.
Qed.

(** select vs pick *)
Lemma pick_select row ix :
  (forall i, In i ix -> i < length row) -> pick row ix = Ok (select row ix).
Proof.
  intros L. apply mapM_Ok_map. intros i Hi. unfold get_at.
  rewrite (nth_error_nth' row 0) by auto. reflexivity.
Qed.
Lemma mapM_pick_select row ixs :
  (forall ix i, In ix ixs -> In i ix -> i < length row) ->
  mapM (pick row) ixs = Ok (map (select row) ixs).
Proof. intros L. apply mapM_Ok_map. intros ix Hix. apply pick_select; eauto. Qed.

Lemma keys_of_eq rows subs :
  (forall row ix i, In row rows -> In ix subs -> In i ix -> i < length row) ->
  keys_of rows subs
  = Ok (concat (map (fun row => map (fun ix => sort_nat (select row ix)) subs) rows)).
Proof.
  intros L. unfold keys_of.
  rewrite (mapM_Ok_map _ (fun row => map (fun ix => sort_nat (select row ix)) subs)); [reflexivity|].
  intros row Hr. apply mapM_Ok_map. intros ix Hix. rewrite pick_select; eauto.
Qed.
Lemma In_keys_of rows subs k :
  In k (concat (map (fun row => map (fun ix => sort_nat (select row ix)) subs) rows))
  <-> exists row ix, In row rows /\ In ix subs /\ k = sort_nat (select row ix).
Proof.
  rewrite in_concat. split.
  - intros (l & Hl & Hk). apply in_map_iff in Hl as (row & <- & Hr).
    apply in_map_iff in Hk as (ix & <- & Hi). eauto.
  - intros (row & ix & Hr & Hi & ->).
    exists (map (fun ix => sort_nat (select row ix)) subs). split.
    + apply in_map_iff; eauto.
    + apply in_map_iff; eauto.
Qed.

Lemma In_cells_of_kind blocks k row :
  In row (cells_of_kind blocks k) <->
  exists b, In b blocks /\ kind_eqb (b_kind b) k = true /\ In row (b_rows b).
Proof.
  unfold cells_of_kind. rewrite in_flat_map. split.
  - intros (b & Hb & Hr). destruct (kind_eqb (b_kind b) k) eqn:E; [|contradiction]. eauto.
  - intros (b & Hb & E & Hr). exists b; rewrite E; auto.
Qed.

Definition dim_kind (k : nat) : kind :=
  match k with 0 => KVertex | 1 => KLine | 2 => KTriangle | _ => KTetra end.
Lemma kind_eqb_dim b k : k <= 3 -> kind_eqb (b_kind b) (dim_kind k) = true <-> simplex_dim (b_kind b) = Some k.
Proof.
  intros L. do 4 (destruct k as [|k]; [destruct (b_kind b); simpl; split; congruence|]). lia.
Qed.

Lemma occurs_iff blocks d key : 
  occurs blocks d key <->
  exists k row ix, k <= 3 /\ In row (cells_of_kind blocks (dim_kind k)) /\
                   In ix (ref_sub k d) /\ key = sort_nat (select row ix).
Proof.
  split.
  - intros (b & k & row & ix & Hb & Hk & Hr & Hi & Hs & Hp).
    assert (k <= 3) by (destruct (b_kind b); simpl in Hk; inversion Hk; lia).
    exists k, row, ix. repeat split; auto.
    + apply In_cells_of_kind. exists b. rewrite kind_eqb_dim by auto. auto.
    + apply sorted_perm_eq; auto; [apply sort_nat_sorted|]. rewrite sort_nat_perm; auto.
  - intros (k & row & ix & L & Hr & Hi & ->).
    apply In_cells_of_kind in Hr as (b & Hb & Hk & Hr). rewrite kind_eqb_dim in Hk by auto.
    exists b, k, row, ix. repeat split; auto.
    + apply sort_nat_sorted.
    + apply sort_nat_perm.
Qed.

Lemma select_seq row n : length row = n -> select row (seq 0 n) = row.
Proof.
  intros <-. unfold select. apply nth_ext with (d := 0) (d' := 0).
  - rewrite map_length, seq_length; auto.
  - intros i Hi. rewrite map_length, seq_length in Hi.
    rewrite (nth_indep _ 0 (nth 0 row 0)) by (rewrite map_length, seq_length; auto).
    rewrite (map_nth (fun i => nth i row 0)). rewrite seq_nth; auto.
Qed.

Lemma ref_sub_bound k d ix i : In ix (ref_sub k d) -> In i ix -> i < k + 1.
Proof.
  intros H1 H2. do 4 (destruct k as [|k]; [do 4 (destruct d as [|d];
   [simpl in H1; repeat (destruct H1 as [<-|H1]; [simpl in H2; lia|]); contradiction|]); contradiction|]).
  destruct d; contradiction.
Qed.
Lemma ref_sub_length k d ix : In ix (ref_sub k d) -> length ix = d + 1 /\ d <= k /\ k <= 3.
Proof.
  intros H1. do 4 (destruct k as [|k]; [do 4 (destruct d as [|d];
   [simpl in H1; repeat (destruct H1 as [<-|H1]; [simpl; lia|]); contradiction|]); contradiction|]).
  destruct d; contradiction.
Qed.
Lemma ref_sub_self k : k <= 3 -> ref_sub k k = [seq 0 (k + 1)].
Proof. intros L. do 4 (destruct k as [|k]; [reflexivity|]). lia. Qed.

(** The entity maps are exactly the numbered lists of occurring sub-entities. *)
Record ents_ok (np : nat) (blocks : list block) (E : entities) (L1 L2 L3 : list (list nat)) : Prop := {
  eo_np : np <> 0;
  eo_n1 : NoDup L1; eo_n2 : NoDup L2; eo_n3 : NoDup L3;
  eo_i1 : forall k, In k L1 <-> occurs blocks 1 k;
  eo_i2 : forall k, In k L2 <-> occurs blocks 2 k;
  eo_i3 : forall k, In k L3 <-> occurs blocks 3 k;
  eo_0 : e0 E = combine (seq 0 np) (seq 0 np);
  eo_1 : e1 E = numbered L1 np;
  eo_2 : e2 E = numbered L2 (np + length L1);
  eo_3 : e3 E = numbered L3 (np + length L1 + length L2) }.

Lemma well_shaped_rows blocks k row :
  well_shaped blocks -> k <= 3 -> In row (cells_of_kind blocks (dim_kind k)) -> length row = k + 1.
Proof.
  intros W L Hr. apply In_cells_of_kind in Hr as (b & Hb & Hk & Hr).
  rewrite kind_eqb_dim in Hk by auto. eapply (proj1 W); eauto.
Qed.

Lemma build_entities_ok np blocks E :
  well_shaped blocks -> build_entities np blocks = Ok E ->
  exists L1 L2 L3, ents_ok np blocks E L1 L2 L3 /\ L1 <> [].
Proof.
  intros W. unfold build_entities. cbv zeta. rewrite number_points_eq.
  rewrite dvals_combine by auto.
  destruct (Nat.eq_dec np 0) as [->|NP]; [discriminate|].
  rewrite np_max_seq by auto. unfold bind at 1.
  replace (0 + np - 1 + 1) with np by lia.
  rewrite keys_of_eq.
  2:{ intros row ix i Hr Hi Hii. rewrite (well_shaped_rows blocks 3 row) by (auto; lia).
      eapply (ref_sub_bound 3 1); eauto. }
  unfold bind at 1. rewrite keys_of_eq.
  2:{ intros row ix i Hr Hi Hii. rewrite (well_shaped_rows blocks 2 row) by (auto; lia).
      eapply (ref_sub_bound 2 1); eauto. }
  unfold bind at 1.
  set (k_te := concat (map _ (cells_of_kind blocks KTetra))).
  set (k_tr := concat (map _ (cells_of_kind blocks KTriangle))).
  destruct (number_keys_spec k_te [] np (NoDup_nil _)) as (A1 & NA1 & IA1 & EA1).
  change (numbered [] np) with (@nil (list nat * nat)) in EA1.
  simpl length in EA1. rewrite Nat.add_0_r in EA1. replace (number_keys k_te ([], np)) with (numbered A1 np, np + length A1) by (symmetry; exact EA1).
  destruct (number_keys_spec k_tr A1 np NA1) as (A2 & NA2 & IA2 & EA2). rewrite EA2.
  destruct (number_keys_spec (map sort_nat (cells_of_kind blocks KLine)) A2 np NA2)
    as (L1 & NL1 & IL1 & EL1). rewrite EL1. simpl fst.
  unfold numbered at 1. rewrite dvals_combine by (rewrite seq_length; auto).
  destruct (Nat.eq_dec (length L1) 0) as [Z1|NZ1].
  { rewrite Z1. discriminate. }
  rewrite np_max_seq by auto. unfold bind at 1.
  replace (np + length L1 - 1 + 1) with (np + length L1) by lia.
  rewrite keys_of_eq.
  2:{ intros row ix i Hr Hi Hii. rewrite (well_shaped_rows blocks 3 row) by (auto; lia).
      eapply (ref_sub_bound 3 2); eauto. }
  unfold bind at 1.
  set (k_tf := concat (map _ (cells_of_kind blocks KTetra))).
  destruct (number_keys_spec k_tf [] (np + length L1) (NoDup_nil _)) as (B1 & NB1 & IB1 & EB1).
  change (numbered [] (np + length L1)) with (@nil (list nat * nat)) in EB1.
  simpl length in EB1. rewrite Nat.add_0_r in EB1. replace (number_keys k_tf ([], np + length L1)) with (numbered B1 (np + length L1), np + length L1 + length B1) by (symmetry; exact EB1).
  destruct (number_keys_spec (map sort_nat (cells_of_kind blocks KTriangle)) B1 (np + length L1) NB1)
    as (L2 & NL2 & IL2 & EL2). rewrite EL2. simpl fst.
  rewrite length_numbered. unfold numbered at 1.
  rewrite dvals_combine by (rewrite seq_length; auto).
  (* the set of keys *)
  assert (I1 : forall k, In k L1 <-> occurs blocks 1 k).
  { intros k. rewrite IL1, IA2, IA1, occurs_iff. unfold k_te, k_tr. rewrite !In_keys_of.
    rewrite in_map_iff. split.
    - intros [[[[]|(row & ix & Hr & Hi & ->)]|(row & ix & Hr & Hi & ->)]|(row & <- & Hr)].
      + exists 3, row, ix; repeat split; auto.
      + exists 2, row, ix; repeat split; auto.
      + exists 1, row, (seq 0 2); repeat split; auto; [simpl; auto|].
        rewrite select_seq; auto. apply (well_shaped_rows blocks 1); auto; lia.
    - intros (d & row & ix & L & Hr & Hi & ->).
      destruct d as [|[|[|[|d]]]].
      + contradiction.
      + right. simpl in Hi. destruct Hi as [<-|[]]. exists row; split; auto.
        f_equal; symmetry; apply (select_seq row 2). apply (well_shaped_rows blocks 1); auto; lia.
      + left; right. eauto.
      + left; left; right. eauto.
      + lia. }
  assert (I2 : forall k, In k L2 <-> occurs blocks 2 k).
  { intros k. rewrite IL2, IB1, occurs_iff. unfold k_tf. rewrite !In_keys_of.
    rewrite in_map_iff. split.
    - intros [[[]|(row & ix & Hr & Hi & ->)]|(row & <- & Hr)].
      + exists 3, row, ix; repeat split; auto.
      + exists 2, row, (seq 0 3); repeat split; auto; [simpl; auto|].
        rewrite select_seq; auto. apply (well_shaped_rows blocks 2); auto; lia.
    - intros (d & row & ix & L & Hr & Hi & ->).
      destruct d as [|[|[|[|d]]]].
      + contradiction.
      + contradiction.
      + right. simpl in Hi. destruct Hi as [<-|[]]. exists row; split; auto.
        f_equal; symmetry; apply (select_seq row 3). apply (well_shaped_rows blocks 2); auto; lia.
      + left; right. eauto.
      + lia. }
  assert (I3 : forall (L3 : list (list nat)), (forall k, In k L3 <-> In k [] \/
             In k (map sort_nat (cells_of_kind blocks KTetra))) ->
             forall k, In k L3 <-> occurs blocks 3 k).
  { intros L3 IL3 k. rewrite IL3, occurs_iff, in_map_iff. split.
    - intros [[]|(row & <- & Hr)].
      exists 3, row, (seq 0 4); repeat split; auto; [simpl; auto|].
      rewrite select_seq; auto. apply (well_shaped_rows blocks 3); auto; lia.
    - intros (d & row & ix & L & Hr & Hi & ->).
      destruct d as [|[|[|[|d]]]]; try contradiction.
      right. simpl in Hi. destruct Hi as [<-|[]]. exists row; split; auto.
        f_equal; symmetry; apply (select_seq row 4). apply (well_shaped_rows blocks 3); auto; lia. }
  assert (NE1 : L1 <> []) by (intros ->; apply NZ1; reflexivity).
  destruct (length L2 =? 0) eqn:Z2.
  - apply Nat.eqb_eq in Z2. unfold bind.
    assert (T0 : cells_of_kind blocks KTetra = []).
    { destruct (cells_of_kind blocks KTetra) as [|row rows] eqn:ET; auto. exfalso.
      assert (In (sort_nat (select row [1;2;3])) L2).
      { apply I2, occurs_iff. exists 3, row, [1;2;3]. simpl dim_kind. rewrite ET. simpl; auto. }
      destruct L2; [contradiction|discriminate]. }
    rewrite T0. simpl. intros E0; inversion E0; subst; clear E0.
    exists L1, L2, []. split; [|auto]. split; simpl; auto.
    + constructor.
    + intros k. rewrite <- (I3 []); [reflexivity|]. intros k'. rewrite T0; simpl; tauto.
  - apply Nat.eqb_neq in Z2. rewrite np_max_seq by auto. unfold bind.
    replace (np + length L1 + length L2 - 1 + 1) with (np + length L1 + length L2) by lia.
    destruct (number_keys_spec (map sort_nat (cells_of_kind blocks KTetra)) []
                (np + length L1 + length L2) (NoDup_nil _)) as (L3 & NL3 & IL3 & EL3).
    change (numbered [] (np + length L1 + length L2)) with (@nil (list nat * nat)) in EL3.
    simpl length in EL3. rewrite Nat.add_0_r in EL3.
    replace (number_keys (map sort_nat (cells_of_kind blocks KTetra)) ([], np + length L1 + length L2))
      with (numbered L3 (np + length L1 + length L2), np + length L1 + length L2 + length L3)
      by (symmetry; exact EL3). simpl fst.
    intros E0; inversion E0; subst; clear E0.
    exists L1, L2, L3. split; [|auto]. split; simpl; auto.
Qed.
