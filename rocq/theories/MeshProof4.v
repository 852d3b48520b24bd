(** * Lemmas: properties of the constructed mesh in terms of [MeshSpec] *)
From Coq Require Import List Arith ZArith Bool Lia Permutation Sorted FinFun.
From Verif Require Import Base BaseProof MeshModel MeshSpec MeshProof1 MeshProof2 MeshProof3.
Import ListNotations.

(** every sub-list of local vertices is listed by the reference simplex *)
Definition all_lists (k : nat) : nat -> list (list nat) :=
  fix go n := match n with
              | 0 => [[]]
              | S n' => flat_map (fun l => map (fun i => i :: l) (seq 0 k)) (go n')
              end.
Lemma In_all_lists k n l : length l = n -> (forall i, In i l -> i < k) -> In l (all_lists k n).
Proof.
  revert l; induction n; intros l Hl Hb; destruct l; try discriminate; simpl; auto.
  apply in_flat_map. exists l. split.
  - apply IHn; auto. intros; apply Hb; right; auto.
  - apply in_map_iff. exists n0; split; auto. apply in_seq. specialize (Hb n0 (or_introl eq_refl)). lia.
Qed.
Fixpoint nodupb (l : list nat) : bool :=
  match l with [] => true | x :: l' => negb (existsb (Nat.eqb x) l') && nodupb l' end.
Lemma nodupb_true l : NoDup l -> nodupb l = true.
Proof.
  induction 1; simpl; auto. rewrite IHNoDup, andb_true_r.
  destruct (existsb (Nat.eqb x) l) eqn:E; auto.
  apply existsb_exists in E as (y & Hy & E). apply Nat.eqb_eq in E; subst; contradiction.
Qed.
Definition ref_check : bool :=
  forallb (fun k => forallb (fun d => forallb (fun l =>
     implb (nodupb l) (memb (sort_nat l) (ref_sub k d))) (all_lists (k + 1) (d + 1)))
     (seq 0 (k + 1))) (seq 0 4).
Lemma ref_check_ok : ref_check = true.
Proof. vm_compute. reflexivity. Qed.
Lemma ref_sub_complete k d l :
  k <= 3 -> d <= k -> length l = d + 1 -> NoDup l -> (forall i, In i l -> i < k + 1) ->
  In (sort_nat l) (ref_sub k d).
Proof.
  intros Hk Hd Hl Hn Hb. pose proof ref_check_ok as C. unfold ref_check in C.
  rewrite forallb_forall in C. specialize (C k ltac:(apply in_seq; lia)).
  rewrite forallb_forall in C. specialize (C d ltac:(apply in_seq; lia)).
  rewrite forallb_forall in C. specialize (C l (In_all_lists _ _ _ Hl Hb)).
  rewrite (nodupb_true l Hn) in C. simpl in C. apply memb_In in C; auto.
Qed.
Lemma ref_sub_NoDup k d ix : In ix (ref_sub k d) -> NoDup ix.
Proof.
  intros H1. do 4 (destruct k as [|k]; [do 4 (destruct d as [|d];
   [simpl in H1; repeat (destruct H1 as [<-|H1]; [repeat constructor; simpl; lia|]); contradiction|]); contradiction|]).
  destruct d; contradiction.
Qed.

(** re-ordering the nodes of a simplex permutes its sub-entities *)
Lemma select_reorder k d l l' ix :
  length l = k + 1 -> Permutation l l' -> In ix (ref_sub k d) ->
  exists ix', In ix' (ref_sub k d) /\ Permutation (select l' ix) (select l ix').
Proof.
  intros Hl HP Hi. destruct (ref_sub_length k d ix Hi) as (Li & Hd & Hk).
  apply (Permutation_nth l l' 0) in HP. simpl in HP. destruct HP as (Hl' & f & Hf & Hinj & Hn).
  rewrite Hl in *.
  assert (B : forall i, In i ix -> i < k + 1) by (intros; eapply ref_sub_bound; eauto).
  exists (sort_nat (map f ix)). split.
  - apply ref_sub_complete; auto.
    + rewrite map_length; auto.
    + apply NoDup_map_inj_in; [|eapply ref_sub_NoDup; eauto].
      intros x y Hx Hy. apply Hinj; auto.
    + intros i Hii. apply in_map_iff in Hii as (j & <- & Hj). apply Hf; auto.
  - unfold select. rewrite (map_ext_in _ (fun i => nth (f i) l 0)).
    2:{ intros i Hii. apply Hn; auto. }
    rewrite <- (map_map f (fun i => nth i l 0)).
    apply Permutation_map, Permutation_sym, sort_nat_perm.
Qed.

Lemma fully_tagged_rows blocks physical b row :
  fully_tagged blocks physical -> In b blocks -> In row (b_rows b) ->
  exists t, In (block_dim b, row, t) (input_rows blocks physical).
Proof.
  unfold input_rows. intros F. induction F as [|b0 p0 bl pl Hlen F IH]; simpl; [tauto|].
  intros [->|Hb] Hr.
  - assert (exists t, In (row, t) (combine (b_rows b) p0)) as (t & Ht).
    { clear -Hlen Hr. revert p0 Hlen; induction (b_rows b) as [|r rs IH]; simpl in *; [tauto|].
      intros [|t p0] Hl; [discriminate|]. destruct Hr as [->|Hr].
      - exists t; simpl; auto.
      - destruct (IH Hr p0) as (t' & Ht'); [simpl in Hl; lia|]. exists t'; simpl; auto. }
    exists t. apply in_app_iff; left. apply in_map_iff. exists (row, t); auto.
  - destruct IH as (t & Ht); auto. exists t. apply in_app_iff; right; auto.
Qed.

Lemma F2_in_r {A B} (R : A -> B -> Prop) l l' y :
  Forall2 R l l' -> In y l' -> exists x, In x l /\ R x y.
Proof.
  induction 1; simpl; [tauto|]. intros [->|Hx]; [eauto|].
  destruct (IHForall2 Hx) as (z & ? & ?); eauto.
Qed.

Section Built.
  Variables (np : nat) (blocks : list block) (physical : list (list (option Z))) (cs : cells).
  Hypothesis W : well_shaped blocks.
  Hypothesis HB : build_conformal_mesh np blocks physical = Ok cs.

  Lemma C01_lemma : exists L1 L2 L3,
    NoDup L1 /\ NoDup L2 /\ NoDup L3 /\
    (forall key, In key L1 <-> occurs blocks 1 key) /\
    (forall key, In key L2 <-> occurs blocks 2 key) /\
    (forall key, In key L3 <-> occurs blocks 3 key) /\
    length cs = np + length L1 + length L2 + length L3 /\
    forall i c, cell_at cs i c ->
      c_id c = i /\
      (i < np -> c_dim c = 0 /\ c_nodes c = [i]) /\
      (np <= i < np + length L1 -> c_dim c = 1 /\
         exists key, nth_error L1 (i - np) = Some key /\ Permutation key (c_nodes c)) /\
      (np + length L1 <= i < np + length L1 + length L2 -> c_dim c = 2 /\
         exists key, nth_error L2 (i - (np + length L1)) = Some key /\ Permutation key (c_nodes c)) /\
      (np + length L1 + length L2 <= i -> c_dim c = 3 /\
         exists key, nth_error L3 (i - (np + length L1 + length L2)) = Some key /\
                     Permutation key (c_nodes c)).
  Proof.
    destruct (build_main np blocks physical cs W HB) as (E & L1 & L2 & L3 & EO & NE & Len & R).
    exists L1, L2, L3.
    split; [apply EO|]. split; [apply EO|]. split; [apply EO|]. split; [apply EO|].
    split; [apply EO|]. split; [apply EO|]. split; [auto|].
    intros i c H.
    assert (Hi : i < length cs) by (apply nth_error_Some; unfold cell_at in H; congruence).
    destruct (iv_wf _ _ _ (rs_inv _ _ _ _ _ R) _ _ H) as [W1 W2 W3 W4].
    pose proof (look_range _ _ _ _ _ _ EO _ _ _ W2) as Rg.
    split; [auto|]. split; [|split; [|split]]; intros Hr; (split; [lia|]).
    - destruct Rg as [(D & K & _)|Rg]; [|lia].
      destruct (c_nodes c) as [|x [|y l]].
      + discriminate.
      + simpl in K; auto.
      + apply (f_equal (@length nat)) in K. rewrite length_sort_nat in K. discriminate.
    - destruct Rg as [?|[(D & K & _)|?]]; try lia. rewrite D in W2.
      apply (look_1_iff _ _ _ _ _ _ EO) in W2 as [_ W2]. eexists; split; [exact W2|]. apply sort_nat_perm.
    - destruct Rg as [?|[?|[(D & K & _)|?]]]; try lia. rewrite D in W2.
      apply (look_2_iff _ _ _ _ _ _ EO) in W2 as [_ W2]. eexists; split; [exact W2|]. apply sort_nat_perm.
    - destruct Rg as [?|[?|[?|(D & K & _)]]]; try lia. rewrite D in W2.
      apply (look_3_iff _ _ _ _ _ _ EO) in W2 as [_ W2]. eexists; split; [exact W2|]. apply sort_nat_perm.
  Qed.

  Lemma C02_lemma : forall i c i' c',
    cell_at cs i c -> cell_at cs i' c' -> c_dim c = c_dim c' ->
    Permutation (c_nodes c) (c_nodes c') -> i = i'.
  Proof.
    destruct (build_main np blocks physical cs W HB) as (E & L1 & L2 & L3 & EO & NE & Len & R).
    intros i c i' c' H H' D P.
    pose proof (wc_look _ _ _ _ (iv_wf _ _ _ (rs_inv _ _ _ _ _ R) _ _ H)) as K.
    pose proof (wc_look _ _ _ _ (iv_wf _ _ _ (rs_inv _ _ _ _ _ R) _ _ H')) as K'.
    apply sort_nat_eq_iff in P. rewrite <- D, <- P in K'. congruence.
  Qed.

  Lemma C04_lemma : forall i c, cell_at cs i c ->
    c_dim c <= 3 /\ length (c_nodes c) = c_dim c + 1 /\ length (c_sub c) = c_dim c + 1 /\
    nth (c_dim c) (c_sub c) [] = [i] /\
    forall d, d <= c_dim c ->
      Forall2 (fun ix j => exists c', cell_at cs j c' /\ c_dim c' = d /\
                                      Permutation (c_nodes c') (select (c_nodes c) ix))
              (ref_sub (c_dim c) d) (nth d (c_sub c) []).
  Proof.
    destruct (build_main np blocks physical cs W HB) as (E & L1 & L2 & L3 & EO & NE & Len & R).
    intros i c H. pose proof (rs_inv _ _ _ _ _ R) as I.
    destruct (iv_wf _ _ _ I _ _ H) as [W1 W2 W3 W4].
    assert (D3 : c_dim c <= 3) by (pose proof (look_range _ _ _ _ _ _ EO _ _ _ W2); lia).
    pose proof (look_nodes_len _ _ _ _ _ (iv_look _ _ _ I) W2) as Ln.
    repeat split; auto.
    - specialize (W4 _ (le_n _)). rewrite ref_sub_self in W4 by auto.
      inversion W4 as [|? j ? l' [K _] F]; subst. inversion F; subst.
      rewrite select_seq in K by auto. congruence.
    - intros d Hd. specialize (W4 d Hd). eapply Forall2_impl; [|exact W4].
      simpl. intros ix j [K (c' & Hc')]. exists c'; split; auto.
      pose proof (wc_look _ _ _ _ (iv_wf _ _ _ I _ _ Hc')) as K'.
      destruct (lo_inj _ _ (iv_look _ _ _ I) _ _ _ _ _ K' K) as [E1 E2].
      split; auto. apply sort_nat_eq_iff; auto.
  Qed.

  Lemma F2_nth_l {A B} (R : A -> B -> Prop) l l' p x :
    Forall2 R l l' -> nth_error l p = Some x -> exists y, nth_error l' p = Some y /\ R x y.
  Proof.
    intros F; revert p; induction F; intros [|p] Hp; simpl in *; try discriminate.
    - inversion Hp; subst; eauto.
    - auto.
  Qed.

  Lemma C03_lemma : forall i1 c1 i2 c2 d p1 ix1 p2 ix2,
    cell_at cs i1 c1 -> cell_at cs i2 c2 ->
    nth_error (ref_sub (c_dim c1) d) p1 = Some ix1 ->
    nth_error (ref_sub (c_dim c2) d) p2 = Some ix2 ->
    Permutation (select (c_nodes c1) ix1) (select (c_nodes c2) ix2) ->
    exists j, nth_error (nth d (c_sub c1) []) p1 = Some j /\
              nth_error (nth d (c_sub c2) []) p2 = Some j.
  Proof.
    destruct (build_main np blocks physical cs W HB) as (E & L1 & L2 & L3 & EO & NE & Len & R).
    intros i1 c1 i2 c2 d p1 ix1 p2 ix2 H1 H2 N1 N2 P.
    pose proof (rs_inv _ _ _ _ _ R) as I.
    destruct (iv_wf _ _ _ I _ _ H1) as [A1 A2 A3 A4].
    destruct (iv_wf _ _ _ I _ _ H2) as [B1 B2 B3 B4].
    pose proof (ref_sub_length _ _ _ (nth_error_In _ _ N1)) as (_ & D1 & _).
    pose proof (ref_sub_length _ _ _ (nth_error_In _ _ N2)) as (_ & D2 & _).
    destruct (F2_nth_l _ _ _ _ _ (A4 d D1) N1) as (j1 & J1 & K1 & _).
    destruct (F2_nth_l _ _ _ _ _ (B4 d D2) N2) as (j2 & J2 & K2 & _).
    apply sort_nat_eq_iff in P. rewrite P in K1. exists j1; split; auto. congruence.
  Qed.

  Lemma fold_tag_None E i rows m :
    (forall r t, In r rows -> snd r = Some t -> look E (fst (fst r)) (sort_nat (snd (fst r))) <> Some i) ->
    fold_left (tag_step E i) rows m = m.
  Proof.
    revert m; induction rows as [|r rows IH]; simpl; intros m H; auto.
    rewrite IH by (intros; eapply H; eauto). unfold tag_step.
    destruct (eqb _ _) eqn:Eq; auto. apply (proj1 (eqb_true _ _)) in Eq.
    destruct (snd r) eqn:Er; auto. exfalso; eapply H; eauto.
  Qed.
  Lemma fold_tag_last E i rows m :
    (exists l1 r l2 t, rows = l1 ++ r :: l2 /\ snd r = Some t /\
        look E (fst (fst r)) (sort_nat (snd (fst r))) = Some i /\
        (forall r' t', In r' l2 -> snd r' = Some t' ->
            look E (fst (fst r')) (sort_nat (snd (fst r'))) <> Some i) /\
        fold_left (tag_step E i) rows m = Some t) \/
    ((forall r t, In r rows -> snd r = Some t -> look E (fst (fst r)) (sort_nat (snd (fst r))) <> Some i)
     /\ fold_left (tag_step E i) rows m = m).
  Proof.
    induction rows as [|r rows IH] using rev_ind.
    - right; split; simpl; tauto.
    - rewrite fold_left_app. simpl.
      destruct (eqb (look E (fst (fst r)) (sort_nat (snd (fst r)))) (Some i)) eqn:Eq.
      + apply (proj1 (eqb_true _ _)) in Eq. unfold tag_step at 1 3. rewrite Eq, eqb_refl.
        destruct (snd r) as [t|] eqn:Er.
        * left. exists rows, r, [], t. repeat split; auto.
        * destruct IH as [(l1 & r1 & l2 & t & E1 & E2 & E3 & E4 & E5)|[H1 H2]].
          -- left. exists l1, r1, (l2 ++ [r]), t. rewrite E1, <- app_assoc. repeat split; auto.
             ++ intros r' t' Hr'. apply in_app_iff in Hr' as [Hr'|[<-|[]]]; eauto. congruence.
             ++ rewrite <- E1; auto.
          -- right. split; auto. intros r' t' Hr'. apply in_app_iff in Hr' as [Hr'|[<-|[]]]; eauto. congruence.
      + pose proof Eq as Eq'. apply (proj1 (eqb_false _ _)) in Eq'. unfold tag_step at 1 3. rewrite Eq.
        destruct IH as [(l1 & r1 & l2 & t & E1 & E2 & E3 & E4 & E5)|[H1 H2]].
        * left. exists l1, r1, (l2 ++ [r]), t. rewrite E1, <- app_assoc. repeat split; auto.
          -- intros r' t' Hr'. apply in_app_iff in Hr' as [Hr'|[<-|[]]]; eauto.
          -- rewrite <- E1; auto.
        * right. split; auto. intros r' t' Hr'. apply in_app_iff in Hr' as [Hr'|[<-|[]]]; eauto.
  Qed.

  Lemma C05_lemma : forall i c, cell_at cs i c ->
    last_tag (input_rows blocks physical) (c_dim c) (c_nodes c) (c_mat c).
  Proof.
    destruct (build_main np blocks physical cs W HB) as (E & L1 & L2 & L3 & EO & NE & Len & R).
    intros i c H. pose proof (rs_inv _ _ _ _ _ R) as I.
    destruct (iv_wf _ _ _ I _ _ H) as [W1 W2 W3 W4].
    assert (TC : forall r t, tags_cell (c_dim c) (c_nodes c) r t <->
              (snd r = Some t /\ look E (fst (fst r)) (sort_nat (snd (fst r))) = Some i)).
    { intros r t. unfold tags_cell. split.
      - intros (A & B & C). split; auto. rewrite A. apply sort_nat_eq_iff in B. rewrite B; auto.
      - intros (A & B). destruct (lo_inj _ _ (iv_look _ _ _ I) _ _ _ _ _ W2 B) as [C D].
        repeat split; auto. apply sort_nat_eq_iff; auto. }
    pose proof (rs_mat _ _ _ _ _ R i) as M.
    replace (matof cs i) with (c_mat c) in M by (unfold matof; unfold cell_at in H; rewrite H; auto).
    rewrite (matof_absent (repeat None _)) in M by (intros c0; apply cell_at_empty).
    destruct (fold_tag_last E i (input_rows blocks physical) None)
      as [(l1 & r & l2 & t & E1 & E2 & E3 & E4 & E5)|[H1 H2]].
    - rewrite E5 in M. rewrite M. simpl. exists l1, r, l2. split; auto. split.
      + apply TC; auto.
      + intros r' t' Hr' Hc. apply TC in Hc as [? ?]. eapply E4; eauto.
    - rewrite H2 in M. rewrite M. simpl. intros r t Hr Hc. apply TC in Hc as [? ?]. eapply H1; eauto.
  Qed.


  Lemma C06_lemma : fully_tagged blocks physical -> forall i, i < length cs ->
    (nth_error cs i = Some None <->
     i < np /\ forall d row t, In (d, row, t) (input_rows blocks physical) -> d <= 3 -> ~ In i row).
  Proof.
    destruct (build_main np blocks physical cs W HB) as (E & L1 & L2 & L3 & EO & NE & Len & R).
    intros FT i Hi. pose proof (rs_inv _ _ _ _ _ R) as I.
    (* all sub-entities of the input are present *)
    assert (Occ : forall d key j, occurs blocks d key -> look E d key = Some j -> present cs j).
    { intros d key j (b & k & row & ix & Hb & Hk & Hr & Hix & Hs & Hp) Hl.
      destruct (fully_tagged_rows _ _ _ _ FT Hb Hr) as (t & Ht).
      destruct (ref_sub_length _ _ _ Hix) as (_ & Hdk & Hk3).
      assert (Hbd : block_dim b = k).
      { unfold block_dim. destruct (b_kind b); simpl in Hk; congruence. }
      destruct (rs_rows _ _ _ _ _ R _ Ht) as (id & Hid & (c & Hc)); [simpl; lia|]. simpl in Hid.
      rewrite Hbd in Hid.
      destruct (iv_wf _ _ _ I _ _ Hc) as [W1 W2 W3 W4].
      destruct (lo_inj _ _ (iv_look _ _ _ I) _ _ _ _ _ W2 Hid) as [Ed Ek].
      apply sort_nat_eq_iff in Ek.
      assert (Ln : length (c_nodes c) = k + 1).
      { rewrite (Permutation_length Ek). eapply (proj1 W); eauto. }
      destruct (select_reorder k d (c_nodes c) row ix Ln Ek Hix) as (ix' & Hix' & Hpp).
      assert (F := W4 d ltac:(lia)). rewrite Ed in F.
      destruct (F2_in_l _ _ _ _ F Hix') as (j' & _ & Hj' & Pj').
      assert (key = sort_nat (select (c_nodes c) ix')).
      { apply sorted_perm_eq; auto using sort_nat_sorted. rewrite sort_nat_perm, <- Hpp; auto. }
      subst key. congruence. }
    split.
    - intros Hn.
      assert (Hap : ~ present cs i) by (intros (c & Hc); unfold cell_at in Hc; congruence).
      assert (Hnp : i < np).
      { destruct (le_lt_dec np i) as [Hge|]; auto. exfalso; apply Hap.
        destruct (le_lt_dec (np + length L1) i) as [H1|H1];
        [destruct (le_lt_dec (np + length L1 + length L2) i) as [H2|H2]|].
        - destruct (nth_error L3 (i - (np + length L1 + length L2))) as [k|] eqn:Ek.
          2:{ apply nth_error_None in Ek. lia. }
          apply (Occ 3 k); [apply EO; eapply nth_error_In; eauto|].
          apply (look_3_iff _ _ _ _ _ _ EO); auto.
        - destruct (nth_error L2 (i - (np + length L1))) as [k|] eqn:Ek.
          2:{ apply nth_error_None in Ek. lia. }
          apply (Occ 2 k); [apply EO; eapply nth_error_In; eauto|].
          apply (look_2_iff _ _ _ _ _ _ EO); auto.
        - destruct (nth_error L1 (i - np)) as [k|] eqn:Ek.
          2:{ apply nth_error_None in Ek. lia. }
          apply (Occ 1 k); [apply EO; eapply nth_error_In; eauto|].
          apply (look_1_iff _ _ _ _ _ _ EO); auto. }
      split; auto. intros d row t Hr Hd Hin. apply Hap.
      destruct (rs_rows _ _ _ _ _ R _ Hr) as (id & Hid & (c & Hc)); [auto|]. simpl in Hid.
      destruct (C04_lemma id c Hc) as (D3 & Ln & _ & _ & F).
      destruct (iv_wf _ _ _ I _ _ Hc) as [W1 W2 W3 W4].
      destruct (lo_inj _ _ (iv_look _ _ _ I) _ _ _ _ _ W2 Hid) as [Ed Ek].
      apply sort_nat_eq_iff in Ek. apply Permutation_sym in Ek.
      apply (Permutation_in _ Ek) in Hin. apply In_nth with (d := 0) in Hin as (p & Hp & Hnp').
      assert (Hin0 : In [p] (ref_sub (c_dim c) 0)).
      { apply (ref_sub_complete (c_dim c) 0 [p]); auto; try lia.
        - repeat constructor; simpl; auto.
        - intros q [<-|[]]. lia. }
      destruct (F2_in_l _ _ _ _ (W4 0 (Nat.le_0_l _)) Hin0) as (j & _ & Hj & Pj).
      simpl in Hj. rewrite Hnp' in Hj. apply (look_0_iff _ _ _ _ _ _ EO) in Hj as [<- _]. auto.
    - intros [Hnp Hno]. destruct (nth_error cs i) as [[c|]|] eqn:En; auto.
      2:{ apply nth_error_None in En. lia. }
      exfalso.
      destruct (rs_new _ _ _ _ _ R i i) as [(c0 & Hc0)|([[d row] t] & Hr & Hd & Hin)].
      + apply (look_0_iff _ _ _ _ _ _ EO); auto.
      + exists c; auto.
      + eapply cell_at_empty; eauto.
      + eapply Hno; eauto.
  Qed.

  (** facets and lower sub-entities of a sub-cell are sub-cells *)
  Lemma sub_transitive : forall i c j c' d e,
    cell_at cs i c -> cell_at cs j c' -> d <= c_dim c -> e <= d ->
    In j (nth d (c_sub c) []) -> incl (nth e (c_sub c') []) (nth e (c_sub c) []).
  Proof.
    destruct (build_main np blocks physical cs W HB) as (E & L1 & L2 & L3 & EO & NE & Len & R).
    intros i c j c' d e Hc Hc' Hd He Hj x Hx. pose proof (rs_inv _ _ _ _ _ R) as I.
    destruct (iv_wf _ _ _ I _ _ Hc) as [W1 W2 W3 W4].
    destruct (iv_wf _ _ _ I _ _ Hc') as [V1 V2 V3 V4].
    destruct (C04_lemma _ _ Hc) as (D3 & Ln & _ & _ & _).
    destruct (F2_in_r _ _ _ _ (W4 d Hd) Hj) as (ix & Hix & Kj & _).
    destruct (lo_inj _ _ (iv_look _ _ _ I) _ _ _ _ _ V2 Kj) as [Ed Ek].
    apply sort_nat_eq_iff in Ek.
    destruct (F2_in_r _ _ _ _ (V4 e ltac:(lia)) Hx) as (iy & Hiy & Kx & _).
    rewrite Ed in Hiy.
    destruct (ref_sub_length _ _ _ Hix) as (Lix & _ & _).
    (* express select (c_nodes c') iy through the nodes of c *)
    assert (Lc : length (select (c_nodes c) ix) = d + 1) by (unfold select; rewrite map_length; auto).
    apply Permutation_sym in Ek.
    destruct (select_reorder d e (select (c_nodes c) ix) (c_nodes c') iy Lc Ek Hiy) as (iz & Hiz & Hp).
    assert (Es : select (select (c_nodes c) ix) iz = select (c_nodes c) (select ix iz)).
    { unfold select. rewrite map_map. apply map_ext_in. intros p Hpp.
      rewrite (nth_indep _ 0 (nth 0 (c_nodes c) 0)).
      2:{ rewrite map_length, Lix. eapply ref_sub_bound; eauto. }
      rewrite (map_nth (fun i => nth i (c_nodes c) 0)). reflexivity. }
    destruct (ref_sub_length _ _ _ Hiz) as (Liz & _ & _).
    assert (Hiw : In (sort_nat (select ix iz)) (ref_sub (c_dim c) e)).
    { apply ref_sub_complete; auto; try lia.
      - unfold select; rewrite map_length; auto.
      - apply NoDup_map_inj_in; [|eapply ref_sub_NoDup; eauto].
        intros p q Hpp Hqq Epq. pose proof (ref_sub_NoDup _ _ _ Hix) as ND.
        rewrite (NoDup_nth ix 0) in ND. apply ND; auto; rewrite Lix; eapply ref_sub_bound; eauto.
      - intros p Hpp. apply in_map_iff in Hpp as (q & <- & Hq).
        eapply ref_sub_bound; [exact Hix|]. apply nth_In. rewrite Lix. eapply ref_sub_bound; eauto. }
    destruct (F2_in_l _ _ _ _ (W4 e ltac:(lia)) Hiw) as (y & Hy & Ky & _).
    assert (sort_nat (select (c_nodes c') iy) = sort_nat (select (c_nodes c) (sort_nat (select ix iz)))).
    { apply sort_nat_eq_iff. rewrite Hp, Es. apply Permutation_map, Permutation_sym, sort_nat_perm. }
    assert (x = y) by congruence. subst; auto.
  Qed.

  (** with pairwise different nodes the sub-cell lists have no repetition *)
  Lemma sub_NoDup : forall i c d,
    cell_at cs i c -> NoDup (c_nodes c) -> d <= c_dim c -> NoDup (nth d (c_sub c) []).
  Proof.
    destruct (build_main np blocks physical cs W HB) as (E & L1 & L2 & L3 & EO & NE & Len & R).
    intros i c d Hc ND Hd. pose proof (rs_inv _ _ _ _ _ R) as I.
    destruct (iv_wf _ _ _ I _ _ Hc) as [W1 W2 W3 W4].
    destruct (C04_lemma _ _ Hc) as (D3 & Ln & _ & _ & _).
    specialize (W4 d Hd).
    assert (NR : NoDup (ref_sub (c_dim c) d)).
    { clear -D3 Hd. revert Hd. generalize (c_dim c) D3. intros k.
      do 4 (destruct k as [|k]; [do 4 (destruct d as [|d]; [intros; repeat constructor; simpl; intuition congruence|]); intros; lia|]). intros; lia. }
    assert (Rinj : forall ix iy x, In ix (ref_sub (c_dim c) d) -> In iy (ref_sub (c_dim c) d) ->
       look E d (sort_nat (select (c_nodes c) ix)) = Some x ->
       look E d (sort_nat (select (c_nodes c) iy)) = Some x -> ix = iy).
    { intros ix iy x Hx Hy Kx Ky.
      destruct (lo_inj _ _ (iv_look _ _ _ I) _ _ _ _ _ Kx Ky) as [_ Ek].
      apply sort_nat_eq_iff in Ek.
      assert (Permutation ix iy).
      { apply NoDup_Permutation; try (eapply ref_sub_NoDup; eauto).
        assert (Aux : forall jx jy p, In jx (ref_sub (c_dim c) d) -> In jy (ref_sub (c_dim c) d) ->
           Permutation (select (c_nodes c) jx) (select (c_nodes c) jy) -> In p jx -> In p jy).
        { intros jx jy p Jx Jy Pxy Hp.
          assert (In (nth p (c_nodes c) 0) (select (c_nodes c) jy)) as Hq.
          { eapply Permutation_in; [exact Pxy|]. unfold select; apply in_map_iff; eauto. }
          apply in_map_iff in Hq as (q & Eq & Hq).
          rewrite (NoDup_nth (c_nodes c) 0) in ND. replace p with q; auto.
          apply ND; auto; rewrite Ln; [apply (ref_sub_bound _ _ jy _ Jy Hq)|apply (ref_sub_bound _ _ jx _ Jx Hp)]. }
        intros p; split; [apply (Aux ix iy)|apply (Aux iy ix)]; auto. apply Permutation_sym; auto. }
      assert (Srt : forall jx, In jx (ref_sub (c_dim c) d) -> Sorted le jx).
      { clear -D3 Hd. revert Hd. generalize (c_dim c) D3. intros k.
        do 4 (destruct k as [|k]; [do 4 (destruct d as [|d]; [intros ? ? jx Hj; simpl in Hj;
          repeat (destruct Hj as [<-|Hj]; [repeat constructor|]); contradiction|]); intros; lia|]). intros; lia. }
      apply sorted_perm_eq; auto. }
    clear -W4 NR Rinj. revert W4 NR Rinj. generalize (ref_sub (c_dim c) d) (nth d (c_sub c) []).
    intros l l' F; induction F as [|ix x l l' [Kx _] F IH]; intros NR Rinj; constructor.
    - intros Hx. destruct (F2_in_r _ _ _ _ F Hx) as (iy & Hiy & Ky & _).
      inversion NR; subst. rewrite (Rinj ix iy x) in *; simpl; auto.
    - inversion NR; subst. apply IH; auto. intros; eapply Rinj; simpl; eauto.
  Qed.

  Lemma good_lemma :
    fully_tagged blocks physical -> all_points_used np blocks physical -> distinct_nodes blocks ->
    good_mesh cs.
  Proof.
    intros FT AU DN.
    assert (CL : closed_mesh cs).
    { split.
      - intros i Hi. destruct (nth_error cs i) as [[c|]|] eqn:En.
        + exists c; auto.
        + exfalso. apply (C06_lemma FT i Hi) in En as [Hn Hno].
          destruct (AU i Hn) as (d & row & t & Hr & Hd & Hin). eapply Hno; eauto.
        + apply nth_error_None in En; lia.
      - intros i c Hc. destruct (C04_lemma i c Hc) as (D3 & Ln & Ls & _ & F).
        destruct C01_lemma as (L1 & L2 & L3 & _ & _ & _ & _ & _ & _ & _ & Hid).
        split; [apply (Hid i c Hc)|]. split; [auto|]. split; [auto|].
        intros d j Hd Hj. destruct (F2_in_r _ _ _ _ (F d Hd) Hj) as (ix & _ & c' & Hc' & Hdim & _).
        exists c'; auto. }
    split; [exact CL|]. split; [|split; [|split]].
    - intros i c Hc. apply (C04_lemma i c Hc).
    - intros i c j c' d e. apply sub_transitive.
    - intros i c d Hc Hd. apply (sub_NoDup i c d Hc); auto.
      destruct (build_main np blocks physical cs W HB) as (E & L1 & L2 & L3 & EO & NE & Len & R).
      pose proof (wc_look _ _ _ _ (iv_wf _ _ _ (rs_inv _ _ _ _ _ R) _ _ Hc)) as K.
      assert (Hq : occurs blocks (c_dim c) (sort_nat (c_nodes c)) -> NoDup (c_nodes c)).
      { intros (b & k & row & ix & Hb & Hk & Hr & Hix & _ & Hp).
        rewrite sort_nat_perm in Hp. apply (Permutation_NoDup (Permutation_sym Hp)).
        pose proof (DN b row Hb Hr) as ND.
        apply NoDup_map_inj_in; [|eapply ref_sub_NoDup; eauto].
        intros x y Hx Hy. rewrite (NoDup_nth row 0) in ND.
        assert (Lr : length row = k + 1) by (eapply (proj1 W); eauto).
        apply ND; rewrite Lr; eapply ref_sub_bound; eauto. }
      destruct (look_range _ _ _ _ _ _ EO _ _ _ K)
        as [(D & Ks & _)|[(D & Hin & _)|[(D & Hin & _)|(D & Hin & _)]]].
      + apply (Permutation_NoDup (sort_nat_perm _)). rewrite Ks. repeat constructor; simpl; auto.
      + apply Hq. rewrite D. apply EO; auto.
      + apply Hq. rewrite D. apply EO; auto.
      + apply Hq. rewrite D. apply EO; auto.
    - intros i c d Hc Hd. destruct (C04_lemma i c Hc) as (_ & _ & _ & _ & F).
      specialize (F d Hd). symmetry. clear -F. induction F; simpl; auto.
  Qed.
End Built.
