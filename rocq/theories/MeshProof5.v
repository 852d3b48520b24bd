(** * Lemmas: when the construction of a mesh succeeds, C62 *)
From Coq Require Import List Arith ZArith Bool Lia Permutation Sorted.
From Verif Require Import Base BaseProof MeshModel MeshSpec MeshProof1 MeshProof2 MeshProof3 MeshProof4.
Import ListNotations.

(** ** the entity maps can be built *)
Lemma build_entities_success np blocks b k row :
  well_shaped blocks -> np <> 0 ->
  In b blocks -> simplex_dim (b_kind b) = Some k -> 1 <= k -> In row (b_rows b) ->
  exists E, build_entities np blocks = Ok E.
Proof.
  intros W NP Hb Hk K1 Hrow. unfold build_entities. cbv zeta. rewrite number_points_eq.
  rewrite dvals_combine by auto.
  rewrite np_max_seq by auto. unfold bind at 1.
  replace (0 + np - 1 + 1) with np by lia.
  rewrite keys_of_eq.
  2:{ intros row' ix i Hr Hi Hii. rewrite (well_shaped_rows blocks 3 row') by (auto; lia).
      eapply (ref_sub_bound 3 1); eauto. }
  unfold bind at 1. rewrite keys_of_eq.
  2:{ intros row' ix i Hr Hi Hii. rewrite (well_shaped_rows blocks 2 row') by (auto; lia).
      eapply (ref_sub_bound 2 1); eauto. }
  unfold bind at 1.
  set (k_te := concat (map _ (cells_of_kind blocks KTetra))).
  set (k_tr := concat (map _ (cells_of_kind blocks KTriangle))).
  destruct (number_keys_spec k_te [] np (NoDup_nil _)) as (A1 & NA1 & IA1 & EA1).
  change (numbered [] np) with (@nil (list nat * nat)) in EA1.
  simpl length in EA1. rewrite Nat.add_0_r in EA1. replace (number_keys k_te ([], np)) with (numbered A1 np, np + length A1) by (symmetry; exact EA1).
  destruct (number_keys_spec k_tr A1 np NA1) as (A2 & NA2 & IA2 & EA2). rewrite EA2.
  destruct (number_keys_spec (map sort_nat (cells_of_kind blocks KLine)) A2 np NA2)
    as (L1 & NL1 & IL1 & EL1). rewrite EL1. simpl fst.
  unfold numbered at 1. rewrite dvals_combine by (rewrite seq_length; auto).
  assert (NZ1 : length L1 <> 0).
  { assert (exists key, In key L1) as (key & HK).
    { destruct (b_kind b) eqn:EK; simpl in Hk; inversion Hk; subst k; try lia.
      - exists (sort_nat row). apply IL1. right. apply in_map. apply In_cells_of_kind.
        exists b. rewrite EK. auto.
      - exists (sort_nat (select row [1; 2])). apply IL1. left. apply IA2. right. apply In_keys_of.
        exists row, [1; 2]. split; [apply In_cells_of_kind; exists b; rewrite EK; auto|].
        split; [left; reflexivity|reflexivity].
      - exists (sort_nat (select row [2; 3])). apply IL1. left. apply IA2. left. apply IA1. right. apply In_keys_of.
        exists row, [2; 3]. split; [apply In_cells_of_kind; exists b; rewrite EK; auto|].
        split; [left; reflexivity|reflexivity]. }
    destruct L1; [destruct HK|discriminate]. }
  rewrite np_max_seq by auto. unfold bind at 1.
  replace (np + length L1 - 1 + 1) with (np + length L1) by lia.
  rewrite keys_of_eq.
  2:{ intros row' ix i Hr Hi Hii. rewrite (well_shaped_rows blocks 3 row') by (auto; lia).
      eapply (ref_sub_bound 3 2); eauto. }
  unfold bind at 1.
  destruct (length (fst (number_keys _ _)) =? 0) eqn:Z2; [eexists; reflexivity|].
  match goal with |- context [np_max (dvals ?m)] => set (m2 := m) in * end.
  unfold dvals. destruct m2 as [|x m2']; [discriminate|]. simpl. eexists; reflexivity.
Qed.

(** ** occurring keys are closed under taking sub-entities *)
Lemma occurs_closed blocks d key nodes e ix :
  well_shaped blocks ->
  occurs blocks d key -> Permutation nodes key -> In ix (ref_sub d e) ->
  occurs blocks e (sort_nat (select nodes ix)).
Proof.
  intros W (b & k & row & ix0 & Hb & Hk & Hr & Hi0 & _ & HP) Hn Hix.
  pose proof (proj1 W b k row Hb Hk Hr) as Lrow.
  destruct (ref_sub_length k d ix0 Hi0) as (L0 & Hd & K3).
  destruct (ref_sub_length d e ix Hix) as (Le & He & _).
  assert (HN : Permutation nodes (map (fun i => nth i row 0) ix0)) by (eapply Permutation_trans; eauto).
  apply Permutation_map_inv in HN as (ix1 & -> & HP1).
  assert (L1 : length ix1 = d + 1) by (rewrite <- L0; symmetry; apply Permutation_length; auto).
  assert (B : forall i, In i ix -> i < length ix1) by (intros; rewrite L1; eapply ref_sub_bound; eauto).
  assert (ES : select (map (fun i => nth i row 0) ix1) ix = map (fun i => nth i row 0) (select ix1 ix)).
  { unfold select. rewrite map_map. apply map_ext_in. intros i Hi.
    rewrite (nth_indep _ 0 (nth 0 row 0)) by (rewrite map_length; auto). apply (map_nth (fun i => nth i row 0)). }
  rewrite ES. exists b, k, row, (sort_nat (select ix1 ix)). do 3 (split; [assumption|]). split; [|split].
  - apply ref_sub_complete; auto; try lia.
    + unfold select. rewrite map_length; auto.
    + assert (ND1 : NoDup ix1) by (eapply Permutation_NoDup; [exact HP1|]; eapply ref_sub_NoDup; eauto).
      unfold select. apply NoDup_map_inj_in; [|eapply ref_sub_NoDup; eauto].
      intros x y Hx Hy Exy. apply (NoDup_nth ix1 0) in Exy; auto.
    + intros i Hi. apply in_map_iff in Hi as (j & <- & Hj).
      assert (In (nth j ix1 0) ix1) by (apply nth_In; auto).
      eapply (Permutation_in _ (Permutation_sym HP1)) in H. eapply ref_sub_bound; eauto.
  - apply sort_nat_sorted.
  - eapply Permutation_trans; [apply sort_nat_perm|].
    unfold select at 2. apply Permutation_map. apply Permutation_sym, sort_nat_perm.
Qed.

(** ** insertions succeed *)
Section Progress.
  Variables (E : entities) (N np : nat).
  Hypothesis P0 : forall n, n < np -> look E 0 [n] = Some n.
  Hypothesis PC : forall d nodes id e ix, 1 <= e -> look E d (sort_nat nodes) = Some id ->
    In ix (ref_sub d e) -> exists j, look E e (sort_nat (select nodes ix)) = Some j.

  Lemma retag_progress cs id tag : present cs id -> exists cs', retag cs id tag = Ok cs'.
  Proof.
    intros (c & Hc). destruct tag as [t|]; [|eexists; reflexivity].
    unfold retag, get_at. rewrite Hc. cbn [bind]. eexists; reflexivity.
  Qed.
  Lemma set_present cs id c : id < length cs -> present (set_at cs id (Some c)) id.
  Proof. intros H. exists c. apply cell_at_set; auto. Qed.

  Lemma slot_progress cs id : Inv E N cs -> id < N -> exists slot, get_at cs id = Ok slot.
  Proof.
    intros HI H. rewrite <- (iv_len _ _ _ HI) in H. destruct (nth_error cs id) eqn:En.
    - exists o. unfold get_at. rewrite En. auto.
    - apply nth_error_None in En. lia.
  Qed.

  Lemma vertex_progress cs n tag : Inv E N cs -> n < np -> exists r, insert_vertex E cs n tag = Ok r.
  Proof.
    intros HI Hn. pose proof (P0 n Hn) as L. unfold insert_vertex, dindex. simpl in L. rewrite L. cbn [bind].
    assert (Hlt : n < N) by (eapply (lo_lt _ _ (iv_look _ _ _ HI) 0 [n]); exact L).
    destruct (slot_progress cs n HI Hlt) as (slot & Es). rewrite Es. cbn [bind]. cbv zeta.
    match goal with |- context [retag ?c n tag] => destruct (retag_progress c n tag) as (cs' & Er) end.
    - destruct slot as [c|].
      + exists c. apply get_at_Ok in Es. exact Es.
      + apply set_present. rewrite (iv_len _ _ _ HI). auto.
    - rewrite Er. eexists; reflexivity.
  Qed.

  Lemma loop_progress {A} d (ins : cells -> A -> res (cells * nat)) (g : A -> list nat) items :
    (forall cs x cs' id, Inv E N cs -> ins cs x = Ok (cs', id) -> ins_spec E N d (g x) None cs cs' id) ->
    (forall cs x, Inv E N cs -> In x items -> exists r, ins cs x = Ok r) ->
    forall cs, Inv E N cs -> exists r, insert_loop ins cs items = Ok r.
  Proof.
    intros HS. induction items as [|x items IH]; intros HP cs HI; [eexists; reflexivity|]. simpl.
    destruct (HP cs x HI (or_introl eq_refl)) as ([cs1 id] & E1). rewrite E1. cbn [bind].
    destruct (IH (fun c y Hc Hy => HP c y Hc (or_intror Hy)) cs1) as ([cs2 ids] & E2).
    { apply (is_inv _ _ _ _ _ _ _ _ (HS _ _ _ _ HI E1)). }
    rewrite E2. eexists; reflexivity.
  Qed.

  Lemma edge_progress cs nodes tag id : Inv E N cs -> look E 1 (sort_nat nodes) = Some id ->
    (forall n, In n nodes -> n < np) -> exists r, insert_edge E cs nodes tag = Ok r.
  Proof.
    intros HI L Hn. unfold insert_edge, dindex. simpl in L. rewrite L. cbn [bind].
    assert (Hlt : id < N) by (eapply (lo_lt _ _ (iv_look _ _ _ HI) 1); exact L).
    destruct (slot_progress cs id HI Hlt) as (slot & Es). rewrite Es. cbn [bind].
    destruct slot as [c|].
    - cbn [bind]. destruct (retag_progress cs id tag) as (cs' & Er); [exists c; apply get_at_Ok in Es; exact Es|].
      rewrite Er. eexists; reflexivity.
    - destruct (loop_progress 0 (fun c n => insert_vertex E c n None) (fun n => [n]) nodes) with (cs := cs)
        as ([csv vids] & Ev); auto.
      { intros; apply insert_vertex_spec; auto. }
      { intros; apply vertex_progress; auto. }
      rewrite Ev. cbn [bind].
      apply (insert_loop_spec E N 0 _ (fun n => [n])) in Ev; auto.
      2:{ intros; apply insert_vertex_spec; auto. }
      match goal with |- context [retag ?c id tag] => destruct (retag_progress c id tag) as (cs' & Er) end.
      { apply set_present. rewrite (iv_len _ _ _ (ls_inv _ _ _ _ _ _ _ Ev)). auto. }
      rewrite Er. eexists; reflexivity.
  Qed.

  Lemma vids_progress nodes : (forall n, In n nodes -> n < np) -> mapM (dindex (e0 E)) nodes = Ok nodes.
  Proof.
    induction nodes as [|n nodes IH]; intros H; auto. simpl.
    assert (L : look E 0 [n] = Some n) by (apply P0, H; left; auto). simpl in L.
    unfold dindex at 1. rewrite L. cbn [bind]. rewrite IH; auto. intros; apply H; right; auto.
  Qed.
  Lemma select_lt nodes ix d e : length nodes = d + 1 -> In ix (ref_sub d e) ->
    (forall n, In n nodes -> n < np) -> forall n, In n (select nodes ix) -> n < np.
  Proof.
    intros L Hi H n Hn. apply in_map_iff in Hn as (i & <- & Hii). apply H, nth_In. rewrite L.
    eapply ref_sub_bound; eauto.
  Qed.
  Lemma sub_progress d e nodes : length nodes = d + 1 ->
    mapM (pick nodes) (ref_sub d e) = Ok (map (select nodes) (ref_sub d e)).
  Proof. intros L. apply mapM_pick_select. intros ix i H1 H2. rewrite L. eapply ref_sub_bound; eauto. Qed.

  Lemma polygon_progress cs nodes tag id : Inv E N cs -> look E 2 (sort_nat nodes) = Some id ->
    (forall n, In n nodes -> n < np) -> exists r, insert_polygon E cs nodes tag = Ok r.
  Proof.
    intros HI L Hn. unfold insert_polygon, dindex at 1. pose proof L as L'. simpl in L. rewrite L. cbn [bind].
    pose proof (look_nodes_len _ _ _ _ _ (iv_look _ _ _ HI) L') as Len.
    assert (Hlt : id < N) by (eapply (lo_lt _ _ (iv_look _ _ _ HI) 2); exact L).
    destruct (slot_progress cs id HI Hlt) as (slot & Es). rewrite Es. cbn [bind].
    destruct slot as [c|].
    - cbn [bind]. destruct (retag_progress cs id tag) as (cs' & Er); [exists c; apply get_at_Ok in Es; exact Es|].
      rewrite Er. eexists; reflexivity.
    - rewrite (vids_progress nodes Hn). cbn [bind].
      rewrite (sub_progress 2 1 nodes Len : mapM (pick nodes) tri_edges = _). cbn [bind].
      assert (IN : forall e, In e (map sort_nat (map (select nodes) (ref_sub 2 1))) ->
                (exists j, look E 1 (sort_nat e) = Some j) /\ forall n, In n e -> n < np).
      { intros e He. apply in_map_iff in He as (e' & <- & He). apply in_map_iff in He as (ix & <- & Hix). split.
        - destruct (PC 2 nodes id 1 ix (le_n _) L' Hix) as (j & Hj). exists j.
          rewrite sort_nat_idem; auto.
        - intros n Hn'. apply (Permutation_in _ (sort_nat_perm _)) in Hn'. eapply (select_lt nodes ix 2 1); eauto. }
      match goal with |- context [insert_loop ?f cs ?l] =>
        destruct (loop_progress 1 f (fun e => e) l) with (cs := cs) as ([cse eids] & Ee); auto end.
      { intros; apply insert_edge_spec; auto. }
      { intros c e Hc He. destruct (IN e He) as ((j & Hj) & Hlt'). eapply edge_progress; eauto. }
      rewrite Ee. cbn [bind].
      apply (insert_loop_spec E N 1 _ (fun e => e)) in Ee; auto.
      2:{ intros; apply insert_edge_spec; auto. }
      match goal with |- context [retag ?c id tag] => destruct (retag_progress c id tag) as (cs' & Er) end.
      { apply set_present. rewrite (iv_len _ _ _ (ls_inv _ _ _ _ _ _ _ Ee)). auto. }
      rewrite Er. eexists; reflexivity.
  Qed.

  Lemma polyhedron_progress cs nodes tag id : Inv E N cs -> look E 3 (sort_nat nodes) = Some id ->
    (forall n, In n nodes -> n < np) -> exists r, insert_polyhedron E cs nodes tag = Ok r.
  Proof.
    intros HI L Hn. unfold insert_polyhedron, dindex at 1. pose proof L as L'. simpl in L. rewrite L. cbn [bind].
    pose proof (look_nodes_len _ _ _ _ _ (iv_look _ _ _ HI) L') as Len.
    assert (Hlt : id < N) by (eapply (lo_lt _ _ (iv_look _ _ _ HI) 3); exact L).
    destruct (slot_progress cs id HI Hlt) as (slot & Es). rewrite Es. cbn [bind].
    destruct slot as [c|].
    - cbn [bind]. destruct (retag_progress cs id tag) as (cs' & Er); [exists c; apply get_at_Ok in Es; exact Es|].
      rewrite Er. eexists; reflexivity.
    - rewrite (vids_progress nodes Hn). cbn [bind].
      rewrite (sub_progress 3 1 nodes Len : mapM (pick nodes) tet_edges = _). cbn [bind].
      assert (IN : forall d e, 1 <= d -> In e (map (select nodes) (ref_sub 3 d)) ->
                (exists j, look E d (sort_nat e) = Some j) /\ forall n, In n e -> n < np).
      { intros d e Hd He. apply in_map_iff in He as (ix & <- & Hix). split.
        - eapply PC; eauto.
        - intros n Hn'. eapply (select_lt nodes ix 3 d); eauto. }
      match goal with |- context [insert_loop ?f cs ?l] =>
        destruct (loop_progress 1 f (fun e => e) l) with (cs := cs) as ([cse eids] & Ee); auto end.
      { intros; apply insert_edge_spec; auto. }
      { intros c e Hc He. destruct (IN 1 e (le_n _) He) as ((j & Hj) & Hlt'). eapply edge_progress; eauto. }
      rewrite Ee. cbn [bind].
      apply (insert_loop_spec E N 1 _ (fun e => e)) in Ee; auto.
      2:{ intros; apply insert_edge_spec; auto. }
      rewrite (sub_progress 3 2 nodes Len : mapM (pick nodes) tet_faces = _). cbn [bind].
      match goal with |- context [insert_loop ?f cse ?l] =>
        destruct (loop_progress 2 f (fun e => e) l) with (cs := cse) as ([csf fids] & Ef); auto end.
      { intros; apply insert_polygon_spec; auto. }
      { intros c e Hc He. destruct (IN 2 e ltac:(lia) He) as ((j & Hj) & Hlt'). eapply polygon_progress; eauto. }
      { apply (ls_inv _ _ _ _ _ _ _ Ee). }
      rewrite Ef. cbn [bind].
      apply (insert_loop_spec E N 2 _ (fun e => e)) in Ef; auto.
      2:{ intros; apply insert_polygon_spec; auto. }
      2:{ apply (ls_inv _ _ _ _ _ _ _ Ee). }
      match goal with |- context [retag ?c id tag] => destruct (retag_progress c id tag) as (cs' & Er) end.
      { apply set_present. rewrite (iv_len _ _ _ (ls_inv _ _ _ _ _ _ _ Ef)). auto. }
      rewrite Er. eexists; reflexivity.
  Qed.

  Lemma rows_progress rows : (forall d row t, In (d, row, t) rows -> d = 0 -> length row = 1) ->
    (forall d row t, In (d, row, t) rows -> d <= 3 -> (forall n, In n row -> n < np) /\
       (d = 0 \/ exists id, look E d (sort_nat row) = Some id)) ->
    forall cs, Inv E N cs -> exists cs', foldM (row_step E) rows cs = Ok cs'.
  Proof.
    intros H0 H. induction rows as [|[[d row] t] rows IH]; intros cs HI; [eexists; reflexivity|]. simpl.
    assert (S1 : exists r, insert_row E d cs row t = Ok r /\ (d <= 3 -> ins_spec E N d row t cs (fst r) (snd r)) /\
                 (3 < d -> fst r = cs)).
    { destruct (le_lt_dec d 3) as [Ld|Ld].
      - destruct (H d row t (or_introl eq_refl) Ld) as [Hn Hd].
        assert (EX : exists r, insert_row E d cs row t = Ok r).
        { destruct d as [|[|[|[|d]]]]; [| | | |lia]; simpl.
          - specialize (H0 0 row t (or_introl eq_refl) eq_refl). destruct row as [|n [|? ?]]; try discriminate.
            simpl. apply vertex_progress; auto. apply Hn; left; auto.
          - destruct Hd as [Hd|(id & Hl)]; [discriminate|]. eapply edge_progress; eauto.
          - destruct Hd as [Hd|(id & Hl)]; [discriminate|]. eapply polygon_progress; eauto.
          - destruct Hd as [Hd|(id & Hl)]; [discriminate|]. eapply polyhedron_progress; eauto. }
        destruct EX as ([cs1 id] & EX). exists (cs1, id). split; auto. split; [|lia]. intros _.
        apply insert_row_spec; auto. intros ->. eapply H0; [left; reflexivity|reflexivity].
      - exists (cs, 0). destruct d as [|[|[|[|d]]]]; try lia. split; [reflexivity|]. split; [lia|reflexivity]. }
    destruct S1 as ([cs1 id] & E1 & Sp & Ge). unfold row_step at 1. simpl. rewrite E1. cbn [bind].
    apply IH.
    - intros d' row' t' Hin. apply (H0 d' row' t'). right; auto.
    - intros d' row' t' Hin. apply (H d' row' t'). right; auto.
    - destruct (le_lt_dec d 3) as [Ld|Ld].
      + apply (is_inv _ _ _ _ _ _ _ _ (Sp Ld)).
      + simpl in Ge. rewrite (Ge Ld). auto.
  Qed.
End Progress.

Lemma sort_id key l : Sorted le key -> Permutation key l -> key = sort_nat l.
Proof.
  intros S P. rewrite <- (proj2 (sort_nat_eq_iff key l) P).
  apply sorted_perm_eq; auto using sort_nat_sorted. apply Permutation_sym, sort_nat_perm.
Qed.

Lemma look_occurs np blocks E L1 L2 L3 d key : ents_ok np blocks E L1 L2 L3 -> 1 <= d ->
  ((exists id, look E d key = Some id) <-> occurs blocks d key).
Proof.
  intros EO Hd. destruct EO as [NP N1 N2 N3 I1 I2 I3 E0 E1 E2 E3].
  assert (G : forall K s k, NoDup K -> ((exists id, dget (numbered K s) k = Some id) <-> In k K)).
  { intros K s k ND. split.
    - intros (id & H). apply dget_numbered in H as [_ H]; auto. eapply nth_error_In; eauto.
    - intros H. apply In_nth_error in H as (j & Hj). exists (s + j). apply dget_numbered; auto.
      split; [lia|]. replace (s + j - s) with j by lia. auto. }
  destruct d as [|[|[|[|d]]]]; [lia| | | |]; simpl.
  - rewrite E1, G, I1; tauto.
  - rewrite E2, G, I2; tauto.
  - rewrite E3, G, I3; tauto.
  - split.
    + intros (id & H); discriminate.
    + intros (b & k & row & ix & _ & _ & _ & Hi & _). apply ref_sub_length in Hi. lia.
Qed.

Lemma C62_lemma np blocks physical : well_shaped blocks ->
  ((exists cs, build_conformal_mesh np blocks physical = Ok cs) <->
   0 < np /\
   (exists b k row, In b blocks /\ simplex_dim (b_kind b) = Some k /\ 1 <= k /\ In row (b_rows b)) /\
   (forall d row t, In (d, row, t) (input_rows blocks physical) -> d <= 3 ->
      (forall n, In n row -> n < np) /\
      (d = 0 \/ exists key, Permutation key row /\ occurs blocks d key))).
Proof.
  intros W. split.
  - intros (cs & H). destruct (build_main np blocks physical cs W H) as (E & L1 & L2 & L3 & EO & NE & Len & R).
    split; [pose proof (eo_np _ _ _ _ _ _ EO); lia|]. split.
    + destruct L1 as [|k L1']; [congruence|].
      assert (HO : occurs blocks 1 k) by (apply (eo_i1 _ _ _ _ _ _ EO); left; auto).
      destruct HO as (b & kk & row & ix & Hb & Hk & Hr & Hi & _). exists b, kk, row.
      destruct (ref_sub_length _ _ _ Hi) as (_ & Hle & _). auto.
    + intros d row t Hin Hd. destruct (rs_rows _ _ _ _ _ R (d, row, t) Hin Hd) as (id & Hl & (c & Hc)). simpl in Hl.
      pose proof (rs_inv _ _ _ _ _ R) as HI.
      pose proof (iv_wf _ _ _ HI id c Hc) as WF.
      pose proof (iv_look _ _ _ HI) as LO.
      destruct (lo_inj _ _ LO _ _ _ _ _ Hl (wc_look _ _ _ _ WF)) as [Ed Es].
      assert (PM : Permutation row (c_nodes c)).
      { eapply Permutation_trans; [apply Permutation_sym, sort_nat_perm|]. rewrite Es. apply sort_nat_perm. }
      assert (V : forall n, In n (c_nodes c) -> exists j, look E 0 [n] = Some j).
      { intros n Hn. pose proof (wc_sub _ _ _ _ WF 0 ltac:(lia)) as F.
        assert (LN : length (c_nodes c) = c_dim c + 1).
        { rewrite <- length_sort_nat. eapply lo_len; [exact LO|apply (wc_look _ _ _ _ WF)]. }
        apply In_nth with (d := 0) in Hn as (i & Hi & <-).
        assert (Hix : In [i] (ref_sub (c_dim c) 0)).
        { rewrite LN in Hi. assert (c_dim c <= 3) by lia.
          destruct (c_dim c) as [|[|[|[|?]]]]; try lia;
            destruct i as [|[|[|[|i]]]]; try lia; simpl; auto 6. }
        destruct (F2_in_l _ _ _ _ F Hix) as (j & _ & Hj & _). simpl in Hj. exists j. exact Hj. }
      split.
      * intros n Hn. apply (Permutation_in _ PM) in Hn. destruct (V n Hn) as (j & Hj).
        simpl in Hj. rewrite (eo_0 _ _ _ _ _ _ EO) in Hj.
        apply dget_Some_In in Hj. apply in_combine_l in Hj. apply in_seq in Hj. lia.
      * destruct d as [|d]; [left; auto|right]. exists (sort_nat row). split; [apply sort_nat_perm|].
        eapply look_occurs; eauto. lia.
  - intros (NP & (b & k & row & Hb & Hk & K1 & Hr) & HR).
    destruct (build_entities_success np blocks b k row W ltac:(lia) Hb Hk K1 Hr) as (E & HE).
    destruct (build_entities_ok np blocks E W HE) as (L1 & L2 & L3 & EO & NE).
    unfold build_conformal_mesh. rewrite HE. cbn [bind]. rewrite blocks_rows.
    rewrite (ents_n_cells _ _ _ _ _ _ EO).
    apply (rows_progress E (np + length L1 + length L2 + length L3) np).
    + intros n Hn. simpl. rewrite (eo_0 _ _ _ _ _ _ EO). apply dget_NoDup.
      * rewrite dkeys_combine by auto. apply seq_NoDup.
      * assert (forall s m, s <= n < s + m -> In (n, n) (combine (seq s m) (seq s m))).
        { intros s m; revert s; induction m as [|m IH]; intros s Hs; [lia|]. simpl.
          destruct (Nat.eq_dec s n) as [->|]; [left; auto|right; apply IH; lia]. }
        apply H. lia.
    + intros d nodes id e ix He Hl Hix.
      assert (Hd : 1 <= d) by (apply ref_sub_length in Hix; lia).
      apply (look_occurs _ _ _ _ _ _ e _ EO He).
      eapply occurs_closed; [exact W| |apply Permutation_sym, sort_nat_perm|exact Hix].
      apply (look_occurs _ _ _ _ _ _ d _ EO Hd). eauto.
    + intros d row' t Hin. apply (input_rows_0 blocks physical (d, row', t) W Hin).
    + intros d row' t Hin Hd. destruct (HR d row' t Hin Hd) as [Hn Ho]. split; auto.
      destruct Ho as [->|(key & HP & Ho)]; [left; auto|]. destruct d as [|d]; [left; auto|right].
      apply (look_occurs _ _ _ _ _ _ (S d) _ EO); [lia|].
      assert (SK : Sorted le key) by (destruct Ho as (? & ? & ? & ? & _ & _ & _ & _ & HS & _); exact HS).
      rewrite <- (sort_id key row'); auto.
    + constructor.
      * eapply ents_look_ok; eauto.
      * apply repeat_length.
      * intros i c Hc. exfalso. eapply cell_at_empty; eauto.
Qed.
