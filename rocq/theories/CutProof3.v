(** * Lemmas: runs of the cut, invariants, separation and success, C31-C33 *)
From Coq Require Import List Arith ZArith Bool Lia Sorted Permutation.
From Verif Require Import Base BaseProof MeshModel MeshSpec GraphModel GraphProof CutModel CutSpec CutProof CutProof2.
Import ListNotations.

Section Cut.
  Variable P : Type.
  Notation mesh := (mesh P).
  Notation interface := (interface P).

  Lemma graphs_ok fuel (m : mesh) : layered_mesh (m_cells P m) -> exists l, map Some l = m_cells P m /\
    build_graph (S fuel) (m_cells P m) 2 2 = Ok (vertex_graph 2 l) /\
    build_graph (S fuel) (m_cells P m) 2 1 = Ok (from_edgelist (flat_map (edges_of 1) (filter (fun c => c_dim c =? 2) l))) /\
    build_graph (S fuel) (m_cells P m) 1 1 = Ok (vertex_graph 1 l).
  Proof.
    intros LM. destruct (build_graph_layered fuel _ 2 0 LM) as (l & M & E1); [lia|].
    destruct (build_graph_layered fuel _ 2 1 LM) as (l2 & M2 & E2); [lia|].
    destruct (build_graph_layered fuel _ 1 0 LM) as (l3 & M3 & E3); [lia|].
    assert (INJ : forall a b : list cell, map Some a = map Some b -> a = b).
    { induction a; destruct b; simpl; intros X; try discriminate; auto. inversion X. f_equal; auto. }
    assert (l2 = l) by (apply INJ; congruence). assert (l3 = l) by (apply INJ; congruence). subst.
    exists l. split; auto.
  Qed.

  Lemma fold_dset_get {W} (ks : list nat) : forall (vs : list W) d x, NoDup ks -> length ks = length vs ->
    dget (fold_left (fun d ip => dset d (fst ip) (snd ip)) (combine ks vs) d) x =
    match pos x ks with Some k => nth_error vs k | None => dget d x end.
  Proof.
    induction ks as [|y ks IH]; intros [|v vs] d x ND L; simpl in L; try discriminate; auto.
    inversion ND; subst. cbn [combine fold_left fst snd pos]. rewrite IH by (auto; lia).
    destruct (Nat.eqb_spec x y) as [->|N].
    - rewrite (proj2 (pos_None y ks)) by auto. rewrite dget_dset_same. auto.
    - destruct (pos x ks); simpl; auto. rewrite dget_dset_other; auto.
  Qed.

  Lemma cut_interface_effect fuel (m : mesh) fr f m' fr' : cut_ready P m ->
    cut_interface P (S fuel) (m, fr) f = Ok (m', fr') ->
    exists F V T N, cut_effect P f m m' F V T N /\
      (forall k e, nth_error F k = Some e -> dget fr' e = Some (length (m_cells P m) + k, length (m_cells P m) + length F + k)) /\
      (forall e, ~ In e F -> dget fr' e = dget fr e).
  Proof.
    intros RD H. pose proof RD as (LM & AL & RG). unfold cut_interface in H. cbn [fst snd] in H.
    destruct (graphs_ok fuel m LM) as (l & M & E1 & E2 & E3). rewrite E1, E2, E3 in H. cbn [bind] in H.
    apply bind_Ok in H as (e & He & H). apply bind_Ok in H as (m1 & Hm & H). inversion H; subst m1 fr'; clear H.
    pose proof (cut_edges_spec P m f l e LM M He) as ED.
    destruct (cut_vertices_spec P m f l e m' RD M ED Hm) as (V & T & N & CE).
    exists (ec_f e), V, T, N. split; auto.
    pose proof (StronglySorted_lt_NoDup _ (proj1 (ed_F _ _ _ _ ED))) as ND.
    rewrite (ed_ids _ _ _ _ ED).
    assert (LL : length (ec_f e) = length (combine (seq (length (m_cells P m)) (length (ec_f e)))
        (seq (length (m_cells P m) + length (ec_f e)) (length (ec_f e))))).
    { rewrite combine_length, !seq_length, Nat.min_id. auto. }
    split.
    - intros k x Hk. rewrite fold_dset_get by auto. rewrite (proj2 (pos_nth x _ k ND)) by auto.
      assert (k < length (ec_f e)) by (apply nth_error_Some; congruence).
      apply nth_error_combine; apply nth_error_seq; auto.
    - intros x Hx. rewrite fold_dset_get by auto. rewrite (proj2 (pos_None x _)) by auto. auto.
  Qed.

  (** ** consequences of [cut_effect] *)
  Section Effect.
    Variables (f : interface) (m m' : mesh) (F V T : list nat) (N : list P).
    Hypothesis RD : cut_ready P m.
    Hypothesis CE : cut_effect P f m m' F V T N.
    Notation b := (length (m_cells P m)).
    Notation np := (length (m_points P m)).

    Lemma eff_edge e : In e F -> exists c, cell_at (m_cells P m) e c /\ c_dim c = 1 /\ c_mat c = Some (if_tag P f).
    Proof. intros H. apply (proj2 (ce_F _ _ _ _ _ _ _ _ CE)) in H. exact H. Qed.
    Lemma eff_vertex v : In v V -> exists c, cell_at (m_cells P m) v c /\ c_dim c = 0.
    Proof.
      intros H. apply (proj2 (ce_V _ _ _ _ _ _ _ _ CE)) in H as (e & c & cv & (c' & Hc' & Hd & _) & Hc & Hv & Hcv & _).
      assert (c' = c) by (unfold cell_at in *; congruence). subst c'.
      destruct RD as ((_ & LM) & _). destruct (LM e c Hc) as (_ & _ & _ & S). destruct (S 0 v) as (x & Hx & Hx0); [lia|auto|]. eauto.
    Qed.
    Lemma eff_LT : length T = length V.
    Proof. symmetry. pose proof (ce_T _ _ _ _ _ _ _ _ CE) as X. apply (Forall2_app_nth _ _ _) in X. apply X. Qed.
    Lemma eff_LN : length N = length V.
    Proof. rewrite <- eff_LT. symmetry. pose proof (ce_N _ _ _ _ _ _ _ _ CE) as X. apply (Forall2_app_nth _ _ _) in X. apply X. Qed.
    (** where the cells of the new mesh come from *)
    Lemma eff_origin j c' : cell_at (m_cells P m') j c' ->
      (exists c, cell_at (m_cells P m) j c) \/
      (exists (q : bool) k e c, nth_error F k = Some e /\ cell_at (m_cells P m) e c /\ j = b + (if q then 0 else length F) + k) \/
      (exists (q : bool) k v c, nth_error V k = Some v /\ cell_at (m_cells P m) v c /\ j = b + 2 * length F + (if q then 0 else length V) + k).
    Proof.
      intros H. apply cell_at_lt in H. rewrite (ce_length _ _ _ _ _ _ _ _ CE) in H.
      assert (NTH : forall (l : list nat) k, k < length l -> exists x, nth_error l k = Some x /\ In x l).
      { intros l k Hk. destruct (nth_error l k) eqn:E; [|apply nth_error_None in E; lia]. exists n. split; auto. eapply nth_error_In; eauto. }
      destruct (Nat.lt_ge_cases j b) as [A|A]; [left; apply RD; auto|].
      destruct (Nat.lt_ge_cases j (b + length F)) as [B|B].
      { right; left. destruct (NTH F (j - b)) as (e & He & Hi); [lia|]. destruct (eff_edge e Hi) as (c & Hc & _). exists true, (j - b), e, c. split; auto. split; auto. lia. }
      destruct (Nat.lt_ge_cases j (b + 2 * length F)) as [C|C].
      { right; left. destruct (NTH F (j - b - length F)) as (e & He & Hi); [lia|]. destruct (eff_edge e Hi) as (c & Hc & _). exists false, (j - b - length F), e, c. split; auto. split; auto. lia. }
      right; right. destruct (Nat.lt_ge_cases j (b + 2 * length F + length V)) as [D|D].
      { destruct (NTH V (j - b - 2 * length F)) as (e & He & Hi); [lia|]. destruct (eff_vertex e Hi) as (c & Hc & _). exists true, (j - b - 2 * length F), e, c. split; auto. split; auto. lia. }
      { destruct (NTH V (j - b - 2 * length F - length V)) as (e & He & Hi); [lia|]. destruct (eff_vertex e Hi) as (c & Hc & _). exists false, (j - b - 2 * length F - length V), e, c. split; auto. split; auto. lia. }
    Qed.
    Lemma eff_old_dim i c : cell_at (m_cells P m) i c -> exists c', cell_at (m_cells P m') i c' /\ c_dim c' = c_dim c.
    Proof. intros H. destruct (ce_old _ _ _ _ _ _ _ _ CE i c H) as (c' & q & H1 & H2 & _). eauto. Qed.
    Lemma eff_relabel_F (q : bool) x c : cell_at (m_cells P m) x c -> c_dim c = 1 ->
      exists c', cell_at (m_cells P m') (relabel F (b + if q then 0 else length F) x) c' /\ c_dim c' = 1.
    Proof.
      intros Hc Hd. unfold relabel. destruct (pos x F) as [k|] eqn:E.
      - apply pos_nth in E; [|apply StronglySorted_lt_NoDup, (ce_F _ _ _ _ _ _ _ _ CE)].
        pose proof (ce_edges _ _ _ _ _ _ _ _ CE q k x c E Hc) as X. cbv zeta in X. eexists. split; [exact X|reflexivity].
      - destruct (eff_old_dim x c Hc) as (c' & H1 & H2). exists c'. split; auto. congruence.
    Qed.
    Lemma eff_relabel_V (q : bool) x c t : cell_at (m_cells P m) x c -> c_dim c = 0 -> c_nodes c = [t] ->
      exists c', cell_at (m_cells P m') (relabel V (b + 2 * length F + if q then 0 else length V) x) c' /\ c_dim c' = 0 /\
        c_nodes c' = [relabel T (np + if q then 0 else length V) t].
    Proof.
      intros Hc Hd Ht. unfold relabel.
      rewrite <- (pos_related (m_cells P m) V T x t); [|apply RD|apply CE|apply eff_vertex|eauto].
      destruct (pos x V) as [k|] eqn:E.
      - apply pos_nth in E; [|apply StronglySorted_lt_NoDup, (ce_V _ _ _ _ _ _ _ _ CE)].
        pose proof (ce_vertices _ _ _ _ _ _ _ _ CE q k x c E Hc) as X. cbv zeta in X. eexists. split; [exact X|split; reflexivity].
      - destruct (ce_old _ _ _ _ _ _ _ _ CE x c Hc) as (c' & q' & H1 & H2 & H3 & H4 & H5 & H6 & H7 & H8 & H9 & _).
        rewrite H9 in H1 by auto. exists c. auto.
    Qed.
    Lemma Forall2_map_both {A B C D} (R : C -> D -> Prop) (g : A -> C) (h : B -> D) l l' :
      Forall2 (fun a b => R (g a) (h b)) l l' -> Forall2 R (map g l) (map h l').
    Proof. induction 1; simpl; constructor; auto. Qed.

    Lemma effect_layered : layered_mesh (m_cells P m').
    Proof.
      pose proof RD as ((LF & LM) & (AL0 & _ & _) & _). split.
      - intros i Hi. rewrite (ce_length _ _ _ _ _ _ _ _ CE) in Hi.
        destruct (Nat.lt_ge_cases i b) as [A|A].
        { destruct (LF i A) as (c & Hc). destruct (eff_old_dim i c Hc) as (c' & H1 & _). eauto. }
        assert (NTH : forall (l : list nat) k, k < length l -> exists x, nth_error l k = Some x /\ In x l).
        { intros l k Hk. destruct (nth_error l k) eqn:E; [|apply nth_error_None in E; lia]. exists n. split; auto. eapply nth_error_In; eauto. }
        assert (EE : forall (q : bool) k, k < length F -> exists c, cell_at (m_cells P m') (b + (if q then 0 else length F) + k) c).
        { intros q k Hk. destruct (NTH F k Hk) as (e & He & Hin). destruct (eff_edge e Hin) as (c & Hc & _). eexists. exact (ce_edges _ _ _ _ _ _ _ _ CE q k e c He Hc). }
        assert (VV : forall (q : bool) k, k < length V -> exists c, cell_at (m_cells P m') (b + 2 * length F + (if q then 0 else length V) + k) c).
        { intros q k Hk. destruct (NTH V k Hk) as (e & He & Hin). destruct (eff_vertex e Hin) as (c & Hc & _). eexists. exact (ce_vertices _ _ _ _ _ _ _ _ CE q k e c He Hc). }
        destruct (Nat.lt_ge_cases i (b + length F)) as [B|B]. { replace i with (b + 0 + (i - b)) by lia. apply (EE true). lia. }
        destruct (Nat.lt_ge_cases i (b + 2 * length F)) as [C|C]. { replace i with (b + length F + (i - b - length F)) by lia. apply (EE false). lia. }
        destruct (Nat.lt_ge_cases i (b + 2 * length F + length V)) as [D|D].
        { replace i with (b + 2 * length F + 0 + (i - b - 2 * length F)) by lia. apply (VV true). lia. }
        replace i with (b + 2 * length F + length V + (i - b - 2 * length F - length V)) by lia. apply (VV false). lia.
      - intros i c' Hc'. destruct (eff_origin i c' Hc') as [(c & Hc)|[(q & k & e & c & Hk & Hc & Hi)|(q & k & v & c & Hk & Hc & Hi)]].
        + destruct (ce_old _ _ _ _ _ _ _ _ CE i c Hc) as (c1 & q & H1 & H2 & H3 & H4 & H5 & H6 & H7 & H8 & H9 & H10).
          assert (c1 = c') by (unfold cell_at in *; congruence). subst c1.
          destruct (LM i c Hc) as (Hid & D3 & Ls & Sb).
          split; [congruence|]. split; [lia|]. split; [congruence|]. intros d j Hd Hin. rewrite H2 in Hd.
          assert (UNCH : c' = c -> exists c'0, cell_at (m_cells P m') j c'0 /\ c_dim c'0 = d).
          { intros ->. destruct (Sb d j Hd Hin) as (x & Hx & Hxd). destruct (eff_old_dim j x Hx) as (y & Hy & Hyd). exists y. split; auto. congruence. }
          destruct (in_dec Nat.eq_dec i F) as [IF|NF]; [apply UNCH, H9; auto|].
          destruct (Nat.eq_dec (c_dim c) 3) as [D|D]; [apply UNCH, H9; auto|].
          assert (D12 : c_dim c = 1 \/ c_dim c = 2) by lia. destruct (H8 D12 NF) as [S0 _].
          destruct d as [|d].
          * rewrite S0 in Hin. apply in_map_iff in Hin as (x & <- & Hx). destruct (Sb 0 x) as (cx & Hcx & Hdx); [lia|auto|].
            destruct (AL0 x cx Hcx Hdx) as (t & Ht). destruct (eff_relabel_V q x cx t Hcx Hdx Ht) as (y & Hy & Hyd & _). eauto.
          * assert (d = 0) by lia. subst d. assert (D2 : c_dim c = 2) by lia. rewrite (H7 D2) in Hin.
            apply in_map_iff in Hin as (x & <- & Hx). destruct (Sb 1 x) as (cx & Hcx & Hdx); [lia|auto|].
            apply (eff_relabel_F q x cx); auto.
        + pose proof (ce_edges _ _ _ _ _ _ _ _ CE q k e c Hk Hc) as X. cbv zeta in X. rewrite <- Hi in X.
          assert (EQ : Some (Some c') = Some (Some (mk_cell 1 i (map (relabel T (np + (if q then 0 else length V))) (c_nodes c)) (Some (if q then (1000 * if_tag P f + 1)%Z else (1000 * if_tag P f - 1)%Z)) [map (relabel V (b + 2 * length F + (if q then 0 else length V))) (nth 0 (c_sub c) []); [i; e]]))) by (unfold cell_at in *; congruence).
          injection EQ as ->. cbn [c_id c_dim c_sub length]. split; auto. split; [lia|]. split; auto.
          intros d j Hd Hin. assert (d = 0) by lia. subst d. cbn [nth] in Hin. apply in_map_iff in Hin as (x & <- & Hx).
          destruct (eff_edge e) as (ce & Hce & Hde & _); [eapply nth_error_In; eauto|]. assert (ce = c) by (unfold cell_at in *; congruence). subst ce.
          destruct (LM e c Hc) as (_ & _ & _ & Sb). destruct (Sb 0 x) as (cx & Hcx & Hdx); [lia|auto|].
          destruct (AL0 x cx Hcx Hdx) as (t & Ht). destruct (eff_relabel_V q x cx t Hcx Hdx Ht) as (y & Hy & Hyd & _). eauto.
        + pose proof (ce_vertices _ _ _ _ _ _ _ _ CE q k v c Hk Hc) as X. cbv zeta in X. rewrite <- Hi in X.
          unfold cell_at in X, Hc'. rewrite Hc' in X. inversion X. cbn. split; auto. split; [lia|]. split; auto. intros; lia.
    Qed.

    Lemma relabel_T_range t q : t < np -> relabel T (np + if q : bool then 0 else length V) t < length (m_points P m').
    Proof.
      intros Ht. rewrite (ce_points _ _ _ _ _ _ _ _ CE), !app_length, eff_LN. unfold relabel. destruct (pos t T) eqn:E; [|lia].
      apply pos_lt in E. rewrite eff_LT in E. destruct q; lia.
    Qed.
    Lemma effect_ranges i c t : cell_at (m_cells P m') i c -> In t (c_nodes c) -> t < length (m_points P m').
    Proof.
      intros Hc' Ht. pose proof RD as ((LF & LM) & _ & RG).
      destruct (eff_origin i c Hc') as [(c0 & Hc)|[(q & k & e & c0 & Hk & Hc & Hi)|(q & k & v & c0 & Hk & Hc & Hi)]].
      - destruct (ce_old _ _ _ _ _ _ _ _ CE i c0 Hc) as (c1 & q & H1 & H2 & H3 & H4 & H5 & H6 & H7 & H8 & H9 & H10).
        assert (c1 = c) by (unfold cell_at in *; congruence). subst c1.
        assert (UNCH : c = c0 -> t < length (m_points P m')).
        { intros ->. rewrite (ce_points _ _ _ _ _ _ _ _ CE), app_length. specialize (RG _ _ _ Hc Ht). lia. }
        destruct (in_dec Nat.eq_dec i F) as [IF|NF]; [apply UNCH, H9; auto|].
        destruct (LM i c0 Hc) as (_ & D3 & _).
        destruct (Nat.eq_dec (c_dim c0) 3) as [D|D]; [apply UNCH, H9; auto|].
        destruct (Nat.eq_dec (c_dim c0) 0) as [D0|D0]; [apply UNCH, H9; auto|].
        destruct H8 as [_ H8]; [lia|auto|]. rewrite H8 in Ht. apply in_map_iff in Ht as (x & <- & Hx). apply relabel_T_range. eauto.
      - pose proof (ce_edges _ _ _ _ _ _ _ _ CE q k e c0 Hk Hc) as X. cbv zeta in X. rewrite <- Hi in X.
        unfold cell_at in X, Hc'. rewrite Hc' in X. inversion X; subst c. cbn [c_nodes] in Ht. apply in_map_iff in Ht as (x & <- & Hx). apply relabel_T_range. eauto.
      - pose proof (ce_vertices _ _ _ _ _ _ _ _ CE q k v c0 Hk Hc) as X. cbv zeta in X. rewrite <- Hi in X.
        unfold cell_at in X, Hc'. rewrite Hc' in X. inversion X; subst c. cbn [c_nodes] in Ht. destruct Ht as [<-|[]].
        rewrite (ce_points _ _ _ _ _ _ _ _ CE), !app_length, eff_LN.
        assert (k < length V) by (apply nth_error_Some; congruence). destruct q; lia.
    Qed.

    Lemma effect_aligned : aligned_mesh (m_cells P m').
    Proof.
      pose proof RD as ((LF & LM) & (AL0 & INJ & AL) & RG).
      (* vertices of the new mesh *)
      assert (VX : forall i c', cell_at (m_cells P m') i c' -> c_dim c' = 0 ->
        (cell_at (m_cells P m) i c' /\ exists t, c_nodes c' = [t] /\ t < np) \/
        (exists (q : bool) k, k < length V /\ i = b + 2 * length F + (if q then 0 else length V) + k /\ c_nodes c' = [np + (if q then 0 else length V) + k])).
      { intros i c' Hc' Hd. destruct (eff_origin i c' Hc') as [(c & Hc)|[(q & k & e & c & Hk & Hc & Hi)|(q & k & v & c & Hk & Hc & Hi)]].
        - left. destruct (ce_old _ _ _ _ _ _ _ _ CE i c Hc) as (c1 & q & H1 & H2 & H3 & H4 & H5 & H6 & H7 & H8 & H9 & H10).
          assert (c1 = c') by (unfold cell_at in *; congruence). subst c1. assert (E : c' = c) by (apply H9; left; congruence). subst c'.
          split; auto. destruct (AL0 i c Hc Hd) as (t & Ht). exists t. split; auto. apply (RG i c t Hc). rewrite Ht. left; auto.
        - exfalso. pose proof (ce_edges _ _ _ _ _ _ _ _ CE q k e c Hk Hc) as X. cbv zeta in X. rewrite <- Hi in X.
          unfold cell_at in X, Hc'. rewrite Hc' in X. inversion X; subst c'. cbn in Hd. lia.
        - right. pose proof (ce_vertices _ _ _ _ _ _ _ _ CE q k v c Hk Hc) as X. cbv zeta in X. rewrite <- Hi in X.
          unfold cell_at in X, Hc'. rewrite Hc' in X. inversion X; subst c'. exists q, k. split; [apply nth_error_Some; congruence|]. split; auto. }
      assert (REL : forall q i c, cell_at (m_cells P m) i c -> c_dim c = 1 \/ c_dim c = 2 ->
        Forall2 (fun v t => exists c', cell_at (m_cells P m') v c' /\ c_nodes c' = [t])
          (map (relabel V (b + 2 * length F + if q : bool then 0 else length V)) (nth 0 (c_sub c) []))
          (map (relabel T (np + if q then 0 else length V)) (c_nodes c))).
      { intros q i c Hc Hd. apply Forall2_map_both. specialize (AL i c Hc Hd).
        destruct (LM i c Hc) as (_ & _ & _ & Sb).
        assert (SbV : forall x, In x (nth 0 (c_sub c) []) -> exists c', cell_at (m_cells P m) x c' /\ c_dim c' = 0) by (intros; apply Sb; [lia|auto]).
        clear - AL SbV RD CE. induction AL as [|v t lv lt (c' & Hc' & Hn') AL IH]; constructor.
        - destruct (SbV v) as (x & Hx & Hx0); [left; auto|]. assert (x = c') by (unfold cell_at in *; congruence). subst x.
          destruct (eff_relabel_V q v c' t Hc' Hx0 Hn') as (y & Hy & _ & Hy2). eauto.
        - apply IH. intros. apply SbV. right; auto. }
      split; [|split].
      - intros i c' Hc' Hd. destruct (VX i c' Hc' Hd) as [(_ & t & E & _)|(q & k & _ & _ & E)]; eauto.
      - intros i c j c' Hc Hc' Hd Hd' E.
        destruct (VX i c Hc Hd) as [(A1 & t & A2 & A3)|(q & k & A1 & A2 & A3)];
        destruct (VX j c' Hc' Hd') as [(B1 & t' & B2 & B3)|(q' & k' & B1 & B2 & B3)].
        + eapply INJ; eauto.
        + rewrite A2, B3 in E. inversion E. destruct q'; lia.
        + rewrite A3, B2 in E. inversion E. destruct q; lia.
        + rewrite A3, B3 in E. inversion E. destruct q, q'; lia.
      - intros i c' Hc' Hd. destruct (eff_origin i c' Hc') as [(c & Hc)|[(q & k & e & c & Hk & Hc & Hi)|(q & k & v & c & Hk & Hc & Hi)]].
        + destruct (ce_old _ _ _ _ _ _ _ _ CE i c Hc) as (c1 & q & H1 & H2 & H3 & H4 & H5 & H6 & H7 & H8 & H9 & H10).
          assert (c1 = c') by (unfold cell_at in *; congruence). subst c1. rewrite H2 in Hd.
          destruct (in_dec Nat.eq_dec i F) as [IF|NF].
          * rewrite H9 by auto. specialize (AL i c Hc Hd). destruct (LM i c Hc) as (_ & _ & _ & Sb).
            assert (SbV : forall x, In x (nth 0 (c_sub c) []) -> exists c', cell_at (m_cells P m) x c' /\ c_dim c' = 0) by (intros; apply Sb; [lia|auto]).
            clear - AL SbV RD CE. induction AL as [|v t lv lt (c' & Hc' & Hn') AL IH]; constructor; [|apply IH; intros; apply SbV; right; auto].
            destruct (SbV v) as (x & Hx & Hx0); [left; auto|]. assert (x = c') by (unfold cell_at in *; congruence). subst x.
            destruct (ce_old _ _ _ _ _ _ _ _ CE v c' Hc') as (c1 & q & H1 & H2 & H3 & H4 & H5 & H6 & H7 & H8 & H9 & H10).
            rewrite H9 in H1 by auto. eauto.
          * destruct (H8 Hd NF) as [-> ->]. eapply REL; eauto.
        + pose proof (ce_edges _ _ _ _ _ _ _ _ CE q k e c Hk Hc) as X. cbv zeta in X. rewrite <- Hi in X.
          unfold cell_at in X, Hc'. rewrite Hc' in X. inversion X; subst c'. cbn [c_sub c_nodes nth].
          destruct (eff_edge e) as (ce & Hce & Hde & _); [eapply nth_error_In; eauto|]. assert (ce = c) by (unfold cell_at in *; congruence). subst ce.
          apply (REL q e c); auto.
        + pose proof (ce_vertices _ _ _ _ _ _ _ _ CE q k v c Hk Hc) as X. cbv zeta in X. rewrite <- Hi in X.
          unfold cell_at in X, Hc'. rewrite Hc' in X. inversion X; subst c'. cbn in Hd. lia.
    Qed.

    Lemma effect_ready : cut_ready P m'.
    Proof. split; [apply effect_layered|]. split; [apply effect_aligned|]. intros i c t. apply effect_ranges. Qed.
  End Effect.

  Lemma cut_run_spec fuel shapes : forall (m : mesh) fr m' fr', cut_ready P m ->
    foldM (cut_interface P (S fuel)) shapes (m, fr) = Ok (m', fr') -> cut_run P m shapes m' /\ cut_ready P m'.
  Proof.
    induction shapes as [|f fs IH]; intros m fr m' fr' RD H; simpl in H.
    - inversion H; subst. split; auto. constructor.
    - apply bind_Ok in H as ([m1 fr1] & H1 & H2). destruct (cut_interface_effect fuel m fr f m1 fr1 RD H1) as (F & V & T & N & CE & _).
      pose proof (effect_ready _ _ _ _ _ _ _ RD CE) as RD1. destruct (IH _ _ _ _ RD1 H2) as [A B]. split; auto. econstructor; eauto.
  Qed.
End Cut.
