(** * Lemmas: runs of cuts along fractures, separation and success, C111 (as CutProof3 and CutProof4) *)
From Coq Require Import List Arith ZArith Bool Lia Sorted Permutation.
From Verif Require Import Base BaseProof MeshModel MeshSpec GraphModel GraphProof CutModel CutSpec CutProof CutProof2 CutProof3 CutProof4 FracCutModel FracCutSpec FracCutProof.
Import ListNotations.

Section Cut.
  Variable P : Type.
  Notation mesh := (mesh P).
  Notation interface := (interface P).

  Lemma graphs_ok fuel (m : mesh) : layered_mesh (m_cells P m) -> exists l, map Some l = m_cells P m /\
    build_graph (S fuel) (m_cells P m) 2 2 = Ok (vertex_graph 2 l) /\
    build_graph (S fuel) (m_cells P m) 2 1 = Ok (from_edgelist (flat_map (edges_of 1) (filter (fun c => c_dim c =? 2) l))) /\
    build_graph (S fuel) (m_cells P m) 1 1 = Ok (vertex_graph 1 l).
  Proof.
    intros LM. destruct (build_graph_layered fuel _ 2 0 LM) as (l & M & E1); [lia|].
    destruct (build_graph_layered fuel _ 2 1 LM) as (l2 & M2 & E2); [lia|].
    destruct (build_graph_layered fuel _ 1 0 LM) as (l3 & M3 & E3); [lia|].
    assert (INJ : forall a b : list cell, map Some a = map Some b -> a = b).
    { induction a; destruct b; simpl; intros X; try discriminate; auto. inversion X. f_equal; auto. }
    assert (l2 = l) by (apply INJ; congruence). assert (l3 = l) by (apply INJ; congruence). subst.
    exists l. split; auto.
  Qed.

  Lemma fold_dset_get {W} (ks : list nat) : forall (vs : list W) d x, NoDup ks -> length ks = length vs ->
    dget (fold_left (fun d ip => dset d (fst ip) (snd ip)) (combine ks vs) d) x =
    match pos x ks with Some k => nth_error vs k | None => dget d x end.
  Proof.
    induction ks as [|y ks IH]; intros [|v vs] d x ND L; simpl in L; try discriminate; auto.
    inversion ND; subst. cbn [combine fold_left fst snd pos]. rewrite IH by (auto; lia).
    destruct (Nat.eqb_spec x y) as [->|N].
    - rewrite (proj2 (pos_None y ks)) by auto. rewrite dget_dset_same. auto.
    - destruct (pos x ks); simpl; auto. rewrite dget_dset_other; auto.
  Qed.

  Lemma cut_fracture_effect fuel (m : mesh) fr f m' fr' : cut_ready P m ->
    cut_fracture P (S fuel) (m, fr) f = Ok (m', fr') ->
    exists F V T N, frac_effect P f m m' F V T N /\
      (forall k e, nth_error F k = Some e -> dget fr' e = Some (length (m_cells P m) + k, length (m_cells P m) + length F + k)) /\
      (forall e, ~ In e F -> dget fr' e = dget fr e).
  Proof.
    intros RD H. pose proof RD as (LM & AL & RG). unfold cut_fracture in H. cbn [fst snd] in H.
    destruct (graphs_ok fuel m LM) as (l & M & E1 & E2 & E3). rewrite E1, E2, E3 in H. cbn [bind] in H.
    apply bind_Ok in H as (e & He & H). apply bind_Ok in H as (m1 & Hm & H). inversion H; subst m1 fr'; clear H.
    pose proof (cut_frac_edges_spec P m f l e LM M He) as ED.
    destruct (cut_frac_vertices_spec P m f l e m' RD M ED Hm) as (V & T & N & CE).
    exists (ec_f e), V, T, N. split; auto.
    pose proof (StronglySorted_lt_NoDup _ (proj1 (fd_F _ _ _ _ ED))) as ND.
    rewrite (fd_ids _ _ _ _ ED).
    assert (LL : length (ec_f e) = length (combine (seq (length (m_cells P m)) (length (ec_f e)))
        (seq (length (m_cells P m) + length (ec_f e)) (length (ec_f e))))).
    { rewrite combine_length, !seq_length, Nat.min_id. auto. }
    split.
    - intros k x Hk. rewrite fold_dset_get by auto. rewrite (proj2 (pos_nth x _ k ND)) by auto.
      assert (k < length (ec_f e)) by (apply nth_error_Some; congruence).
      apply nth_error_combine; apply nth_error_seq; auto.
    - intros x Hx. rewrite fold_dset_get by auto. rewrite (proj2 (pos_None x _)) by auto. auto.
  Qed.

  (** ** consequences of [frac_effect] *)
  Section Effect.
    Variables (f : interface) (m m' : mesh) (F V T : list nat) (N : list P).
    Hypothesis RD : cut_ready P m.
    Hypothesis CE : frac_effect P f m m' F V T N.
    Notation b := (length (m_cells P m)).
    Notation np := (length (m_points P m)).

    Lemma eff_edge e : In e F -> exists c, cell_at (m_cells P m) e c /\ c_dim c = 1 /\ c_mat c = Some (if_tag P f).
    Proof. intros H. apply (proj2 (fe_F _ _ _ _ _ _ _ _ CE)) in H. exact H. Qed.
    Lemma eff_vertex v : In v V -> exists c, cell_at (m_cells P m) v c /\ c_dim c = 0.
    Proof.
      intros H. apply (proj2 (fe_V _ _ _ _ _ _ _ _ CE)) in H as (e & c & cv & (c' & Hc' & Hd & _) & Hc & Hv & Hcv & _).
      assert (c' = c) by (unfold cell_at in *; congruence). subst c'.
      destruct RD as ((_ & LM) & _). destruct (LM e c Hc) as (_ & _ & _ & S). destruct (S 0 v) as (x & Hx & Hx0); [lia|auto|]. eauto.
    Qed.
    Lemma eff_LT : length T = length V.
    Proof. symmetry. pose proof (fe_T _ _ _ _ _ _ _ _ CE) as X. apply (Forall2_app_nth _ _ _) in X. apply X. Qed.
    Lemma eff_LN : length N = length V.
    Proof. rewrite <- eff_LT. symmetry. pose proof (fe_N _ _ _ _ _ _ _ _ CE) as X. apply (Forall2_app_nth _ _ _) in X. apply X. Qed.
    (** where the cells of the new mesh come from *)
    Lemma eff_origin j c' : cell_at (m_cells P m') j c' ->
      (exists c, cell_at (m_cells P m) j c) \/
      (exists (q : bool) k e c, nth_error F k = Some e /\ cell_at (m_cells P m) e c /\ j = b + (if q then 0 else length F) + k) \/
      (exists (q : bool) k v c, nth_error V k = Some v /\ cell_at (m_cells P m) v c /\ j = b + 2 * length F + (if q then 0 else length V) + k).
    Proof.
      intros H. apply cell_at_lt in H. rewrite (fe_length _ _ _ _ _ _ _ _ CE) in H.
      assert (NTH : forall (l : list nat) k, k < length l -> exists x, nth_error l k = Some x /\ In x l).
      { intros l k Hk. destruct (nth_error l k) eqn:E; [|apply nth_error_None in E; lia]. exists n. split; auto. eapply nth_error_In; eauto. }
      destruct (Nat.lt_ge_cases j b) as [A|A]; [left; apply RD; auto|].
      destruct (Nat.lt_ge_cases j (b + length F)) as [B|B].
      { right; left. destruct (NTH F (j - b)) as (e & He & Hi); [lia|]. destruct (eff_edge e Hi) as (c & Hc & _). exists true, (j - b), e, c. split; auto. split; auto. lia. }
      destruct (Nat.lt_ge_cases j (b + 2 * length F)) as [C|C].
      { right; left. destruct (NTH F (j - b - length F)) as (e & He & Hi); [lia|]. destruct (eff_edge e Hi) as (c & Hc & _). exists false, (j - b - length F), e, c. split; auto. split; auto. lia. }
      right; right. destruct (Nat.lt_ge_cases j (b + 2 * length F + length V)) as [D|D].
      { destruct (NTH V (j - b - 2 * length F)) as (e & He & Hi); [lia|]. destruct (eff_vertex e Hi) as (c & Hc & _). exists true, (j - b - 2 * length F), e, c. split; auto. split; auto. lia. }
      { destruct (NTH V (j - b - 2 * length F - length V)) as (e & He & Hi); [lia|]. destruct (eff_vertex e Hi) as (c & Hc & _). exists false, (j - b - 2 * length F - length V), e, c. split; auto. split; auto. lia. }
    Qed.
    Lemma eff_old_dim i c : cell_at (m_cells P m) i c -> exists c', cell_at (m_cells P m') i c' /\ c_dim c' = c_dim c.
    Proof. intros H. destruct (fe_old _ _ _ _ _ _ _ _ CE i c H) as (c' & q & H1 & H2 & _). eauto. Qed.
    Lemma eff_relabel_F (q : bool) x c : cell_at (m_cells P m) x c -> c_dim c = 1 ->
      exists c', cell_at (m_cells P m') (relabel F (b + if q then 0 else length F) x) c' /\ c_dim c' = 1.
    Proof.
      intros Hc Hd. unfold relabel. destruct (pos x F) as [k|] eqn:E.
      - apply pos_nth in E; [|apply StronglySorted_lt_NoDup, (fe_F _ _ _ _ _ _ _ _ CE)].
        pose proof (fe_edges _ _ _ _ _ _ _ _ CE q k x c E Hc) as X. cbv zeta in X. eexists. split; [exact X|reflexivity].
      - destruct (eff_old_dim x c Hc) as (c' & H1 & H2). exists c'. split; auto. congruence.
    Qed.
    Lemma eff_relabel_V (q : bool) x c t : cell_at (m_cells P m) x c -> c_dim c = 0 -> c_nodes c = [t] ->
      exists c', cell_at (m_cells P m') (relabel V (b + 2 * length F + if q then 0 else length V) x) c' /\ c_dim c' = 0 /\
        c_nodes c' = [relabel T (np + if q then 0 else length V) t].
    Proof.
      intros Hc Hd Ht. unfold relabel.
      rewrite <- (pos_related (m_cells P m) V T x t); [|apply RD|apply CE|apply eff_vertex|eauto].
      destruct (pos x V) as [k|] eqn:E.
      - apply pos_nth in E; [|apply StronglySorted_lt_NoDup, (fe_V _ _ _ _ _ _ _ _ CE)].
        pose proof (fe_vertices _ _ _ _ _ _ _ _ CE q k x c E Hc) as X. cbv zeta in X. eexists. split; [exact X|split; reflexivity].
      - destruct (fe_old _ _ _ _ _ _ _ _ CE x c Hc) as (c' & q' & H1 & H2 & H3 & H4 & H5 & H6 & H7 & H8 & H9 & _).
        rewrite H9 in H1 by auto. exists c. auto.
    Qed.
    Lemma Forall2_map_both {A B C D} (R : C -> D -> Prop) (g : A -> C) (h : B -> D) l l' :
      Forall2 (fun a b => R (g a) (h b)) l l' -> Forall2 R (map g l) (map h l').
    Proof. induction 1; simpl; constructor; auto. Qed.

    Lemma effect_layered : layered_mesh (m_cells P m').
    Proof.
      pose proof RD as ((LF & LM) & (AL0 & _ & _) & _). split.
      - intros i Hi. rewrite (fe_length _ _ _ _ _ _ _ _ CE) in Hi.
        destruct (Nat.lt_ge_cases i b) as [A|A].
        { destruct (LF i A) as (c & Hc). destruct (eff_old_dim i c Hc) as (c' & H1 & _). eauto. }
        assert (NTH : forall (l : list nat) k, k < length l -> exists x, nth_error l k = Some x /\ In x l).
        { intros l k Hk. destruct (nth_error l k) eqn:E; [|apply nth_error_None in E; lia]. exists n. split; auto. eapply nth_error_In; eauto. }
        assert (EE : forall (q : bool) k, k < length F -> exists c, cell_at (m_cells P m') (b + (if q then 0 else length F) + k) c).
        { intros q k Hk. destruct (NTH F k Hk) as (e & He & Hin). destruct (eff_edge e Hin) as (c & Hc & _). eexists. exact (fe_edges _ _ _ _ _ _ _ _ CE q k e c He Hc). }
        assert (VV : forall (q : bool) k, k < length V -> exists c, cell_at (m_cells P m') (b + 2 * length F + (if q then 0 else length V) + k) c).
        { intros q k Hk. destruct (NTH V k Hk) as (e & He & Hin). destruct (eff_vertex e Hin) as (c & Hc & _). eexists. exact (fe_vertices _ _ _ _ _ _ _ _ CE q k e c He Hc). }
        destruct (Nat.lt_ge_cases i (b + length F)) as [B|B]. { replace i with (b + 0 + (i - b)) by lia. apply (EE true). lia. }
        destruct (Nat.lt_ge_cases i (b + 2 * length F)) as [C|C]. { replace i with (b + length F + (i - b - length F)) by lia. apply (EE false). lia. }
        destruct (Nat.lt_ge_cases i (b + 2 * length F + length V)) as [D|D].
        { replace i with (b + 2 * length F + 0 + (i - b - 2 * length F)) by lia. apply (VV true). lia. }
        replace i with (b + 2 * length F + length V + (i - b - 2 * length F - length V)) by lia. apply (VV false). lia.
      - intros i c' Hc'. destruct (eff_origin i c' Hc') as [(c & Hc)|[(q & k & e & c & Hk & Hc & Hi)|(q & k & v & c & Hk & Hc & Hi)]].
        + destruct (fe_old _ _ _ _ _ _ _ _ CE i c Hc) as (c1 & q & H1 & H2 & H3 & H4 & H5 & H6 & H7 & H8 & H9 & H10).
          assert (c1 = c') by (unfold cell_at in *; congruence). subst c1.
          destruct (LM i c Hc) as (Hid & D3 & Ls & Sb).
          split; [congruence|]. split; [lia|]. split; [congruence|]. intros d j Hd Hin. rewrite H2 in Hd.
          assert (UNCH : c' = c -> exists c'0, cell_at (m_cells P m') j c'0 /\ c_dim c'0 = d).
          { intros ->. destruct (Sb d j Hd Hin) as (x & Hx & Hxd). destruct (eff_old_dim j x Hx) as (y & Hy & Hyd). exists y. split; auto. congruence. }
          destruct (in_dec Nat.eq_dec i F) as [IF|NF]; [apply UNCH, H9; auto|].
          destruct (Nat.eq_dec (c_dim c) 3) as [D|D]; [apply UNCH, H9; auto|].
          assert (D12 : c_dim c = 1 \/ c_dim c = 2) by lia. destruct (H8 D12 NF) as [S0 _].
          destruct d as [|d].
          * rewrite S0 in Hin. apply in_map_iff in Hin as (x & <- & Hx). destruct (Sb 0 x) as (cx & Hcx & Hdx); [lia|auto|].
            destruct (AL0 x cx Hcx Hdx) as (t & Ht). destruct (eff_relabel_V q x cx t Hcx Hdx Ht) as (y & Hy & Hyd & _). eauto.
          * assert (d = 0) by lia. subst d. assert (D2 : c_dim c = 2) by lia. rewrite (H7 D2) in Hin.
            apply in_map_iff in Hin as (x & <- & Hx). destruct (Sb 1 x) as (cx & Hcx & Hdx); [lia|auto|].
            apply (eff_relabel_F q x cx); auto.
        + pose proof (fe_edges _ _ _ _ _ _ _ _ CE q k e c Hk Hc) as X. cbv zeta in X. rewrite <- Hi in X.
          assert (EQ : Some (Some c') = Some (Some (mk_cell 1 i (map (relabel T (np + (if q then 0 else length V))) (c_nodes c)) (Some (if q then (10 * if_tag P f + 1)%Z else (10 * if_tag P f - 1)%Z)) [map (relabel V (b + 2 * length F + (if q then 0 else length V))) (nth 0 (c_sub c) []); [i]]))) by (unfold cell_at in *; congruence).
          injection EQ as ->. cbn [c_id c_dim c_sub length]. split; auto. split; [lia|]. split; auto.
          intros d j Hd Hin. assert (d = 0) by lia. subst d. cbn [nth] in Hin. apply in_map_iff in Hin as (x & <- & Hx).
          destruct (eff_edge e) as (ce & Hce & Hde & _); [eapply nth_error_In; eauto|]. assert (ce = c) by (unfold cell_at in *; congruence). subst ce.
          destruct (LM e c Hc) as (_ & _ & _ & Sb). destruct (Sb 0 x) as (cx & Hcx & Hdx); [lia|auto|].
          destruct (AL0 x cx Hcx Hdx) as (t & Ht). destruct (eff_relabel_V q x cx t Hcx Hdx Ht) as (y & Hy & Hyd & _). eauto.
        + pose proof (fe_vertices _ _ _ _ _ _ _ _ CE q k v c Hk Hc) as X. cbv zeta in X. rewrite <- Hi in X.
          unfold cell_at in X, Hc'. rewrite Hc' in X. inversion X. cbn. split; auto. split; [lia|]. split; auto. intros; lia.
    Qed.

    Lemma relabel_T_range t q : t < np -> relabel T (np + if q : bool then 0 else length V) t < length (m_points P m').
    Proof.
      intros Ht. rewrite (fe_points _ _ _ _ _ _ _ _ CE), !app_length, eff_LN. unfold relabel. destruct (pos t T) eqn:E; [|lia].
      apply pos_lt in E. rewrite eff_LT in E. destruct q; lia.
    Qed.
    Lemma effect_ranges i c t : cell_at (m_cells P m') i c -> In t (c_nodes c) -> t < length (m_points P m').
    Proof.
      intros Hc' Ht. pose proof RD as ((LF & LM) & _ & RG).
      destruct (eff_origin i c Hc') as [(c0 & Hc)|[(q & k & e & c0 & Hk & Hc & Hi)|(q & k & v & c0 & Hk & Hc & Hi)]].
      - destruct (fe_old _ _ _ _ _ _ _ _ CE i c0 Hc) as (c1 & q & H1 & H2 & H3 & H4 & H5 & H6 & H7 & H8 & H9 & H10).
        assert (c1 = c) by (unfold cell_at in *; congruence). subst c1.
        assert (UNCH : c = c0 -> t < length (m_points P m')).
        { intros ->. rewrite (fe_points _ _ _ _ _ _ _ _ CE), app_length. specialize (RG _ _ _ Hc Ht). lia. }
        destruct (in_dec Nat.eq_dec i F) as [IF|NF]; [apply UNCH, H9; auto|].
        destruct (LM i c0 Hc) as (_ & D3 & _).
        destruct (Nat.eq_dec (c_dim c0) 3) as [D|D]; [apply UNCH, H9; auto|].
        destruct (Nat.eq_dec (c_dim c0) 0) as [D0|D0]; [apply UNCH, H9; auto|].
        destruct H8 as [_ H8]; [lia|auto|]. rewrite H8 in Ht. apply in_map_iff in Ht as (x & <- & Hx). apply relabel_T_range. eauto.
      - pose proof (fe_edges _ _ _ _ _ _ _ _ CE q k e c0 Hk Hc) as X. cbv zeta in X. rewrite <- Hi in X.
        unfold cell_at in X, Hc'. rewrite Hc' in X. inversion X; subst c. cbn [c_nodes] in Ht. apply in_map_iff in Ht as (x & <- & Hx). apply relabel_T_range. eauto.
      - pose proof (fe_vertices _ _ _ _ _ _ _ _ CE q k v c0 Hk Hc) as X. cbv zeta in X. rewrite <- Hi in X.
        unfold cell_at in X, Hc'. rewrite Hc' in X. inversion X; subst c. cbn [c_nodes] in Ht. destruct Ht as [<-|[]].
        rewrite (fe_points _ _ _ _ _ _ _ _ CE), !app_length, eff_LN.
        assert (k < length V) by (apply nth_error_Some; congruence). destruct q; lia.
    Qed.

    Lemma effect_aligned : aligned_mesh (m_cells P m').
    Proof.
      pose proof RD as ((LF & LM) & (AL0 & INJ & AL) & RG).
      (* vertices of the new mesh *)
      assert (VX : forall i c', cell_at (m_cells P m') i c' -> c_dim c' = 0 ->
        (cell_at (m_cells P m) i c' /\ exists t, c_nodes c' = [t] /\ t < np) \/
        (exists (q : bool) k, k < length V /\ i = b + 2 * length F + (if q then 0 else length V) + k /\ c_nodes c' = [np + (if q then 0 else length V) + k])).
      { intros i c' Hc' Hd. destruct (eff_origin i c' Hc') as [(c & Hc)|[(q & k & e & c & Hk & Hc & Hi)|(q & k & v & c & Hk & Hc & Hi)]].
        - left. destruct (fe_old _ _ _ _ _ _ _ _ CE i c Hc) as (c1 & q & H1 & H2 & H3 & H4 & H5 & H6 & H7 & H8 & H9 & H10).
          assert (c1 = c') by (unfold cell_at in *; congruence). subst c1. assert (E : c' = c) by (apply H9; left; congruence). subst c'.
          split; auto. destruct (AL0 i c Hc Hd) as (t & Ht). exists t. split; auto. apply (RG i c t Hc). rewrite Ht. left; auto.
        - exfalso. pose proof (fe_edges _ _ _ _ _ _ _ _ CE q k e c Hk Hc) as X. cbv zeta in X. rewrite <- Hi in X.
          unfold cell_at in X, Hc'. rewrite Hc' in X. inversion X; subst c'. cbn in Hd. lia.
        - right. pose proof (fe_vertices _ _ _ _ _ _ _ _ CE q k v c Hk Hc) as X. cbv zeta in X. rewrite <- Hi in X.
          unfold cell_at in X, Hc'. rewrite Hc' in X. inversion X; subst c'. exists q, k. split; [apply nth_error_Some; congruence|]. split; auto. }
      assert (REL : forall q i c, cell_at (m_cells P m) i c -> c_dim c = 1 \/ c_dim c = 2 ->
        Forall2 (fun v t => exists c', cell_at (m_cells P m') v c' /\ c_nodes c' = [t])
          (map (relabel V (b + 2 * length F + if q : bool then 0 else length V)) (nth 0 (c_sub c) []))
          (map (relabel T (np + if q then 0 else length V)) (c_nodes c))).
      { intros q i c Hc Hd. apply Forall2_map_both. specialize (AL i c Hc Hd).
        destruct (LM i c Hc) as (_ & _ & _ & Sb).
        assert (SbV : forall x, In x (nth 0 (c_sub c) []) -> exists c', cell_at (m_cells P m) x c' /\ c_dim c' = 0) by (intros; apply Sb; [lia|auto]).
        clear - AL SbV RD CE. induction AL as [|v t lv lt (c' & Hc' & Hn') AL IH]; constructor.
        - destruct (SbV v) as (x & Hx & Hx0); [left; auto|]. assert (x = c') by (unfold cell_at in *; congruence). subst x.
          destruct (eff_relabel_V q v c' t Hc' Hx0 Hn') as (y & Hy & _ & Hy2). eauto.
        - apply IH. intros. apply SbV. right; auto. }
      split; [|split].
      - intros i c' Hc' Hd. destruct (VX i c' Hc' Hd) as [(_ & t & E & _)|(q & k & _ & _ & E)]; eauto.
      - intros i c j c' Hc Hc' Hd Hd' E.
        destruct (VX i c Hc Hd) as [(A1 & t & A2 & A3)|(q & k & A1 & A2 & A3)];
        destruct (VX j c' Hc' Hd') as [(B1 & t' & B2 & B3)|(q' & k' & B1 & B2 & B3)].
        + eapply INJ; eauto.
        + rewrite A2, B3 in E. inversion E. destruct q'; lia.
        + rewrite A3, B2 in E. inversion E. destruct q; lia.
        + rewrite A3, B3 in E. inversion E. destruct q, q'; lia.
      - intros i c' Hc' Hd. destruct (eff_origin i c' Hc') as [(c & Hc)|[(q & k & e & c & Hk & Hc & Hi)|(q & k & v & c & Hk & Hc & Hi)]].
        + destruct (fe_old _ _ _ _ _ _ _ _ CE i c Hc) as (c1 & q & H1 & H2 & H3 & H4 & H5 & H6 & H7 & H8 & H9 & H10).
          assert (c1 = c') by (unfold cell_at in *; congruence). subst c1. rewrite H2 in Hd.
          destruct (in_dec Nat.eq_dec i F) as [IF|NF].
          * rewrite H9 by auto. specialize (AL i c Hc Hd). destruct (LM i c Hc) as (_ & _ & _ & Sb).
            assert (SbV : forall x, In x (nth 0 (c_sub c) []) -> exists c', cell_at (m_cells P m) x c' /\ c_dim c' = 0) by (intros; apply Sb; [lia|auto]).
            clear - AL SbV RD CE. induction AL as [|v t lv lt (c' & Hc' & Hn') AL IH]; constructor; [|apply IH; intros; apply SbV; right; auto].
            destruct (SbV v) as (x & Hx & Hx0); [left; auto|]. assert (x = c') by (unfold cell_at in *; congruence). subst x.
            destruct (fe_old _ _ _ _ _ _ _ _ CE v c' Hc') as (c1 & q & H1 & H2 & H3 & H4 & H5 & H6 & H7 & H8 & H9 & H10).
            rewrite H9 in H1 by auto. eauto.
          * destruct (H8 Hd NF) as [-> ->]. eapply REL; eauto.
        + pose proof (fe_edges _ _ _ _ _ _ _ _ CE q k e c Hk Hc) as X. cbv zeta in X. rewrite <- Hi in X.
          unfold cell_at in X, Hc'. rewrite Hc' in X. inversion X; subst c'. cbn [c_sub c_nodes nth].
          destruct (eff_edge e) as (ce & Hce & Hde & _); [eapply nth_error_In; eauto|]. assert (ce = c) by (unfold cell_at in *; congruence). subst ce.
          apply (REL q e c); auto.
        + pose proof (fe_vertices _ _ _ _ _ _ _ _ CE q k v c Hk Hc) as X. cbv zeta in X. rewrite <- Hi in X.
          unfold cell_at in X, Hc'. rewrite Hc' in X. inversion X; subst c'. cbn in Hd. lia.
    Qed.

    Lemma effect_ready : cut_ready P m'.
    Proof. split; [apply effect_layered|]. split; [apply effect_aligned|]. intros i c t. apply effect_ranges. Qed.
  End Effect.

  Lemma frac_run_spec fuel shapes : forall (m : mesh) fr m' fr', cut_ready P m ->
    foldM (cut_fracture P (S fuel)) shapes (m, fr) = Ok (m', fr') -> frac_run P m shapes m' /\ cut_ready P m'.
  Proof.
    induction shapes as [|f fs IH]; intros m fr m' fr' RD H; simpl in H.
    - inversion H; subst. split; auto. constructor.
    - apply bind_Ok in H as ([m1 fr1] & H1 & H2). destruct (cut_fracture_effect fuel m fr f m1 fr1 RD H1) as (F & V & T & N & CE & _).
      pose proof (effect_ready _ _ _ _ _ _ _ RD CE) as RD1. destruct (IH _ _ _ _ RD1 H2) as [A B]. split; auto. econstructor; eauto.
  Qed.
End Cut.

Section Cut.
  Variable P : Type.
  Notation mesh := (mesh P).
  Notation interface := (interface P).

  Lemma frac_run_keeps (m m' : mesh) shapes : frac_run P m shapes m' ->
    length (m_cells P m) <= length (m_cells P m') /\
    (exists N, m_points P m' = m_points P m ++ N) /\
    forall i c, cell_at (m_cells P m) i c ->
      exists c', cell_at (m_cells P m') i c' /\ c_dim c' = c_dim c /\ c_id c' = c_id c /\ c_mat c' = c_mat c.
  Proof.
    induction 1 as [m|m f m1 fs m2 F V T N CE R (IH1 & (N2 & IH2) & IH3)].
    - split; auto. split; [exists []; rewrite app_nil_r; auto|]. intros i c H. exists c. auto.
    - split; [rewrite (fe_length _ _ _ _ _ _ _ _ CE) in IH1; lia|]. split.
      + exists ((N ++ N) ++ N2). rewrite IH2, (fe_points _ _ _ _ _ _ _ _ CE), <- app_assoc. auto.
      + intros i c H. destruct (fe_old _ _ _ _ _ _ _ _ CE i c H) as (c1 & q & H1 & H2 & H3 & H4 & _).
        destruct (IH3 i c1 H1) as (c2 & ? & ? & ? & ?). exists c2. repeat split; congruence.
  Qed.
  Lemma frac_counts (m m' : mesh) shapes : frac_run P m shapes m' ->
    exists ks, length (m_cells P m') = length (m_cells P m) + 2 * (fold_right (fun k s => fst k + snd k + s) 0 ks) /\
               length (m_points P m') = length (m_points P m) + 2 * (fold_right (fun k s => snd k + s) 0 ks) /\
               length ks = length shapes.
  Proof.
    induction 1 as [m|m f m1 fs m2 F V T N CE R (ks & A & B & C)].
    - exists []. simpl. lia.
    - exists ((length F, length V) :: ks). simpl. rewrite A, B, C, (fe_length _ _ _ _ _ _ _ _ CE), (fe_points _ _ _ _ _ _ _ _ CE), !app_length.
      rewrite (eff_LN P f m m1 F V T N CE). lia.
  Qed.

  (** ** frac_separation *)
  Lemma relabel_In (S : list nat) base a x : (forall y, In y S -> y < base) -> In x (map (relabel S base) a) -> ~ In x S.
  Proof.
    intros H Hx Hs. apply in_map_iff in Hx as (y & E & _). unfold relabel in E. destruct (pos y S) as [k|] eqn:Q.
    - apply H in Hs. lia.
    - apply pos_None in Q. subst. auto.
  Qed.
  Lemma relabel_high (S : list nat) base a x lo : In x (map (relabel S base) a) -> (forall y, In y a -> y < lo) -> lo <= x ->
    base <= x < base + length S.
  Proof.
    intros Hx H L. apply in_map_iff in Hx as (y & E & Hy). unfold relabel in E. destruct (pos y S) as [k|] eqn:Q.
    - apply pos_lt in Q. lia.
    - apply H in Hy. lia.
  Qed.
  Lemma relabel_hit (S : list nat) base a k x : NoDup S -> nth_error S k = Some x -> In x a -> In (base + k) (map (relabel S base) a).
  Proof.
    intros ND Hk Hx. apply in_map_iff. exists x. split; auto. unfold relabel. apply (pos_nth x S k ND) in Hk. rewrite Hk. auto.
  Qed.

  Lemma frac_separation fuel (m : mesh) fr f m' fr' : cut_ready P m ->
    cut_fracture P (S fuel) (m, fr) f = Ok (m', fr') ->
    (forall e c, interface_edge (m_cells P m) (if_tag P f) e -> cell_at (m_cells P m) e c -> cell_at (m_cells P m') e c) /\
    (forall v c, duplicated_vertex (m_cells P m) (if_tag P f) v -> cell_at (m_cells P m) v c -> cell_at (m_cells P m') v c) /\
    forall i c c' q, cell_at (m_cells P m) i c -> c_dim c = 2 -> cell_at (m_cells P m') i c' -> on_side P m f c q ->
      (forall e, interface_edge (m_cells P m) (if_tag P f) e -> ~ In e (nth 1 (c_sub c') [])) /\
      (forall v, duplicated_vertex (m_cells P m) (if_tag P f) v -> ~ In v (nth 0 (c_sub c') [])) /\
      (forall e p n, interface_edge (m_cells P m) (if_tag P f) e -> dget fr' e = Some (p, n) ->
         (In e (nth 1 (c_sub c) []) -> In (if q then p else n) (nth 1 (c_sub c') [])) /\
         ~ In (if q then n else p) (nth 1 (c_sub c') [])).
  Proof.
    intros RD H. destruct (cut_fracture_effect P fuel m fr f m' fr' RD H) as (F & V & T & N & CE & FR & _).
    pose proof (proj2 (fe_F _ _ _ _ _ _ _ _ CE)) as IF. pose proof (proj2 (fe_V _ _ _ _ _ _ _ _ CE)) as IV.
    pose proof (StronglySorted_lt_NoDup _ (proj1 (fe_F _ _ _ _ _ _ _ _ CE))) as ND.
    assert (BF : forall e, In e F -> e < length (m_cells P m)).
    { intros e He. destruct (eff_edge P f m m' F V T N CE e He) as (c & Hc & _). eapply cell_at_lt; eauto. }
    assert (BV : forall e, In e V -> e < length (m_cells P m)).
    { intros e He. destruct (eff_vertex P f m m' F V T N RD CE e He) as (c & Hc & _). eapply cell_at_lt; eauto. }
    split; [|split].
    - intros e c He Hc. destruct (fe_old _ _ _ _ _ _ _ _ CE e c Hc) as (c1 & q & H1 & _ & _ & _ & _ & _ & _ & _ & H9 & _).
      rewrite H9 in H1; auto. right; right. apply IF. auto.
    - intros e c He Hc. apply IV in He. destruct (eff_vertex P f m m' F V T N RD CE e He) as (c0 & Hc0 & Hd).
      assert (c0 = c) by (unfold cell_at in *; congruence). subst c0.
      destruct (fe_old _ _ _ _ _ _ _ _ CE e c Hc) as (c1 & q & H1 & _ & _ & _ & _ & _ & _ & _ & H9 & _).
      rewrite H9 in H1; auto.
    - intros i c c' q Hc Hd Hc' OS. destruct (fe_old _ _ _ _ _ _ _ _ CE i c Hc) as (c1 & q' & H1 & H2 & H3 & H4 & H5 & H6 & H7 & H8 & H9 & H10).
      assert (c1 = c') by (unfold cell_at in *; congruence). subst c1. specialize (H7 Hd).
      assert (NF : ~ In i F). { intros X. apply IF in X as (x & Hx & Hxd & _). assert (x = c) by (unfold cell_at in *; congruence). subst; lia. }
      destruct (H8 (or_intror Hd) NF) as [H80 _].
      pose proof RD as ((_ & LM) & _). destruct (LM i c Hc) as (_ & _ & _ & Sb).
      assert (B1 : forall y, In y (nth 1 (c_sub c) []) -> y < length (m_cells P m)).
      { intros y Hy. destruct (Sb 1 y) as (cy & Hcy & _); [lia|auto|]. eapply cell_at_lt; eauto. }
      split; [|split].
      + intros e He Hin. apply IF in He. rewrite H7 in Hin. apply relabel_In in Hin; auto. intros y Hy. apply BF in Hy. lia.
      + intros v Hv Hin. apply IV in Hv. rewrite H80 in Hin. apply relabel_In in Hin; auto. intros y Hy. apply BV in Hy. lia.
      + intros e p n He Hfr. apply IF in He. apply In_nth_error in He as (k & Hk). rewrite (FR k e Hk) in Hfr. inversion Hfr; subst p n; clear Hfr.
        assert (Lk : k < length F) by (apply nth_error_Some; congruence).
        assert (TQ : forall x, In x F -> In x (nth 1 (c_sub c) []) -> q = q').
        { intros x X1 X2. eapply on_side_fun; [exact OS|]. apply H6. left. split; auto. exists x; auto. }
        split.
        * intros Hin. assert (q = q') by (apply (TQ e); auto; eapply nth_error_In; eauto). subst q'. rewrite H7.
          replace (if q then length (m_cells P m) + k else length (m_cells P m) + length F + k) with (length (m_cells P m) + (if q then 0 else length F) + k) by (destruct q; lia).
          apply (relabel_hit F _ _ k e ND Hk Hin).
        * intros Hin. rewrite H7 in Hin.
          destruct (listed_dec F (nth 1 (c_sub c) [])) as [(x & X1 & X2)|NL].
          -- assert (q = q') by (apply (TQ x); auto). subst q'.
             apply (relabel_high F _ _ _ (length (m_cells P m))) in Hin; [|exact B1|destruct q; lia]. destruct q; lia.
          -- rewrite not_listed_relabel in Hin by auto. apply B1 in Hin. destruct q; lia.
  Qed.

  (** ** success *)
  Lemma update_edges_ok mp ids cs : (forall i, In i ids -> exists c, cell_at cs i c /\ 1 < length (c_sub c)) ->
    exists cs', update_edges cs ids mp = Ok cs'.
  Proof.
    apply (modify_succeeds (fun cs id => update_entity_with_dimension 1 cs id mp) (upd_e mp) (fun c => 1 < length (c_sub c))).
    - intros cs0 i c Hc L. apply update_entity_Ok. exists c. auto.
    - intros c L. unfold upd_e, set_sub. cbn [c_sub]. rewrite length_set_at. auto.
  Qed.
  Lemma update_vertices_ok mv mn ids cs : (forall i, In i ids -> exists c, cell_at cs i c /\ 0 < length (c_sub c)) ->
    exists cs', update_vertices cs ids mv mn = Ok cs'.
  Proof.
    apply (modify_succeeds _ (upd_v mv mn) (fun c => 0 < length (c_sub c))).
    - intros cs0 i c Hc L. apply update_v_step. exists c. auto.
    - intros c L. destruct (upd_v_fields mv mn c) as (_ & _ & _ & -> & _). auto.
  Qed.
  (** the update loops keep slots filled and list lengths *)
  Definition filled (cs cs' : cells) : Prop := forall i c, cell_at cs i c -> exists c', cell_at cs' i c' /\ length (c_sub c') = length (c_sub c).
  Lemma filled_app cs l : filled cs (cs ++ l).
  Proof. intros i c H. exists c. split; auto. apply cell_at_app; auto. eapply cell_at_lt; eauto. Qed.
  Lemma filled_trans a b c : filled a b -> filled b c -> filled a c.
  Proof. intros H1 H2 i x Hx. destruct (H1 i x Hx) as (y & Hy & E). destruct (H2 i y Hy) as (z & Hz & E2). exists z. split; auto. congruence. Qed.
  Lemma filled_loop (step : cells -> nat -> res cells) (u : cell -> cell) :
    (forall cs i cs', step cs i = Ok cs' -> exists c, cell_at cs i c /\ cs' = set_at cs i (Some (u c))) ->
    (forall c, length (c_sub (u c)) = length (c_sub c)) ->
    forall ids cs cs', foldM step ids cs = Ok cs' -> filled cs cs'.
  Proof.
    intros ST LN. induction ids as [|a ids IH]; intros cs cs' H; simpl in H.
    - inversion H; subst. intros i c Hc. eauto.
    - apply bind_Ok in H as (cs1 & H1 & H2). apply ST in H1 as (c & Hc & ->). eapply filled_trans; [|eapply IH; eauto].
      intros i x Hx. unfold cell_at. rewrite cell_at_set by (eapply cell_at_lt; eauto). destruct (Nat.eqb_spec a i) as [->|].
      + exists (u c). split; auto. rewrite LN. unfold cell_at in *; congruence.
      + eauto.
  Qed.
  Lemma filled_update_edges mp ids cs cs' : update_edges cs ids mp = Ok cs' -> filled cs cs'.
  Proof.
    apply (filled_loop (fun cs id => update_entity_with_dimension 1 cs id mp) (upd_e mp)).
    - intros a i b H. apply update_entity_Ok in H as (c & Hc & _ & ->). exists c. auto.
    - intros c. unfold upd_e, set_sub. cbn [c_sub]. apply length_set_at.
  Qed.
  Lemma filled_update_vertices mv mn ids cs cs' : update_vertices cs ids mv mn = Ok cs' -> filled cs cs'.
  Proof.
    apply (filled_loop _ (upd_v mv mn)).
    - intros a i b H. apply update_v_step in H as (c & Hc & _ & ->). exists c. auto.
    - intros c. apply upd_v_fields.
  Qed.

  Lemma positive_q_ok (m : mesh) f i c : cell_at (m_cells P m) i c -> (forall t, In t (c_nodes c) -> t < length (m_points P m)) ->
    exists q, positive_q P m f i = Ok q.
  Proof.
    intros Hc Hr. assert (X : exists pts, Forall2 (fun t x => nth_error (m_points P m) t = Some x) (c_nodes c) pts).
    { clear Hc. induction (c_nodes c) as [|t l IH]; [exists []; auto|]. destruct IH as (pts & IH); [intros; apply Hr; right; auto|].
      destruct (nth_error (m_points P m) t) as [x|] eqn:E; [exists (x :: pts); auto|]. apply nth_error_None in E. specialize (Hr t (or_introl eq_refl)). lia. }
    destruct X as (pts & Hp). exists (if_side P f pts). apply positive_q_spec. exists c. split; auto. exists pts. auto.
  Qed.

  Lemma frac_succeeds fuel (m : mesh) fr f : cut_ready P m -> cuttable P m (if_tag P f) ->
    exists m' fr', cut_fracture P (S fuel) (m, fr) f = Ok (m', fr').
  Proof.
    intros RD (KE & KV). pose proof RD as (LM & AL & RG). unfold cut_fracture. cbn [fst snd].
    destruct (graphs_ok P fuel m LM) as (l & M & E1 & E2 & E3). rewrite E1, E2, E3. cbn [bind].
    assert (CL : forall i c, cell_at (m_cells P m) i c -> c_id c = i /\ c_dim c <= 3 /\ length (c_sub c) = c_dim c + 1 /\
       forall d j, d < c_dim c -> In j (nth d (c_sub c) []) -> exists c', cell_at (m_cells P m) j c' /\ c_dim c' = d) by apply LM.
    (* edges *)
    assert (CE : exists e, cut_frac_edges P m f (from_edgelist (flat_map (edges_of 1) (filter (fun c => c_dim c =? 2) l))) = Ok e).
    { unfold cut_frac_edges. destruct (f_positions_spec (m_cells P m) (if_tag P f) LM) as (fs & -> & IF). cbn [bind].
      assert (FC : forall i, In i fs -> exists c, cell_at (m_cells P m) i c).
      { intros i Hi. apply IF in Hi as (c & Hc & _). eauto. }
      destruct (cells_of_positions _ _ FC) as (fl & FL & ->). cbn [bind].
      assert (IDS : map c_id fl = fs).
      { clear - FL CL. induction FL; simpl; auto. f_equal; auto. apply (CL _ _ H). }
      rewrite IDS.
      destruct (preds_succeeds (m_cells P m) l 2 1 fs LM M) as (ne & Hne).
      { intros e He. apply IF in He. apply KE. auto. }
      rewrite Hne. cbn [bind].
      assert (NE : forall i, In i ne -> exists c, cell_at (m_cells P m) i c /\ c_dim c = 2).
      { intros i Hi. apply (preds_spec _ _ _ _ _ _ LM M Hne i) in Hi as (_ & c & _ & H1 & H2 & _). eauto. }
      destruct (classify_succeeds P m f ne) as (cp & cn & Hcl).
      { intros i Hi. destruct (NE i Hi) as (c & Hc & _). eapply positive_q_ok; eauto. }
      rewrite Hcl. cbn [bind]. destruct (classify_spec _ _ _ _ _ _ Hcl) as [CP CN].
      rewrite (clone_frac_edges_eq _ _ _ fl) by auto. cbn [bind].
      rewrite (clone_frac_edges_eq _ _ _ fl).
      2:{ eapply Forall2_impl; [|exact FL]. intros x y Hxy. apply cell_at_app; auto. eapply cell_at_lt; eauto. }
      cbn [bind].
      match goal with |- context [update_edges ?c cp ?mp] => set (cs2 := c); set (mp1 := mp) end.
      assert (F2 : filled (m_cells P m) cs2) by (unfold cs2; eapply filled_trans; apply filled_app).
      destruct (update_edges_ok mp1 cp cs2) as (cs3 & H3).
      { intros i Hi. apply CP in Hi as [Hi _]. destruct (NE i Hi) as (c & Hc & Hd). destruct (F2 i c Hc) as (c' & Hc' & EL).
        exists c'. split; auto. destruct (CL i c Hc) as (_ & _ & Ls & _). lia. }
      rewrite H3. cbn [bind].
      match goal with |- context [update_edges cs3 cn ?mp] => set (mn1 := mp) end.
      destruct (update_edges_ok mn1 cn cs3) as (cs4 & H4).
      { intros i Hi. apply CN in Hi as [Hi _]. destruct (NE i Hi) as (c & Hc & Hd).
        destruct (filled_trans _ _ _ F2 (filled_update_edges _ _ _ _ H3) i c Hc) as (c' & Hc' & EL).
        exists c'. split; auto. destruct (CL i c Hc) as (_ & _ & Ls & _). lia. }
      rewrite H4. cbn [bind]. eauto. }
    destruct CE as (e & He). rewrite He. cbn [bind].
    pose proof (cut_frac_edges_spec P m f l e LM M He) as ED. pose proof (fd_F _ _ _ _ ED) as IF.
    assert (KEEP : forall i c, cell_at (m_cells P m) i c -> c_dim c <> 2 -> cell_at (ec_cells e) i c).
    { intros i c Hc Hd. destruct (frac_keeps _ _ _ _ _ _ ED Hc) as (c1 & H1 & A1 & A2 & A3 & A4 & A5 & A6 & _). rewrite <- A6; auto. }
    (* vertices *)
    assert (CV : exists m', cut_frac_vertices P m f (vertex_graph 2 l) (vertex_graph 1 l) e = Ok m').
    { unfold cut_frac_vertices.
      assert (EDGE : forall i, In i (ec_f e) -> exists c, cell_at (m_cells P m) i c /\ c_dim c = 1 /\ cell_at (ec_cells e) i c).
      { intros i Hi. apply IF in Hi as (c & Hc & Hd & _). exists c. split; auto. split; auto. apply KEEP; auto. lia. }
      destruct (cells_of_positions (ec_cells e) (ec_f e)) as (fl & FL & ->). { intros i Hi. destruct (EDGE i Hi) as (c & _ & _ & Hc). eauto. }
      cbn [bind].
      assert (FLM : forall c, In c fl -> exists i, In i (ec_f e) /\ cell_at (m_cells P m) i c /\ c_dim c = 1).
      { intros c Hc. destruct (Forall2_In_r _ _ _ _ FL Hc) as (i & Hi & Hci). destruct (EDGE i Hi) as (c' & H1 & H2 & H3).
        assert (c' = c) by (unfold cell_at in *; congruence). subst. eauto. }
      rewrite (mapM_Ok_map _ (fun c => nth 0 (c_sub c) [])).
      2:{ intros c Hc. destruct (FLM c Hc) as (i & _ & Hci & Hd). apply get_at_nth. destruct (CL i c Hci) as (_ & _ & Ls & _). lia. }
      cbn [bind].
      assert (VD : forall v, In v (np_unique (concat (map (fun c => nth 0 (c_sub c) []) fl))) ->
         exists i c cv, In i (ec_f e) /\ cell_at (m_cells P m) i c /\ c_dim c = 1 /\ In v (nth 0 (c_sub c) []) /\ cell_at (m_cells P m) v cv /\ c_dim cv = 0 /\ cell_at (ec_cells e) v cv).
      { intros v Hv. apply (proj1 (proj2 (np_unique_spec _) v)) in Hv. apply in_concat in Hv as (x & Hx & Hv). apply in_map_iff in Hx as (c & <- & Hc).
        destruct (FLM c Hc) as (i & Hi & Hci & Hd). destruct (CL i c Hci) as (_ & _ & _ & Sb). destruct (Sb 0 v) as (cv & Hcv & Hdv); [lia|auto|].
        exists i, c, cv. repeat (split; auto). apply KEEP; auto. lia. }
      destruct (drop_tagged_succeeds (ec_cells e) (if_tag P f) (np_unique (concat (map (fun c => nth 0 (c_sub c) []) fl)))) as (vs & Hvs).
      { intros v Hv. destruct (VD v Hv) as (i & c & cv & _ & _ & _ & _ & _ & _ & H). eauto. }
      rewrite Hvs. cbn [bind].
      destruct (drop_tagged_spec _ _ _ _ Hvs) as [DA _].
      assert (VC : forall v, In v vs -> duplicated_vertex (m_cells P m) (if_tag P f) v /\
         exists i c cv, In i (ec_f e) /\ cell_at (m_cells P m) i c /\ c_dim c = 1 /\ In v (nth 0 (c_sub c) []) /\ cell_at (m_cells P m) v cv /\ c_dim cv = 0 /\ cell_at (ec_cells e) v cv).
      { intros v Hv. apply DA in Hv as [Hv (cv & Hcv & NM)]. destruct (VD v Hv) as (i & c & cv' & H1 & H2 & H3 & H4 & H5 & H6 & H7).
        assert (cv' = cv) by (unfold cell_at in *; congruence). subst cv'. split.
        - exists i, c, cv. split; [apply IF; auto|]. auto.
        - exists i, c, cv. auto 10. }
      clear DA Hvs VD. destruct vs as [|v0 vs0]; [eauto|]. set (V := v0 :: vs0) in *. clearbody V. clear v0 vs0.
      assert (BV : exists ls, mapM (fun v => do a <- preds (vertex_graph 2 l) 0 [v]; do b <- preds (vertex_graph 1 l) 0 [v]; Ok (a ++ b)) V = Ok ls).
      { clear - VC KV LM M. induction V as [|v V IH]; [exists []; reflexivity|]. cbn [mapM].
        destruct (VC v (or_introl eq_refl)) as (DVv & i & c & cv & H1 & H2 & H3 & H4 & _).
        destruct (preds_succeeds (m_cells P m) l 2 0 [v] LM M) as (a & Ha). { intros x [<-|[]]. apply KV. auto. }
        destruct (preds_succeeds (m_cells P m) l 1 0 [v] LM M) as (b & Hb). { intros x [<-|[]]. eauto. }
        unfold vertex_graph at 1 2. rewrite Ha. cbn [bind]. rewrite Hb. cbn [bind].
        destruct IH as (ls & ->); [intros; apply VC; right; auto|]. cbn [bind]. eauto. }
      destruct BV as (bv & Hbv). rewrite Hbv. cbn [bind].
      match goal with |- context [classify P ?mm f ?nn] => set (m1 := mm); set (ne := nn) end.
      assert (NE : forall i, In i ne -> exists c c1, cell_at (m_cells P m) i c /\ cell_at (ec_cells e) i c1 /\ c_nodes c1 = c_nodes c /\ length (c_sub c1) = length (c_sub c)).
      { intros i Hi. unfold ne in Hi. apply (proj1 (proj2 (np_unique_spec _) i)) in Hi. apply filter_In in Hi as [Hi _]. apply (by_vertex_spec _ _ _ _ LM M Hbv i) in Hi as (c & Hc & _).
        destruct (frac_keeps _ _ _ _ _ _ ED Hc) as (c1 & H1 & A1 & A2 & A3 & A4 & A5 & A6 & A7 & _). exists c, c1. auto. }
      destruct (classify_succeeds P m1 f ne) as (cp & cn & Hcl).
      { intros i Hi. destruct (NE i Hi) as (c & c1 & Hc & Hc1 & EN & _). apply (positive_q_ok m1 f i c1); auto. unfold m1; cbn [m_points]. rewrite EN. eauto. }
      rewrite Hcl. cbn [bind]. destruct (classify_spec _ _ _ _ _ _ Hcl) as [CP CN].
      assert (NN : exists T N, Forall2 (fun v t => exists c, cell_at (ec_cells e) v c /\ c_nodes c = [t]) V T /\
         mapM (fun v => do c <- cell_of (ec_cells e) v; do t <- get_at (c_nodes c) 0; get_at (m_points P m) t) V = Ok N).
      { clear - VC AL RG. induction V as [|v V IH]; [exists [], []; split; auto|]. destruct IH as (T & N & HT & HN); [intros; apply VC; right; auto|].
        destruct (VC v (or_introl eq_refl)) as (_ & i & c & cv & _ & _ & _ & _ & H1 & H2 & H3). destruct AL as (A0 & _). destruct (A0 v cv H1 H2) as (t & Ht).
        assert (Lt : t < length (m_points P m)) by (apply (RG v cv t H1); rewrite Ht; left; auto).
        destruct (nth_error (m_points P m) t) as [x|] eqn:E; [|apply nth_error_None in E; lia].
        exists (t :: T), (x :: N). split; [constructor; eauto|]. cbn [mapM]. rewrite (proj2 (cell_of_at _ _ _) H3). cbn [bind]. rewrite Ht. cbn [get_at nth_error bind].
        unfold get_at at 1. rewrite E. cbn [bind]. rewrite HN. reflexivity. }
      destruct NN as (T & N & HT & ->). cbn [bind].
      destruct (cells_of_positions (ec_cells e) V) as (vl & FV & _).
      { intros v Hv. destruct (VC v Hv) as (_ & i & c & cv & _ & _ & _ & _ & _ & _ & H). eauto. }
      assert (GV : Forall2 (fun c t => exists r, c_nodes c = t :: r) vl T).
      { clear - FV HT. revert T HT. induction FV as [|v c V vl Hc FV IH]; intros T HT; inversion HT as [|? t ? ? (c' & Hc' & Ht)]; subst; constructor; auto.
        assert (c' = c) by (unfold cell_at in *; congruence). subst. eauto. }
      rewrite (clone_vertices_eq _ _ _ vl T) by auto. cbn [bind].
      rewrite (clone_vertices_eq _ _ _ vl T).
      2:{ eapply Forall2_impl; [|exact FV]. intros x y Hxy. apply cell_at_app; auto. eapply cell_at_lt; eauto. }
      2:{ auto. }
      cbn [bind].
      match goal with |- context [update_vertices ?c cp ?a ?b] => set (cs2 := c); set (mvp := a); set (mnp := b) end.
      assert (F2 : filled (ec_cells e) cs2) by (unfold cs2; eapply filled_trans; apply filled_app).
      assert (OLD : forall i, In i ne -> exists c, cell_at (ec_cells e) i c /\ 0 < length (c_sub c)).
      { intros i Hi. destruct (NE i Hi) as (c & c1 & Hc & Hc1 & _ & EL). exists c1. split; auto. destruct (CL i c Hc) as (_ & _ & Ls & _). lia. }
      assert (NEWE : forall q : bool, forall i, In i (seq (length (m_cells P m) + if q then 0 else length (ec_f e)) (length (ec_f e))) -> exists c, cell_at (ec_cells e) i c /\ 0 < length (c_sub c)).
      { intros q i Hi. apply in_seq in Hi. set (k := i - (length (m_cells P m) + if q then 0 else length (ec_f e))).
        destruct (nth_error (ec_f e) k) as [x|] eqn:Ek; [|apply nth_error_None in Ek; unfold k in Ek; lia].
        destruct (EDGE x) as (c & Hc & Hd & _); [eapply nth_error_In; eauto|]. pose proof (fd_new _ _ _ _ ED q k x c Ek Hc) as X. cbv zeta in X.
        replace (length (m_cells P m) + (if q then 0 else length (ec_f e)) + k) with i in X by (unfold k; lia). eexists. split; [exact X|].
        unfold frac_copy, set_sub. cbn [c_sub]. rewrite length_set_at. destruct (CL x c Hc) as (_ & _ & Ls & _). lia. }
      assert (GO : forall cs ids mv mn, filled (ec_cells e) cs -> (forall i, In i ids -> exists c, cell_at (ec_cells e) i c /\ 0 < length (c_sub c)) ->
        exists cs', update_vertices cs ids mv mn = Ok cs' /\ filled (ec_cells e) cs').
      { intros cs ids mv mn Fl Hin. destruct (update_vertices_ok mv mn ids cs) as (cs' & H').
        - intros i Hi. destruct (Hin i Hi) as (c & Hc & L). destruct (Fl i c Hc) as (c' & Hc' & EL). exists c'. split; auto. lia.
        - exists cs'. split; auto. eapply filled_trans; eauto. eapply filled_update_vertices; eauto. }
      destruct (GO cs2 cp mvp mnp F2) as (cs3 & -> & F3). { intros i Hi. apply OLD. apply CP in Hi. tauto. } cbn [bind].
      match goal with |- context [update_vertices cs3 cn ?a ?b] => set (mvn := a); set (mnn := b) end.
      destruct (GO cs3 cn mvn mnn F3) as (cs4 & -> & F4). { intros i Hi. apply OLD. apply CN in Hi. tauto. } cbn [bind].
      rewrite (fd_p _ _ _ _ ED), (fd_n _ _ _ _ ED). unfold side_map. rewrite !dvals_combine_seq.
      destruct (GO cs4 _ mvp mnp F4 (NEWE true)) as (cs5 & -> & F5). cbn [bind].
      destruct (GO cs5 _ mvn mnn F5 (NEWE false)) as (cs6 & -> & F6). cbn [bind]. eauto. }
    destruct CV as (m' & Hm). rewrite Hm. cbn [bind]. eauto.
  Qed.
End Cut.

(** ** C34 *)

Lemma cut_fractures_run {P} fuel d (m : mesh P) shapes m' fr : cut_ready P m ->
  cut_conformity_on_fractures P (S fuel) d m shapes = Ok (m', fr) ->
  d = 2 /\ frac_run P m shapes m' /\ cut_ready P m' /\
  (forall i c, cell_at (m_cells P m) i c ->
     exists c', cell_at (m_cells P m') i c' /\ c_dim c' = c_dim c /\ c_id c' = c_id c /\ c_mat c' = c_mat c).
Proof.
  intros RD H. unfold cut_conformity_on_fractures in H. destruct (Nat.eqb_spec d 2); [|discriminate].
  destruct (frac_run_spec P fuel shapes m [] m' fr RD H) as [A B]. split; auto. split; auto. split; auto. apply (frac_run_keeps P m m' shapes A).
Qed.
Lemma cut_fractures_dim {P} fuel d (m : mesh P) shapes : d <> 2 -> cut_conformity_on_fractures P fuel d m shapes = Err AssertionError.
Proof. intros H. unfold cut_conformity_on_fractures. destruct (Nat.eqb_spec d 2); [congruence|auto]. Qed.

