(** * Lemmas: separation of the sides, success of a cut, C31-C34 *)
From Coq Require Import List Arith ZArith Bool Lia Sorted Permutation.
From Verif Require Import Base BaseProof MeshModel MeshSpec MeshProof1 MeshProof2 MeshProof3 MeshProof4 GraphModel GraphProof CutModel CutSpec CutProof CutProof2 CutProof3.
Import ListNotations.

Section Cut.
  Variable P : Type.
  Notation mesh := (mesh P).
  Notation interface := (interface P).

  Lemma run_keeps (m m' : mesh) shapes : cut_run P m shapes m' ->
    length (m_cells P m) <= length (m_cells P m') /\
    (exists N, m_points P m' = m_points P m ++ N) /\
    forall i c, cell_at (m_cells P m) i c ->
      exists c', cell_at (m_cells P m') i c' /\ c_dim c' = c_dim c /\ c_id c' = c_id c /\ c_mat c' = c_mat c.
  Proof.
    induction 1 as [m|m f m1 fs m2 F V T N CE R (IH1 & (N2 & IH2) & IH3)].
    - split; auto. split; [exists []; rewrite app_nil_r; auto|]. intros i c H. exists c. auto.
    - split; [rewrite (ce_length _ _ _ _ _ _ _ _ CE) in IH1; lia|]. split.
      + exists ((N ++ N) ++ N2). rewrite IH2, (ce_points _ _ _ _ _ _ _ _ CE), <- app_assoc. auto.
      + intros i c H. destruct (ce_old _ _ _ _ _ _ _ _ CE i c H) as (c1 & q & H1 & H2 & H3 & H4 & _).
        destruct (IH3 i c1 H1) as (c2 & ? & ? & ? & ?). exists c2. repeat split; congruence.
  Qed.
  Lemma run_counts (m m' : mesh) shapes : cut_run P m shapes m' ->
    exists ks, length (m_cells P m') = length (m_cells P m) + 2 * (fold_right (fun k s => fst k + snd k + s) 0 ks) /\
               length (m_points P m') = length (m_points P m) + 2 * (fold_right (fun k s => snd k + s) 0 ks) /\
               length ks = length shapes.
  Proof.
    induction 1 as [m|m f m1 fs m2 F V T N CE R (ks & A & B & C)].
    - exists []. simpl. lia.
    - exists ((length F, length V) :: ks). simpl. rewrite A, B, C, (ce_length _ _ _ _ _ _ _ _ CE), (ce_points _ _ _ _ _ _ _ _ CE), !app_length.
      rewrite (eff_LN P f m m1 F V T N CE). lia.
  Qed.

  (** ** separation *)
  Lemma relabel_In (S : list nat) base a x : (forall y, In y S -> y < base) -> In x (map (relabel S base) a) -> ~ In x S.
  Proof.
    intros H Hx Hs. apply in_map_iff in Hx as (y & E & _). unfold relabel in E. destruct (pos y S) as [k|] eqn:Q.
    - apply H in Hs. lia.
    - apply pos_None in Q. subst. auto.
  Qed.
  Lemma relabel_high (S : list nat) base a x lo : In x (map (relabel S base) a) -> (forall y, In y a -> y < lo) -> lo <= x ->
    base <= x < base + length S.
  Proof.
    intros Hx H L. apply in_map_iff in Hx as (y & E & Hy). unfold relabel in E. destruct (pos y S) as [k|] eqn:Q.
    - apply pos_lt in Q. lia.
    - apply H in Hy. lia.
  Qed.
  Lemma relabel_hit (S : list nat) base a k x : NoDup S -> nth_error S k = Some x -> In x a -> In (base + k) (map (relabel S base) a).
  Proof.
    intros ND Hk Hx. apply in_map_iff. exists x. split; auto. unfold relabel. apply (pos_nth x S k ND) in Hk. rewrite Hk. auto.
  Qed.

  Lemma separation fuel (m : mesh) fr f m' fr' : cut_ready P m ->
    cut_interface P (S fuel) (m, fr) f = Ok (m', fr') ->
    (forall e c, interface_edge (m_cells P m) (if_tag P f) e -> cell_at (m_cells P m) e c -> cell_at (m_cells P m') e c) /\
    (forall v c, duplicated_vertex (m_cells P m) (if_tag P f) v -> cell_at (m_cells P m) v c -> cell_at (m_cells P m') v c) /\
    forall i c c' q, cell_at (m_cells P m) i c -> c_dim c = 2 -> cell_at (m_cells P m') i c' -> on_side P m f c q ->
      (forall e, interface_edge (m_cells P m) (if_tag P f) e -> ~ In e (nth 1 (c_sub c') [])) /\
      (forall v, duplicated_vertex (m_cells P m) (if_tag P f) v -> ~ In v (nth 0 (c_sub c') [])) /\
      (forall e p n, interface_edge (m_cells P m) (if_tag P f) e -> dget fr' e = Some (p, n) ->
         (In e (nth 1 (c_sub c) []) -> In (if q then p else n) (nth 1 (c_sub c') [])) /\
         ~ In (if q then n else p) (nth 1 (c_sub c') [])).
  Proof.
    intros RD H. destruct (cut_interface_effect P fuel m fr f m' fr' RD H) as (F & V & T & N & CE & FR & _).
    pose proof (proj2 (ce_F _ _ _ _ _ _ _ _ CE)) as IF. pose proof (proj2 (ce_V _ _ _ _ _ _ _ _ CE)) as IV.
    pose proof (StronglySorted_lt_NoDup _ (proj1 (ce_F _ _ _ _ _ _ _ _ CE))) as ND.
    assert (BF : forall e, In e F -> e < length (m_cells P m)).
    { intros e He. destruct (eff_edge P f m m' F V T N CE e He) as (c & Hc & _). eapply cell_at_lt; eauto. }
    assert (BV : forall e, In e V -> e < length (m_cells P m)).
    { intros e He. destruct (eff_vertex P f m m' F V T N RD CE e He) as (c & Hc & _). eapply cell_at_lt; eauto. }
    split; [|split].
    - intros e c He Hc. destruct (ce_old _ _ _ _ _ _ _ _ CE e c Hc) as (c1 & q & H1 & _ & _ & _ & _ & _ & _ & _ & H9 & _).
      rewrite H9 in H1; auto. right; right. apply IF. auto.
    - intros e c He Hc. apply IV in He. destruct (eff_vertex P f m m' F V T N RD CE e He) as (c0 & Hc0 & Hd).
      assert (c0 = c) by (unfold cell_at in *; congruence). subst c0.
      destruct (ce_old _ _ _ _ _ _ _ _ CE e c Hc) as (c1 & q & H1 & _ & _ & _ & _ & _ & _ & _ & H9 & _).
      rewrite H9 in H1; auto.
    - intros i c c' q Hc Hd Hc' OS. destruct (ce_old _ _ _ _ _ _ _ _ CE i c Hc) as (c1 & q' & H1 & H2 & H3 & H4 & H5 & H6 & H7 & H8 & H9 & H10).
      assert (c1 = c') by (unfold cell_at in *; congruence). subst c1. specialize (H7 Hd).
      assert (NF : ~ In i F). { intros X. apply IF in X as (x & Hx & Hxd & _). assert (x = c) by (unfold cell_at in *; congruence). subst; lia. }
      destruct (H8 (or_intror Hd) NF) as [H80 _].
      pose proof RD as ((_ & LM) & _). destruct (LM i c Hc) as (_ & _ & _ & Sb).
      assert (B1 : forall y, In y (nth 1 (c_sub c) []) -> y < length (m_cells P m)).
      { intros y Hy. destruct (Sb 1 y) as (cy & Hcy & _); [lia|auto|]. eapply cell_at_lt; eauto. }
      split; [|split].
      + intros e He Hin. apply IF in He. rewrite H7 in Hin. apply relabel_In in Hin; auto. intros y Hy. apply BF in Hy. lia.
      + intros v Hv Hin. apply IV in Hv. rewrite H80 in Hin. apply relabel_In in Hin; auto. intros y Hy. apply BV in Hy. lia.
      + intros e p n He Hfr. apply IF in He. apply In_nth_error in He as (k & Hk). rewrite (FR k e Hk) in Hfr. inversion Hfr; subst p n; clear Hfr.
        assert (Lk : k < length F) by (apply nth_error_Some; congruence).
        assert (TQ : forall x, In x F -> In x (nth 1 (c_sub c) []) -> q = q').
        { intros x X1 X2. eapply on_side_fun; [exact OS|]. apply H6. left. split; auto. exists x; auto. }
        split.
        * intros Hin. assert (q = q') by (apply (TQ e); auto; eapply nth_error_In; eauto). subst q'. rewrite H7.
          replace (if q then length (m_cells P m) + k else length (m_cells P m) + length F + k) with (length (m_cells P m) + (if q then 0 else length F) + k) by (destruct q; lia).
          apply (relabel_hit F _ _ k e ND Hk Hin).
        * intros Hin. rewrite H7 in Hin.
          destruct (listed_dec F (nth 1 (c_sub c) [])) as [(x & X1 & X2)|NL].
          -- assert (q = q') by (apply (TQ x); auto). subst q'.
             apply (relabel_high F _ _ _ (length (m_cells P m))) in Hin; [|exact B1|destruct q; lia]. destruct q; lia.
          -- rewrite not_listed_relabel in Hin by auto. apply B1 in Hin. destruct q; lia.
  Qed.

  (** ** success *)
  Lemma update_edges_ok mp ids cs : (forall i, In i ids -> exists c, cell_at cs i c /\ 1 < length (c_sub c)) ->
    exists cs', update_edges cs ids mp = Ok cs'.
  Proof.
    apply (modify_succeeds (fun cs id => update_entity_with_dimension 1 cs id mp) (upd_e mp) (fun c => 1 < length (c_sub c))).
    - intros cs0 i c Hc L. apply update_entity_Ok. exists c. auto.
    - intros c L. unfold upd_e, set_sub. cbn [c_sub]. rewrite length_set_at. auto.
  Qed.
  Lemma update_vertices_ok mv mn ids cs : (forall i, In i ids -> exists c, cell_at cs i c /\ 0 < length (c_sub c)) ->
    exists cs', update_vertices cs ids mv mn = Ok cs'.
  Proof.
    apply (modify_succeeds _ (upd_v mv mn) (fun c => 0 < length (c_sub c))).
    - intros cs0 i c Hc L. apply update_v_step. exists c. auto.
    - intros c L. destruct (upd_v_fields mv mn c) as (_ & _ & _ & -> & _). auto.
  Qed.
  (** the update loops keep slots filled and list lengths *)
  Definition filled (cs cs' : cells) : Prop := forall i c, cell_at cs i c -> exists c', cell_at cs' i c' /\ length (c_sub c') = length (c_sub c).
  Lemma filled_app cs l : filled cs (cs ++ l).
  Proof. intros i c H. exists c. split; auto. apply cell_at_app; auto. eapply cell_at_lt; eauto. Qed.
  Lemma filled_trans a b c : filled a b -> filled b c -> filled a c.
  Proof. intros H1 H2 i x Hx. destruct (H1 i x Hx) as (y & Hy & E). destruct (H2 i y Hy) as (z & Hz & E2). exists z. split; auto. congruence. Qed.
  Lemma filled_loop (step : cells -> nat -> res cells) (u : cell -> cell) :
    (forall cs i cs', step cs i = Ok cs' -> exists c, cell_at cs i c /\ cs' = set_at cs i (Some (u c))) ->
    (forall c, length (c_sub (u c)) = length (c_sub c)) ->
    forall ids cs cs', foldM step ids cs = Ok cs' -> filled cs cs'.
  Proof.
    intros ST LN. induction ids as [|a ids IH]; intros cs cs' H; simpl in H.
    - inversion H; subst. intros i c Hc. eauto.
    - apply bind_Ok in H as (cs1 & H1 & H2). apply ST in H1 as (c & Hc & ->). eapply filled_trans; [|eapply IH; eauto].
      intros i x Hx. unfold cell_at. rewrite cell_at_set by (eapply cell_at_lt; eauto). destruct (Nat.eqb_spec a i) as [->|].
      + exists (u c). split; auto. rewrite LN. unfold cell_at in *; congruence.
      + eauto.
  Qed.
  Lemma filled_update_edges mp ids cs cs' : update_edges cs ids mp = Ok cs' -> filled cs cs'.
  Proof.
    apply (filled_loop (fun cs id => update_entity_with_dimension 1 cs id mp) (upd_e mp)).
    - intros a i b H. apply update_entity_Ok in H as (c & Hc & _ & ->). exists c. auto.
    - intros c. unfold upd_e, set_sub. cbn [c_sub]. apply length_set_at.
  Qed.
  Lemma filled_update_vertices mv mn ids cs cs' : update_vertices cs ids mv mn = Ok cs' -> filled cs cs'.
  Proof.
    apply (filled_loop _ (upd_v mv mn)).
    - intros a i b H. apply update_v_step in H as (c & Hc & _ & ->). exists c. auto.
    - intros c. apply upd_v_fields.
  Qed.

  Lemma positive_q_ok (m : mesh) f i c : cell_at (m_cells P m) i c -> (forall t, In t (c_nodes c) -> t < length (m_points P m)) ->
    exists q, positive_q P m f i = Ok q.
  Proof.
    intros Hc Hr. assert (X : exists pts, Forall2 (fun t x => nth_error (m_points P m) t = Some x) (c_nodes c) pts).
    { clear Hc. induction (c_nodes c) as [|t l IH]; [exists []; auto|]. destruct IH as (pts & IH); [intros; apply Hr; right; auto|].
      destruct (nth_error (m_points P m) t) as [x|] eqn:E; [exists (x :: pts); auto|]. apply nth_error_None in E. specialize (Hr t (or_introl eq_refl)). lia. }
    destruct X as (pts & Hp). exists (if_side P f pts). apply positive_q_spec. exists c. split; auto. exists pts. auto.
  Qed.

  Lemma cut_succeeds fuel (m : mesh) fr f : cut_ready P m -> cuttable P m (if_tag P f) ->
    exists m' fr', cut_interface P (S fuel) (m, fr) f = Ok (m', fr').
  Proof.
    intros RD (KE & KV). pose proof RD as (LM & AL & RG). unfold cut_interface. cbn [fst snd].
    destruct (graphs_ok P fuel m LM) as (l & M & E1 & E2 & E3). rewrite E1, E2, E3. cbn [bind].
    assert (CL : forall i c, cell_at (m_cells P m) i c -> c_id c = i /\ c_dim c <= 3 /\ length (c_sub c) = c_dim c + 1 /\
       forall d j, d < c_dim c -> In j (nth d (c_sub c) []) -> exists c', cell_at (m_cells P m) j c' /\ c_dim c' = d) by apply LM.
    (* edges *)
    assert (CE : exists e, cut_edges P m f (from_edgelist (flat_map (edges_of 1) (filter (fun c => c_dim c =? 2) l))) = Ok e).
    { unfold cut_edges. destruct (f_positions_spec (m_cells P m) (if_tag P f) LM) as (fs & -> & IF). cbn [bind].
      assert (FC : forall i, In i fs -> exists c, cell_at (m_cells P m) i c).
      { intros i Hi. apply IF in Hi as (c & Hc & _). eauto. }
      destruct (cells_of_positions _ _ FC) as (fl & FL & ->). cbn [bind].
      assert (IDS : map c_id fl = fs).
      { clear - FL CL. induction FL; simpl; auto. f_equal; auto. apply (CL _ _ H). }
      rewrite IDS.
      destruct (preds_succeeds (m_cells P m) l 2 1 fs LM M) as (ne & Hne).
      { intros e He. apply IF in He. apply KE. auto. }
      rewrite Hne. cbn [bind].
      assert (NE : forall i, In i ne -> exists c, cell_at (m_cells P m) i c /\ c_dim c = 2).
      { intros i Hi. apply (preds_spec _ _ _ _ _ _ LM M Hne i) in Hi as (_ & c & _ & H1 & H2 & _). eauto. }
      destruct (classify_succeeds P m f ne) as (cp & cn & Hcl).
      { intros i Hi. destruct (NE i Hi) as (c & Hc & _). eapply positive_q_ok; eauto. }
      rewrite Hcl. cbn [bind]. destruct (classify_spec _ _ _ _ _ _ Hcl) as [CP CN].
      rewrite (clone_edges_eq _ _ _ fl) by auto. cbn [bind].
      rewrite (clone_edges_eq _ _ _ fl).
      2:{ eapply Forall2_impl; [|exact FL]. intros x y Hxy. apply cell_at_app; auto. eapply cell_at_lt; eauto. }
      cbn [bind].
      match goal with |- context [update_edges ?c cp ?mp] => set (cs2 := c); set (mp1 := mp) end.
      assert (F2 : filled (m_cells P m) cs2) by (unfold cs2; eapply filled_trans; apply filled_app).
      destruct (update_edges_ok mp1 cp cs2) as (cs3 & H3).
      { intros i Hi. apply CP in Hi as [Hi _]. destruct (NE i Hi) as (c & Hc & Hd). destruct (F2 i c Hc) as (c' & Hc' & EL).
        exists c'. split; auto. destruct (CL i c Hc) as (_ & _ & Ls & _). lia. }
      rewrite H3. cbn [bind].
      match goal with |- context [update_edges cs3 cn ?mp] => set (mn1 := mp) end.
      destruct (update_edges_ok mn1 cn cs3) as (cs4 & H4).
      { intros i Hi. apply CN in Hi as [Hi _]. destruct (NE i Hi) as (c & Hc & Hd).
        destruct (filled_trans _ _ _ F2 (filled_update_edges _ _ _ _ H3) i c Hc) as (c' & Hc' & EL).
        exists c'. split; auto. destruct (CL i c Hc) as (_ & _ & Ls & _). lia. }
      rewrite H4. cbn [bind]. eauto. }
    destruct CE as (e & He). rewrite He. cbn [bind].
    pose proof (cut_edges_spec P m f l e LM M He) as ED. pose proof (ed_F _ _ _ _ ED) as IF.
    assert (KEEP : forall i c, cell_at (m_cells P m) i c -> c_dim c <> 2 -> cell_at (ec_cells e) i c).
    { intros i c Hc Hd. destruct (ed_keeps _ _ _ _ _ _ ED Hc) as (c1 & H1 & A1 & A2 & A3 & A4 & A5 & A6 & _). rewrite <- A6; auto. }
    (* vertices *)
    assert (CV : exists m', cut_vertices P m f (vertex_graph 2 l) (vertex_graph 1 l) e = Ok m').
    { unfold cut_vertices.
      assert (EDGE : forall i, In i (ec_f e) -> exists c, cell_at (m_cells P m) i c /\ c_dim c = 1 /\ cell_at (ec_cells e) i c).
      { intros i Hi. apply IF in Hi as (c & Hc & Hd & _). exists c. split; auto. split; auto. apply KEEP; auto. lia. }
      destruct (cells_of_positions (ec_cells e) (ec_f e)) as (fl & FL & ->). { intros i Hi. destruct (EDGE i Hi) as (c & _ & _ & Hc). eauto. }
      cbn [bind].
      assert (FLM : forall c, In c fl -> exists i, In i (ec_f e) /\ cell_at (m_cells P m) i c /\ c_dim c = 1).
      { intros c Hc. destruct (Forall2_In_r _ _ _ _ FL Hc) as (i & Hi & Hci). destruct (EDGE i Hi) as (c' & H1 & H2 & H3).
        assert (c' = c) by (unfold cell_at in *; congruence). subst. eauto. }
      rewrite (mapM_Ok_map _ (fun c => nth 0 (c_sub c) [])).
      2:{ intros c Hc. destruct (FLM c Hc) as (i & _ & Hci & Hd). apply get_at_nth. destruct (CL i c Hci) as (_ & _ & Ls & _). lia. }
      cbn [bind].
      assert (VD : forall v, In v (np_unique (concat (map (fun c => nth 0 (c_sub c) []) fl))) ->
         exists i c cv, In i (ec_f e) /\ cell_at (m_cells P m) i c /\ c_dim c = 1 /\ In v (nth 0 (c_sub c) []) /\ cell_at (m_cells P m) v cv /\ c_dim cv = 0 /\ cell_at (ec_cells e) v cv).
      { intros v Hv. apply (proj1 (proj2 (np_unique_spec _) v)) in Hv. apply in_concat in Hv as (x & Hx & Hv). apply in_map_iff in Hx as (c & <- & Hc).
        destruct (FLM c Hc) as (i & Hi & Hci & Hd). destruct (CL i c Hci) as (_ & _ & _ & Sb). destruct (Sb 0 v) as (cv & Hcv & Hdv); [lia|auto|].
        exists i, c, cv. repeat (split; auto). apply KEEP; auto. lia. }
      destruct (drop_tagged_succeeds (ec_cells e) (if_tag P f) (np_unique (concat (map (fun c => nth 0 (c_sub c) []) fl)))) as (vs & Hvs).
      { intros v Hv. destruct (VD v Hv) as (i & c & cv & _ & _ & _ & _ & _ & _ & H). eauto. }
      rewrite Hvs. cbn [bind].
      destruct (drop_tagged_spec _ _ _ _ Hvs) as [DA _].
      assert (VC : forall v, In v vs -> duplicated_vertex (m_cells P m) (if_tag P f) v /\
         exists i c cv, In i (ec_f e) /\ cell_at (m_cells P m) i c /\ c_dim c = 1 /\ In v (nth 0 (c_sub c) []) /\ cell_at (m_cells P m) v cv /\ c_dim cv = 0 /\ cell_at (ec_cells e) v cv).
      { intros v Hv. apply DA in Hv as [Hv (cv & Hcv & NM)]. destruct (VD v Hv) as (i & c & cv' & H1 & H2 & H3 & H4 & H5 & H6 & H7).
        assert (cv' = cv) by (unfold cell_at in *; congruence). subst cv'. split.
        - exists i, c, cv. split; [apply IF; auto|]. auto.
        - exists i, c, cv. auto 10. }
      clear DA Hvs VD. destruct vs as [|v0 vs0]; [eauto|]. set (V := v0 :: vs0) in *. clearbody V. clear v0 vs0.
      assert (BV : exists ls, mapM (fun v => do a <- preds (vertex_graph 2 l) 0 [v]; do b <- preds (vertex_graph 1 l) 0 [v]; Ok (a ++ b)) V = Ok ls).
      { clear - VC KV LM M. induction V as [|v V IH]; [exists []; reflexivity|]. cbn [mapM].
        destruct (VC v (or_introl eq_refl)) as (DVv & i & c & cv & H1 & H2 & H3 & H4 & _).
        destruct (preds_succeeds (m_cells P m) l 2 0 [v] LM M) as (a & Ha). { intros x [<-|[]]. apply KV. auto. }
        destruct (preds_succeeds (m_cells P m) l 1 0 [v] LM M) as (b & Hb). { intros x [<-|[]]. eauto. }
        unfold vertex_graph at 1 2. rewrite Ha. cbn [bind]. rewrite Hb. cbn [bind].
        destruct IH as (ls & ->); [intros; apply VC; right; auto|]. cbn [bind]. eauto. }
      destruct BV as (bv & Hbv). rewrite Hbv. cbn [bind].
      match goal with |- context [classify P ?mm f ?nn] => set (m1 := mm); set (ne := nn) end.
      assert (NE : forall i, In i ne -> exists c c1, cell_at (m_cells P m) i c /\ cell_at (ec_cells e) i c1 /\ c_nodes c1 = c_nodes c /\ length (c_sub c1) = length (c_sub c)).
      { intros i Hi. unfold ne in Hi. apply (proj1 (proj2 (np_unique_spec _) i)) in Hi. apply filter_In in Hi as [Hi _]. apply (by_vertex_spec _ _ _ _ LM M Hbv i) in Hi as (c & Hc & _).
        destruct (ed_keeps _ _ _ _ _ _ ED Hc) as (c1 & H1 & A1 & A2 & A3 & A4 & A5 & A6 & A7 & _). exists c, c1. auto. }
      destruct (classify_succeeds P m1 f ne) as (cp & cn & Hcl).
      { intros i Hi. destruct (NE i Hi) as (c & c1 & Hc & Hc1 & EN & _). apply (positive_q_ok m1 f i c1); auto. unfold m1; cbn [m_points]. rewrite EN. eauto. }
      rewrite Hcl. cbn [bind]. destruct (classify_spec _ _ _ _ _ _ Hcl) as [CP CN].
      assert (NN : exists T N, Forall2 (fun v t => exists c, cell_at (ec_cells e) v c /\ c_nodes c = [t]) V T /\
         mapM (fun v => do c <- cell_of (ec_cells e) v; do t <- get_at (c_nodes c) 0; get_at (m_points P m) t) V = Ok N).
      { clear - VC AL RG. induction V as [|v V IH]; [exists [], []; split; auto|]. destruct IH as (T & N & HT & HN); [intros; apply VC; right; auto|].
        destruct (VC v (or_introl eq_refl)) as (_ & i & c & cv & _ & _ & _ & _ & H1 & H2 & H3). destruct AL as (A0 & _). destruct (A0 v cv H1 H2) as (t & Ht).
        assert (Lt : t < length (m_points P m)) by (apply (RG v cv t H1); rewrite Ht; left; auto).
        destruct (nth_error (m_points P m) t) as [x|] eqn:E; [|apply nth_error_None in E; lia].
        exists (t :: T), (x :: N). split; [constructor; eauto|]. cbn [mapM]. rewrite (proj2 (cell_of_at _ _ _) H3). cbn [bind]. rewrite Ht. cbn [get_at nth_error bind].
        unfold get_at at 1. rewrite E. cbn [bind]. rewrite HN. reflexivity. }
      destruct NN as (T & N & HT & ->). cbn [bind].
      destruct (cells_of_positions (ec_cells e) V) as (vl & FV & _).
      { intros v Hv. destruct (VC v Hv) as (_ & i & c & cv & _ & _ & _ & _ & _ & _ & H). eauto. }
      assert (GV : Forall2 (fun c t => exists r, c_nodes c = t :: r) vl T).
      { clear - FV HT. revert T HT. induction FV as [|v c V vl Hc FV IH]; intros T HT; inversion HT as [|? t ? ? (c' & Hc' & Ht)]; subst; constructor; auto.
        assert (c' = c) by (unfold cell_at in *; congruence). subst. eauto. }
      rewrite (clone_vertices_eq _ _ _ vl T) by auto. cbn [bind].
      rewrite (clone_vertices_eq _ _ _ vl T).
      2:{ eapply Forall2_impl; [|exact FV]. intros x y Hxy. apply cell_at_app; auto. eapply cell_at_lt; eauto. }
      2:{ auto. }
      cbn [bind].
      match goal with |- context [update_vertices ?c cp ?a ?b] => set (cs2 := c); set (mvp := a); set (mnp := b) end.
      assert (F2 : filled (ec_cells e) cs2) by (unfold cs2; eapply filled_trans; apply filled_app).
      assert (OLD : forall i, In i ne -> exists c, cell_at (ec_cells e) i c /\ 0 < length (c_sub c)).
      { intros i Hi. destruct (NE i Hi) as (c & c1 & Hc & Hc1 & _ & EL). exists c1. split; auto. destruct (CL i c Hc) as (_ & _ & Ls & _). lia. }
      assert (NEWE : forall q : bool, forall i, In i (seq (length (m_cells P m) + if q then 0 else length (ec_f e)) (length (ec_f e))) -> exists c, cell_at (ec_cells e) i c /\ 0 < length (c_sub c)).
      { intros q i Hi. apply in_seq in Hi. set (k := i - (length (m_cells P m) + if q then 0 else length (ec_f e))).
        destruct (nth_error (ec_f e) k) as [x|] eqn:Ek; [|apply nth_error_None in Ek; unfold k in Ek; lia].
        destruct (EDGE x) as (c & Hc & Hd & _); [eapply nth_error_In; eauto|]. pose proof (ed_new _ _ _ _ ED q k x c Ek Hc) as X. cbv zeta in X.
        replace (length (m_cells P m) + (if q then 0 else length (ec_f e)) + k) with i in X by (unfold k; lia). eexists. split; [exact X|].
        unfold edge_copy, set_sub. cbn [c_sub]. rewrite length_set_at. destruct (CL x c Hc) as (_ & _ & Ls & _). lia. }
      assert (GO : forall cs ids mv mn, filled (ec_cells e) cs -> (forall i, In i ids -> exists c, cell_at (ec_cells e) i c /\ 0 < length (c_sub c)) ->
        exists cs', update_vertices cs ids mv mn = Ok cs' /\ filled (ec_cells e) cs').
      { intros cs ids mv mn Fl Hin. destruct (update_vertices_ok mv mn ids cs) as (cs' & H').
        - intros i Hi. destruct (Hin i Hi) as (c & Hc & L). destruct (Fl i c Hc) as (c' & Hc' & EL). exists c'. split; auto. lia.
        - exists cs'. split; auto. eapply filled_trans; eauto. eapply filled_update_vertices; eauto. }
      destruct (GO cs2 cp mvp mnp F2) as (cs3 & -> & F3). { intros i Hi. apply OLD. apply CP in Hi. tauto. } cbn [bind].
      match goal with |- context [update_vertices cs3 cn ?a ?b] => set (mvn := a); set (mnn := b) end.
      destruct (GO cs3 cn mvn mnn F3) as (cs4 & -> & F4). { intros i Hi. apply OLD. apply CN in Hi. tauto. } cbn [bind].
      rewrite (ed_p _ _ _ _ ED), (ed_n _ _ _ _ ED). unfold side_map. rewrite !dvals_combine_seq.
      destruct (GO cs4 _ mvp mnp F4 (NEWE true)) as (cs5 & -> & F5). cbn [bind].
      destruct (GO cs5 _ mvn mnn F5 (NEWE false)) as (cs6 & -> & F6). cbn [bind]. eauto. }
    destruct CV as (m' & Hm). rewrite Hm. cbn [bind]. eauto.
  Qed.
End Cut.

(** ** C34 *)
Lemma update_entity_exact d cs id m :
  (forall cs', update_entity_with_dimension d cs id m = Ok cs' -> exists c c',
     cell_at cs id c /\ cell_at cs' id c' /\ length cs' = length cs /\
     (forall j, j <> id -> nth_error cs' j = nth_error cs j) /\
     c_dim c' = c_dim c /\ c_id c' = c_id c /\ c_nodes c' = c_nodes c /\ c_mat c' = c_mat c /\
     forall d', nth_error (c_sub c') d' =
       if d' =? d then option_map (map (image m)) (nth_error (c_sub c) d') else nth_error (c_sub c) d') /\
  (forall c, cell_at cs id c -> d < length (c_sub c) -> exists cs', update_entity_with_dimension d cs id m = Ok cs').
Proof.
  split.
  - intros cs' H. apply update_entity_Ok in H as (c & Hc & L & ->).
    exists c. eexists. split; auto. split; [unfold cell_at; rewrite cell_at_set, Nat.eqb_refl by (eapply cell_at_lt; eauto); reflexivity|].
    split; [apply length_set_at|]. split.
    + intros j N. rewrite cell_at_set by (eapply cell_at_lt; eauto). destruct (Nat.eqb_spec id j); [congruence|auto].
    + do 4 (split; [reflexivity|]). intros d'. unfold set_sub. cbn [c_sub]. destruct (Nat.eqb_spec d' d) as [->|N].
      * rewrite nth_error_set_at_same by auto. rewrite (nth_error_nth' (c_sub c) []) by auto. reflexivity.
      * rewrite nth_error_set_at_other by auto. auto.
  - intros c Hc L. eexists. apply update_entity_Ok. eauto.
Qed.
Lemma update_nodes_exact cs id m :
  (forall cs', update_nodes_ids cs id m = Ok cs' -> exists c c',
     cell_at cs id c /\ cell_at cs' id c' /\ length cs' = length cs /\
     (forall j, j <> id -> nth_error cs' j = nth_error cs j) /\
     c_dim c' = c_dim c /\ c_id c' = c_id c /\ c_nodes c' = map (image m) (c_nodes c) /\ c_mat c' = c_mat c /\
     c_sub c' = c_sub c) /\
  (forall c, cell_at cs id c -> exists cs', update_nodes_ids cs id m = Ok cs').
Proof.
  split.
  - intros cs' H. apply update_nodes_Ok in H as (c & Hc & ->).
    exists c. eexists. split; auto. split; [unfold cell_at; rewrite cell_at_set, Nat.eqb_refl by (eapply cell_at_lt; eauto); reflexivity|].
    split; [apply length_set_at|]. split.
    + intros j N. rewrite cell_at_set by (eapply cell_at_lt; eauto). destruct (Nat.eqb_spec id j); [congruence|auto].
    + repeat (split; [reflexivity|]). reflexivity.
  - intros c Hc. eexists. apply update_nodes_Ok. eauto.
Qed.

Lemma cut_embed_run {P} fuel d (m : mesh P) shapes m' fr : cut_ready P m ->
  cut_conformity_on_embed_shapes P (S fuel) d m shapes = Ok (m', fr) ->
  d = 2 /\ cut_run P m shapes m' /\ cut_ready P m' /\
  (forall i c, cell_at (m_cells P m) i c ->
     exists c', cell_at (m_cells P m') i c' /\ c_dim c' = c_dim c /\ c_id c' = c_id c /\ c_mat c' = c_mat c).
Proof.
  intros RD H. unfold cut_conformity_on_embed_shapes in H. destruct (Nat.eqb_spec d 2); [|discriminate].
  destruct (cut_run_spec P fuel shapes m [] m' fr RD H) as [A B]. split; auto. split; auto. split; auto. apply (run_keeps P m m' shapes A).
Qed.
Lemma cut_embed_dim {P} fuel d (m : mesh P) shapes : d <> 2 -> cut_conformity_on_embed_shapes P fuel d m shapes = Err AssertionError.
Proof. intros H. unfold cut_conformity_on_embed_shapes. destruct (Nat.eqb_spec d 2); [congruence|auto]. Qed.

Lemma vertex_copies {P} fuel (m : mesh P) fr f m' fr' : cut_ready P m ->
  cut_interface P (S fuel) (m, fr) f = Ok (m', fr') ->
  (forall i c, cell_at (m_cells P m) i c -> c_dim c = 0 -> cell_at (m_cells P m') i c) /\
  exists F, increasing_list F (interface_edge (m_cells P m) (if_tag P f)) /\
  forall i c', length (m_cells P m) <= i -> cell_at (m_cells P m') i c' -> c_dim c' = 0 ->
    nth 0 (c_sub c') [] = c_nodes c' /\
    (In i (nth 0 (c_sub c') []) <-> length (m_cells P m) + 2 * length F = length (m_points P m)).
Proof.
  intros RD H. destruct (cut_interface_effect P fuel m fr f m' fr' RD H) as (F & V & T & N & CE & _). split.
  - intros i c Hc Hd. destruct (ce_old _ _ _ _ _ _ _ _ CE i c Hc) as (c1 & q & H1 & _ & _ & _ & _ & _ & _ & _ & H9 & _).
    rewrite H9 in H1; auto.
  - exists F. split; [apply CE|]. intros i c' Hi Hc' Hd.
    destruct (eff_origin P f m m' F V T N RD CE i c' Hc') as [(c & Hc)|[(q & k & e & c & Hk & Hc & E)|(q & k & v & c & Hk & Hc & E)]].
    + apply cell_at_lt in Hc. lia.
    + pose proof (ce_edges _ _ _ _ _ _ _ _ CE q k e c Hk Hc) as X. cbv zeta in X. rewrite <- E in X.
      unfold cell_at in X, Hc'. rewrite Hc' in X. inversion X; subst c'. cbn in Hd. lia.
    + pose proof (ce_vertices _ _ _ _ _ _ _ _ CE q k v c Hk Hc) as X. cbv zeta in X. rewrite <- E in X.
      unfold cell_at in X, Hc'. rewrite Hc' in X. inversion X; subst c'. cbn [c_sub nth c_nodes]. split; auto.
      split; [intros [Y|[]]; lia|]. intros Y. left. lia.
Qed.

(** ** meshes built from a file satisfy the conditions of the cut *)
Lemma perm_single (l : list nat) x : Permutation l [x] -> l = [x].
Proof. intros H. apply Permutation_sym in H. apply Permutation_length_1_inv in H. auto. Qed.
Lemma built_cut_ready {P} blocks physical cs (pts : list P) :
  well_shaped blocks -> build_conformal_mesh (length pts) blocks physical = Ok cs ->
  fully_tagged blocks physical -> all_points_used (length pts) blocks physical -> distinct_nodes blocks ->
  cut_ready P (mk_mesh P cs pts).
Proof.
  intros WS B FT AU DN. pose proof (good_lemma _ _ _ _ WS B FT AU DN) as (CM & _).
  destruct (C01_lemma _ _ _ _ WS B) as (L1 & L2 & L3 & _ & _ & _ & _ & _ & _ & LEN & C01).
  pose proof (C02_lemma _ _ _ _ WS B) as C02. pose proof (C04_lemma _ _ _ _ WS B) as C04.
  assert (V0 : forall i c, cell_at cs i c -> c_dim c = 0 -> i < length pts /\ c_nodes c = [i]).
  { intros i c Hc Hd. destruct (C01 i c Hc) as (_ & A & B1 & B2 & B3). pose proof (cell_at_lt _ _ _ Hc) as L. rewrite LEN in L.
    destruct (Nat.lt_ge_cases i (length pts)) as [Q|Q]; [destruct (A Q); auto|].
    destruct (Nat.lt_ge_cases i (length pts + length L1)) as [Q1|Q1]; [destruct (B1 (conj Q Q1)); lia|].
    destruct (Nat.lt_ge_cases i (length pts + length L1 + length L2)) as [Q2|Q2]; [destruct (B2 (conj Q1 Q2)); lia|].
    destruct B3 as [B3 _]; lia. }
  assert (AL : forall i c, cell_at cs i c -> Forall2 (fun v t => exists c', cell_at cs v c' /\ c_dim c' = 0 /\ c_nodes c' = [t]) (nth 0 (c_sub c) []) (c_nodes c)).
  { intros i c Hc. destruct (C04 i c Hc) as (D3 & LN & _ & _ & FA). specialize (FA 0 ltac:(lia)).
    assert (RS : ref_sub (c_dim c) 0 = map (fun k => [k]) (seq 0 (c_dim c + 1))).
    { destruct (c_dim c) as [|[|[|[|?]]]]; try reflexivity. lia. }
    rewrite RS in FA. rewrite <- LN in FA. clear RS.
    apply Forall2_app_nth in FA as [LF FA]. apply Forall2_app_nth. rewrite map_length, seq_length in LF. split; [lia|].
    intros k v t Hv Ht. assert (Lk : k < length (c_nodes c)) by (apply nth_error_Some; congruence).
    destruct (FA k [k] v) as (c' & Hc' & Hd' & Hp); auto.
    { rewrite nth_error_map, nth_error_seq by auto. reflexivity. }
    exists c'. split; auto. split; auto. apply perm_single. unfold select in Hp. cbn [map] in Hp. rewrite (nth_error_nth _ _ 0 Ht) in Hp. auto. }
  split; [|split; [split; [|split]|]]; cbn [m_cells m_points].
  - split; [apply CM|]. intros i c Hc. destruct (proj2 CM i c Hc) as (A1 & A2 & A3 & A4). repeat (split; auto). intros d j Hd. apply A4. lia.
  - intros i c Hc Hd. destruct (V0 i c Hc Hd). eauto.
  - intros i c j c' Hc Hc' Hd Hd' E. eapply C02; eauto; [congruence|]. rewrite E. apply Permutation_refl.
  - intros i c Hc _. eapply Forall2_impl; [|exact (AL i c Hc)]. intros v t (c' & ? & _ & ?). eauto.
  - intros i c t Hc Ht. destruct (Forall2_In_r _ _ _ _ (AL i c Hc) Ht) as (v & _ & c' & Hc' & Hd' & Hn').
    destruct (V0 v c' Hc' Hd') as [Q E]. rewrite Hn' in E. inversion E. subst. auto.
Qed.
