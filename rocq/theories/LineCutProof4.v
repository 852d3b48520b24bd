(** * Lemmas: cutting along lines, C36 (selection of the cells) *)
From Coq Require Import List Arith ZArith Bool Lia Sorted Permutation.
From Verif Require Import Base BaseProof MeshModel MeshSpec GraphModel GraphProof CutModel CutSpec CutProof CutProof2
  LineCutModel LineCutSpec LineCutProof LineCutProof2 LineCutProof3.
Import ListNotations.

Lemma sorted_filter (q : nat -> bool) l : StronglySorted lt l -> StronglySorted lt (filter q l).
Proof.
  induction 1 as [|a l H IH F]; simpl; [constructor|]. destruct (q a); auto. constructor; auto.
  rewrite Forall_forall in *. intros x Hx. apply filter_In in Hx as [Hx _]. auto.
Qed.
Lemma sorted_lt_nodup l : StronglySorted lt l -> NoDup l.
Proof.
  induction 1 as [|a l H IH F]; constructor; auto. intros I. rewrite Forall_forall in F. specialize (F a I). lia.
Qed.
Lemma filter_combine_fst {A} (l : list A) (f : A -> bool) :
  map fst (filter snd (combine l (map f l))) = filter f l.
Proof. induction l as [|a l IH]; simpl; auto. destruct (f a); simpl; congruence. Qed.
Lemma filter_combine_side {A} (q : comparison -> bool) (l : list A) (f : A -> comparison) :
  map fst (filter (fun x => q (snd x)) (combine l (map f l))) = filter (fun a => q (f a)) l.
Proof. induction l as [|a l IH]; simpl; auto. destruct (q (f a)); simpl; congruence. Qed.

Lemma tagged_spec cs tag : layered_mesh cs ->
  exists raw, tagged cs tag = Ok raw /\ increasing_list raw (fun i => exists c, cell_at cs i c /\ c_mat c = Some tag).
Proof.
  intros CL. destruct (all_cells_layered cs CL) as (l & E & M). unfold tagged. rewrite E. cbn [bind].
  eexists. split; [reflexivity|]. split; [apply filter_positions_sorted|].
  intros i. rewrite in_map_iff. unfold cell_at. split.
  - intros ([c j] & Ej & H). simpl in Ej; subst j. apply filter_In in H as [H Q]. apply In_combine_seq in H as [_ H].
    rewrite Nat.sub_0_r in H. simpl in Q. rewrite eqb_true in Q.
    exists c. rewrite <- M, nth_error_map, H. auto.
  - intros (c & Hc & Hm). exists (c, i). split; auto. apply filter_In. split.
    + apply In_combine_seq. rewrite Nat.sub_0_r. split; [lia|]. rewrite <- M, nth_error_map in Hc.
      destruct (nth_error l i); [|discriminate]. simpl in Hc. congruence.
    + simpl. rewrite Hm, eqb_refl. auto.
Qed.

(** ** cells above vertices *)
Definition above (cs : cells) (d : nat) (V : list nat) (j : nat) : Prop :=
  exists c, cell_at cs j c /\ c_dim c = d /\ lists_one V c.
Lemma preds_or cs l d V : 0 < d -> layered_mesh cs -> map Some l = cs ->
  let g := from_edgelist (flat_map (edges_of 0) (filter (fun c => c_dim c =? d) l)) in
  (exists r, preds g 0 V = Ok r /\ forall v, In v V -> exists j, above cs d [v] j) \/
  (preds g 0 V = Err NetworkXError /\ exists v, In v V /\ ~ exists j, above cs d [v] j).
Proof.
  intros D0 LM M g.
  assert (MB : forall v, memb (0, v) (g_nodes g) = true <-> exists j, above cs d [v] j).
  { intros v. rewrite (memb_In (A := nat * nat)). unfold g. rewrite In_nodes_from_edgelist. split.
    - intros (e & He & Hx). apply in_flat_map in He as (c & Hc & He). unfold edges_of in He. apply in_map_iff in He as (x & <- & Hx').
      cbn [fst snd] in Hx. apply filter_In in Hc as [Hc Hd]. apply Nat.eqb_eq in Hd.
      destruct Hx as [Hx|Hx]; [unfold index in Hx; inversion Hx; lia|]. inversion Hx; subst x.
      apply (In_all_cells cs l c M) in Hc as (i & Hi). exists i, c. split; auto. split; auto. exists v. split; [left|]; auto.
    - intros (j & c & Hc & Hd & w & [<-|[]] & Hv). exists ((d, j), (0, v)). split; [|cbn; auto]. apply (In_edges_layered cs l d 0 j v LM M). eauto. }
  unfold preds.
  enough (G : (exists r, mapM (fun id => predecessors g (0, id)) V = Ok r /\ forall v, In v V -> exists j, above cs d [v] j) \/
              (mapM (fun id => predecessors g (0, id)) V = Err NetworkXError /\ exists v, In v V /\ ~ exists j, above cs d [v] j)).
  { destruct G as [(r & -> & H)|(-> & H)]; [left; eexists; split; [reflexivity|auto]|right; split; auto]. }
  induction V as [|v V IH]; [left; exists []; split; [reflexivity|]; intros v []|].
  cbn [mapM]. specialize (MB v). unfold predecessors at 1 3.
  match goal with |- context [if ?b then _ else _] => destruct b eqn:E end.
  - destruct IH as [(r & -> & H)|(-> & w & Hw & NX)].
    + left. cbn [bind]. eexists. split; [reflexivity|]. intros x [<-|Hx]; [apply MB; auto|auto].
    + right. cbn [bind]. split; auto. exists w. split; [right; auto|auto].
  - right. cbn [bind]. split; auto. exists v. split; [left; auto|]. intros X. apply MB in X. pose proof (eq_trans (eq_sym X) E) as Y. discriminate Y.
Qed.
Lemma neighbours_spec cs cs' l d V : 0 < d -> layered_mesh cs -> map Some l = cs ->
  (forall v, In v V -> exists c, cell_at cs' v c /\ c_dim c = 0 /\ c_id c = v) ->
  let g := from_edgelist (flat_map (edges_of 0) (filter (fun c => c_dim c =? d) l)) in
  (exists r, neighbours cs' g V = Ok r /\ increasing_list r (above cs d V) /\ forall v, In v V -> exists j, above cs d [v] j) \/
  (neighbours cs' g V = Err NetworkXError /\ exists v, In v V /\ ~ exists j, above cs d [v] j).
Proof.
  intros D0 LM M HV g.
  assert (E : neighbours cs' g V = do r <- preds g 0 V; Ok (np_unique r)).
  { unfold neighbours, preds. replace (mapM (fun v => do c <- cell_of cs' v; predecessors g (index c)) V) with (mapM (fun id => predecessors g (0, id)) V).
    - destruct (mapM (fun id => predecessors g (0, id)) V); reflexivity.
    - clear M. induction V as [|v V IH]; auto. cbn [mapM]. destruct (HV v) as (c & Hc & Dc & Ic); [left; auto|].
      rewrite (proj2 (cell_of_at _ _ _) Hc). cbn [bind]. unfold index. rewrite Dc, Ic.
      rewrite IH; [reflexivity|]. intros; apply HV; right; auto. }
  rewrite E. destruct (preds_or cs l d V D0 LM M) as [(r & Er & H)|(Er & H)]; fold g in Er; rewrite Er; cbn [bind]; [left|right; auto].
  eexists. split; [reflexivity|]. split; auto. pose proof (preds_spec cs l d 0 V r LM M Er) as PS.
  destruct (np_unique_spec r) as [S1 S2]. split; auto. intros j. rewrite S2, PS. unfold above, lists_one. split.
  - intros (e & c & ? & ? & ? & ?). eauto 8.
  - intros (c & ? & ? & e & ? & ?). eauto 8.
Qed.

Section Sel.
  Variable P : Type.

  Lemma points_exist (m : mesh P) i c : cut_ready P m -> cell_at (m_cells P m) i c -> exists pts, has_points P m c pts.
  Proof.
    intros (_ & _ & RG) Hc. specialize (RG i c). unfold has_points.
    assert (G : forall l, (forall t, In t l -> t < length (m_points P m)) -> exists pts, Forall2 (fun t x => nth_error (m_points P m) t = Some x) l pts).
    { induction l as [|t l IH]; intros H; [exists []; constructor|]. destruct IH as (pts & Hp); [intros; apply H; right; auto|].
      destruct (nth_error (m_points P m) t) as [x|] eqn:E; [exists (x :: pts); constructor; auto|].
      apply nth_error_None in E. specialize (H t (or_introl eq_refl)). lia. }
    apply G. intros; auto.
  Qed.
  Lemma points_unique (m : mesh P) c pts pts' : has_points P m c pts -> has_points P m c pts' -> pts = pts'.
  Proof.
    unfold has_points. intros H. revert pts'. induction H; intros pts' H'; inversion H'; subst; auto. f_equal; [congruence|auto].
  Qed.
  Lemma node_points_ok (m : mesh P) i c pts : cell_at (m_cells P m) i c -> has_points P m c pts -> node_points P m i = Ok pts.
  Proof.
    intros Hc Hp. unfold node_points. rewrite (proj2 (cell_of_at _ _ _) Hc). cbn [bind]. apply mapM_Forall2.
    eapply Forall2_impl; [|exact Hp]. intros; apply get_at_Ok; auto.
  Qed.
  Lemma side_unique (m : mesh P) ln c s s' : side_of P m ln c s -> side_of P m ln c s' -> s = s'.
  Proof. intros (p & Hp & <-) (p' & Hp' & <-). f_equal. eapply points_unique; eauto. Qed.
  Lemma side_total (m : mesh P) ln i c : cut_ready P m -> cell_at (m_cells P m) i c -> exists s, side_of P m ln c s.
  Proof. intros CR Hc. destruct (points_exist m i c CR Hc) as (p & Hp). exists (l_side P ln p), p. auto. Qed.

  (** [classify_line], with the sides judged in another mesh with the same points for these cells *)
  Lemma classify_line_spec (m m0 : mesh P) ln ids : ids <> [] ->
    (forall i, In i ids -> exists c pts, cell_at (m_cells P m0) i c /\ has_points P m0 c pts /\ cell_at (m_cells P m) i c /\ has_points P m c pts) ->
    exists p n, classify_line P m ln ids = Ok (p, n) /\
      (forall i, In i p <-> In i ids /\ exists c, cell_at (m_cells P m0) i c /\ side_of P m0 ln c Gt) /\
      (forall i, In i n <-> In i ids /\ exists c, cell_at (m_cells P m0) i c /\ side_of P m0 ln c Lt).
  Proof.
    intros NE H. set (sd := fun i => match node_points P m i with Ok pts => l_side P ln pts | Err _ => Eq end).
    assert (E : mapM (fun id => do pts <- node_points P m id; Ok (l_side P ln pts)) ids = Ok (map sd ids)).
    { apply mapM_Ok_map. intros i Hi. destruct (H i Hi) as (c & pts & _ & _ & Hc & Hp). unfold sd. rewrite (node_points_ok m i c pts) by auto. reflexivity. }
    assert (SD : forall i, In i ids -> forall s, sd i = s <-> exists c, cell_at (m_cells P m0) i c /\ side_of P m0 ln c s).
    { intros i Hi s. destruct (H i Hi) as (c & pts & Hc0 & Hp0 & Hc & Hp). unfold sd. rewrite (node_points_ok m i c pts) by auto. split.
      - intros <-. exists c. split; auto. exists pts; auto.
      - intros (c' & Hc' & p' & Hp' & <-). assert (c' = c) by (unfold cell_at in *; congruence). subst c'. rewrite (points_unique m0 c p' pts Hp' Hp0). reflexivity. }
    exists (filter (fun i => match sd i with Gt => true | _ => false end) ids), (filter (fun i => match sd i with Lt => true | _ => false end) ids).
    split.
    - unfold classify_line. destruct ids as [|i0 ids0] eqn:Eids; [tauto|]. rewrite <- Eids in *. rewrite E. cbn [bind].
      match goal with |- Ok (?a, ?b) = Ok (?c, ?d) => enough (a = c /\ b = d) as [-> ->] by reflexivity end. split.
      + exact (filter_combine_side (fun s => match s with Gt => true | _ => false end) ids sd).
      + exact (filter_combine_side (fun s => match s with Lt => true | _ => false end) ids sd).
    - split; intros i; rewrite filter_In; split.
      + intros [Hi Q]. split; auto. apply (SD i Hi Gt). destruct (sd i); [discriminate|discriminate|auto].
      + intros [Hi Q]. split; auto. apply (SD i Hi Gt) in Q. rewrite Q. auto.
      + intros [Hi Q]. split; auto. apply (SD i Hi Lt). destruct (sd i); [discriminate|auto|discriminate].
      + intros [Hi Q]. split; auto. apply (SD i Hi Lt) in Q. rewrite Q. auto.
  Qed.

  (** ** the edges and vertices of the line *)
  Lemma line_edges_spec t (m : mesh P) ln : line_ready P t m -> exists raw flags F,
    tagged (m_cells P m) (t_line t) = Ok raw /\ mapM (on_line P m ln) raw = Ok flags /\
    F = map fst (filter snd (combine raw flags)) /\ increasing_list F (line_edge P t m ln) /\ (forall e, In e F -> In e raw).
  Proof.
    intros (CR & NR & TG). destruct (tagged_spec (m_cells P m) (t_line t) (proj1 CR)) as (raw & Er & SR & IR).
    set (on := fun i => match node_points P m i with Ok pts => l_on P ln pts | Err _ => false end).
    assert (Ef : mapM (on_line P m ln) raw = Ok (map on raw)).
    { apply mapM_Ok_map. intros i Hi. apply IR in Hi as (c & Hc & _). destruct (points_exist m i c CR Hc) as (pts & Hp).
      unfold on_line, on. rewrite (node_points_ok m i c pts) by auto. reflexivity. }
    exists raw, (map on raw), (filter on raw). split; auto. split; auto. split; [symmetry; apply filter_combine_fst|].
    split; [|intros e He; apply filter_In in He; tauto]. split; [apply sorted_filter; auto|].
    intros i. rewrite filter_In, IR. unfold line_edge, on. split.
    - intros [(c & Hc & Hm) Q]. destruct (points_exist m i c CR Hc) as (pts & Hp). rewrite (node_points_ok m i c pts) in Q by auto. eauto 8.
    - intros (c & pts & Hc & Hm & Hp & Q). rewrite (node_points_ok m i c pts) by auto. split; eauto.
  Qed.
  Lemma line_edge_cell t (m : mesh P) ln e : line_ready P t m -> line_edge P t m ln e -> exists c, cell_at (m_cells P m) e c /\ c_dim c = 1.
  Proof. intros (_ & _ & TG) (c & pts & Hc & Hm & _). exists c. split; auto. eapply TG; eauto. Qed.
  Lemma line_vertices_spec t (m : mesh P) ln F : line_ready P t m -> increasing_list F (line_edge P t m ln) ->
    exists lists V, mapM (fun i => do c <- cell_of (m_cells P m) i; get_at (c_sub c) 0) F = Ok lists /\ length lists = length F /\
      drop_tagged (m_cells P m) (t_internal t) (np_unique (concat lists)) = Ok V /\ increasing_list V (line_vertex P t m ln).
  Proof.
    intros LR [SF IF]. pose proof LR as (CR & NR & TG). pose proof CR as (LM & AL & RG).
    assert (HF : forall e, In e F -> exists c, cell_at (m_cells P m) e c /\ c_dim c = 1).
    { intros e He. apply (line_edge_cell t m ln); auto. apply IF; auto. }
    destruct (cells_of _ _ _ HF) as (l & FL & DL).
    assert (E : mapM (fun i => do c <- cell_of (m_cells P m) i; get_at (c_sub c) 0) F = Ok (map (fun c => nth 0 (c_sub c) []) l)).
    { apply mapM_Forall2. clear - FL LM DL. assert (G : Forall2 (fun x y => (do c <- cell_of (m_cells P m) x; get_at (c_sub c) 0) = Ok (nth 0 (c_sub y) [])) F l).
      { induction FL as [|e c F l Hc FL IH]; constructor; [|apply IH; intros; apply DL; right; auto].
        rewrite (proj2 (cell_of_at _ _ _) Hc). cbn [bind]. destruct LM as [_ LM]. destruct (LM e c Hc) as (_ & _ & Ls & _).
        destruct (c_sub c); [rewrite (DL c) in Ls by (left; auto); discriminate|reflexivity]. }
      clear - G. induction G; constructor; auto. }
    exists (map (fun c => nth 0 (c_sub c) []) l).
    assert (IL : forall v, In v (np_unique (concat (map (fun c => nth 0 (c_sub c) []) l))) <-> exists e c, In e F /\ cell_at (m_cells P m) e c /\ In v (nth 0 (c_sub c) [])).
    { intros v. rewrite (proj2 (np_unique_spec _)). rewrite in_concat. split.
      - intros (x & Hx & Hv). apply in_map_iff in Hx as (c & <- & Hc). destruct (Forall2_In_r _ _ _ _ FL Hc) as (e & He & Hec). eauto.
      - intros (e & c & He & Hc & Hv). destruct (Forall2_In_l _ _ _ _ FL He) as (c' & Hc' & Hec). assert (c' = c) by (unfold cell_at in *; congruence). subst c'.
        exists (nth 0 (c_sub c) []). split; auto. apply in_map_iff. eauto. }
    destruct (drop_tagged_succeeds (m_cells P m) (t_internal t) (np_unique (concat (map (fun c => nth 0 (c_sub c) []) l)))) as (V & EV).
    { intros v Hv. apply IL in Hv as (e & c & He & Hc & Hv). destruct (HF e He) as (c' & Hc' & Dc'). assert (c' = c) by (unfold cell_at in *; congruence). subst c'.
      destruct LM as [_ LM]. destruct (LM e c Hc) as (_ & _ & _ & S). destruct (S 0 v) as (x & Hx & _); [lia|auto|]. eauto. }
    exists V. split; auto. split; [rewrite map_length; apply Forall2_app_nth in FL; symmetry; apply FL|]. split; auto.
    destruct (drop_tagged_spec _ _ _ _ EV) as [A B]. split; [apply B; apply np_unique_spec|].
    intros v. rewrite A, IL. unfold line_vertex. split.
    - intros [(e & c & He & Hc & Hv) (cv & Hcv & Hm)]. exists e, c, cv. split; [apply IF; auto|auto].
    - intros (e & c & cv & He & Hc & Hv & Hcv & Hm). split; [exists e, c; split; [apply IF; auto|auto]|eauto].
  Qed.
End Sel.
