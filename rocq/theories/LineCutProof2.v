(** * Lemmas: cutting along lines, C36 (one update, copies of a side) *)
From Coq Require Import List Arith ZArith Bool Lia Sorted Permutation.
From Verif Require Import Base BaseProof MeshModel MeshSpec GraphModel GraphProof CutModel CutSpec CutProof CutProof2
  LineCutModel LineCutSpec LineCutProof.
Import ListNotations.

Definition mv (r0 r1 rt : nat -> nat) (c : cell) : cell :=
  mk_cell (c_dim c) (c_id c) (map rt (c_nodes c)) (c_mat c)
    (match c_sub c with
     | [vs; es; own] => [map r0 vs; map r1 es; own]
     | [vs; own] => [map r0 vs; own]
     | l => l
     end).
Record ecopies (cs : cells) (F : list nat) (b : nat) : Prop := {
  ec_nodup : NoDup F;
  ec_old : forall e, In e F -> exists c, cell_at cs e c /\ c_dim c = 1;
  ec_new : forall k, k < length F -> exists c, cell_at cs (b + k) c /\ c_dim c = 1;
  ec_lt : forall e, In e F -> e < b }.

Lemma np_max_const l d : l <> [] -> (forall x, In x l -> x = d) -> np_max l = Ok d.
Proof.
  destruct l as [|x l]; [tauto|]. intros _ H. simpl. f_equal. rewrite (H x) by (left; auto).
  assert (G : forall y, In y l -> y = d) by (intros; apply H; right; auto). clear H. induction l as [|y l IH]; auto. simpl. rewrite (G y) by (left; auto).
  rewrite Nat.max_id. apply IH. intros; apply G; right; auto.
Qed.
Lemma idx_pairs cs V b d : layered_mesh cs -> (forall v, In v V -> exists c, cell_at cs v c /\ c_dim c = d) ->
  (forall k, k < length V -> exists c, cell_at cs (b + k) c /\ c_dim c = d) -> NoDup V ->
  exists idx, mapM (fun ot => do o <- cell_of cs (fst ot); do t <- cell_of cs (snd ot); Ok (index o, index t)) (combine V (seq b (length V))) = Ok idx /\
    dict_of idx = map (lift d) (combine V (seq b (length V))).
Proof.
  intros [_ LM] HV HB ND. exists (map (lift d) (combine V (seq b (length V)))). split.
  - apply mapM_Ok_map. intros [x y] H. apply In_nth_error in H as (j & Hj). apply nth_error_combine_seq in Hj as [Hj ->]. cbn [fst snd].
    destruct (HV x) as (c & Hc & Dc); [eapply nth_error_In; eauto|]. destruct (HB j) as (c' & Hc' & Dc'); [apply nth_error_Some; congruence|].
    rewrite (proj2 (cell_of_at _ _ _) Hc), (proj2 (cell_of_at _ _ _) Hc'). cbn [bind]. unfold index, lift. cbn [fst snd].
    destruct (LM _ _ Hc) as (-> & _), (LM _ _ Hc') as (-> & _). rewrite Dc, Dc'. reflexivity.
  - apply dict_of_id. unfold dkeys. rewrite map_map. cbn [lift fst]. clear - ND.
    generalize b. induction V as [|v V IH]; intros b'; simpl; constructor.
    + inversion ND; subst. intros I. apply in_map_iff in I as ([x y] & E & I). inversion E; subst. apply in_combine_l in I. auto.
    + apply IH. inversion ND; auto.
Qed.

Section Update.
  Variable P : Type.
  Notation fit := (fit P).

  Lemma copies_V (m : mesh P) V T b nb : copies (m_cells P m) V T b nb -> forall v, In v V -> exists c, cell_at (m_cells P m) v c /\ c_dim c = 0.
  Proof.
    intros CP v Hv. apply In_nth_error in Hv as (k & Hk). destruct (nth_error T k) as [t|] eqn:Et.
    - destruct (cp_old _ _ _ _ _ CP k v t Hk Et) as (c & ? & ? & _). eauto.
    - apply nth_error_None in Et. rewrite (cp_T _ _ _ _ _ CP) in Et. assert (k < length V) by (apply nth_error_Some; congruence). lia.
  Qed.
  Lemma copies_new (m : mesh P) V T b nb : copies (m_cells P m) V T b nb -> forall k, k < length V -> exists c, cell_at (m_cells P m) (b + k) c /\ c_dim c = 0.
  Proof. intros CP k Hk. destruct (cp_new _ _ _ _ _ CP k Hk) as (c & ? & ? & _). eauto. Qed.

  Lemma update_nil fuel cs prs : update_cells_with_cell_pairs fuel cs [] prs = Err ValueError.
  Proof. reflexivity. Qed.
  Lemma cells_of (cs : cells) ids d : (forall i, In i ids -> exists c, cell_at cs i c /\ c_dim c = d) ->
    exists l, Forall2 (cell_at cs) ids l /\ forall c, In c l -> c_dim c = d.
  Proof.
    intros H. destruct (cells_of_positions cs ids) as (l & F & _).
    { intros i Hi. destruct (H i Hi) as (c & ? & _). eauto. }
    exists l. split; auto. intros c Hc. destruct (Forall2_In_r _ _ _ _ F Hc) as (i & Hi & Hci).
    destruct (H i Hi) as (c' & Hc' & D). assert (c' = c) by (unfold cell_at in *; congruence). subst; auto.
  Qed.
  Lemma update_start fuel cs ids prs d l : ids <> [] -> layered_mesh cs -> Forall2 (cell_at cs) ids l -> (forall c, In c l -> c_dim c = d) ->
    update_cells_with_cell_pairs fuel cs ids prs =
    do parts <- mapM (fun k =>
          let co_dim := d - k in
          do g <- build_graph_from_cell_ids fuel cs ids (Z.of_nat d) (Z.of_nat co_dim);
          do pairs <- get_at prs co_dim;
          do idx <- mapM (fun ot => do o <- cell_of cs (fst ot); do t <- cell_of cs (snd ot); Ok (index o, index t)) pairs;
          Ok (g_edges g, dict_of idx)) (seq 0 d);
    let patch_g := from_edgelist (concat (map fst parts)) in
    foldM (fun cs m => foldM (relink_all patch_g) m cs) (map snd parts) cs.
  Proof.
    intros NE LM F D. unfold update_cells_with_cell_pairs. rewrite (proj2 (mapM_cell_of cs ids l) F). cbn [bind].
    rewrite (np_max_const _ d).
    - cbn [bind]. replace (forallb (fun c => c_dim c =? d) l) with true.
      + rewrite (ids_of cs ids l LM F). reflexivity.
      + symmetry. apply forallb_forall. intros c Hc. apply Nat.eqb_eq. auto.
    - destruct F; [tauto|discriminate].
    - intros x Hx. apply in_map_iff in Hx as (c & <- & Hc). auto.
  Qed.

  Lemma update_dim1 fuel (m : mesh P) ids V T b nb : fit m -> copies (m_cells P m) V T b nb -> ids <> [] ->
    (forall i, In i ids -> exists c, cell_at (m_cells P m) i c /\ c_dim c = 1) ->
    (exists cs', update_cells_with_cell_pairs (S fuel) (m_cells P m) ids [[]; combine V (seq b (length V))] = Ok cs' /\
       (forall r1, changed ids (mv (relabel V b) r1 (relabel T nb)) (m_cells P m) cs') /\ forall x, In x V -> exists p, lists_in (m_cells P m) ids 0 x p) \/
    (update_cells_with_cell_pairs (S fuel) (m_cells P m) ids [[]; combine V (seq b (length V))] = Err NetworkXError /\
       exists x, In x V /\ ~ exists p, lists_in (m_cells P m) ids 0 x p).
  Proof.
    intros FT CP NE DI. pose proof (proj1 (proj1 FT)) as LM. destruct (cells_of _ _ _ DI) as (l & F & D).
    rewrite (update_start _ _ _ _ 1 l) by auto. cbn [seq mapM]. cbv zeta. rewrite (graph_from_ids fuel _ ids l 1 0) by auto. cbn [bind Nat.sub get_at nth_error].
    destruct (idx_pairs (m_cells P m) V b 0 LM (copies_V m V T b nb CP) (copies_new m V T b nb CP) (cp_nodup _ _ _ _ _ CP)) as (idx & E1 & E2).
    rewrite E1. cbn [bind]. rewrite E2. cbn [map fst snd foldM].
    assert (DI' : forall i c, In i ids -> cell_at (m_cells P m) i c -> c_dim c = 1 \/ c_dim c = 2).
    { intros i c Hi Hc. destruct (DI i Hi) as (c' & Hc' & Dc'). assert (c' = c) by (unfold cell_at in *; congruence). subst; auto. }
    change (concat [g_edges (from_edgelist (flat_map (edges_of 0) l))]) with (concat (map (fun k => g_edges (from_edgelist (flat_map (edges_of k) l))) (seq 0 1))).
    fold (patch 1 l).
    destruct (vertex_phase P m V T b nb ids (patch 1 l) FT CP DI') as [(cs' & E & CH & AL)|(E & NX)]; [apply patch_ok; auto| |].
    - left. exists cs'. rewrite E. split; [reflexivity|]. split; auto. intros r1. eapply changed_ext; [|exact CH].
      intros i c Hi Hc. destruct (DI i Hi) as (c' & Hc' & Dc'). assert (c' = c) by (unfold cell_at in *; congruence). subst c'.
      destruct LM as [_ LM]. destruct (LM i c Hc) as (_ & _ & Ls & _). rewrite Dc' in Ls.
      unfold upv, mv, set_nodes, set_sub. cbn [c_dim c_id c_mat c_sub c_nodes].
      destruct (c_sub c) as [|a [|a' [|? ?]]]; try discriminate. reflexivity.
    - right. rewrite E. split; auto.
  Qed.
  Lemma update_dim2 fuel (m : mesh P) ids F bF V T b nb : fit m -> copies (m_cells P m) V T b nb -> ecopies (m_cells P m) F bF -> ids <> [] ->
    (forall i, In i ids -> exists c, cell_at (m_cells P m) i c /\ c_dim c = 2) ->
    (exists cs', update_cells_with_cell_pairs (S fuel) (m_cells P m) ids [[]; combine F (seq bF (length F)); combine V (seq b (length V))] = Ok cs' /\
       changed ids (mv (relabel V b) (relabel F bF) (relabel T nb)) (m_cells P m) cs' /\
       (forall x, In x V -> exists p, lists_in (m_cells P m) ids 0 x p) /\ (forall x, In x F -> exists p, lists_in (m_cells P m) ids 1 x p)) \/
    (update_cells_with_cell_pairs (S fuel) (m_cells P m) ids [[]; combine F (seq bF (length F)); combine V (seq b (length V))] = Err NetworkXError /\
       ((exists x, In x V /\ ~ exists p, lists_in (m_cells P m) ids 0 x p) \/ exists x, In x F /\ ~ exists p, lists_in (m_cells P m) ids 1 x p)).
  Proof.
    intros FT CP EC NE DI. pose proof (proj1 (proj1 FT)) as LM. destruct (cells_of _ _ _ DI) as (l & FL & D).
    rewrite (update_start _ _ _ _ 2 l) by auto. cbn [seq mapM]. cbv zeta.
    rewrite (graph_from_ids fuel _ ids l 2 0), (graph_from_ids fuel _ ids l 2 1) by auto. cbn [bind Nat.sub get_at nth_error].
    destruct (idx_pairs (m_cells P m) V b 0 LM (copies_V m V T b nb CP) (copies_new m V T b nb CP) (cp_nodup _ _ _ _ _ CP)) as (idx & E1 & E2).
    destruct (idx_pairs (m_cells P m) F bF 1 LM (ec_old _ _ _ EC) (ec_new _ _ _ EC) (ec_nodup _ _ _ EC)) as (idx' & E1' & E2').
    rewrite E1. cbn [bind]. rewrite E1'. cbn [bind]. rewrite E2, E2'. cbn [map fst snd foldM].
    assert (DI' : forall i c, In i ids -> cell_at (m_cells P m) i c -> c_dim c = 2).
    { intros i c Hi Hc. destruct (DI i Hi) as (c' & Hc' & Dc'). assert (c' = c) by (unfold cell_at in *; congruence). subst; auto. }
    change (concat [g_edges (from_edgelist (flat_map (edges_of 0) l)); g_edges (from_edgelist (flat_map (edges_of 1) l))])
      with (concat (map (fun k => g_edges (from_edgelist (flat_map (edges_of k) l))) (seq 0 2))).
    fold (patch 2 l).
    destruct (vertex_phase P m V T b nb ids (patch 2 l) FT CP) as [(cs1 & E & CH & AL)|(E & NX)]; [intros; right; eauto|apply patch_ok; auto| |].
    2:{ right. rewrite E. split; auto. }
    rewrite E. cbn [bind].
    assert (SH : forall i c, cell_at cs1 i c -> In i ids -> exists c0, cell_at (m_cells P m) i c0 /\ c = upv V T b nb c0 /\ length (c_sub c) = 3 /\ nth 1 (c_sub c) [] = nth 1 (c_sub c0) []).
    { intros i c Hc Hi. destruct (changed_inv _ _ _ _ _ _ CH Hc) as (c0 & Hc0 & [[_ ->]|[N _]]); [|tauto].
      exists c0. split; auto. split; auto. unfold upv, set_nodes, set_sub. cbn [c_sub]. rewrite length_set_at, nth_set_at. cbn [Nat.eqb andb].
      split; auto. destruct LM as [_ LM]. destruct (LM i c0 Hc0) as (_ & _ & -> & _). rewrite (DI' i c0); auto. }
    assert (LI : forall x p, lists_in cs1 ids 1 x p <-> lists_in (m_cells P m) ids 1 x p).
    { intros x p. unfold lists_in. split.
      - intros (Hp & c & Hc & Hx). destruct (SH p c Hc Hp) as (c0 & Hc0 & _ & _ & E0). rewrite E0 in Hx. split; auto. exists c0; auto.
      - intros (Hp & c & Hc & Hx). split; auto. exists (upv V T b nb c). pose proof (changed_in _ _ _ _ _ _ CH Hp Hc) as Hc'. split; auto.
        destruct (SH p _ Hc' Hp) as (c0 & Hc0 & _ & _ & ->). assert (c0 = c) by (unfold cell_at in *; congruence). subst; auto. }
    assert (GO : graph_ok (patch 2 l) cs1 ids 1).
    { pose proof (patch_ok (m_cells P m) ids l 2 1 LM FL D ltac:(lia)) as G. intros x. destruct (G x) as [G1 G2]. split.
      - intros ps Eps. destruct (G1 ps Eps) as (A & B & p & Hp). split; auto. split; [intros q; rewrite LI; auto|exists p; apply LI; auto].
      - destruct G2 as [[A B]|G2]; [left|auto]. split; auto. intros (p & Hp). apply B. exists p. apply LI; auto. }
    destruct (edge_phase P m F bF ids (patch 2 l) cs1 FT (ec_nodup _ _ _ EC) (ec_lt _ _ _ EC) DI') as [(cs2 & E' & CH' & AL')|(E' & NX)]; auto.
    - intros i c Hc Hi. destruct (SH i c Hc Hi) as (c0 & Hc0 & _ & L3 & ->). split; auto. destruct FT as [_ NR]. apply (NR i c0); auto. rewrite (DI' i c0); auto.
    - left. exists cs2. rewrite E'. cbn [bind]. split; auto. split; [|split; auto].
      + eapply changed_ext; [|exact (changed_comp _ _ _ _ _ _ CH CH')].
        intros i c Hi Hc. pose proof (DI' i c Hi Hc) as Dc. destruct LM as [_ LM]. destruct (LM i c Hc) as (_ & _ & Ls & _). rewrite Dc in Ls.
        unfold upe, upv, mv, set_nodes, set_sub. cbn [c_dim c_id c_mat c_sub c_nodes].
        destruct (c_sub c) as [|a [|a' [|a'' [|? ?]]]]; try discriminate. reflexivity.
      + intros x Hx. destruct (AL' x Hx) as (p & Hp). exists p. apply LI; auto.
    - right. rewrite E'. cbn [bind]. split; auto. right. destruct NX as (x & Hx & N). exists x. split; auto. intros (p & Hp). apply N. exists p. apply LI; auto.
  Qed.

  (** a moved mesh still fits *)
  Lemma mv_fields r0 r1 rt c : c_dim (mv r0 r1 rt c) = c_dim c /\ c_id (mv r0 r1 rt c) = c_id c /\ c_mat (mv r0 r1 rt c) = c_mat c /\
    c_nodes (mv r0 r1 rt c) = map rt (c_nodes c) /\ length (c_sub (mv r0 r1 rt c)) = length (c_sub c).
  Proof. unfold mv. cbn. repeat (split; auto). destruct (c_sub c) as [|? [|? [|? [|? ?]]]]; auto. Qed.
  Lemma mv_sub r0 r1 rt c : c_dim c = 1 \/ c_dim c = 2 -> length (c_sub c) = c_dim c + 1 ->
    nth 0 (c_sub (mv r0 r1 rt c)) [] = map r0 (nth 0 (c_sub c) []) /\
    (c_dim c = 2 -> nth 1 (c_sub (mv r0 r1 rt c)) [] = map r1 (nth 1 (c_sub c) [])).
  Proof.
    unfold mv. cbn. intros [D|D]; rewrite D; destruct (c_sub c) as [|? [|? [|? [|? ?]]]]; try discriminate; intros _; split; auto; discriminate.
  Qed.
  Lemma fit_moved (m : mesh P) ids F bF V T b nb cs' : fit m -> copies (m_cells P m) V T b nb -> ecopies (m_cells P m) F bF ->
    (forall i c, In i ids -> cell_at (m_cells P m) i c -> (c_dim c = 1 \/ c_dim c = 2) /\
       (forall v, In v (nth 0 (c_sub c) []) -> v < b) /\ (c_dim c = 2 -> forall e, In e (nth 1 (c_sub c) []) -> e < bF)) ->
    changed ids (mv (relabel V b) (relabel F bF) (relabel T nb)) (m_cells P m) cs' ->
    fit (mk_mesh P cs' (m_points P m)).
  Proof.
    intros FT CP EC DI CH. pose proof FT as ((LM & AL & RG) & NR).
    set (W := mv (relabel V b) (relabel F bF) (relabel T nb)) in *.
    assert (KEEP : forall i c, cell_at (m_cells P m) i c -> exists c', cell_at cs' i c' /\ c_dim c' = c_dim c /\ (c_dim c = 0 -> c' = c)).
    { intros i c Hc. destruct (in_dec Nat.eq_dec i ids) as [I|I].
      - exists (W c). split; [eapply changed_in; eauto|]. unfold W. destruct (mv_fields (relabel V b) (relabel F bF) (relabel T nb) c) as (-> & _).
        split; auto. intros D. destruct (DI i c I Hc) as [[?|?] _]; lia.
      - exists c. split; auto. unfold cell_at. rewrite (changed_out _ _ _ _ _ CH I). auto. }
    assert (V0 : forall i c', cell_at cs' i c' -> c_dim c' = 0 -> cell_at (m_cells P m) i c').
    { intros i c' Hc' D. destruct (changed_inv _ _ _ _ _ _ CH Hc') as (c & Hc & [[I ->]|[_ ->]]); auto.
      destruct (mv_fields (relabel V b) (relabel F bF) (relabel T nb) c) as (E & _). unfold W in D. rewrite E in D.
      destruct (DI i c I Hc) as [[?|?] _]; lia. }
    assert (R0 : forall v t, (exists c, cell_at (m_cells P m) v c /\ c_dim c = 0 /\ c_nodes c = [t]) ->
                  exists c, cell_at cs' (relabel V b v) c /\ c_dim c = 0 /\ c_nodes c = [relabel T nb t] /\ cell_at (m_cells P m) (relabel V b v) c).
    { intros v t Hv. assert (PR : pos v V = pos t T).
      { eapply pos_related; eauto; [|apply (copies_V m V T b nb CP)]. apply Forall2_app_nth. split; [symmetry; apply (cp_T _ _ _ _ _ CP)|].
        intros k x y Hx Hy. destruct (cp_old _ _ _ _ _ CP k x y Hx Hy) as (c & ? & _ & ?). eauto. }
      unfold relabel. rewrite <- PR. destruct (pos v V) as [k|] eqn:Ek.
      - destruct (cp_new _ _ _ _ _ CP k (pos_lt _ _ _ Ek)) as (c & Hc & D & N). destruct (KEEP _ _ Hc) as (c' & Hc' & _ & E).
        rewrite (E D) in Hc'. exists c. auto.
      - destruct Hv as (c & Hc & D & N). destruct (KEEP _ _ Hc) as (c' & Hc' & _ & E). rewrite (E D) in Hc'. exists c. auto. }
    split; [split; [|split]|]; cbn [m_cells m_points].
    - (* layered *)
      destruct LM as [CF LM]. split.
      + intros i Hi. destruct CH as [L _]. rewrite L in Hi. destruct (CF i Hi) as (c & Hc). destruct (KEEP _ _ Hc) as (c' & Hc' & _). eauto.
      + intros i c' Hc'. destruct (changed_inv _ _ _ _ _ _ CH Hc') as (c & Hc & HH). destruct (LM i c Hc) as (Hid & D3 & Ls & Sb).
        assert (KD : forall d j, d < c_dim c -> In j (nth d (c_sub c) []) -> exists c'', cell_at cs' j c'' /\ c_dim c'' = d).
        { intros d j Hd Hj. destruct (Sb d j Hd Hj) as (x & Hx & Dx). destruct (KEEP _ _ Hx) as (x' & ? & ? & _). exists x'. split; auto. congruence. }
        destruct HH as [[I ->]|[_ ->]]; [|auto].
        destruct (mv_fields (relabel V b) (relabel F bF) (relabel T nb) c) as (E1 & E2 & E3 & E4 & E5).
        destruct (DI i c I Hc) as (Dc & B0 & B1).
        destruct (mv_sub (relabel V b) (relabel F bF) (relabel T nb) c Dc Ls) as [S0 S1].
        unfold W. rewrite E1, E2, E5. repeat (split; auto). intros d j Hd Hj. destruct d as [|d].
        * rewrite S0 in Hj. apply in_map_iff in Hj as (v & <- & Hv). destruct (node_of_vertex P m i c v FT Hc Dc Hv) as (cv & t & Hcv & Dv & Nv & _).
          destruct (R0 v t) as (c'' & Hc'' & D'' & _); eauto.
        * assert (d = 0) by lia. subst d. assert (D2 : c_dim c = 2) by lia. rewrite (S1 D2) in Hj. apply in_map_iff in Hj as (e & <- & He).
          unfold relabel. destruct (pos e F) as [k|] eqn:Ek.
          -- destruct (ec_new _ _ _ EC k (pos_lt _ _ _ Ek)) as (x & Hx & Dx). destruct (KEEP _ _ Hx) as (x' & Hx' & Dx' & _). exists x'. split; auto. congruence.
          -- apply KD; auto.
    - (* aligned *)
      destruct AL as (A1 & A2 & A3). split; [|split].
      + intros i c' Hc' D. apply (A1 i c'); auto.
      + intros i c j c' Hi Hj D D' E. eapply A2; eauto.
      + intros i c' Hc' D. destruct (changed_inv _ _ _ _ _ _ CH Hc') as (c & Hc & HH).
        assert (DC : c_dim c = 1 \/ c_dim c = 2) by (destruct HH as [[_ ->]|[_ ->]]; auto).
        specialize (A3 i c Hc DC). assert (S0 : forall v, In v (nth 0 (c_sub c) []) -> exists cv, cell_at (m_cells P m) v cv /\ c_dim cv = 0).
        { destruct LM as [_ LM]. destruct (LM i c Hc) as (_ & _ & _ & Sb). intros v Hv. apply (Sb 0); auto. lia. }
        destruct HH as [[I ->]|[_ ->]].
        * destruct (DI i c I Hc) as (Dc & _). assert (Ls : length (c_sub c) = c_dim c + 1) by (destruct LM as [_ LM]; apply (LM i c Hc)).
          destruct (mv_sub (relabel V b) (relabel F bF) (relabel T nb) c Dc Ls) as [Sm _]. unfold W. rewrite Sm.
          destruct (mv_fields (relabel V b) (relabel F bF) (relabel T nb) c) as (_ & _ & _ & -> & _).
          clear Sm Ls. induction A3 as [|v t vs ts (cv & Hcv & Nv) A3 IH]; simpl; constructor.
          -- destruct (S0 v) as (cv' & Hcv' & D0); [left; auto|]. assert (cv' = cv) by (unfold cell_at in *; congruence). subst cv'.
             destruct (R0 v t) as (c'' & ? & _ & ? & _); eauto.
          -- apply IH. intros; apply S0; right; auto.
        * clear - A3 S0 KEEP. induction A3 as [|v t vs ts (cv & Hcv & Nv) A3 IH]; constructor.
          -- destruct (S0 v) as (cv' & Hcv' & D0); [left; auto|]. assert (cv' = cv) by (unfold cell_at in *; congruence). subst cv'.
             destruct (KEEP _ _ Hcv) as (x & Hx & _ & E). rewrite (E D0) in Hx. eauto.
          -- apply IH. intros; apply S0; right; auto.
    - (* nodes in range *)
      intros i c' t Hc' Ht. destruct (changed_inv _ _ _ _ _ _ CH Hc') as (c & Hc & [[I ->]|[_ ->]]); [|eapply RG; eauto].
      destruct (mv_fields (relabel V b) (relabel F bF) (relabel T nb) c) as (_ & _ & _ & E4 & _). unfold W in Ht. rewrite E4 in Ht.
      apply in_map_iff in Ht as (t0 & <- & Ht0). destruct (DI i c I Hc) as (Dc & _).
      destruct (vertex_of_node P m i c t0 FT Hc Dc Ht0) as (v & cv & Hcv & Dv & Nv & _).
      destruct (R0 v t0) as (x & _ & _ & Nx & Hx); [eauto|]. apply (RG _ _ _ Hx). rewrite Nx. left; auto.
    - (* no repetition *)
      intros i c' d Hc' Hd. destruct (changed_inv _ _ _ _ _ _ CH Hc') as (c & Hc & [[I ->]|[_ ->]]); [|eapply NR; eauto].
      destruct (mv_fields (relabel V b) (relabel F bF) (relabel T nb) c) as (E1 & _). unfold W in *. rewrite E1 in Hd.
      destruct (DI i c I Hc) as (Dc & B0 & B1). assert (Ls : length (c_sub c) = c_dim c + 1) by (destruct LM as [_ LM]; apply (LM i c Hc)).
      destruct (mv_sub (relabel V b) (relabel F bF) (relabel T nb) c Dc Ls) as [S0 S1]. destruct d as [|d].
      + rewrite S0. apply NoDup_relabel; auto; [apply (cp_nodup _ _ _ _ _ CP)|]. apply (NR i c); auto; lia.
      + assert (d = 0) by lia. subst d. assert (D2 : c_dim c = 2) by lia. rewrite (S1 D2). apply NoDup_relabel; auto; [apply (ec_nodup _ _ _ EC)|].
        apply (NR i c); auto.
  Qed.
End Update.
