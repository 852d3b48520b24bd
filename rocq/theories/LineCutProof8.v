(** * Lemmas: cutting along lines, C36 (readiness, several lines, built meshes) *)
From Coq Require Import List Arith ZArith Bool Lia Sorted Permutation.
From Verif Require Import Base BaseProof MeshModel MeshSpec MeshProof4 GraphModel GraphProof CutModel CutSpec CutProof CutProof2 CutProof4
  LineCutModel LineCutSpec LineCutProof LineCutProof2 LineCutProof3 LineCutProof4 LineCutProof5 LineCutProof6 LineCutProof7.
Import ListNotations.

Lemma lists_one_dec V c : {lists_one V c} + {~ lists_one V c}.
Proof.
  unfold lists_one. destruct (existsb (fun v => existsb (Nat.eqb v) (nth 0 (c_sub c) [])) V) eqn:E; [left|right].
  - apply existsb_exists in E as (v & Hv & E). apply existsb_exists in E as (w & Hw & E). apply Nat.eqb_eq in E. subst w. eauto.
  - intros (v & Hv & Hl). apply (Bool.eq_true_false_abs _ (proj2 (existsb_exists _ _) (ex_intro _ v (conj Hv (proj2 (existsb_exists _ _) (ex_intro _ v (conj Hl (Nat.eqb_refl v))))))) E).
Qed.

Section Runs.
  Variable P : Type.

  (** every cell of the result *)
  Lemma effect_old t ln (m m' : mesh P) F V T N i c : cut_ready P m -> line_effect P t ln m m' F V T N -> cell_at (m_cells P m) i c ->
    exists c', cell_at (m_cells P m') i c' /\ c_dim c' = c_dim c /\ c_id c' = c_id c /\ c_mat c' = c_mat c /\
      (c_dim c = 0 \/ c_dim c = 3 -> c' = c).
  Proof.
    intros CR LE Hc. pose proof (proj1 CR) as LM. destruct (proj2 LM i c Hc) as (_ & D3 & _ & _).
    assert (K : c_dim c = 0 \/ c_dim c = 3 \/ ~ lists_one V c \/ side_of P m ln c Eq -> exists c', cell_at (m_cells P m') i c' /\ c_dim c' = c_dim c /\ c_id c' = c_id c /\ c_mat c' = c_mat c /\ (c_dim c = 0 \/ c_dim c = 3 -> c' = c)).
    { intros H. exists c. split; [apply (le_kept _ _ _ _ _ _ _ _ _ LE); auto|]. auto. }
    destruct (c_dim c) as [|[|[|[|d]]]] eqn:D; [apply K; auto| | |apply K; auto|lia];
    (destruct (lists_one_dec V c) as [LO|LO]; [|apply K; auto];
     destruct (side_total P m ln i c CR Hc) as (s & Hs); destruct s; [apply K; auto| |];
     [exists (moved P m F V T false c)|exists (moved P m F V T true c)];
     (split; [apply (le_moved _ _ _ _ _ _ _ _ _ LE); auto; lia|]; cbn; repeat (split; auto); intros [?|?]; lia)).
  Qed.
  Lemma effect_origin t ln (m m' : mesh P) F V T N i c' : line_effect P t ln m m' F V T N -> cell_at (m_cells P m') i c' ->
    i < length (m_cells P m) \/ (exists q k e, nth_error F k = Some e /\ i = edge_base P m F V q + k) \/
    (exists q k v, nth_error V k = Some v /\ i = vertex_base P m F V q + k).
  Proof.
    intros LE Hc. apply cell_at_lt in Hc. rewrite (le_length _ _ _ _ _ _ _ _ _ LE) in Hc. set (n := length (m_cells P m)) in *.
    assert (GF : forall k, k < length F -> exists e, nth_error F k = Some e).
    { intros k Hk. destruct (nth_error F k) eqn:E; eauto. apply nth_error_None in E. lia. }
    assert (GV : forall k, k < length V -> exists e, nth_error V k = Some e).
    { intros k Hk. destruct (nth_error V k) eqn:E; eauto. apply nth_error_None in E. lia. }
    unfold edge_base, vertex_base. fold n.
    destruct (Nat.lt_ge_cases i n); auto. right.
    destruct (Nat.lt_ge_cases i (n + length F)); [left; exists true, (i - n); destruct (GF (i - n)) as (e & ?); [lia|exists e; split; [auto|lia]]|].
    destruct (Nat.lt_ge_cases i (n + length F + length V)); [right; exists true, (i - (n + length F)); destruct (GV (i - (n + length F))) as (e & ?); [lia|exists e; split; [auto|lia]]|].
    destruct (Nat.lt_ge_cases i (n + length F + length V + length F)).
    - left. exists false, (i - (n + length F + length V)). destruct (GF (i - (n + length F + length V))) as (e & ?); [lia|]. exists e; split; [auto|lia].
    - right. exists false, (i - (n + length F + length V + length F)). destruct (GV (i - (n + length F + length V + length F))) as (e & ?); [lia|]. exists e; split; [auto|lia].
  Qed.
  Lemma ready_after t ln (m m' : mesh P) F V T N : line_ready P t m -> t_point_clones t <> t_line t ->
    line_effect P t ln m m' F V T N -> fit P m' -> line_ready P t m'.
  Proof.
    intros LR NT LE (CR' & NR'). split; auto. split; auto. pose proof LR as (CR & NR & TG). intros i c' Hc' Hm.
    assert (GF : forall e, In e F -> exists c, cell_at (m_cells P m) e c /\ c_dim c = 1).
    { intros e He. apply (line_edge_cell P t m ln); auto. apply (le_F _ _ _ _ _ _ _ _ _ LE); auto. }
    destruct (effect_origin t ln m m' F V T N i c' LE Hc') as [L|[(q & k & e & He & ->)|(q & k & v & Hv & ->)]].
    - destruct (proj1 (proj1 CR) i L) as (c & Hc). destruct (effect_old t ln m m' F V T N i c CR LE Hc) as (x & Hx & D & _ & M & _).
      assert (x = c') by (unfold cell_at in *; congruence). subst x. rewrite D. apply (TG i c Hc). congruence.
    - destruct (GF e (nth_error_In _ _ He)) as (c & Hc & D). pose proof (le_edges _ _ _ _ _ _ _ _ _ LE q k e c He Hc) as X. cbv zeta in X.
      unfold cell_at in *. rewrite X in Hc'. inversion Hc'. reflexivity.
    - destruct (proj1 (proj2 (le_V _ _ _ _ _ _ _ _ _ LE) v) (nth_error_In _ _ Hv)) as (e & ce & c & He & Hce & Hl & Hc & _).
      pose proof (le_vertices _ _ _ _ _ _ _ _ _ LE q k v c Hv Hc) as X. cbv zeta in X. unfold cell_at in X, Hc'. rewrite X in Hc'. inversion Hc'; subst c'.
      cbn in Hm. exfalso. unfold copy_tag in Hm. destruct (eqb (c_mat c) (Some (t_point t))) eqn:E1; [congruence|].
      assert (M : c_mat c <> Some (t_line t)).
      { intros M. pose proof (TG v c Hc M) as D. destruct (GF e) as (ce' & Hce' & De); [apply (le_F _ _ _ _ _ _ _ _ _ LE); auto|]. same_cell ce' ce.
        destruct (proj2 (proj1 CR) e ce Hce) as (_ & _ & _ & S). destruct (S 0 v) as (y & Hy & Dy); [lia|auto|]. same_cell y c. lia. }
      destruct (eqb (c_mat c) (Some (t_line t))) eqn:E2; [|congruence]. rewrite eqb_true in E2. auto.
  Qed.

  Lemma one_line fuel t (m : mesh P) ln m' f : line_ready P t m -> cut_line P (S fuel) 2 t m ln = Ok (m', f) ->
    (exists F V T N, line_effect P t ln m m' F V T N /\ interface_spec P m F V f) /\
    cut_ready P m' /\ no_repeats (m_cells P m') /\ (t_point_clones t <> t_line t -> line_ready P t m').
  Proof.
    intros LR E. destruct (cut_line_main P fuel t m ln LR) as [(m1 & f1 & F & V & T & N & E1 & LE & IS & (CR & NR) & _)|(e & E1 & _)]; [|congruence].
    assert (m1 = m' /\ f1 = f) as [-> ->] by (split; congruence). split; [exists F, V, T, N; auto|]. split; auto. split; auto.
    intros NT. eapply ready_after; eauto. split; auto.
  Qed.
  Lemma succeeds_iff fuel t (m : mesh P) ln : line_ready P t m ->
    ((exists m' f, cut_line P (S fuel) 2 t m ln = Ok (m', f)) <-> line_cuttable P t m ln) /\
    (forall e, cut_line P (S fuel) 2 t m ln = Err e -> e = IndexError \/ e = ValueError \/ e = NetworkXError).
  Proof.
    intros LR. destruct (cut_line_main P fuel t m ln LR) as [(m1 & f1 & F & V & T & N & E1 & _ & _ & _ & C)|(e & E1 & EX & NC)]; rewrite E1.
    - split; [|intros; discriminate]. split; eauto.
    - split; [|intros e' H; inversion H; subst; exact EX]. split; [intros (? & ? & H); discriminate|tauto].
  Qed.
  Lemma run_snoc fuel t lines : t_point_clones t <> t_line t -> forall (m : mesh P) acc r, line_ready P t m ->
    foldM (fun mi ln => do (m', i) <- cut_line P (S fuel) 2 t (fst mi) ln; Ok (m', snd mi ++ [i])) lines (m, acc) = r ->
    (exists m' fs, r = Ok (m', acc ++ fs) /\ line_run P t m lines m' fs /\ line_ready P t m') \/
    (exists e l1 ln l2 m1 fs, r = Err e /\ expected e /\ lines = l1 ++ ln :: l2 /\ line_run P t m l1 m1 fs /\ line_ready P t m1 /\ ~ line_cuttable P t m1 ln).
  Proof.
    intros NT. induction lines as [|ln lines IH]; intros m acc r LR <-.
    - left. exists m, []. rewrite app_nil_r. split; [reflexivity|]. split; [constructor|auto].
    - cbn [foldM fst snd]. destruct (cut_line_main P fuel t m ln LR) as [(m1 & f1 & F & V & T & N & E1 & LE & IS & FT & _)|(e & E1 & EX & NC)]; rewrite E1; cbn [bind].
      + assert (LR1 : line_ready P t m1) by (eapply ready_after; eauto).
        destruct (IH m1 (acc ++ [f1]) _ LR1 eq_refl) as [(m' & fs & -> & R & LR')|(e & l1 & ln' & l2 & m2 & fs & -> & EX & -> & R & LR2 & NC)].
        * left. exists m', (f1 :: fs). rewrite <- app_assoc. split; [reflexivity|]. split; auto. econstructor; eauto.
        * right. exists e, (ln :: l1), ln', l2, m2, (f1 :: fs). repeat (split; auto). econstructor; eauto.
      + right. exists e, [], ln, lines, m, []. repeat (split; auto). constructor.
  Qed.
  Lemma all_lines fuel t lines (m : mesh P) : t_point_clones t <> t_line t -> line_ready P t m ->
    (exists m' fs, cut_lines P (S fuel) 2 t m lines = Ok (m', fs) /\ line_run P t m lines m' fs /\ line_ready P t m') \/
    (exists e l1 ln l2 m1 fs, cut_lines P (S fuel) 2 t m lines = Err e /\ (e = IndexError \/ e = ValueError \/ e = NetworkXError) /\
       lines = l1 ++ ln :: l2 /\ line_run P t m l1 m1 fs /\ line_ready P t m1 /\ ~ line_cuttable P t m1 ln).
  Proof. intros NT LR. exact (run_snoc fuel t lines NT m [] _ LR eq_refl). Qed.
  Lemma other_dims fuel d t (m : mesh P) ln lines : d <> 2 ->
    cut_line P fuel d t m ln = Err AssertionError /\ cut_lines P fuel d t m (ln :: lines) = Err AssertionError.
  Proof. intros H. unfold cut_lines, cut_line. cbn [foldM fst]. destruct (Nat.eqb_spec d 2); [congruence|]. split; reflexivity. Qed.
  Lemma built_line_ready t blocks physical cs (pts : list P) :
    well_shaped blocks -> build_conformal_mesh (length pts) blocks physical = Ok cs ->
    fully_tagged blocks physical -> all_points_used (length pts) blocks physical -> distinct_nodes blocks ->
    (forall d row, In (d, row, Some (t_line t)) (input_rows blocks physical) -> d = 1) ->
    line_ready P t (mk_mesh P cs pts).
  Proof.
    intros WS B FT AU DN TG. pose proof (good_lemma _ _ _ _ WS B FT AU DN) as (CM & _ & _ & DS & _).
    split; [eapply built_cut_ready; eauto|]. split; cbn [m_cells].
    - intros i c d Hc Hd. apply (DS i c d Hc). lia.
    - intros i c Hc Hm. pose proof (C05_lemma _ _ _ _ WS B i c Hc) as LT. rewrite Hm in LT. destruct LT as (l1 & [[d row] o] & l2 & E & (E1 & _ & E3) & _).
      cbn in *. subst. apply (TG (c_dim c) row). rewrite E. apply in_or_app. right; left; auto.
  Qed.
  (** the copies in plain terms *)
  Lemma copies_plain fuel t (m : mesh P) ln m' f : line_ready P t m -> cut_line P (S fuel) 2 t m ln = Ok (m', f) ->
    (forall i c, cell_at (m_cells P m') i c -> c_id c = i) /\
    exists F pF nF V pV nV, i_c1 f = (F, pF, nF) /\ i_c2 f = (V, pV, nV) /\
      pF ++ pV ++ nF ++ nV = seq (length (m_cells P m)) (2 * (length F + length V)) /\
      length pF = length F /\ length nF = length F /\ length pV = length V /\ length nV = length V /\
      length (m_cells P m') = length (m_cells P m) + 2 * (length F + length V) /\
      length (m_points P m') = length (m_points P m) + 2 * length V /\
      forall k v c, nth_error V k = Some v -> cell_at (m_cells P m) v c -> exists t x i j ci cj,
        c_nodes c = [t] /\ nth_error (m_points P m) t = Some x /\
        nth_error pV k = Some i /\ cell_at (m_cells P m') i ci /\ c_nodes ci = [length (m_points P m) + k] /\
        nth_error (m_points P m') (length (m_points P m) + k) = Some (l_bump P ln true x) /\
        nth_error nV k = Some j /\ cell_at (m_cells P m') j cj /\ c_nodes cj = [length (m_points P m) + length V + k] /\
        nth_error (m_points P m') (length (m_points P m) + length V + k) = Some (l_bump P ln false x).
  Proof.
    intros LR E. destruct (one_line fuel t m ln m' f LR E) as ((F & V & T & N & LE & I1 & I2) & CR' & _).
    split; [intros i c Hc; apply (proj2 (proj1 CR') i c Hc)|].
    exists F, (seq (edge_base P m F V true) (length F)), (seq (edge_base P m F V false) (length F)),
      V, (seq (vertex_base P m F V true) (length V)), (seq (vertex_base P m F V false) (length V)).
    split; auto. split; auto.
    assert (LT : length T = length V) by (pose proof (le_T _ _ _ _ _ _ _ _ _ LE) as H; apply Forall2_app_nth in H; symmetry; apply H).
    assert (LN : length N = length V) by (pose proof (le_N _ _ _ _ _ _ _ _ _ LE) as H; apply Forall2_app_nth in H as [H _]; congruence).
    split.
    { unfold edge_base, vertex_base. set (n := length (m_cells P m)).
      replace (2 * (length F + length V)) with (length F + (length V + (length F + length V))) by lia.
      rewrite !seq_app, !Nat.add_0_r. replace (n + (length F + length V)) with (n + length F + length V) by lia.
      replace (n + length F + (length F + length V)) with (n + length F + length V + length F) by lia. reflexivity. }
    rewrite !seq_length. do 4 (split; auto). split; [apply (le_length _ _ _ _ _ _ _ _ _ LE)|].
    split; [rewrite (le_points _ _ _ _ _ _ _ _ _ LE), !app_length, !map_length; lia|].
    intros k v c Hv Hc. assert (Lk : k < length V) by (apply nth_error_Some; congruence).
    destruct (Forall2_nth_l _ _ _ _ _ (le_T _ _ _ _ _ _ _ _ _ LE) Hv) as (t0 & Ht & c' & Hc' & Nc). same_cell c' c.
    destruct (Forall2_nth_l _ _ _ _ _ (le_N _ _ _ _ _ _ _ _ _ LE) Ht) as (x & Hx & Hp).
    pose proof (le_vertices _ _ _ _ _ _ _ _ _ LE true k v c Hv Hc) as A. pose proof (le_vertices _ _ _ _ _ _ _ _ _ LE false k v c Hv Hc) as B. cbv zeta in A, B.
    exists t0, x. do 4 eexists. split; [exact Nc|]. split; [exact Hp|]. split; [apply nth_error_seq; auto|]. split; [exact A|].
    split; [cbn [c_nodes]; unfold node_base; f_equal; lia|]. rewrite (le_points _ _ _ _ _ _ _ _ _ LE).
    split; [rewrite nth_error_app_r, nth_error_app1 by (rewrite map_length; lia); rewrite nth_error_map, Hx; reflexivity|].
    split; [apply nth_error_seq; auto|]. split; [exact B|]. split; [reflexivity|].
    rewrite <- Nat.add_assoc, nth_error_app_r. rewrite <- LN, <- (map_length (l_bump P ln true) N), nth_error_app_r, nth_error_map, Hx. reflexivity.
  Qed.
  (** no cell on a side uses a duplicated vertex, and no triangle of a side a cut edge *)
  Lemma sides_apart t ln (m m' : mesh P) F V T N : line_ready P t m -> line_effect P t ln m m' F V T N ->
    forall i c c' s, cell_at (m_cells P m) i c -> c_dim c = 1 \/ c_dim c = 2 -> lists_one V c -> side_of P m ln c s -> s <> Eq ->
      cell_at (m_cells P m') i c' ->
      (forall v, In v V -> ~ In v (nth 0 (c_sub c') [])) /\
      (c_dim c = 2 -> forall e, In e F -> ~ In e (nth 1 (c_sub c') [])) /\
      (forall t0, In t0 T -> ~ In t0 (c_nodes c')).
  Proof.
    intros LR LE i c c' s Hc D LO SD NE Hc'. pose proof LR as (CR & NR & TG).
    assert (LS : length (c_sub c) = c_dim c + 1) by (apply (proj2 (proj1 CR) i c Hc)).
    assert (exists q, s = sgn q) as (q & ->) by (destruct s; [tauto|exists false; auto|exists true; auto]).
    pose proof (le_moved _ _ _ _ _ _ _ _ _ LE i c q Hc D LO SD) as M. same_cell c' (moved P m F V T q c).
    change (moved P m F V T q c) with (mv (relabel V (vertex_base P m F V q)) (relabel F (edge_base P m F V q)) (relabel T (node_base P m V q)) c).
    destruct (mv_sub (relabel V (vertex_base P m F V q)) (relabel F (edge_base P m F V q)) (relabel T (node_base P m V q)) c D LS) as [S0 S1].
    assert (G : forall L b, (forall x, In x L -> x < b) -> forall l x, In x L -> ~ In x (map (relabel L b) l)).
    { intros L b HL l x Hx I. apply in_map_iff in I as (y & E & _). destruct (pos y L) as [k|] eqn:Ek; unfold relabel in E; rewrite Ek in E.
      - specialize (HL x Hx). lia.
      - subst y. clear - Hx Ek. induction L as [|z L IH]; [destruct Hx|]. cbn in Ek. destruct (Nat.eqb_spec x z); [discriminate|].
        destruct Hx as [->|Hx]; [congruence|]. destruct (pos x L); [discriminate|auto]. }
    assert (CV : forall v, In v V -> exists cv, cell_at (m_cells P m) v cv).
    { intros v Hv. apply (le_V _ _ _ _ _ _ _ _ _ LE) in Hv as (? & ? & cv & _ & _ & _ & ? & _). eauto. }
    split; [|split].
    - intros v Hv. rewrite S0. apply G; auto. intros x Hx. destruct (CV x Hx) as (cv & Hcv). apply cell_at_lt in Hcv. unfold vertex_base. lia.
    - intros D2 e He. rewrite (S1 D2). apply G; auto. intros x Hx. apply (le_F _ _ _ _ _ _ _ _ _ LE) in Hx as (cx & _ & Hcx & _). apply cell_at_lt in Hcx. unfold edge_base. lia.
    - intros t0 Ht. cbn [mv c_nodes]. apply G; auto. intros x Hx. destruct (Forall2_In_l _ _ _ _ (le_N _ _ _ _ _ _ _ _ _ LE) Hx) as (p & _ & Hp).
      assert (x < length (m_points P m)) by (apply nth_error_Some; congruence). unfold node_base. lia.
  Qed.
End Runs.
