(** * Lemmas: cutting along lines, C36 (composition) *)
From Coq Require Import List Arith ZArith Bool Lia Sorted Permutation.
From Verif Require Import Base BaseProof MeshModel MeshSpec GraphModel GraphProof CutModel CutSpec CutProof CutProof2
  LineCutModel LineCutSpec LineCutProof LineCutProof2 LineCutProof3 LineCutProof4.
Import ListNotations.

Section Compose.
  Variable P : Type.
  Notation fit := (fit P).
  Notation cell_eq := (fun H => H).

  Lemma copies_changed cs cs' ids W V T b nb : changed ids W cs cs' ->
    (forall i c, In i ids -> cell_at cs i c -> c_dim c <> 0) -> copies cs V T b nb -> copies cs' V T b nb.
  Proof.
    intros CH D CP. assert (K : forall i c, cell_at cs i c -> c_dim c = 0 -> cell_at cs' i c).
    { intros i c Hc D0. unfold cell_at. rewrite (changed_out _ _ _ _ _ CH); auto. intros I. apply (D i c); auto. }
    constructor; try apply CP.
    - intros k v t Hv Ht. destruct (cp_old _ _ _ _ _ CP k v t Hv Ht) as (c & ? & ? & ?). eauto.
    - intros k Hk. destruct (cp_new _ _ _ _ _ CP k Hk) as (c & ? & ? & ?). eauto.
  Qed.
  Lemma ecopies_changed cs cs' ids W F b : changed ids W cs cs' ->
    (forall c, c_dim (W c) = c_dim c) -> ecopies cs F b -> ecopies cs' F b.
  Proof.
    intros CH D EC. assert (K : forall i c, cell_at cs i c -> exists c', cell_at cs' i c' /\ c_dim c' = c_dim c).
    { intros i c Hc. destruct (in_dec Nat.eq_dec i ids) as [I|I].
      - exists (W c). split; auto. eapply changed_in; eauto.
      - exists c. split; auto. unfold cell_at. rewrite (changed_out _ _ _ _ _ CH); auto. }
    constructor; try apply EC.
    - intros e He. destruct (ec_old _ _ _ EC e He) as (c & Hc & Dc). destruct (K _ _ Hc) as (c' & ? & ?). exists c'. split; auto. congruence.
    - intros k Hk. destruct (ec_new _ _ _ EC k Hk) as (c & Hc & Dc). destruct (K _ _ Hc) as (c' & ? & ?). exists c'. split; auto. congruence.
  Qed.

  Definition state (m : mesh P) (F V T : list nat) (pts : list P) (cs : cells) : Prop :=
    fit (mk_mesh P cs pts) /\
    forall q, copies cs V T (vertex_base P m F V q) (node_base P m V q) /\ ecopies cs F (edge_base P m F V q).

  Lemma state_changed (m : mesh P) F V T pts cs cs' ids q : state m F V T pts cs ->
    (forall i c, In i ids -> cell_at cs i c -> (c_dim c = 1 \/ c_dim c = 2) /\
       (forall v, In v (nth 0 (c_sub c) []) -> v < length (m_cells P m)) /\
       (c_dim c = 2 -> forall e, In e (nth 1 (c_sub c) []) -> e < length (m_cells P m))) ->
    changed ids (moved P m F V T q) cs cs' -> state m F V T pts cs'.
  Proof.
    intros [FT ST] DI CH. destruct (ST q) as [CP EC]. split.
    - apply (fit_moved P (mk_mesh P cs pts) ids F (edge_base P m F V q) V T (vertex_base P m F V q) (node_base P m V q) cs' FT CP EC); [|exact CH].
      intros i c Hi Hc. destruct (DI i c Hi Hc) as (A & B & C). split; auto. split.
      + intros v Hv. specialize (B v Hv). unfold vertex_base. lia.
      + intros D e He. specialize (C D e He). unfold edge_base. lia.
    - intros q'. destruct (ST q') as [CP' EC']. split.
      + eapply copies_changed; eauto. intros i c Hi Hc. destruct (DI i c Hi Hc) as ([?|?] & _); lia.
      + eapply ecopies_changed; eauto.
  Qed.

  Lemma step1 fuel (m : mesh P) F V T pts cs ids q : state m F V T pts cs -> ids <> [] ->
    (forall i, In i ids -> exists c, cell_at cs i c /\ c_dim c = 1 /\ forall v, In v (nth 0 (c_sub c) []) -> v < length (m_cells P m)) ->
    (exists cs', update_cells_with_cell_pairs (S fuel) cs ids [[]; combine V (seq (vertex_base P m F V q) (length V))] = Ok cs' /\
       changed ids (moved P m F V T q) cs cs' /\ state m F V T pts cs' /\ forall x, In x V -> exists p, lists_in cs ids 0 x p) \/
    (update_cells_with_cell_pairs (S fuel) cs ids [[]; combine V (seq (vertex_base P m F V q) (length V))] = Err NetworkXError /\
       exists x, In x V /\ ~ exists p, lists_in cs ids 0 x p).
  Proof.
    intros ST NE DI. pose proof ST as [FT CE]. destruct (CE q) as [CP EC].
    destruct (update_dim1 P fuel (mk_mesh P cs pts) ids V T (vertex_base P m F V q) (node_base P m V q) FT CP NE) as [(cs' & E & CH & AL)|H]; [|left|right; exact H].
    - intros i Hi. destruct (DI i Hi) as (c & ? & ? & _). eauto.
    - exists cs'. split; [exact E|]. specialize (CH (relabel F (edge_base P m F V q))). split; [exact CH|]. split; [|exact AL].
      eapply state_changed; [exact ST| |exact CH]. intros i c Hi Hc. destruct (DI i Hi) as (c' & Hc' & D & B).
      assert (c' = c) by (unfold cell_at in *; congruence). subst c'. split; auto. split; auto. lia.
  Qed.
  Lemma step2 fuel (m : mesh P) F V T pts cs ids q : layered_mesh (m_cells P m) -> state m F V T pts cs -> ids <> [] ->
    (forall i, In i ids -> exists c, cell_at cs i c /\ c_dim c = 2 /\ cell_at (m_cells P m) i c) ->
    let prs := [[]; combine F (seq (edge_base P m F V q) (length F)); combine V (seq (vertex_base P m F V q) (length V))] in
    (exists cs', update_cells_with_cell_pairs (S fuel) cs ids prs = Ok cs' /\
       changed ids (moved P m F V T q) cs cs' /\ state m F V T pts cs' /\
       (forall x, In x V -> exists p, lists_in cs ids 0 x p) /\ (forall x, In x F -> exists p, lists_in cs ids 1 x p)) \/
    (update_cells_with_cell_pairs (S fuel) cs ids prs = Err NetworkXError /\
       ((exists x, In x V /\ ~ exists p, lists_in cs ids 0 x p) \/ exists x, In x F /\ ~ exists p, lists_in cs ids 1 x p)).
  Proof.
    intros LM ST NE DI prs. pose proof ST as [FT CE]. destruct (CE q) as [CP EC].
    destruct (update_dim2 P fuel (mk_mesh P cs pts) ids F (edge_base P m F V q) V T (vertex_base P m F V q) (node_base P m V q) FT CP EC NE) as [(cs' & E & CH & AL)|H]; [|left|right; exact H].
    - intros i Hi. destruct (DI i Hi) as (c & ? & ? & _). eauto.
    - exists cs'. split; [exact E|]. split; [exact CH|]. split; [|exact AL].
      eapply state_changed; [exact ST| |exact CH]. intros i c Hi Hc. destruct (DI i Hi) as (c' & Hc' & D & Hm).
      assert (c' = c) by (unfold cell_at in *; congruence). subst c'. split; auto.
      destruct LM as [_ LM]. destruct (LM i c Hm) as (_ & _ & _ & S). split.
      + intros v Hv. destruct (S 0 v) as (x & Hx & _); [lia|auto|]. eapply cell_at_lt; eauto.
      + intros _ e He. destruct (S 1 e) as (x & Hx & _); [lia|auto|]. eapply cell_at_lt; eauto.
  Qed.

  (** ** both sides copied *)
  Lemma two_copies tm (m m1 m2 : mesh P) bp bn F V T N : fit m2 -> NoDup F -> NoDup V ->
    (forall e, In e F -> exists c, cell_at (m_cells P m) e c /\ c_dim c = 1) ->
    (forall v, In v V -> exists c, cell_at (m_cells P m) v c /\ c_dim c = 0) ->
    Forall2 (fun v t => exists c, cell_at (m_cells P m) v c /\ c_nodes c = [t]) V T ->
    Forall2 (fun t x => nth_error (m_points P m) t = Some x) T N ->
    copied P tm bp m m1 F V N -> copied P tm bn m1 m2 F V N ->
    state m F V T (m_points P m2) (m_cells P m2) /\
    m_points P m2 = m_points P m ++ map bp N ++ map bn N /\
    length (m_cells P m2) = length (m_cells P m) + 2 * (length F + length V) /\
    (forall i, i < length (m_cells P m) -> nth_error (m_cells P m2) i = nth_error (m_cells P m) i) /\
    (forall (q : bool) k e c, nth_error F k = Some e -> cell_at (m_cells P m) e c ->
      let i := edge_base P m F V q + k in
      cell_at (m_cells P m2) i (mk_cell 1 i (c_nodes c) (mapped_tag tm (c_mat c)) [nth 0 (c_sub c) []; [i]])) /\
    (forall (q : bool) k v c, nth_error V k = Some v -> cell_at (m_cells P m) v c ->
      let i := vertex_base P m F V q + k in
      cell_at (m_cells P m2) i (mk_cell 0 i [node_base P m V q + k] (mapped_tag tm (c_mat c)) [[i]])).
  Proof.
    intros FT NF NV HF HV HT HN C1 C2.
    assert (LT : length T = length V) by (apply Forall2_app_nth in HT; symmetry; apply HT).
    assert (LN : length N = length T) by (apply Forall2_app_nth in HN; symmetry; apply HN).
    pose proof (cd_length _ _ _ _ _ _ _ _ C1) as L1. pose proof (cd_length _ _ _ _ _ _ _ _ C2) as L2.
    pose proof (cd_points _ _ _ _ _ _ _ _ C1) as P1. pose proof (cd_points _ _ _ _ _ _ _ _ C2) as P2.
    set (n := length (m_cells P m)) in *.
    assert (OLD : forall i, i < n -> nth_error (m_cells P m2) i = nth_error (m_cells P m) i).
    { intros i Hi. rewrite (cd_old _ _ _ _ _ _ _ _ C2) by lia. apply (cd_old _ _ _ _ _ _ _ _ C1). auto. }
    assert (UP1 : forall i c, cell_at (m_cells P m) i c -> cell_at (m_cells P m1) i c).
    { intros i c Hc. unfold cell_at. rewrite (cd_old _ _ _ _ _ _ _ _ C1); auto. eapply cell_at_lt; eauto. }
    assert (UP2 : forall i c, cell_at (m_cells P m) i c -> cell_at (m_cells P m2) i c).
    { intros i c Hc. unfold cell_at. rewrite OLD; auto. eapply cell_at_lt; eauto. }
    assert (EE : forall (q : bool) k e c, nth_error F k = Some e -> cell_at (m_cells P m) e c ->
      let i := edge_base P m F V q + k in
      cell_at (m_cells P m2) i (mk_cell 1 i (c_nodes c) (mapped_tag tm (c_mat c)) [nth 0 (c_sub c) []; [i]])).
    { intros q k e c He Hc. assert (k < length F) by (apply nth_error_Some; congruence). unfold edge_base. fold n. destruct q.
      - rewrite Nat.add_0_r. pose proof (cd_edges _ _ _ _ _ _ _ _ C1 k e c He Hc) as H'. fold n in H'. cbv zeta in *.
        unfold cell_at in *. rewrite (cd_old _ _ _ _ _ _ _ _ C2) by lia. auto.
      - pose proof (cd_edges _ _ _ _ _ _ _ _ C2 k e c He (UP1 _ _ Hc)) as H'. cbv zeta in *. rewrite L1 in H'.
        rewrite Nat.add_assoc. auto. }
    assert (VV : forall (q : bool) k v c, nth_error V k = Some v -> cell_at (m_cells P m) v c ->
      let i := vertex_base P m F V q + k in
      cell_at (m_cells P m2) i (mk_cell 0 i [node_base P m V q + k] (mapped_tag tm (c_mat c)) [[i]])).
    { intros q k v c Hv Hc. assert (k < length V) by (apply nth_error_Some; congruence). unfold vertex_base, node_base. fold n. destruct q.
      - rewrite !Nat.add_0_r. pose proof (cd_vertices _ _ _ _ _ _ _ _ C1 k v c Hv Hc) as H'. fold n in H'. cbv zeta in *.
        unfold cell_at in *. rewrite (cd_old _ _ _ _ _ _ _ _ C2) by lia. auto.
      - pose proof (cd_vertices _ _ _ _ _ _ _ _ C2 k v c Hv (UP1 _ _ Hc)) as H'. cbv zeta in *. rewrite L1, P1, app_length, map_length, LN, LT in H'.
        replace (n + length F + (length F + length V) + k) with (n + length F + length V + length F + k) by lia. auto. }
    split; [|repeat (split; auto)].
    - split; [destruct m2; exact FT|]. intros q. split.
      + constructor; auto.
        * intros k v t Hv Ht. destruct (Forall2_nth_l _ _ _ _ _ HT Hv) as (t' & Ht' & c & Hc & Nc). assert (t' = t) by congruence. subst t'.
          destruct (HV v) as (c' & Hc' & D); [eapply nth_error_In; eauto|]. assert (c' = c) by (unfold cell_at in *; congruence). subst c'. eauto.
        * intros k Hk. destruct (nth_error V k) as [v|] eqn:Ev; [|apply nth_error_None in Ev; lia].
          destruct (HV v) as (c & Hc & D); [eapply nth_error_In; eauto|]. specialize (VV q k v c Ev Hc). cbv zeta in VV. eexists; split; [exact VV|]. split; reflexivity.
        * intros v Hv. destruct (HV v Hv) as (c & Hc & _). apply cell_at_lt in Hc. unfold vertex_base. fold n. fold n in Hc. lia.
        * intros t Ht. destruct (Forall2_In_l _ _ _ _ HN Ht) as (x & _ & Hx). assert (t < length (m_points P m)) by (apply nth_error_Some; congruence).
          unfold node_base. lia.
      + constructor; auto.
        * intros e He. destruct (HF e He) as (c & Hc & D). eauto.
        * intros k Hk. destruct (nth_error F k) as [e|] eqn:Ee; [|apply nth_error_None in Ee; lia].
          destruct (HF e) as (c & Hc & D); [eapply nth_error_In; eauto|]. specialize (EE q k e c Ee Hc). cbv zeta in EE. eexists; split; [exact EE|]. reflexivity.
        * intros e He. destruct (HF e He) as (c & Hc & _). apply cell_at_lt in Hc. unfold edge_base. fold n. fold n in Hc. lia.
    - rewrite P2, P1, app_assoc. auto.
    - rewrite L2, L1. lia.
  Qed.
End Compose.
