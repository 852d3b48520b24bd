(** * Lemmas: cutting along lines, C36 (the copies of a side) *)
From Coq Require Import List Arith ZArith Bool Lia Sorted Permutation.
From Verif Require Import Base BaseProof MeshModel MeshSpec GraphModel GraphProof CutModel CutSpec CutProof CutProof2
  LineCutModel LineCutSpec LineCutProof LineCutProof2.
Import ListNotations.

Definition dup (tm : dict Z Z) (c : cell) (i : nat) : cell :=
  mk_cell (c_dim c) i (c_nodes c) (mapped_tag tm (c_mat c)) (set_at (c_sub c) (c_dim c) [i]).
Lemma duplicate_cells_eq tm l : forall id, duplicate_cells id l tm = (map2 (dup tm) l (seq id (length l)), id + length l).
Proof.
  induction l as [|c l IH]; intros id; simpl; [f_equal; lia|]. rewrite IH. replace (id + 1) with (S id) by lia.
  f_equal. lia.
Qed.
Lemma renumber_nodes_eq l : forall nb, renumber_nodes nb l = map2 (fun c t => set_nodes c [t]) l (seq nb (length l)).
Proof. induction l as [|c l IH]; intros nb; simpl; auto. rewrite IH. replace (nb + 1) with (S nb) by lia. auto. Qed.
Lemma fold_min_ge l : forall a b, b <= a -> (forall x, In x l -> b <= x) -> b <= fold_left Nat.min l a.
Proof.
  induction l as [|x l IH]; intros a b H G; simpl; auto. apply IH; [|intros; apply G; right; auto].
  specialize (G x (or_introl eq_refl)). lia.
Qed.
Lemma append_cells_ok (cs : cells) l : l <> [] -> (forall c, In c l -> length cs <= c_id c) -> append_cells cs l = Ok (cs ++ map Some l).
Proof.
  destruct l as [|c l]; [tauto|]. intros _ H. unfold append_cells.
  assert (G : length cs <= fold_left Nat.min (map c_id l) (c_id c)).
  { apply fold_min_ge; [apply H; left; auto|]. intros x Hx. apply in_map_iff in Hx as (y & <- & Hy). apply H. right; auto. }
  destruct (Nat.ltb_spec (fold_left Nat.min (map c_id l) (c_id c)) (length cs)); [lia|auto].
Qed.
Lemma mapped_copy_tag t m : mapped_tag (dict_of [(t_line t, t_line_clones t); (t_point t, t_point_clones t)]) m = copy_tag t m.
Proof.
  unfold copy_tag. destruct m as [z|]; [|reflexivity].
  unfold mapped_tag. rewrite dget_dict_of. cbn [rev app dget].
  assert (E : forall w : Z, eqb (Some z) (Some w) = eqb z w).
  { intros w. unfold eqb. destruct (eq_dec z w) as [B|B], (eq_dec (Some z) (Some w)) as [B'|B']; auto; exfalso; [apply B'; f_equal; auto|inversion B'; auto]. }
  rewrite !E. unfold eqb. destruct (eq_dec z (t_point t)), (eq_dec z (t_line t)); reflexivity.
Qed.
Lemma map2_map_r {A B C} (f : A -> B -> C) l l' : length l = length l' -> forall k c, nth_error (map2 f l l') k = Some c <->
  exists a b, nth_error l k = Some a /\ nth_error l' k = Some b /\ c = f a b.
Proof.
  intros L k c. rewrite nth_error_map2. destruct (nth_error l k) as [a|] eqn:Ea, (nth_error l' k) as [b|] eqn:Eb.
  - split; [intros E; inversion E; eauto|]. intros (? & ? & E1 & E2 & ->). inversion E1; inversion E2; subst; auto.
  - split; [discriminate|]. intros (? & ? & _ & E & _). discriminate.
  - split; [discriminate|]. intros (? & ? & E & _). discriminate.
  - split; [discriminate|]. intros (? & ? & E & _). discriminate.
Qed.

Section Copies.
  Variable P : Type.
  Notation fit := (fit P).

  (** what a side's copies look like *)
  Record copied (tm : dict Z Z) (bump : P -> P) (m m' : mesh P) (F V : list nat) (N : list P) : Prop := {
    cd_length : length (m_cells P m') = length (m_cells P m) + length F + length V;
    cd_points : m_points P m' = m_points P m ++ map bump N;
    cd_old : forall i, i < length (m_cells P m) -> nth_error (m_cells P m') i = nth_error (m_cells P m) i;
    cd_edges : forall k e c, nth_error F k = Some e -> cell_at (m_cells P m) e c ->
      let i := length (m_cells P m) + k in
      cell_at (m_cells P m') i (mk_cell 1 i (c_nodes c) (mapped_tag tm (c_mat c)) [nth 0 (c_sub c) []; [i]]);
    cd_vertices : forall k v c, nth_error V k = Some v -> cell_at (m_cells P m) v c ->
      let i := length (m_cells P m) + length F + k in
      cell_at (m_cells P m') i (mk_cell 0 i [length (m_points P m) + k] (mapped_tag tm (c_mat c)) [[i]]) }.

  Lemma concat_single {A} (l : list (list A)) ts : Forall2 (fun x t => x = [t]) l ts -> concat l = ts.
  Proof. induction 1; subst; simpl; congruence. Qed.

  Lemma copy_side_spec tm bump (m : mesh P) F V T N : fit m -> F <> [] -> V <> [] ->
    (forall e, In e F -> exists c, cell_at (m_cells P m) e c /\ c_dim c = 1) ->
    (forall v, In v V -> exists c, cell_at (m_cells P m) v c /\ c_dim c = 0) ->
    Forall2 (fun v t => exists c, cell_at (m_cells P m) v c /\ c_nodes c = [t]) V T ->
    Forall2 (fun t x => nth_error (m_points P m) t = Some x) T N ->
    exists m', copy_side P m F V tm bump (length (m_cells P m)) =
        Ok (m', seq (length (m_cells P m)) (length F), seq (length (m_cells P m) + length F) (length V),
            length (m_cells P m) + length F + length V) /\
      copied tm bump m m' F V N /\ fit m'.
  Proof.
    intros FT NF NV HF HV FT1 FN. pose proof FT as ((LM & AL & RG) & NR).
    set (n := length (m_cells P m)).
    destruct (cells_of _ _ _ HF) as (l1 & F1 & D1). destruct (cells_of _ _ _ HV) as (l2 & F2 & D2).
    assert (L1 : length l1 = length F) by (apply Forall2_app_nth in F1; symmetry; apply F1).
    assert (L2 : length l2 = length V) by (apply Forall2_app_nth in F2; symmetry; apply F2).
    assert (LT : length T = length V) by (apply Forall2_app_nth in FT1; symmetry; apply FT1).
    assert (LN : length N = length T) by (apply Forall2_app_nth in FN; symmetry; apply FN).
    unfold copy_side. fold n. rewrite (proj2 (mapM_cell_of _ _ _) F1). cbn [bind]. rewrite duplicate_cells_eq. cbv zeta.
    set (d1 := map2 (dup tm) l1 (seq n (length l1))).
    assert (Ld1 : length d1 = length F) by (unfold d1; rewrite length_map2; rewrite ?seq_length; auto).
    assert (Id1 : forall k c, nth_error d1 k = Some c <-> exists e c0, nth_error F k = Some e /\ cell_at (m_cells P m) e c0 /\ c = dup tm c0 (n + k)).
    { intros k c. unfold d1. rewrite map2_map_r by (rewrite seq_length; auto). split.
      - intros (a & b & Ha & Hb & ->). destruct (Forall2_nth_r _ _ _ _ _ F1 Ha) as (e & He & Hc).
        rewrite nth_error_seq in Hb by (apply nth_error_Some; congruence). inversion Hb. eauto.
      - intros (e & c0 & He & Hc & ->). destruct (Forall2_nth_l _ _ _ _ _ F1 He) as (c1 & Ha & Hc').
        assert (c1 = c0) by (unfold cell_at in *; congruence). subst c1. exists c0, (n + k). split; auto. split; auto.
        apply nth_error_seq. apply nth_error_Some. congruence. }
    rewrite append_cells_ok.
    2:{ destruct d1; [destruct F; [tauto|discriminate]|discriminate]. }
    2:{ intros c Hc. apply In_nth_error in Hc as (k & Hk). apply Id1 in Hk as (e & c0 & _ & _ & ->). cbn. fold n. lia. }
    cbn [bind]. set (cs1 := m_cells P m ++ map Some d1). rewrite Ld1.
    assert (Lc1 : length cs1 = n + length F) by (unfold cs1; rewrite app_length, map_length, Ld1; auto).
    rewrite Lc1, L1, Nat.eqb_refl.
    assert (F2' : Forall2 (cell_at cs1) V l2).
    { eapply Forall2_impl; [|exact F2]. intros a b Hab. unfold cs1. apply cell_at_app; auto. eapply cell_at_lt; eauto. }
    rewrite (proj2 (mapM_cell_of _ _ _) F2'). cbn [bind]. rewrite duplicate_cells_eq. cbv zeta.
    set (d2 := map2 (dup tm) l2 (seq (n + length F) (length l2))).
    assert (Ld2 : length d2 = length V) by (unfold d2; rewrite length_map2; rewrite ?seq_length; auto).
    assert (Id2 : forall k c, nth_error d2 k = Some c <-> exists e c0, nth_error V k = Some e /\ cell_at (m_cells P m) e c0 /\ c = dup tm c0 (n + length F + k)).
    { intros k c. unfold d2. rewrite map2_map_r by (rewrite seq_length; auto). split.
      - intros (a & b & Ha & Hb & ->). destruct (Forall2_nth_r _ _ _ _ _ F2 Ha) as (e & He & Hc).
        rewrite nth_error_seq in Hb by (apply nth_error_Some; congruence). inversion Hb. eauto.
      - intros (e & c0 & He & Hc & ->). destruct (Forall2_nth_l _ _ _ _ _ F2 He) as (c1 & Ha & Hc').
        assert (c1 = c0) by (unfold cell_at in *; congruence). subst c1. exists c0, (n + length F + k). split; auto. split; auto.
        apply nth_error_seq. apply nth_error_Some. congruence. }
    unfold duplicate_mesh_points.
    assert (CN : concat (map c_nodes d2) = T).
    { apply concat_single. apply Forall2_app_nth. split; [rewrite map_length; lia|]. intros k x t Hx Ht.
      rewrite nth_error_map in Hx. destruct (nth_error d2 k) as [c|] eqn:Ec; [|discriminate]. inversion Hx; subst x; clear Hx.
      apply Id2 in Ec as (v & c0 & Hv & Hc0 & ->). cbn [dup c_nodes].
      destruct (Forall2_nth_l _ _ _ _ _ FT1 Hv) as (t' & Ht' & c1 & Hc1 & Nc1).
      assert (c1 = c0) by (unfold cell_at in *; congruence). subst c1. congruence. }
    destruct d2 as [|d20 d2r] eqn:Ed2; [destruct V; [tauto|discriminate]|]. rewrite <- Ed2 in *. clear Ed2 d20 d2r.
    rewrite CN. rewrite (proj2 (mapM_Forall2 _ _ N)).
    2:{ eapply Forall2_impl; [|exact FN]. intros; apply get_at_Ok; auto. }
    cbn [bind]. rewrite app_length, map_length, LN, LT, Ld2, Nat.eqb_refl. cbn [bind].
    rewrite renumber_nodes_eq, Ld2. set (nb := length (m_points P m)).
    set (d3 := map2 (fun c t => set_nodes c [t]) d2 (seq nb (length V))).
    assert (Ld3 : length d3 = length V) by (unfold d3; rewrite length_map2; rewrite ?seq_length; auto).
    assert (Id3 : forall k c, nth_error d3 k = Some c <-> exists v c0, nth_error V k = Some v /\ cell_at (m_cells P m) v c0 /\ c = set_nodes (dup tm c0 (n + length F + k)) [nb + k]).
    { intros k c. unfold d3. rewrite map2_map_r by (rewrite seq_length; auto). split.
      - intros (a & b & Ha & Hb & ->). assert (k < length V) by (rewrite <- Ld2; apply nth_error_Some; congruence).
        apply Id2 in Ha as (e & c0 & He & Hc & ->). rewrite nth_error_seq in Hb by auto. inversion Hb. eauto.
      - intros (e & c0 & He & Hc & ->). exists (dup tm c0 (n + length F + k)), (nb + k).
        split; [apply Id2; eauto|]. split; auto. apply nth_error_seq. apply nth_error_Some. congruence. }
    rewrite append_cells_ok.
    2:{ destruct d3; [destruct V; [tauto|discriminate]|discriminate]. }
    2:{ intros c Hc. apply In_nth_error in Hc as (k & Hk). apply Id3 in Hk as (e & c0 & _ & _ & ->). cbn. lia. }
    cbn [bind]. rewrite Ld3. set (cs2 := cs1 ++ map Some d3).
    assert (Lc2 : length cs2 = n + length F + length V) by (unfold cs2; rewrite app_length, map_length, Ld3, Lc1; auto).
    rewrite Lc2, L2, Nat.eqb_refl. eexists. split; [reflexivity|].
    assert (OLD : forall i, i < n -> nth_error cs2 i = nth_error (m_cells P m) i).
    { intros i Hi. unfold cs2, cs1. rewrite nth_error_app1 by (rewrite app_length, map_length; fold n; lia). apply nth_error_app1. auto. }
    assert (NE : forall k e c, nth_error F k = Some e -> cell_at (m_cells P m) e c ->
      cell_at cs2 (n + k) (mk_cell 1 (n + k) (c_nodes c) (mapped_tag tm (c_mat c)) [nth 0 (c_sub c) []; [n + k]])).
    { intros k e c He Hc. assert (Lk : k < length F) by (apply nth_error_Some; congruence).
      unfold cell_at, cs2. rewrite nth_error_app1 by lia. unfold cs1, n. rewrite nth_error_app_r. fold n. rewrite nth_error_map.
      assert (X : nth_error d1 k = Some (dup tm c (n + k))) by (apply Id1; eauto). rewrite X. cbn [option_map]. do 2 f_equal.
      destruct (HF e) as (c' & Hc' & Dc); [eapply nth_error_In; eauto|]. assert (c' = c) by (unfold cell_at in *; congruence). subst c'.
      destruct LM as [_ LM]. destruct (LM e c Hc) as (_ & _ & Ls & _). unfold dup. rewrite Dc in *.
      destruct (c_sub c) as [|a [|a' [|? ?]]]; try discriminate. reflexivity. }
    assert (NVV : forall k v c, nth_error V k = Some v -> cell_at (m_cells P m) v c ->
      cell_at cs2 (n + length F + k) (mk_cell 0 (n + length F + k) [nb + k] (mapped_tag tm (c_mat c)) [[n + length F + k]])).
    { intros k v c Hv Hc. unfold cell_at, cs2. rewrite <- Lc1 at 1. rewrite nth_error_app_r, nth_error_map.
      assert (X : nth_error d3 k = Some (set_nodes (dup tm c (n + length F + k)) [nb + k])) by (apply Id3; eauto). rewrite X. cbn [option_map]. do 2 f_equal.
      destruct (HV v) as (c' & Hc' & Dc); [eapply nth_error_In; eauto|]. assert (c' = c) by (unfold cell_at in *; congruence). subst c'.
      destruct LM as [_ LM]. destruct (LM v c Hc) as (_ & _ & Ls & _). unfold dup, set_nodes. cbn. rewrite Dc in *.
      destruct (c_sub c) as [|a [|? ?]]; try discriminate. reflexivity. }
    split; [constructor; cbn [m_cells m_points]; fold n nb; auto|].
    (* every cell of the new mesh *)
    assert (INV : forall i c, cell_at cs2 i c -> cell_at (m_cells P m) i c \/
       (exists k e c0, i = n + k /\ nth_error F k = Some e /\ cell_at (m_cells P m) e c0 /\ c_dim c0 = 1 /\ c = mk_cell 1 i (c_nodes c0) (mapped_tag tm (c_mat c0)) [nth 0 (c_sub c0) []; [i]]) \/
       (exists k v c0, i = n + length F + k /\ nth_error V k = Some v /\ cell_at (m_cells P m) v c0 /\ c = mk_cell 0 i [nb + k] (mapped_tag tm (c_mat c0)) [[i]])).
    { intros i c Hc. pose proof (cell_at_lt _ _ _ Hc) as Li. rewrite Lc2 in Li. destruct (Nat.lt_ge_cases i n) as [A|A].
      - left. unfold cell_at in *. rewrite OLD in Hc by auto. auto.
      - right. destruct (Nat.lt_ge_cases i (n + length F)) as [B|B].
        + left. destruct (nth_error F (i - n)) as [e|] eqn:Ee; [|apply nth_error_None in Ee; lia].
          destruct (HF e) as (c0 & Hc0 & Dc0); [eapply nth_error_In; eauto|]. pose proof (NE _ _ _ Ee Hc0) as H.
          replace (n + (i - n)) with i in H by lia. exists (i - n), e, c0. split; [lia|]. repeat (split; auto). unfold cell_at in *; congruence.
        + right. destruct (nth_error V (i - (n + length F))) as [v|] eqn:Ev; [|apply nth_error_None in Ev; lia].
          destruct (HV v) as (c0 & Hc0 & Dc0); [eapply nth_error_In; eauto|]. pose proof (NVV _ _ _ Ev Hc0) as H.
          replace (n + length F + (i - (n + length F))) with i in H by lia.
          exists (i - (n + length F)), v, c0. split; [lia|]. repeat (split; auto). unfold cell_at in *; congruence. }
    assert (UP : forall i c, cell_at (m_cells P m) i c -> cell_at cs2 i c).
    { intros i c Hc. unfold cell_at. rewrite OLD; [auto|]. eapply cell_at_lt; eauto. }
    destruct LM as [CF LM]. destruct AL as (A1 & A2 & A3).
    split; [split; [|split]|]; cbn [m_cells m_points].
    - split.
      + intros i Hi. rewrite Lc2 in Hi. destruct (Nat.lt_ge_cases i n) as [A|A]; [destruct (CF i A) as (c & Hc); eauto|].
        destruct (Nat.lt_ge_cases i (n + length F)) as [B|B].
        * destruct (nth_error F (i - n)) as [e|] eqn:Ee; [|apply nth_error_None in Ee; lia].
          destruct (HF e) as (c0 & Hc0 & Dc0); [eapply nth_error_In; eauto|]. pose proof (NE _ _ _ Ee Hc0) as H.
          replace (n + (i - n)) with i in H by lia. eauto.
        * destruct (nth_error V (i - (n + length F))) as [v|] eqn:Ev; [|apply nth_error_None in Ev; lia].
          destruct (HV v) as (c0 & Hc0 & Dc0); [eapply nth_error_In; eauto|]. pose proof (NVV _ _ _ Ev Hc0) as H.
          replace (n + length F + (i - (n + length F))) with i in H by lia. eauto.
      + intros i c Hc. destruct (INV i c Hc) as [H|[(k & e & c0 & -> & He & Hc0 & Dc0 & ->)|(k & v & c0 & -> & Hv & Hc0 & ->)]].
        * destruct (LM i c H) as (? & ? & ? & S). repeat (split; auto). intros d j Hd Hj. destruct (S d j Hd Hj) as (x & Hx & Dx). eauto.
        * cbn [c_dim c_id c_sub length]. repeat (split; auto). intros d j Hd Hj. assert (d = 0) by lia. subst d. cbn [nth] in Hj.
          destruct (LM e c0 Hc0) as (_ & _ & _ & S). destruct (S 0 j) as (x & Hx & Dx); [lia|auto|]. eauto.
        * cbn [c_dim c_id c_sub length]. repeat (split; auto). intros d j Hd. lia.
    - split; [|split].
      + intros i c Hc D. destruct (INV i c Hc) as [H|[(k & e & c0 & -> & He & Hc0 & Dc0 & ->)|(k & v & c0 & -> & Hv & Hc0 & ->)]]; [eauto|discriminate|].
        cbn. eauto.
      + intros i c j c' Hi Hj D D' E.
        destruct (INV i c Hi) as [H|[(k & e & c0 & -> & He & Hc0 & Dc0 & ->)|(k & v & c0 & -> & Hv & Hc0 & ->)]]; [|discriminate|];
        (destruct (INV j c' Hj) as [H'|[(k' & e' & c0' & -> & He' & Hc0' & Dc0' & ->)|(k' & v' & c0' & -> & Hv' & Hc0' & ->)]]; [|discriminate|]).
        * eapply A2; eauto.
        * exfalso. cbn in E. assert (nb + k' < nb); [|lia]. apply (RG i c); auto. rewrite E. left; auto.
        * exfalso. cbn in E. assert (nb + k < nb); [|lia]. apply (RG j c'); auto. rewrite <- E. left; auto.
        * cbn in E. inversion E. lia.
      + intros i c Hc D.
        assert (G : forall j x, cell_at (m_cells P m) j x -> c_dim x = 1 \/ c_dim x = 2 ->
          Forall2 (fun v t => exists c', cell_at cs2 v c' /\ c_nodes c' = [t]) (nth 0 (c_sub x) []) (c_nodes x)).
        { intros j x Hx Dx. eapply Forall2_impl; [|exact (A3 j x Hx Dx)]. intros a b (y & Hy & Ny). eauto. }
        destruct (INV i c Hc) as [H|[(k & e & c0 & -> & He & Hc0 & Dc0 & ->)|(k & v & c0 & -> & Hv & Hc0 & ->)]]; [eauto| |cbn in D; lia].
        cbn [c_sub c_nodes nth]. eauto.
    - intros i c t Hc Ht. rewrite app_length, map_length, LN, LT. fold nb.
      destruct (INV i c Hc) as [H|[(k & e & c0 & -> & He & Hc0 & Dc0 & ->)|(k & v & c0 & -> & Hv & Hc0 & ->)]].
      + specialize (RG i c t H Ht). fold nb in RG. lia.
      + specialize (RG e c0 t Hc0 Ht). fold nb in RG. lia.
      + destruct Ht as [<-|[]]. assert (k < length V) by (apply nth_error_Some; congruence). lia.
    - intros i c d Hc Hd.
      destruct (INV i c Hc) as [H|[(k & e & c0 & -> & He & Hc0 & Dc0 & ->)|(k & v & c0 & -> & Hv & Hc0 & ->)]].
      + eapply NR; eauto.
      + cbn in Hd. assert (d = 0) by lia. subst d. cbn [c_sub nth]. apply (NR e c0); auto. lia.
      + cbn in Hd. lia.
  Qed.
End Copies.
