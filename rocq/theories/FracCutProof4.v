(** * Lemmas: all fractures of a network whose tags are no tags of copies, C111 *)
From Coq Require Import List Arith ZArith Bool Lia Sorted.
From Verif Require Import Base BaseProof MeshModel MeshSpec GraphModel GraphProof CutModel CutSpec CutProof CutProof2 CutProof3 CutProof4 FracCutModel FracCutSpec FracCutProof FracCutProof2 FracCutProof3.
Import ListNotations.

Lemma pos_nth1 x l : forall k, pos x l = Some k -> nth_error l k = Some x.
Proof.
  induction l as [|y l IH]; intros k; cbn; [discriminate|]. destruct (Nat.eqb_spec x y).
  - inversion 1. subst. reflexivity.
  - destruct (pos x l) as [j|]; [|discriminate]. inversion 1. subst. cbn. auto.
Qed.
Lemma relabel_keeps F base l x : ~ In x F -> x < base -> In x (map (relabel F base) l) <-> In x l.
Proof.
  intros N L. rewrite in_map_iff. split.
  - intros (y & E & Hy). unfold relabel in E. destruct (pos y F) as [k|] eqn:Q; [lia|]. now subst.
  - intros H. exists x. split; [now apply relabel_other|assumption].
Qed.

Section Cut.
  Variable P : Type.

  Lemma not_edge f (m m1 : mesh P) F V T N i c : frac_effect P f m m1 F V T N -> cell_at (m_cells P m) i c -> c_dim c = 2 -> ~ In i F.
  Proof.
    intros CE Hc D H. apply (proj2 (fe_F _ _ _ _ _ _ _ _ CE)) in H as (c' & Hc' & D' & _). unfold cell_at in *. congruence.
  Qed.
  Lemma point_kept f (m m1 : mesh P) F V T N (q : bool) t x : frac_effect P f m m1 F V T N ->
    nth_error (m_points P m) t = Some x ->
    nth_error (m_points P m1) (relabel T (length (m_points P m) + if q then 0 else length V) t) = Some x.
  Proof.
    intros CE Ht. rewrite (fe_points _ _ _ _ _ _ _ _ CE). pose proof (fe_N _ _ _ _ _ _ _ _ CE) as HN. pose proof (fe_T _ _ _ _ _ _ _ _ CE) as HT.
    pose proof (proj1 (proj1 (Forall2_app_nth _ _ _) HN)) as LN. pose proof (proj1 (proj1 (Forall2_app_nth _ _ _) HT)) as LT.
    unfold relabel. destruct (pos t T) as [k|] eqn:Q.
    - apply pos_nth1 in Q. assert (K : nth_error N k = Some x).
      { destruct (Forall2_nth_l _ _ _ _ _ HN Q) as (y & Hy & Hx). congruence. }
      assert (k < length N) by (apply nth_error_Some; congruence).
      rewrite <- Nat.add_assoc, nth_error_app_r. destruct q; cbn [plus].
      + rewrite nth_error_app1; auto.
      + replace (length V) with (length N) by congruence. now rewrite nth_error_app_r.
    - rewrite nth_error_app1; auto. apply nth_error_Some. congruence.
  Qed.
  Lemma side_kept f (m m1 : mesh P) F V T N i c c1 g q : frac_effect P f m m1 F V T N ->
    cell_at (m_cells P m) i c -> c_dim c = 2 -> cell_at (m_cells P m1) i c1 -> on_side P m g c q -> on_side P m1 g c1 q.
  Proof.
    intros CE Hc D Hc1 (pts & Hp & Hq). destruct (fe_old _ _ _ _ _ _ _ _ CE i c Hc) as (c2 & q2 & Hc2 & _ & _ & _ & _ & _ & _ & B & _).
    assert (c2 = c1) by (unfold cell_at in *; congruence). subst c2.
    destruct (B (or_intror D) (not_edge _ _ _ _ _ _ _ _ _ CE Hc D)) as (_ & E). exists pts. split; [|assumption]. rewrite E.
    clear - CE Hp. induction Hp; cbn; constructor; auto. eapply point_kept; eauto.
  Qed.

  (** A cut keeps the edges of triangles that do not carry its tag *)
  Lemma listed_kept f (m m1 : mesh P) F V T N i c c1 x cx : frac_effect P f m m1 F V T N ->
    cell_at (m_cells P m) i c -> c_dim c = 2 -> cell_at (m_cells P m1) i c1 ->
    cell_at (m_cells P m) x cx -> c_mat cx <> Some (if_tag P f) ->
    In x (nth 1 (c_sub c1) []) <-> In x (nth 1 (c_sub c) []).
  Proof.
    intros CE Hc D Hc1 Hx Mx. destruct (fe_old _ _ _ _ _ _ _ _ CE i c Hc) as (c2 & q2 & Hc2 & _ & _ & _ & _ & _ & A & _).
    assert (c2 = c1) by (unfold cell_at in *; congruence). subst c2. rewrite (A D). apply relabel_keeps.
    - intros H. apply (proj2 (fe_F _ _ _ _ _ _ _ _ CE)) in H as (c' & Hc' & _ & M). assert (c' = cx) by (unfold cell_at in *; congruence). congruence.
    - pose proof (cell_at_lt _ _ _ Hx). destruct q2; lia.
  Qed.
  Lemma old_at f (m m1 : mesh P) F V T N i c : frac_effect P f m m1 F V T N -> cell_at (m_cells P m) i c ->
    exists c1, cell_at (m_cells P m1) i c1 /\ c_dim c1 = c_dim c /\ c_mat c1 = c_mat c.
  Proof. intros CE Hc. destruct (fe_old _ _ _ _ _ _ _ _ CE i c Hc) as (c2 & q2 & Hc2 & D & _ & M & _). eauto. Qed.

  Lemma later fuel fs : forall (m : mesh P) fr m' fr', cut_ready P m -> foldM (cut_fracture P (S fuel)) fs (m, fr) = Ok (m', fr') ->
    forall x cx, cell_at (m_cells P m) x cx -> (forall f, In f fs -> c_mat cx <> Some (if_tag P f)) ->
    dget fr' x = dget fr x /\
    forall i c c', cell_at (m_cells P m) i c -> c_dim c = 2 -> cell_at (m_cells P m') i c' ->
      In x (nth 1 (c_sub c') []) <-> In x (nth 1 (c_sub c) []).
  Proof.
    induction fs as [|f fs IH]; intros m fr m' fr' RD H x cx Hx Mx; cbn in H.
    - inversion H; subst. split; [reflexivity|]. intros i c c' Hc _ Hc'. assert (c = c') by (unfold cell_at in *; congruence). now subst.
    - apply bind_Ok in H as ([m1 fr1] & H1 & H). destruct (cut_fracture_effect P fuel m fr f m1 fr1 RD H1) as (F & V & T & N & CE & _ & FO).
      assert (RD1 : cut_ready P m1) by (eapply effect_ready; eauto).
      destruct (old_at _ _ _ _ _ _ _ _ _ CE Hx) as (cx1 & Hx1 & _ & Mx1).
      assert (Mx' : forall g, In g fs -> c_mat cx1 <> Some (if_tag P g)) by (intros g Hg; rewrite Mx1; apply Mx; now right).
      destruct (IH m1 fr1 m' fr' RD1 H x cx1 Hx1 Mx') as (A & B). split.
      + rewrite A. apply FO. intros Hin. apply (proj2 (fe_F _ _ _ _ _ _ _ _ CE)) in Hin as (c' & Hc' & _ & M).
        assert (c' = cx) by (unfold cell_at in *; congruence). subst. apply (Mx f); [now left|assumption].
      + intros i c c' Hc D Hc'. destruct (old_at _ _ _ _ _ _ _ _ _ CE Hc) as (c1 & Hc1 & D1 & _).
        rewrite (B i c1 c' Hc1 ltac:(congruence) Hc'). eapply listed_kept; eauto. apply Mx. now left.
  Qed.

  Definition free_of (f f' : interface P) : Prop :=
    if_tag P f' <> if_tag P f /\ if_tag P f' <> (10 * if_tag P f + 1)%Z /\ if_tag P f' <> (10 * if_tag P f - 1)%Z.
  Lemma all_fold fuel fs : forall (m : mesh P) fr m' fr', cut_ready P m -> ForallOrdPairs free_of fs ->
    foldM (cut_fracture P (S fuel)) fs (m, fr) = Ok (m', fr') ->
    forall f e, In f fs -> interface_edge (m_cells P m) (if_tag P f) e -> exists p n, dget fr' e = Some (p, n) /\
      forall i c c' q, cell_at (m_cells P m) i c -> c_dim c = 2 -> cell_at (m_cells P m') i c' -> on_side P m f c q ->
        ~ In e (nth 1 (c_sub c') []) /\
        (In e (nth 1 (c_sub c) []) -> In (if q then p else n) (nth 1 (c_sub c') [])) /\
        ~ In (if q then n else p) (nth 1 (c_sub c') []).
  Proof.
    induction fs as [|g fs IH]; intros m fr m' fr' RD OP H f e Hf He; [destruct Hf|].
    inversion OP as [|? ? FA OP']; subst. rewrite Forall_forall in FA. cbn in H. apply bind_Ok in H as ([m1 fr1] & H1 & H).
    destruct (cut_fracture_effect P fuel m fr g m1 fr1 RD H1) as (F & V & T & N & CE & FR & _).
    assert (RD1 : cut_ready P m1) by (eapply effect_ready; eauto). pose proof He as (ce & Hce & De & Me).
    destruct (old_at _ _ _ _ _ _ _ _ _ CE Hce) as (ce1 & Hce1 & De1 & Me1). destruct Hf as [->|Hf].
    - pose proof (proj2 (proj2 (fe_F _ _ _ _ _ _ _ _ CE) e) He) as Ie. destruct (In_nth_error _ _ Ie) as (k & Hk).
      pose proof (fe_edges _ _ _ _ _ _ _ _ CE true k e ce Hk Hce) as Hp. pose proof (fe_edges _ _ _ _ _ _ _ _ CE false k e ce Hk Hce) as Hn.
      cbv zeta in Hp, Hn. rewrite Nat.add_0_r in Hp. set (p := length (m_cells P m) + k) in *. set (n := length (m_cells P m) + length F + k) in *.
      exists p, n.
      destruct (later fuel fs m1 fr1 m' fr' RD1 H e ce1 Hce1) as (Fe & Le).
      { intros h Hh. rewrite Me1, Me. intros E. inversion E. destruct (FA h Hh) as (X & _). congruence. }
      destruct (later fuel fs m1 fr1 m' fr' RD1 H p _ Hp) as (_ & Lp).
      { intros h Hh. cbn [c_mat]. intros E. inversion E. destruct (FA h Hh) as (_ & X & _). congruence. }
      destruct (later fuel fs m1 fr1 m' fr' RD1 H n _ Hn) as (_ & Ln).
      { intros h Hh. cbn [c_mat]. intros E. inversion E. destruct (FA h Hh) as (_ & _ & X). congruence. }
      split; [rewrite Fe; apply FR, Hk|]. intros i c c' q Hc D Hc' S.
      destruct (old_at _ _ _ _ _ _ _ _ _ CE Hc) as (c1 & Hc1 & D1 & _).
      destruct (frac_separation P fuel m fr f m1 fr1 RD H1) as (_ & _ & SP). destruct (SP i c c1 q Hc D Hc1 S) as (S1 & _ & S3).
      destruct (S3 e p n He (FR k e Hk)) as (S4 & S5). rewrite D in D1.
      rewrite (Le i c1 c' Hc1 D1 Hc'). split; [now apply S1|].
      destruct q; rewrite (Lp i c1 c' Hc1 D1 Hc'), (Ln i c1 c' Hc1 D1 Hc'); auto.
    - destruct (IH m1 fr1 m' fr' RD1 OP' H f e Hf) as (p & n & A & B).
      { exists ce1. split; [assumption|]. split; congruence. }
      exists p, n. split; [assumption|]. intros i c c' q Hc D Hc' S.
      destruct (old_at _ _ _ _ _ _ _ _ _ CE Hc) as (c1 & Hc1 & D1 & _).
      destruct (B i c1 c' q Hc1 ltac:(congruence) Hc' (side_kept _ _ _ _ _ _ _ _ _ _ _ _ CE Hc D Hc1 S)) as (B1 & B2 & B3).
      split; [assumption|]. split; [|assumption]. intros Hin. apply B2.
      apply (listed_kept g m m1 F V T N i c c1 e ce CE Hc D Hc1 Hce); [|assumption].
      rewrite Me. intros E. inversion E. destruct (FA f Hf) as (X & _). congruence.
  Qed.
  Lemma all_lemma : forall fuel d (m : mesh P) fractures m' fr', cut_ready P m ->
    ForallOrdPairs (fun f f' => if_tag P f' <> if_tag P f /\ if_tag P f' <> (10 * if_tag P f + 1)%Z /\ if_tag P f' <> (10 * if_tag P f - 1)%Z) fractures ->
    cut_conformity_on_fractures P (S fuel) d m fractures = Ok (m', fr') ->
    forall f e, In f fractures -> interface_edge (m_cells P m) (if_tag P f) e -> exists p n, dget fr' e = Some (p, n) /\
      forall i c c' q, cell_at (m_cells P m) i c -> c_dim c = 2 -> cell_at (m_cells P m') i c' -> on_side P m f c q ->
        ~ In e (nth 1 (c_sub c') []) /\
        (In e (nth 1 (c_sub c) []) -> In (if q then p else n) (nth 1 (c_sub c') [])) /\
        ~ In (if q then n else p) (nth 1 (c_sub c') []).
  Proof.
    intros fuel d m fractures m' fr' RD OP H. unfold cut_conformity_on_fractures in H. destruct (Nat.eqb_spec d 2); [|discriminate].
    exact (all_fold fuel fractures m [] m' fr' RD OP H).
  Qed.
End Cut.
