(** * Lemmas: fractures whose tags are tags of copies, C111 *)
From Coq Require Import List Arith ZArith Bool Lia Sorted.
From Verif Require Import Base BaseProof MeshModel MeshSpec GraphModel GraphProof CutModel CutSpec CutProof CutProof2 CutProof3 CutProof4 FracCutModel FracCutSpec FracCutProof FracCutProof2.
Import ListNotations.

Section Cut.
  Variable P : Type.
  Lemma on_side_exists (m : mesh P) f i c : cut_ready P m -> cell_at (m_cells P m) i c -> exists q, on_side P m f c q.
  Proof.
    intros (_ & _ & R) Hc. assert (Hr : forall t, In t (c_nodes c) -> t < length (m_points P m)) by (intros; eapply R; eauto).
    assert (X : exists pts, Forall2 (fun t x => nth_error (m_points P m) t = Some x) (c_nodes c) pts).
    { clear Hc. induction (c_nodes c) as [|t l IH]; [exists []; auto|]. destruct IH as (pts & IH); [intros; apply Hr; right; auto|].
      destruct (nth_error (m_points P m) t) as [x|] eqn:E; [exists (x :: pts); auto|]. apply nth_error_None in E. specialize (Hr t (or_introl eq_refl)). lia. }
    destruct X as (pts & Hp). exists (if_side P f pts), pts. auto.
  Qed.

  Lemma collision : forall fuel (m : mesh P) f f' m' fr', cut_ready P m ->
    if_tag P f' = (10 * if_tag P f + 1)%Z ->
    cut_conformity_on_fractures P (S fuel) 2 m [f; f'] = Ok (m', fr') ->
    forall e, interface_edge (m_cells P m) (if_tag P f) e -> exists p n, dget fr' e = Some (p, n) /\
      forall i c c', cell_at (m_cells P m) i c -> c_dim c = 2 -> cell_at (m_cells P m') i c' -> ~ In p (nth 1 (c_sub c') []).
  Proof.
    intros fuel m f f' m' fr' RD ET H e He. cbn in H. apply bind_Ok in H as ([m1 fr1] & H1 & H). apply bind_Ok in H as ([m2 fr2] & H2 & H).
    inversion H; subst m2 fr2; clear H.
    destruct (cut_fracture_effect P fuel m [] f m1 fr1 RD H1) as (F & V & T & N & CE & FR & _).
    pose proof (proj2 (fe_F _ _ _ _ _ _ _ _ CE)) as IF. pose proof (proj2 (IF e) He) as Ie.
    destruct (In_nth_error _ _ Ie) as (k & Hk). pose proof He as (c & Hc & Dc & Mc).
    pose proof (fe_edges _ _ _ _ _ _ _ _ CE true k e c Hk Hc) as Hp. cbv zeta in Hp. rewrite Nat.add_0_r in Hp.
    assert (RD1 : cut_ready P m1) by (eapply effect_ready; eauto).
    exists (length (m_cells P m) + k), (length (m_cells P m) + length F + k).
    destruct (cut_fracture_effect P fuel m1 fr1 f' m' fr' RD1 H2) as (F' & V' & T' & N' & CE' & _ & FO).
    split.
    - rewrite FO; [apply FR, Hk|]. intros Ie'. apply (proj2 (fe_F _ _ _ _ _ _ _ _ CE')) in Ie' as (c1 & Hc1 & _ & Mc1).
      destruct (fe_old _ _ _ _ _ _ _ _ CE e c Hc) as (c2 & q & Hc2 & _ & _ & Mc2 & _).
      assert (c1 = c2) by (unfold cell_at in *; congruence). subst c2. rewrite Mc2, Mc in Mc1. inversion Mc1. lia.
    - intros i ci c' Hi Di Hi'. destruct (fe_old _ _ _ _ _ _ _ _ CE i ci Hi) as (c2 & q & Hc2 & D2 & _).
      destruct (on_side_exists m1 f' i c2 RD1 Hc2) as (q' & Hq').
      destruct (frac_separation P fuel m1 fr1 f' m' fr' RD1 H2) as (_ & _ & S).
      destruct (S i c2 c' q' Hc2 ltac:(congruence) Hi' Hq') as (S1 & _). apply S1.
      eexists. split; [exact Hp|]. split; [reflexivity|]. cbn [c_mat]. now rewrite ET.
  Qed.
End Cut.
