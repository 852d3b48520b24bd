(** * Collapsing vertices and edges: C98 *)
From Coq Require Import List Arith ZArith Bool Reals Lra Lia.
From Verif Require Import Base BaseProof VecBase VecProof GeoModel GeoSpec GeoProof GeoProof2 ShapeModel ShapeSpec ShapeProof AssignProof EdgeOpsModel EdgeOpsSpec.
Import ListNotations.

Section Collapse.
  Variable argsort : list Z -> list nat.
  Hypothesis argsort_ok : is_argsort argsort.
  Variables ctol ptol : R.

  Lemma close_mono t t' a p : (t <= t')%R -> close t a p -> close t' a p.
  Proof.
    intros L (A & B & C). pose proof (Rabs_pos (vx p)). pose proof (Rabs_pos (vy p)). pose proof (Rabs_pos (vz p)).
    repeat split; (eapply Rle_trans; [eassumption|]); nra.
  Qed.
  Lemma same_vertices fuel v w p q : vertex_at v p -> vertex_at w q ->
    exists r, shape_eq allclose_default (S fuel) v w = Ok r /\ (r = true <-> same allclose_default v w).
  Proof.
    intros (Kv & Pv) (Kw & Pw). assert (Dv : s_dim v = 0) by (unfold s_dim; rewrite Kv; reflexivity). assert (Dw : s_dim w = 0) by (unfold s_dim; rewrite Kw; reflexivity).
    cbn [shape_eq]. rewrite Kv, Pv, Pw, Dv, Dw. eexists. split; [reflexivity|]. rewrite Nat.eqb_refl. cbn [andb]. rewrite andb_true_iff, Z.eqb_eq. split.
    - intros (T & C). apply (same_vertex _ v w p q); assumption.
    - intros S. inversion S as [? ? x y D1 D2 T X Y C|? ? D1]; subst; [|contradiction].
      assert (x = p) by congruence. assert (y = q) by congruence. subst. auto.
  Qed.

  (** C98 for vertices *)
  Lemma vertex_lemma fuel tool object p q eps : (ptol <= eps)%R -> vertex_at tool p -> vertex_at object q -> settled tool ->
    exists r object', collapse_vertex argsort ptol (S fuel) tool object eps = Ok (r, object') /\
      (r = true <-> close eps p q) /\ (r = false -> object' = object) /\
      (r = true -> (same allclose_default tool object /\ close ptol p q /\ object' = object) \/
                   (~ (same allclose_default tool object /\ close ptol p q) /\ copies tool object' /\ s_point object' = Some p)).
  Proof.
    intros L T O St. destruct (same_vertices fuel tool object p q T O) as (s & S & Hs).
    destruct T as (Kt & Pt). destruct O as (Ko & Po).
    unfold collapse_vertex, vertex_strong_equality, vertex_with_same_geometry, point_of. rewrite S, Pt, Po. cbn [bind].
    destruct (s && allclose ptol p q) eqn:E.
    { apply andb_true_iff in E as (-> & E). apply allclose_true in E. exists true, object. split; [reflexivity|]. split; [|split; [discriminate|]].
      - split; [intros _; exact (close_mono ptol eps p q L E)|reflexivity].
      - intros _. left. split; [apply Hs; reflexivity|auto]. }
    assert (N : ~ (same allclose_default tool object /\ close ptol p q)).
    { intros (A & B). apply Hs in A. apply allclose_true in B. rewrite A, B in E. discriminate. }
    destruct (allclose eps p q) eqn:G.
    - destruct (assignment_lemma argsort argsort_ok object tool) as [_ A]. destruct (A ltac:(congruence) St) as (o & -> & A1 & A2 & A3 & A4 & A5 & A6). cbn [bind].
      exists true, o. split; [reflexivity|]. split; [split; [intros _; apply allclose_true; exact G|reflexivity]|]. split; [discriminate|]. intros _. right.
      split; [exact N|]. split; [unfold copies; auto 10|]. rewrite (A6 Kt). exact Pt.
    - exists false, object. split; [reflexivity|]. split; [split; [discriminate|intros C; apply allclose_true in C; congruence]|]. split; [reflexivity|discriminate].
  Qed.

  (** the comparison of an edge with nothing immersed *)
  Lemma same_edges fuel tool object p q p' q' : edge_at tool p q -> edge_at object p' q' -> immersed tool = [] ->
    exists r, shape_eq allclose_default (S (S fuel)) tool object = Ok r /\ (r = true <-> same allclose_default tool object).
  Proof.
    intros (Kt & v & w & Bt & V & W) (Ko & v' & w' & Bo & V' & W') It.
    destruct (same_vertices fuel v v' p p' V V') as (r0 & E0 & H0). destruct (same_vertices fuel w w' q q' W W') as (r1 & E1 & H1).
    assert (Dt : s_dim tool = 1) by (unfold s_dim; rewrite Kt; reflexivity). assert (Do : s_dim object = 1) by (unfold s_dim; rewrite Ko; reflexivity).
    remember (S fuel) as f eqn:F. cbn [shape_eq]. rewrite Kt, Bt, Bo, It, Dt, Do. cbn [length Nat.eqb negb andb combine mapM fst snd bind].
    rewrite E0, E1. cbn [bind forallb]. eexists. split; [reflexivity|]. rewrite !andb_true_r, !andb_true_iff, Z.eqb_eq. split.
    - intros ((T & I0) & R0 & R1). apply same_other; [lia|lia|exact T| |].
      + rewrite Bt, Bo. constructor; [apply H0; assumption|]. constructor; [apply H1; assumption|constructor].
      + destruct (immersed object) as [|c l]; [rewrite It; constructor|discriminate].
    - intros S. inversion S as [? ? x y D1|? ? D1 D2 T FB FI]; subst; [lia|]. rewrite Bt, Bo in FB. rewrite It in FI. inversion FI as [X|]. 
      inversion FB as [|? ? ? ? A0 FB']; subst. inversion FB' as [|? ? ? ? A1 _]; subst. split; [split; [exact T|reflexivity]|]. split; [apply H0|apply H1]; assumption.
  Qed.

  Lemma edge_geometry a b p q p' q' eps : edge_at a p q -> edge_at b p' q' -> edge_with_same_geometry a b eps = Ok (allclose eps p p' && allclose eps q q').
  Proof.
    intros (Ka & v & w & Ba & (_ & V) & (_ & W)) (Kb & v' & w' & Bb & (_ & V') & (_ & W')). unfold edge_with_same_geometry, two_ends, vertex_with_same_geometry, point_of.
    rewrite Ba, Bb. cbn [bind fst snd]. rewrite V, V', W, W'. reflexivity.
  Qed.
  Lemma both_close eps p q p' q' : allclose eps p p' && allclose eps q q' = true <-> close eps p p' /\ close eps q q'.
  Proof. rewrite andb_true_iff, !allclose_true. reflexivity. Qed.

  Lemma edge_lemma fuel tool object p q p' q' eps : (ctol <= eps)%R -> edge_at tool p q -> edge_at object p' q' -> immersed tool = [] -> settled tool ->
    let strong := same allclose_default tool object /\ close ctol p p' /\ close ctol q q' in
    exists r object', collapse_edge argsort ctol (S (S fuel)) tool object eps = Ok (r, object') /\
      (r = true <-> close eps p p' /\ close eps q q') /\ (r = false -> object' = object) /\
      (r = true -> same allclose_default tool object' /\ ((strong /\ object' = object) \/ (~ strong /\ copies tool object'))).
  Proof.
    intros L T O It St strong. destruct (same_edges fuel tool object p q p' q' T O It) as (s & S & Hs).
    unfold collapse_edge, edge_strong_equality. rewrite S. cbn [bind]. rewrite !(edge_geometry _ _ _ _ _ _ _ T O). cbn [bind].
    destruct (s && (allclose ctol p p' && allclose ctol q q')) eqn:E.
    { apply andb_true_iff in E as (-> & E). apply both_close in E as (E0 & E1). assert (A : same allclose_default tool object) by (apply Hs; reflexivity).
      exists true, object. split; [reflexivity|]. split; [|split; [discriminate|]].
      - split; [intros _; split; eapply close_mono; eassumption|reflexivity].
      - intros _. split; [exact A|]. left. unfold strong. auto. }
    assert (N : ~ strong).
    { intros (A & B). apply Hs in A. apply both_close in B. rewrite A, B in E. discriminate. }
    destruct (allclose eps p p' && allclose eps q q') eqn:G.
    - assert (K : s_kind object = s_kind tool) by (destruct T as (-> & _); destruct O as (-> & _); reflexivity).
      destruct (assignment_lemma argsort argsort_ok object tool) as [_ A]. destruct (A K St) as (o & -> & A1 & A2 & A3 & A4 & A5 & _). cbn [bind].
      exists true, o. split; [reflexivity|]. split; [split; [intros _; apply both_close; exact G|reflexivity]|]. split; [discriminate|]. intros _.
      split; [|right; split; [exact N|unfold copies; auto 10]].
      destruct T as (Kt & v & w & Bt & (Kv & Pv) & (Kw & Pw)).
      assert (Z : forall u x, s_kind u = Vertex -> s_point u = Some x -> same allclose_default u u).
      { intros u x Ku Pu. assert (D : s_dim u = 0) by (unfold s_dim; rewrite Ku; reflexivity). apply (same_vertex _ u u x x); auto. apply default_refl. }
      apply same_other; [unfold s_dim; rewrite Kt; discriminate|unfold s_dim; rewrite A1; reflexivity|congruence| |rewrite A5, It; constructor].
      rewrite A4, Bt. constructor; [eapply Z; eassumption|]. constructor; [eapply Z; eassumption|constructor].
    - exists false, object. split; [reflexivity|]. split; [split; [discriminate|intros C; apply both_close in C; congruence]|]. split; [reflexivity|discriminate].
  Qed.
End Collapse.
