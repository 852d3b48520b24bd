(** * Intersecting edges: C99 *)
From Coq Require Import List Arith ZArith Bool Reals Lra Lia Classical.
From Verif Require Import Base BaseProof VecBase VecProof GeoModel GeoSpec GeoProof GeoProof2 VertexModel VertexSpec VertexProof WhereProof LineModel LineSpec LineProof EdgeOpsModel EdgeOpsSpec.
Import ListNotations.
Local Open Scope R_scope.

Lemma vec_eq_dec (u v : vec) : u = v \/ u <> v.
Proof. destruct (classic (u = v)); tauto. Qed.

Section EdgeEdge.
  Variable lstsq : vec -> vec -> vec -> R * R.
  Variables ctol ptol : R.
  Hypothesis P0 : 0 <= ptol.

  Lemma vpoint_get h x p : vpoint h x = Ok p -> exists t, get_at h x = Ok (t, p).
  Proof. unfold vpoint. intros E. apply bind_Ok in E as ((t, q) & G & E). injection E as <-. eauto. Qed.

  (** what a vertex gives at the ends, and on the segment *)
  Lemma boundary_spec h v p e a b eps : vpoint h v = Ok p -> placed h e a b ->
    exists o, boundary_hit ptol h v e eps = Ok o /\ forall tag,
      match o with Some r => at_end ptol eps h tag v p e a b (met_of tag r) | None => off_ends ptol eps h v p e a b end.
  Proof.
    intros Ep (Ea & Eb). unfold boundary_hit.
    destruct (vpoint_get _ _ _ Ep) as (t & Gp). destruct (vpoint_get _ _ _ Ea) as (ta & Ga). destruct (vpoint_get _ _ _ Eb) as (tb & Gb).
    assert (S0 : exists s, strong_equality ptol h v (fst e) = Ok s) by (unfold strong_equality; rewrite Gp, Ga; cbn [bind]; eauto).
    assert (S1 : exists s, strong_equality ptol h v (snd e) = Ok s) by (unfold strong_equality; rewrite Gp, Gb; cbn [bind]; eauto).
    destruct S0 as (s0 & E0). destruct S1 as (s1 & E1). rewrite E0, E1. cbn [bind]. rewrite Ep, Ea, Eb. cbn [bind]. eexists. split; [reflexivity|]. intros tag.
    apply strong_spec in E0. apply strong_spec in E1. unfold same_geometry.
    destruct s0; [left; split; [apply E0; reflexivity|reflexivity]|].
    assert (N0 : ~ is_end ptol h v (fst e)) by (intros Q; apply E0 in Q; discriminate).
    destruct s1; [right; left; split; [exact N0|split; [apply E1; reflexivity|reflexivity]]|].
    assert (N1 : ~ is_end ptol h v (snd e)) by (intros Q; apply E1 in Q; discriminate).
    destruct (allclose eps p a) eqn:Ca; [right; right; split; [exact N0|split; [exact N1|left; split; [apply allclose_true; exact Ca|reflexivity]]]|].
    assert (Na : ~ close eps p a) by (rewrite <- allclose_true; congruence).
    destruct (allclose eps p b) eqn:Cb; [right; right; split; [exact N0|split; [exact N1|right; split; [exact Na|split; [apply allclose_true; exact Cb|reflexivity]]]]|].
    split; [exact N0|split; [exact N1|split; [exact Na|]]]. rewrite <- allclose_true. congruence.
  Qed.
  Lemma edge_hit_off h v p e a b eps : vpoint h v = Ok p -> placed h e a b -> boundary_hit ptol h v e eps = Ok None ->
    edge_hit ctol ptol ptol h v e eps = Ok (match point_line_intersection ctol p a b ptol with Some x => Some (New x) | None => None end).
  Proof. intros Ep (Ea & Eb) B. unfold edge_hit. rewrite B. cbn [bind]. rewrite Ep, Ea, Eb. reflexivity. Qed.

  Lemma not_found p a b : point_line_intersection ctol p a b ptol = None -> ~ on_segment a b p.
  Proof. intros N S. destruct (segment_found ctol ptol p a b P0 S) as (x & E). congruence. Qed.

  (** the outcome for the ends of the tool *)
  Lemma boundary_lemma h tool p q e a b eps : placed h tool p q -> placed h e a b -> exists o,
    (forall tag, edge_edge_boundary_intersection ctol ptol h tool e tag eps = Ok (option_map (met_of tag) o)) /\
    forall tag, match o with
    | Some r => first_touch ctol ptol eps h tag tool p q e a b (met_of tag r)
    | None => no_touch ptol eps h tool p q e a b /\ point_line_intersection ctol p a b ptol = None /\ point_line_intersection ctol q a b ptol = None
    end.
  Proof.
    intros (Ep & Eq) E. unfold edge_edge_boundary_intersection.
    destruct (boundary_spec h _ _ e a b eps Ep E) as (o0 & B0 & H0). destruct (boundary_spec h _ _ e a b eps Eq E) as (o1 & B1 & H1).
    rewrite B0, B1. cbn [bind]. destruct o0 as [r|].
    { exists (Some r). split; [reflexivity|]. intros tag. left. apply H0. }
    destruct o1 as [r|].
    { exists (Some r). split; [reflexivity|]. intros tag. right. left. split; [apply (H0 tag)|apply H1]. }
    rewrite (edge_hit_off h _ p e a b eps Ep E B0), (edge_hit_off h _ q e a b eps Eq E B1). cbn [bind].
    specialize (H0 (Tag 0)). specialize (H1 (Tag 0)). cbn iota in H0, H1.
    destruct (point_line_intersection ctol p a b ptol) as [x|] eqn:Fp.
    { exists (Some (New x)). split; [reflexivity|]. intros tag. right. right. split; [exact H0|split; [exact H1|]]. left. exists x. split; [apply segment_sound; assumption|reflexivity]. }
    apply not_found in Fp as Np.
    destruct (point_line_intersection ctol q a b ptol) as [y|] eqn:Fq.
    { exists (Some (New y)). split; [reflexivity|]. intros tag. right. right. split; [exact H0|split; [exact H1|]]. right. split; [exact Np|]. exists y. split; [apply segment_sound; assumption|reflexivity]. }
    exists None. split; [reflexivity|]. intros _. split; [|auto]. split; split; try assumption. apply not_found. exact Fq.
  Qed.

  Lemma boundary_outcome h tool p q e a b tag eps : placed h tool p q -> placed h e a b ->
    exists r, edge_edge_boundary_intersection ctol ptol h tool e tag eps = Ok r /\
      match r with Some m => first_touch ctol ptol eps h tag tool p q e a b m | None => no_touch ptol eps h tool p q e a b end.
  Proof.
    intros T E. destruct (boundary_lemma h tool p q e a b eps T E) as (o & B & H). rewrite B. eexists. split; [reflexivity|]. specialize (H tag).
    destruct o as [r|]; [exact H|exact (proj1 H)].
  Qed.

  Lemma both_apart a b c d eps : point_line_intersection ctol a c d ptol = None -> point_line_intersection ctol b c d ptol = None ->
    line_line_intersection lstsq ctol ptol a b c d eps = Ok (line_line_compute lstsq a b c d eps).
  Proof. intros Ea Eb. unfold line_line_intersection, points_line_intersection. cbn [map]. rewrite Ea, Eb. reflexivity. Qed.
  Lemma compute_spec a b c d eps : 0 <= eps -> solves lstsq ->
    match line_line_compute lstsq a b c d eps with
    | LL_none => forall z, meet (a, b) (c, d) z -> cross (vsub b a) (vsub d c) = vzero
    | LL_points l => exists x, l = [x] /\ computed_point eps a b c d x /\
        forall z, meet (a, b) (c, d) z -> cross (vsub b a) (vsub d c) <> vzero -> x = z
    | LL_segment _ _ => False
    end.
  Proof.
    intros E0 Ls. unfold line_line_compute. pose proof (Ls (vsub b a) (vsub d c) (vsub c a)) as L. destruct (lstsq (vsub b a) (vsub d c) (vsub c a)) as (t, s).
    assert (U : forall z, meet (a, b) (c, d) z -> cross (vsub b a) (vsub d c) <> vzero -> exists t' s', 0 <= t' <= 1 /\ 0 <= s' <= 1 /\ (t, s) = (t', s') /\ z = between a b t' /\ z = between c d s').
    { intros z ((t' & Ht & Et) & (s' & Hs & Es)) X. cbn [fst snd] in *. exists t', s'. split; [exact Ht|split; [exact Hs|split; [|split; assumption]]].
      eapply least_squares_exact; [exact X| |exact L]. rewrite Et in Es. unfold between in Es. pose proof (f_equal vx Es) as A. pose proof (f_equal vy Es) as B. pose proof (f_equal vz Es) as C.
      simpl in A, B, C. apply vec_ext; simpl; lra. }
    destruct (_ && _ && _) eqn:T.
    - eexists. split; [reflexivity|]. split.
      + apply andb_true_iff in T as [T T3]. apply andb_true_iff in T as [T1 T2]. apply allclose_true in T1. apply range_test in T2; auto. apply range_test in T3; auto.
        exists t, s. split; [reflexivity|]. auto.
      + intros z M X. destruct (U z M X) as (t' & s' & _ & _ & Q & Z & _). injection Q as <- <-. symmetry. exact Z.
    - intros z M. destruct (vec_eq_dec (cross (vsub b a) (vsub d c)) vzero) as [X|X]; [exact X|exfalso].
      destruct (U z M X) as (t' & s' & Ht & Hs & Q & Z & Z'). injection Q as <- <-. fold (between a b t) in T. fold (between c d s) in T. rewrite <- Z, <- Z' in T.
      rewrite allclose_refl, !test_range in T by assumption. discriminate.
  Qed.

  Lemma intersection_lemma h tool p q e a b tag p_eps l_eps : 0 <= l_eps -> solves lstsq -> placed h tool p q -> placed h e a b ->
    exists r, edge_edge_intersection lstsq ctol ptol h tool e tag p_eps l_eps = Ok r /\
      match r with
      | Some m => first_touch ctol ptol ptol h (Float p_eps) tool p q e a b m \/
                  (no_touch ptol ptol h tool p q e a b /\ exists x, m = Fresh (Tag tag) (Rows [x]) /\ computed_point l_eps p q a b x /\
                    forall z, meet (p, q) (a, b) z -> cross (vsub q p) (vsub b a) <> vzero -> x = z)
      | None => no_touch ptol ptol h tool p q e a b /\ forall z, meet (p, q) (a, b) z -> cross (vsub q p) (vsub b a) = vzero
      end.
  Proof.
    intros E0 Ls T E. unfold edge_edge_intersection. destruct (boundary_lemma h tool p q e a b ptol T E) as (o & B & H). rewrite B. cbn [bind].
    specialize (H (Float p_eps)). destruct o as [r|]; cbn [option_map].
    { eexists. split; [reflexivity|]. left. exact H. }
    destruct H as (N & Np & Nq). destruct T as (Ep & Eq). destruct E as (Ea & Eb). rewrite Ep, Eq, Ea, Eb. cbn [bind]. rewrite (both_apart _ _ _ _ _ Np Nq). cbn [bind].
    eexists. split; [reflexivity|]. pose proof (compute_spec p q a b l_eps E0 Ls) as C. destruct (line_line_compute lstsq p q a b l_eps) as [|l|l qs].
    - split; assumption.
    - destruct C as (x & -> & C & U). right. split; [exact N|]. exists x. auto.
    - destruct C.
  Qed.

  (** ends of the tool clear of the object *)
  Lemma clear_boundary h tool p q e a b tag : placed h tool p q -> placed h e a b -> clear_of ctol ptol h tool p q e a b ->
    edge_edge_boundary_intersection ctol ptol h tool e tag ptol = Ok None /\
    point_line_intersection ctol p a b ptol = None /\ point_line_intersection ctol q a b ptol = None.
  Proof.
    intros T E ((A1 & A2 & A3 & A4) & (B1 & B2 & B3 & B4) & C & D).
    assert (Np : point_line_intersection ctol p a b ptol = None) by (apply ends_apart; assumption).
    assert (Nq : point_line_intersection ctol q a b ptol = None) by (apply ends_apart; assumption).
    destruct (boundary_lemma h tool p q e a b ptol T E) as (o & B & H). rewrite B. split; [|auto]. destruct o as [r|]; [exfalso|reflexivity].
    destruct (H tag) as [[(X & _)|[(_ & X & _)|(_ & _ & [(X & _)|(_ & X & _)])]]|[(_ & [(X & _)|[(_ & X & _)|(_ & _ & [(X & _)|(_ & X & _)])]])|(_ & _ & [(x & X & _)|(_ & x & X & _)])]]; try contradiction.
    - exact (C x X).
    - exact (D x X).
  Qed.
  Lemma crossing_lemma h tool p q e a b tag p_eps l_eps z : 0 <= l_eps -> solves lstsq -> placed h tool p q -> placed h e a b ->
    clear_of ctol ptol h tool p q e a b -> meet (p, q) (a, b) z -> cross (vsub q p) (vsub b a) <> vzero ->
    edge_edge_intersection lstsq ctol ptol h tool e tag p_eps l_eps = Ok (Some (Fresh (Tag tag) (Rows [z]))).
  Proof.
    intros E0 Ls T E C M X. unfold edge_edge_intersection. destruct (clear_boundary h tool p q e a b (Float p_eps) T E C) as (B & Np & Nq). rewrite B. cbn [bind].
    destruct T as (Ep & Eq). destruct E as (Ea & Eb). rewrite Ep, Eq, Ea, Eb. cbn [bind]. rewrite (both_apart _ _ _ _ _ Np Nq). cbn [bind].
    pose proof (compute_spec p q a b l_eps E0 Ls) as S. destruct (line_line_compute lstsq p q a b l_eps) as [|l|l qs].
    - exfalso. exact (X (S z M)).
    - destruct S as (x & -> & _ & U). rewrite (U z M X). reflexivity.
    - destruct S.
  Qed.
  Lemma disjoint_lemma h tool p q e a b tag p_eps l_eps : 0 <= l_eps -> solves lstsq -> placed h tool p q -> placed h e a b ->
    clear_of ctol ptol h tool p q e a b ->
    (forall t s, - l_eps <= t <= 1 + 2 * l_eps -> - l_eps <= s <= 1 + 2 * l_eps -> ~ close l_eps (between p q t) (between a b s)) ->
    edge_edge_intersection lstsq ctol ptol h tool e tag p_eps l_eps = Ok None.
  Proof.
    intros E0 Ls T E C X. unfold edge_edge_intersection. destruct (clear_boundary h tool p q e a b (Float p_eps) T E C) as (B & Np & Nq). rewrite B. cbn [bind].
    destruct T as (Ep & Eq). destruct E as (Ea & Eb). rewrite Ep, Eq, Ea, Eb. cbn [bind]. rewrite (both_apart _ _ _ _ _ Np Nq). cbn [bind].
    pose proof (compute_spec p q a b l_eps E0 Ls) as S. destruct (line_line_compute lstsq p q a b l_eps) as [|l|l qs].
    - reflexivity.
    - destruct S as (x & -> & (t & s & -> & Ht & Hs & Cl) & _). exfalso. exact (X t s Ht Hs Cl).
    - destruct S.
  Qed.

  (** the tolerance given is a label only *)
  Lemma tolerance_lemma h tool p q e a b tag eps eps' l_eps : placed h tool p q -> placed h e a b ->
    match edge_edge_intersection lstsq ctol ptol h tool e tag eps l_eps with
    | Ok r => edge_edge_intersection lstsq ctol ptol h tool e tag eps' l_eps = Ok (retag (Float eps') r)
    | Err x => edge_edge_intersection lstsq ctol ptol h tool e tag eps' l_eps = Err x
    end.
  Proof.
    intros T E. unfold edge_edge_intersection. destruct (boundary_lemma h tool p q e a b ptol T E) as (o & B & _). rewrite !B. cbn [bind].
    destruct o as [[x|y]|]; cbn [option_map met_of retag]; try reflexivity.
    destruct T as (Ep & Eq). destruct E as (Ea & Eb). rewrite Ep, Eq, Ea, Eb. cbn [bind].
    destruct (line_line_intersection lstsq ctol ptol p q a b l_eps) as [[|l|l qs]|x]; reflexivity.
  Qed.
End EdgeEdge.
