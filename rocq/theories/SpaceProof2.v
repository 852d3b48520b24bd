(** * Lemmas: options of product spaces, C61 *)
From Coq Require Import List Arith ZArith Bool Lia.
From Verif Require Import Base BaseProof MeshModel MeshSpec GraphModel DofModel DofSpec SpaceModel SpaceSpec SpaceProof.
Import ListNotations.

Lemma build_structures_layout fuel s tags s' m : build_structures fuel s tags = Ok s' -> sp_map s' = Some m ->
  dm_layout m = sp_layout s (sp_disc s) /\ sp_cells s' = sp_cells s /\ sp_dim s' = sp_dim s /\ sp_comps s' = sp_comps s.
Proof.
  unfold build_structures. intros H Hm.
  destruct (build_data_on_physical_tags _ _ _ _ _) as [t|]; [cbn [bind] in H|discriminate].
  destruct (type_by_dimension _); [cbn [bind] in H|discriminate].
  destruct (build_entity_maps _ _ _ _ _) as [m'|] eqn:Em; [cbn [bind] in H|discriminate].
  destruct (entities_by_dimension _ _); [cbn [bind] in H|discriminate].
  destruct (mapM _ _); [cbn [bind] in H|discriminate].
  inversion H; subst s'; simpl in *. inversion Hm; subst m'. split; [|auto].
  unfold build_entity_maps in Em.
  destruct (support_ids _ _); [cbn [bind] in Em|discriminate].
  destruct (scale_support _ _ _); [cbn [bind] in Em|discriminate].
  destruct (mapM _ _); [cbn [bind] in Em|discriminate]. inversion Em. reflexivity.
Qed.
Lemma build_structures_map fuel s tags s' : build_structures fuel s tags = Ok s' -> exists m, sp_map s' = Some m.
Proof.
  unfold build_structures. intros H.
  destruct (build_data_on_physical_tags _ _ _ _ _) as [t|]; [cbn [bind] in H|discriminate].
  destruct (type_by_dimension _); [cbn [bind] in H|discriminate].
  destruct (build_entity_maps _ _ _ _ _) as [m'|] eqn:Em; [cbn [bind] in H|discriminate].
  destruct (entities_by_dimension _ _); [cbn [bind] in H|discriminate].
  destruct (mapM _ _); [cbn [bind] in H|discriminate].
  inversion H; subst s'; simpl. eauto.
Qed.
Lemma build_boundary_keeps s btags s' : build_boundary_structures s btags = Ok s' ->
  sp_cells s' = sp_cells s /\ sp_dim s' = sp_dim s /\ sp_comps s' = sp_comps s /\ sp_map s' = sp_map s /\
  sp_elements s' = sp_elements s.
Proof.
  unfold build_boundary_structures. destruct btags as [|b bt]; intros H.
  - inversion H; subst; auto.
  - destruct (match sp_dim s with 0 => _ | S _ => _ end) in H; [cbn [bind] in H|discriminate].
    destruct (filterM _ _) in H; [cbn [bind] in H|discriminate].
    destruct (mapM _ _) in H; [cbn [bind] in H|discriminate]. inversion H; subst; auto 6.
Qed.

Lemma C61_lemma fuel p disc tags btags b :
  (forall n s, In (n, s) (ps_spaces (make_subspaces_discontinuous p disc)) -> good_field s) ->
  build_product (S fuel) (make_subspaces_discontinuous p disc) tags btags = Ok b ->
  map fst (ps_spaces b) = map fst (ps_spaces p) /\ ps_shift b = ps_shift p /\
  forall n s, In (n, s) (ps_spaces p) -> exists s' m, In (n, s') (ps_spaces b) /\ sp_map s' = Some m /\
    (dget disc n = Some true -> dm_layout m = sp_layout s true) /\
    (dget disc n <> Some true -> dm_layout m = sp_layout s (sp_disc s)) /\
    sp_comps s' = sp_comps s /\
    (forall l, dget tags n = Some l \/ dget tags n = None /\ l = [None] ->
       forall c, In c (sp_elements s') <-> space_cell (sp_cells s) (sp_dim s) l (c_id c) c).
Proof.
  intros G H. unfold build_product in H.
  destruct (mapM _ _) as [sps|] eqn:E in H; [cbn [bind] in H|discriminate].
  destruct (mapM _ _) as [dofs|] eqn:E2 in H; [cbn [bind] in H|discriminate].
  inversion H; subst b; clear H; simpl ps_spaces; simpl ps_shift. apply mapM_Forall2 in E.
  assert (A : Forall2 (fun ns ns' => exists s1, fst ns' = fst ns /\
     build_structures (S fuel) (snd ns) (match dget tags (fst ns) with Some l => l | None => [None] end) = Ok s1 /\
     build_boundary_structures s1 (match dget btags (fst ns) with Some l => l | None => [] end) = Ok (snd ns'))
     (ps_spaces (make_subspaces_discontinuous p disc)) sps).
  { clear - E. induction E as [|x y l l' H1 H2 IH]; constructor; auto.
    destruct (build_structures _ _ _) as [s1|] eqn:Q; [cbn [bind] in H1|discriminate].
    destruct (build_boundary_structures _ _) as [s2|] eqn:Q2; [cbn [bind] in H1|discriminate].
    inversion H1; subst; simpl. eauto. }
  clear E E2. split; [|split; [reflexivity|]].
  - unfold make_subspaces_discontinuous in A. simpl in A. clear G.
    remember (map _ (ps_spaces p)) as L eqn:EL.
    assert (EN : map fst L = map fst (ps_spaces p)).
    { subst L. rewrite map_map. simpl. reflexivity. }
    rewrite <- EN. clear - A. induction A as [|x y l l' (s1 & H1 & _) H2 IH]; simpl; congruence.
  - intros n s Hin.
    set (s0 := match dget disc n with Some true => make_discontinuous s | _ => s end).
    assert (Hin' : In (n, s0) (ps_spaces (make_subspaces_discontinuous p disc))).
    { simpl. apply in_map_iff. exists (n, s). simpl. auto. }
    specialize (G _ _ Hin').
    assert (B : exists y, In y sps /\ exists s1, fst y = n /\
      build_structures (S fuel) s0 (match dget tags n with Some l => l | None => [None] end) = Ok s1 /\
      build_boundary_structures s1 (match dget btags n with Some l => l | None => [] end) = Ok (snd y)).
    { clear - A Hin'. induction A as [|x y l l' H1 H2 IH]; [destruct Hin'|]. destruct Hin' as [->|Hin'].
      - exists y. split; [left; auto|exact H1].
      - destruct (IH Hin') as (y' & Hy & R). exists y'. split; [right; auto|exact R]. }
    destruct B as ([n' s'] & Hy & s1 & En & B1 & B2). simpl in En, B2. subst n'.
    destruct (build_structures_map _ _ _ _ B1) as (m & Hm).
    destruct (build_structures_layout _ _ _ _ _ B1 Hm) as (L1 & L2 & L3 & L4).
    destruct (build_boundary_keeps _ _ _ B2) as (K1 & K2 & K3 & K4 & K5).
    assert (S0 : sp_cells s0 = sp_cells s /\ sp_dim s0 = sp_dim s /\ sp_comps s0 = sp_comps s /\ sp_layout s0 = sp_layout s).
    { unfold s0. destruct (dget disc n) as [[|]|]; auto. }
    destruct S0 as (S1 & S2 & S3 & S4).
    exists s', m. split; [exact Hy|]. split; [congruence|]. split; [|split; [|split]].
    + intros D. rewrite L1, S4. unfold s0. rewrite D. reflexivity.
    + intros D. rewrite L1, S4. unfold s0. destruct (dget disc n) as [[|]|]; congruence.
    + congruence.
    + intros l Hl c. rewrite K5.
      assert (El : match dget tags n with Some l => l | None => [None] end = l).
      { destruct Hl as [->|[-> ->]]; reflexivity. }
      rewrite El in B1. destruct (C23_lemma _ _ _ _ G B1) as [_ C]. rewrite C, S1, S2. tauto.
Qed.
