(** * Lemmas about the descriptions handed to gmsh: transfer_domain_occ_descritpion *)
From Coq Require Import List Arith ZArith Bool Lia Sorted.
From Verif Require Import Base BaseProof ShapeModel ShapeSpec ShapeProof TagModel TagProof MesherModel MesherSpec MesherProof.
Import ListNotations.

Section Conformal.
  Context {P : Type}.
  Notation call := (call P).
  Notation shape := (shape P).
  Notation domain := (domain P).

  Lemma sum_lengths (D : domain) : forall a, fold_left Z.add (map (fun l => Z.of_nat (length l)) D) a = (a + Z.of_nat (length (concat D)))%Z.
  Proof. induction D as [|l D IH]; intros a; simpl; [lia|]. rewrite IH, app_length. lia. Qed.
  Lemma conformal_number (D : domain) d s : conformal_num D d (s_tag s) = number D d s.
  Proof. unfold conformal_num, number. rewrite sum_lengths. lia. Qed.
  Lemma conformal_inj (D : domain) d t t' : conformal_num D d t = conformal_num D d t' -> t = t'.
  Proof. unfold conformal_num. lia. Qed.
  Lemma conformal_pos (D : domain) d t : (0 <= t -> 0 < conformal_num D d t)%Z.
  Proof. intros H. unfold conformal_num. rewrite sum_lengths. lia. Qed.

  Lemma get_level (D : domain) dimension d : length D = S dimension -> d <= dimension -> get_at D d = Ok (nth d D []).
  Proof. intros L H. unfold get_at. rewrite (nth_error_nth' D []) by lia. reflexivity. Qed.
  Lemma get_upper (D : domain) dimension d : length D = S dimension -> (if (d <? dimension)%nat then get_at D (S d) else Ok []) = Ok (nth (S d) D []).
  Proof.
    intros L. destruct (Nat.ltb_spec d dimension).
    - apply (get_level D dimension); auto.
    - rewrite nth_overflow by lia. reflexivity.
  Qed.
  Lemma depth_full (D : domain) dimension : length D = S dimension -> Forall (fun l => l <> []) D -> first_empty (map (@length _) D) 0 = dimension.
  Proof.
    intros L F. rewrite first_empty_full.
    - rewrite map_length. lia.
    - apply Forall_forall. intros n I. apply in_map_iff in I as (l & <- & I). rewrite Forall_forall in F. specialize (F l I). destruct l; [contradiction|discriminate].
  Qed.

  Variable pclose : P -> P -> bool.
  Variable fuel : nat.
  Variable D : domain.
  Variable dimension : nat.
  Variable graph : option (digraph (Z * Z)).
  Hypothesis close_refl : forall x, pclose x x = true.
  Hypothesis enough : 1 <= fuel.
  Hypothesis whole_domain : complete dimension D.
  Hypothesis ready : graph_ready dimension graph D.
  Notation num := (conformal_num D).

  Definition line_kept (c : shape) : bool := negb (s_composite c) && whole c.
  Lemma line_kept_true c : line_kept c = true <-> s_composite c = false /\ immersed c = [].
  Proof. unfold line_kept. rewrite andb_true_iff, negb_true_iff, whole_true. tauto. Qed.
  Lemma kept_elementary c : In c (nth 1 D []) -> (line_kept c = true <-> elementary D 1 c).
  Proof. intros I. rewrite line_kept_true. unfold elementary. intuition. Qed.
  Lemma vertex_single v : In v (nth 0 D []) -> s_composite v = false.
  Proof.
    intros I. destruct whole_domain as (_ & _ & _ & Hd & _). destruct (Hd 0 v I) as [E _]. apply dim0 in E. unfold s_composite. rewrite E. reflexivity.
  Qed.

  Definition entity_calls (pts lns sfs vls : list call) : list call :=
    pts ++ [Synchronize] ++ lns ++ [Synchronize] ++ sfs ++ [Synchronize] ++ vls ++ [Synchronize].
  (** The scene when all entities have been added *)
  Definition built (s : scene) : Prop := forall d t, visible s d t <-> exists x, elementary D d x /\ t = number D d x.
  Lemma built_phase : exists pts lns sfs vls,
    for_each (add_vertex num) (nth 0 D []) = Ok pts /\
    for_each (fun c => if s_composite c then Ok [] else if some (immersed c) then Ok [] else add_line num c) (nth 1 D []) = Ok lns /\
    for_each (add_surface pclose fuel num) (nth 2 D []) = Ok sfs /\
    for_each (add_volume num) (nth 3 D []) = Ok vls /\
    accepted nothing (entity_calls pts lns sfs vls) /\ built (afters nothing (entity_calls pts lns sfs vls)).
  Proof.
    pose proof vertex_single as V0.
    destruct whole_domain as (LD & NE & Hd3 & Hdim & ND & C0 & C1 & C2 & C3). rewrite Forall_forall in C0, C1, C2, C3.
    pose proof (conformal_inj D) as INJ. pose proof (conformal_pos D) as POS.
    destruct (points_phase num INJ (nth 0 D []) nothing) as (E0 & A0 & pl & B0 & P0); auto.
    { intros v I. apply (C0 v I). }
    set (s1 := after (P:=P) (with_points nothing pl) Synchronize).
    assert (K0 : forall v, elementary D 0 v -> In (num 0 (s_tag v)) pl).
    { intros v (I & Cv & Iv). apply P0. exists v. auto. }
    destruct (lines_phase num INJ (fun c => if s_composite c then Ok [] else if some (immersed c) then Ok [] else add_line num c) line_kept (nth 1 D []) s1)
      as (E1 & A1 & ll & B1 & P1); auto.
    { intros c I K. unfold line_kept in K. destruct (s_composite c); auto. simpl in K. apply negb_false_iff in K. rewrite K. reflexivity. }
    { intros c I K. apply line_kept_true in K as [K1 K2]. rewrite K1, K2. reflexivity. }
    { intros c I K. apply line_kept_true in K as [K1 K2]. destruct (C1 c I) as (H1 & H2 & _). split; auto. }
    set (s2 := after (P:=P) (with_lines s1 ll) Synchronize).
    assert (K1 : forall e, elementary D 1 e -> line_known num s2 e).
    { intros e H. destruct H as (I & Cv & Iv). destruct (C1 e I) as (H1 & H2 & _). destruct (two_ends e (H2 Cv)) as (a & b & r & Eb).
      exists a, b, r. split; auto. split; [|apply (Hdim 1 e I)]. simpl. apply P1. exists e, a, b, r. repeat split; auto. apply line_kept_true. auto. }
    destruct (surfaces_phase pclose fuel num INJ (nth 2 D []) s2) as (E2 & A2 & sl & sl' & B2 & P2); auto.
    { intros f I K. specialize (C2 f I). unfold complete_surface in C2. rewrite K in C2. destruct C2 as ((w & r & Eb & Cw & Hw) & _).
      destruct (closed_loop pclose fuel num POS s2 w close_refl enough Cw) as (signs & Eo & L & Ct & _); [intros e Ie; auto|].
      exists w, r, signs. repeat split; auto; try apply Cw; try apply Ct. }
    set (s3 := after (P:=P) (with_surfaces s2 sl' sl) Synchronize).
    destruct (volumes_phase num INJ (nth 3 D []) s3) as (E3 & A3 & vl & vl' & B3 & P3); auto.
    { intros b I K. specialize (C3 b I). unfold complete_volume in C3. rewrite K in C3. destruct C3 as ((w & r & Eb & Ne & Hw) & _).
      exists w, r. repeat split; auto. intros f If. simpl. apply P2. destruct (Hw f If) as (X1 & X2 & _). exists f. auto. }
    set (s4 := after (P:=P) (with_volumes s3 vl' vl) Synchronize).
    do 4 eexists. split; [exact E0|]. split; [exact E1|]. split; [exact E2|]. split; [exact E3|].
    unfold entity_calls.
    assert (AF : forall (x : list call) s s', afters s x = s' -> forall y, afters s (x ++ [Synchronize] ++ y) = afters (after (P:=P) s' Synchronize) y).
    { intros x s s' <- y. rewrite afters_app. reflexivity. }
    split.
    - rewrite accepted_app. split; [exact A0|]. rewrite B0. simpl app. split; [exact I|]. fold s1.
      rewrite accepted_app. split; [exact A1|]. rewrite B1. split; [exact I|]. fold s2.
      rewrite accepted_app. split; [exact A2|]. rewrite B2. split; [exact I|]. fold s3.
      rewrite accepted_app. split; [exact A3|]. rewrite B3. split; exact I.
    - rewrite (AF _ _ _ B0). fold s1. rewrite (AF _ _ _ B1). fold s2. rewrite (AF _ _ _ B2). fold s3.
      rewrite afters_app, B3. change (afters (with_volumes s3 vl' vl) [Synchronize]) with s4.
      intros d t. change (visible s4 d t) with (entity (with_volumes s3 vl' vl) d t). unfold entity.
      destruct d as [|[|[|[|d]]]]; simpl.
      + rewrite P0. split.
        * intros (v & I & W & ->). exists v. rewrite conformal_number. repeat split; auto.
        * intros (v & (I & Cv & W) & ->). exists v. rewrite conformal_number. auto.
      + rewrite in_map_iff. split.
        * intros ([t' [a b]] & Et & I). simpl in Et. subst t'. apply P1 in I as (c & x & y & r & I & K & Eb & Et & _). exists c. rewrite <- conformal_number. split; auto.
          apply kept_elementary; auto.
        * intros (c & H & ->). destruct (K1 c H) as (a & b & r & Eb & I & _). simpl in I. rewrite <- conformal_number. eexists. split; [|exact I]. reflexivity.
      + rewrite P2. split.
        * intros (v & I & W & ->). exists v. rewrite conformal_number. repeat split; auto. lia.
        * intros (v & (I & Cv & W) & ->). exists v. rewrite conformal_number. auto.
      + rewrite P3. split.
        * intros (v & I & W & ->). exists v. rewrite conformal_number. repeat split; auto. lia.
        * intros (v & (I & Cv & W) & ->). exists v. rewrite conformal_number. auto.
      + split; [tauto|]. intros (v & (I & _) & _). rewrite nth_overflow in I by lia. destruct I.
  Qed.

  Lemma seen s d x : built s -> elementary D d x -> visible s d (num d (s_tag x)).
  Proof. intros B H. apply B. exists x. rewrite conformal_number. auto. Qed.
  Ltac quiet := match goal with |- passive _ => intros ?; reflexivity end.

  Lemma group_vertex_phase s : built s -> exists r, for_each (group_vertex num) (nth 0 D []) = Ok r /\ accepted s r /\ afters s r = s.
  Proof.
    intros B. apply passive_phase. intros v I. pose proof (vertex_single v I) as Sv.
    destruct whole_domain as (LD & NE & Hd3 & Hdim & ND & C0 & C1 & C2 & C3). rewrite Forall_forall in C0. destruct (C0 v I) as [_ H].
    unfold group_vertex. destruct (s_phys v) as [p|]; [|eexists; split; [reflexivity|intros c []]].
    destruct (some (immersed v)) eqn:E; eexists; (split; [reflexivity|]); intros c [<-|[]]; (split; [quiet|]); simpl.
    - intros x Ix. rewrite in_unique, in_map_iff in Ix. destruct Ix as (i & <- & Ii). apply seen; auto.
    - apply some_false in E. intros x [<-|[]]. apply seen; auto. repeat split; auto.
  Qed.
  Lemma group_curve_phase s : built s -> exists r, for_each (group_curve num dimension graph) (nth 1 D []) = Ok r /\ accepted s r /\ afters s r = s.
  Proof.
    intros B. apply passive_phase. intros k I.
    destruct whole_domain as (LD & NE & Hd3 & Hdim & ND & C0 & C1 & C2 & C3). rewrite Forall_forall in C1. destruct (C1 k I) as (H1 & H2 & H3 & H4).
    assert (Ue : forall x, In x (untagged_ends num k) -> visible s 0 x).
    { intros x Ix. unfold untagged_ends in Ix. apply in_map_iff in Ix as (v & <- & Iv). apply filter_In in Iv as [Iv _]. apply seen; auto. }
    unfold group_curve. destruct (s_phys k) as [p|] eqn:Ep; [|eexists; split; [reflexivity|intros c []]].
    destruct (some (immersed k)) eqn:E.
    - eexists. split; [reflexivity|]. intros c [<-|Ic].
      + split; [quiet|]. simpl. intros x Ix. rewrite in_unique, in_map_iff in Ix. destruct Ix as (i & <- & Ii). apply seen; auto.
      + destruct (1 <? dimension)%nat; [destruct Ic as [<-|[]]|destruct Ic]. split; [quiet|]. exact Ue.
    - apply some_false in E. assert (El : elementary D 1 k).
      { repeat split; auto. destruct (s_composite k) eqn:Ec; auto. destruct (H3 eq_refl E). }
      destruct dimension as [|[|[|n]]] eqn:Ed; [eexists; split; [reflexivity|intros c []]| | |eexists; split; [reflexivity|intros c []]].
      + destruct (ready eq_refl) as (g & -> & Hg). unfold predecessors.
        assert (M : memb (0%Z, s_tag k) (g_nodes g) = true) by (apply memb_In, Hg; auto; congruence).
        rewrite M. cbn [bind]. destruct (some _); eexists; (split; [reflexivity|]); intros c Ic; [destruct Ic|]. destruct Ic as [<-|[]]. split; [quiet|].
        simpl. intros x [<-|[]]. apply seen; auto.
      + eexists. split; [reflexivity|]. intros c [<-|[<-|[]]]; (split; [quiet|]); auto. intros x [<-|[]]. apply seen; auto.
  Qed.
  Lemma group_cell_phase s d : built s -> d = 2 \/ d = 3 -> exists r, for_each (group_cell num d) (nth d D []) = Ok r /\ accepted s r /\ afters s r = s.
  Proof.
    intros B Hd. apply passive_phase. intros k I.
    destruct whole_domain as (LD & NE & Hd3 & Hdim & ND & C0 & C1 & C2 & C3). rewrite Forall_forall in C2, C3.
    unfold group_cell. destruct (s_phys k) as [p|] eqn:Ep; [|eexists; split; [reflexivity|intros c []]].
    eexists. split; [reflexivity|]. intros c [<-|[]]. split; [quiet|]. simpl. intros x [<-|[]]. apply seen; auto.
    assert (s_composite k = false).
    { destruct (s_composite k) eqn:E; auto. destruct Hd as [-> | ->]; [specialize (C2 k I); unfold complete_surface in C2; rewrite E in C2|specialize (C3 k I); unfold complete_volume in C3; rewrite E in C3]; congruence. }
    repeat split; auto. lia.
  Qed.
  Lemma embed_surface_phase s : built s -> exists r, for_each (embed_surface num true) (nth 2 D []) = Ok r /\ accepted s r /\ afters s r = s.
  Proof.
    intros B. apply passive_phase. intros f I.
    destruct whole_domain as (LD & NE & Hd3 & Hdim & ND & C0 & C1 & C2 & C3). rewrite Forall_forall in C2. specialize (C2 f I).
    unfold embed_surface. destruct (s_composite f) eqn:Sf; [eexists; split; [reflexivity|intros c []]|].
    unfold complete_surface in C2. rewrite Sf in C2. destruct C2 as [_ C2].
    assert (V1 : forall x, In x (surface_tags_1d num f) -> visible s 1 x).
    { intros x Ix. unfold surface_tags_1d in Ix. rewrite in_unique, in_flat_map in Ix. destruct Ix as (c & Ic & Ix). destruct (C2 c Ic) as [H _].
      destruct (some (immersed c)) eqn:E.
      - apply in_map_iff in Ix as (i & <- & Ii). apply seen; auto. apply H. left. auto.
      - apply some_false in E. destruct Ix as [<-|[]]. apply seen; auto. apply H. right. auto. }
    assert (V0 : forall x, In x (surface_tags_0d num f) -> visible s 0 x).
    { intros x Ix. unfold surface_tags_0d in Ix. rewrite in_unique, in_flat_map in Ix. destruct Ix as (c & Ic & Ix). destruct (C2 c Ic) as [_ H].
      apply in_map_iff in Ix as (i & <- & Ii). apply seen; auto. }
    assert (Vf : visible s 2 (num 2 (s_tag f))) by (apply seen; auto; repeat split; auto; lia).
    eexists. split; [reflexivity|]. intros c Ic. apply in_app_iff in Ic as [[<-|[<-|[]]]|Ic].
    - split; [quiet|]. split; auto.
    - split; [quiet|]. split; auto.
    - apply in_map_iff in Ic as (t & <- & It). split; [quiet|]. simpl. auto.
  Qed.
  Lemma embed_volume_phase s : built s -> exists r, for_each (embed_volume num) (nth 3 D []) = Ok r /\ accepted s r /\ afters s r = s.
  Proof.
    intros B. apply passive_phase. intros f I.
    destruct whole_domain as (LD & NE & Hd3 & Hdim & ND & C0 & C1 & C2 & C3). rewrite Forall_forall in C3. specialize (C3 f I).
    unfold embed_volume. destruct (s_composite f) eqn:Sf; [eexists; split; [reflexivity|intros c []]|].
    unfold complete_volume in C3. rewrite Sf in C3. destruct C3 as [_ C3].
    assert (V1 : forall x, In x (volume_tags_1d num f) -> visible s 1 x).
    { intros x Ix. unfold volume_tags_1d in Ix. rewrite in_unique, in_flat_map in Ix. destruct Ix as (c & Ic & Ix). destruct (C3 c Ic) as (H1 & H2 & H3).
      apply in_app_iff in Ix as [Ix|Ix].
      - destruct (some (immersed c)) eqn:E; [|destruct Ix]. apply in_map_iff in Ix as (i & <- & Ii). apply seen; auto.
      - apply in_flat_map in Ix as (w & Iw & Ix). apply in_map_iff in Ix as (i & <- & Ii). apply seen; eauto. }
    assert (V2 : forall x, In x (volume_tags_2d num f) -> visible s 2 x).
    { intros x Ix. unfold volume_tags_2d in Ix. rewrite in_unique, in_flat_map in Ix. destruct Ix as (c & Ic & Ix). destruct (C3 c Ic) as (H1 & H2 & H3).
      destruct (some (immersed c)) eqn:E; [destruct Ix|]. apply some_false in E. destruct Ix as [<-|[]]. apply seen; auto. }
    assert (Vf : visible s 3 (num 3 (s_tag f))) by (apply seen; auto; repeat split; auto; lia).
    eexists. split; [reflexivity|]. intros c Ic. apply in_app_iff in Ic as [[<-|[<-|[]]]|Ic].
    - split; [quiet|]. split; auto.
    - split; [quiet|]. split; auto.
    - apply in_map_iff in Ic as (t & <- & It). split; [quiet|]. simpl. auto.
  Qed.

  Lemma transfer_parts : exists pts lns sfs vls g0 g1 g2 g3 e2 e3,
    (for_each (add_vertex num) (nth 0 D []) = Ok pts /\
     for_each (fun c => if s_composite c then Ok [] else if some (immersed c) then Ok [] else add_line num c) (nth 1 D []) = Ok lns /\
     for_each (add_surface pclose fuel num) (nth 2 D []) = Ok sfs /\
     for_each (add_volume num) (nth 3 D []) = Ok vls) /\
    (for_each (group_vertex num) (nth 0 D []) = Ok g0 /\ for_each (group_curve num dimension graph) (nth 1 D []) = Ok g1 /\
     for_each (group_cell num 2) (nth 2 D []) = Ok g2 /\ for_each (group_cell num 3) (nth 3 D []) = Ok g3 /\
     for_each (embed_surface num true) (nth 2 D []) = Ok e2 /\ for_each (embed_volume num) (nth 3 D []) = Ok e3) /\
    transfer_occ pclose fuel dimension graph D = Ok (entity_calls pts lns sfs vls ++ g0 ++ g1 ++ g2 ++ g3 ++ [Synchronize] ++ e2 ++ e3) /\
    accepted nothing (entity_calls pts lns sfs vls ++ g0 ++ g1 ++ g2 ++ g3 ++ [Synchronize] ++ e2 ++ e3).
  Proof.
    destruct built_phase as (pts & lns & sfs & vls & E0 & E1 & E2 & E3 & A & B). set (s := afters nothing (entity_calls pts lns sfs vls)) in *.
    destruct (group_vertex_phase s B) as (g0 & F0 & G0 & S0). destruct (group_curve_phase s B) as (g1 & F1 & G1 & S1).
    destruct (group_cell_phase s 2 B) as (g2 & F2 & G2 & S2); auto. destruct (group_cell_phase s 3 B) as (g3 & F3 & G3 & S3); auto.
    set (s' := after (P:=P) s Synchronize).
    assert (B' : built s').
    { unfold s', s, entity_calls. intros d t. rewrite <- (B d t). unfold s, entity_calls. rewrite !afters_app. simpl. tauto. }
    destruct (embed_surface_phase s' B') as (e2 & F4 & G4 & S4). destruct (embed_volume_phase s' B') as (e3 & F5 & G5 & S5).
    exists pts, lns, sfs, vls, g0, g1, g2, g3, e2, e3. split; [auto|]. split; [auto 10|].
    destruct whole_domain as (LD & NE & Hd3 & _). split.
    - unfold transfer_occ. rewrite (depth_full D dimension LD NE).
      rewrite (get_level D dimension 0 LD) by lia. cbn [bind]. rewrite E0. cbn [bind].
      rewrite (get_level D dimension 1 LD) by lia. cbn [bind]. rewrite E1. cbn [bind].
      rewrite (get_upper D dimension 1 LD). cbn [bind]. rewrite E2. cbn [bind].
      rewrite (get_upper D dimension 2 LD). cbn [bind]. rewrite E3. cbn [bind].
      rewrite F0. cbn [bind]. rewrite F1. cbn [bind]. rewrite F2. cbn [bind]. rewrite F3. cbn [bind]. rewrite F4. cbn [bind]. rewrite F5. cbn [bind].
      f_equal. unfold entity_calls. rewrite <- !app_assoc. reflexivity.
    - rewrite accepted_app. split; [exact A|]. fold s. rewrite accepted_app. split; auto. rewrite S0. rewrite accepted_app. split; auto. rewrite S1.
      rewrite accepted_app. split; auto. rewrite S2. rewrite accepted_app. split; auto. rewrite S3. simpl app. split; [exact I|]. fold s'.
      rewrite accepted_app. split; auto. rewrite S4. auto.
  Qed.
  Lemma transfer_lemma : exists r, transfer_occ pclose fuel dimension graph D = Ok r /\ accepted nothing r.
  Proof. destruct transfer_parts as (pts & lns & sfs & vls & g0 & g1 & g2 & g3 & e2 & e3 & _ & _ & E & A). eauto. Qed.
End Conformal.
