(** * Lemmas about the descriptions handed to gmsh: which calls transfer_domain_occ_descritpion makes *)
From Coq Require Import List Arith ZArith Bool Lia Sorted.
From Verif Require Import Base BaseProof ShapeModel ShapeSpec ShapeProof TagModel TagProof MesherModel MesherSpec MesherProof MesherProof2.
Import ListNotations.

Section Content.
  Context {P : Type}.
  Notation call := (call P).
  Notation shape := (shape P).
  Notation domain := (domain P).
  Variable pclose : P -> P -> bool.
  Variable fuel : nat.
  Variable D : domain.
  Variable dimension : nat.
  Variable graph : option (digraph (Z * Z)).
  Notation num := (conformal_num D).

  (** The loops, with the dimension of their shapes *)
  Definition line_body (c : shape) : res (list call) := if s_composite c then Ok [] else if some (immersed c) then Ok [] else add_line num c.
  Definition bodies : list (nat * (shape -> res (list call))) :=
    [(0, add_vertex num); (1, line_body); (2, add_surface pclose fuel num); (3, add_volume num);
     (0, group_vertex num); (1, group_curve num dimension graph); (2, group_cell num 2); (3, group_cell num 3);
     (2, embed_surface num true); (3, embed_volume num)].
  (** ** The calls of one body *)
  Ltac inv_body :=
    repeat match goal with
    | H : Err _ = Ok _ |- _ => discriminate H
    | H : Ok _ = Ok _ |- _ => injection H as H; subst
    | H : In _ [] |- _ => destruct H
    | H : In _ [_] |- _ => destruct H as [H|[]]; subst
    | H : In _ [_; _] |- _ => destruct H as [H|[H|[]]]; subst
    | H : bind ?x _ = Ok _ |- _ => apply bind_Ok in H; destruct H as (? & ? & H)
    | H : (if ?b then _ else _) = Ok _ |- _ => let E := fresh "C" in destruct b eqn:E
    | H : (match ?x with Some _ => _ | None => _ end) = Ok _ |- _ => let E := fresh "O" in destruct x eqn:E
    | H : _ = _ :> MesherModel.call P |- _ => discriminate H
    end.
  Lemma vertex_call v q c : add_vertex num v = Ok q -> In c q -> immersed v = [] /\ exists p, s_point v = Some p /\ c = AddPoint p (number D 0 v).
  Proof.
    unfold add_vertex. intros E I. destruct (some (immersed v)) eqn:S; inv_body. apply some_false in S. split; auto. eexists. rewrite <- conformal_number. eauto.
  Qed.
  Lemma line_call k q c : line_body k = Ok q -> In c q -> s_composite k = false /\ immersed k = [] /\
    exists x y, nth_error (s_boundary k) 0 = Some x /\ nth_error (s_boundary k) 1 = Some y /\ c = AddLine (number D 0 x) (number D 0 y) (number D 1 k).
  Proof.
    unfold line_body, add_line, get_at. intros E I. destruct (s_composite k) eqn:Ck; [inv_body|]. destruct (some (immersed k)) eqn:S; [inv_body|].
    apply some_false in S. split; auto. split; auto.
    destruct (nth_error (s_boundary k) 0) as [x1|]; [|discriminate]. destruct (nth_error (s_boundary k) 1) as [y1|]; [|discriminate].
    simpl in E. injection E as <-. destruct I as [<-|[]]. rewrite !conformal_number. eauto.
  Qed.
  Lemma surface_call f q c : add_surface pclose fuel num f = Ok q -> In c q -> s_composite f = false /\
    ((exists l, c = AddCurveLoop l (number D 2 f)) \/ c = AddPlaneSurface [number D 2 f] (number D 2 f)).
  Proof.
    unfold add_surface. intros E I. destruct (s_composite f) eqn:S; inv_body; split; auto; rewrite !conformal_number; eauto.
  Qed.
  Lemma volume_call b q c : add_volume num b = Ok q -> In c q -> s_composite b = false /\
    exists shell, nth_error (s_boundary b) 0 = Some shell /\
      (c = AddSurfaceLoop (map (number D 2) (immersed shell)) (number D 3 b) \/ c = AddVolume [number D 3 b] (number D 3 b)).
  Proof.
    unfold add_volume, get_at. intros E I. destruct (s_composite b) eqn:S; [inv_body|]. destruct (nth_error (s_boundary b) 0) as [sh|]; [|discriminate].
    simpl in E. injection E as <-. split; auto. exists sh. split; auto. rewrite <- !conformal_number.
    replace (map (number D 2) (immersed sh)) with (map (fun c => num 2 (s_tag c)) (immersed sh)) by (apply map_ext; intros; apply conformal_number).
    destruct I as [<-|[<-|[]]]; auto.
  Qed.
  Lemma gvertex_call v q c : group_vertex num v = Ok q -> In c q -> exists p tags, s_phys v = Some p /\ c = AddPhysicalGroup 0 tags p /\ numbers D 0 (represents 0 v) tags.
  Proof.
    unfold group_vertex. intros E I. destruct (s_phys v) as [p|]; [|inv_body]. exists p. destruct (some (immersed v)) eqn:S; inv_body; eexists; (split; [reflexivity|split; [reflexivity|]]); intros t.
    - rewrite in_unique, in_map_iff. apply some_true in S. unfold represents, stands_for. split.
      + intros (i & <- & Ii). exists i. rewrite conformal_number. split; auto.
      + intros (i & [[_ [Ii|[Ie _]]]|[L _]] & ->); [|contradiction|lia]. exists i. rewrite conformal_number. auto.
    - apply some_false in S. unfold represents, stands_for. rewrite conformal_number. split.
      + intros [<-|[]]. exists v. split; auto.
      + intros (i & [[_ [Ii|[Ie ->]]]|[L _]] & ->); [rewrite S in Ii; destruct Ii|left; auto|lia].
  Qed.
  Lemma loose_numbers k : numbers D 0 (loose_ends k) (untagged_ends num k).
  Proof.
    intros t. unfold untagged_ends, loose_ends. rewrite in_map_iff. split.
    - intros (v & <- & I). apply filter_In in I as [I N]. exists v. rewrite conformal_number. destruct (s_phys v); [discriminate|]. auto.
    - intros (v & [I N] & ->). exists v. rewrite conformal_number. split; auto. apply filter_In. rewrite N. auto.
  Qed.
  Lemma some_parents (k : shape) g q : predecessors g (0%Z, s_tag k) = Ok q -> graph = Some g -> (q <> [] <-> has_parent graph k).
  Proof.
    unfold predecessors, has_parent. destruct (memb _ _); [|discriminate]. intros E Eg. injection E as <-. split.
    - intros N. destruct (filter _ (g_edges g)) as [|[x y] l] eqn:F; [destruct (N eq_refl)|]. assert (I : In (x, y) (filter (fun e => eqb (snd e) (0%Z, s_tag k)) (g_edges g))) by (rewrite F; left; auto).
      apply filter_In in I as [I Q]. pose proof (proj1 (eqb_true _ _) Q) as Q2. cbn [snd] in Q2. rewrite Q2 in I. exists g, x. auto.
    - intros (g' & x & Eg' & I) N. rewrite Eg in Eg'. injection Eg' as <-. apply map_eq_nil in N.
      assert (X : In (x, (0%Z, s_tag k)) (filter (fun e => eqb (snd e) (0%Z, s_tag k)) (g_edges g))) by (apply filter_In; split; auto; apply eqb_true; auto).
      rewrite N in X. destruct X.
  Qed.
  Lemma gcurve_call k q : group_curve num dimension graph k = Ok q ->
    (s_phys k = None /\ q = []) \/
    exists p, s_phys k = Some p /\
      (counted dimension graph 1 k -> exists tags, In (AddPhysicalGroup 1 tags p) q /\ numbers D 1 (represents 1 k) tags) /\
      (2 <= dimension -> counted dimension graph 1 k -> exists tags, In (AddPhysicalGroup 0 tags p) q /\ numbers D 0 (loose_ends k) tags) /\
      (forall c, In c q -> counted dimension graph 1 k /\
         exists tags, (c = AddPhysicalGroup 1 tags p /\ numbers D 1 (represents 1 k) tags) \/ (2 <= dimension /\ c = AddPhysicalGroup 0 tags p /\ numbers D 0 (loose_ends k) tags)).
  Proof.
    pose proof (loose_numbers k) as LN.
    unfold group_curve. intros E. destruct (s_phys k) as [p|]; [|left; injection E as <-; auto]. right. exists p. split; auto.
    assert (One : immersed k = [] -> numbers D 1 (represents 1 k) [num 1 (s_tag k)]).
    { intros S t. unfold represents, stands_for. rewrite conformal_number. split.
      - intros [<-|[]]. exists k. split; auto.
      - intros (i & [[_ [Ii|[Ie ->]]]|[L _]] & ->); [rewrite S in Ii; destruct Ii|left; auto|lia]. }
    destruct (some (immersed k)) eqn:S.
    - apply some_true in S. injection E as <-.
      assert (Nu : numbers D 1 (represents 1 k) (unique_tags (map (fun i => num 1 (s_tag i)) (immersed k)))).
      { intros t. rewrite in_unique, in_map_iff. unfold represents, stands_for. split.
        - intros (i & <- & Ii). exists i. rewrite conformal_number. split; auto.
        - intros (i & [[_ [Ii|[Ie _]]]|[L _]] & ->); [|contradiction|lia]. exists i. rewrite conformal_number. auto. }
      split; [intros _; eexists; split; [left; reflexivity|exact Nu]|]. split.
      + intros L _. eexists. split; [right; destruct (Nat.ltb_spec 1 dimension); [left; reflexivity|lia]|exact LN].
      + intros c I. split; [intros _ N; contradiction|]. destruct I as [<-|I]; [eauto|].
        destruct (Nat.ltb_spec 1 dimension); [|destruct I]. destruct I as [<-|[]]. eauto 6.
    - apply some_false in S. specialize (One S). destruct dimension as [|[|[|n]]] eqn:Ed.
      + injection E as <-. split; [intros C; destruct (C eq_refl S) as [|[]]; discriminate|]. split; [lia|]. intros c [].
      + destruct graph as [g|] eqn:Eg; [|discriminate]. apply bind_Ok in E as (ps & Ep & E). 
        assert (SP : ps <> [] <-> has_parent (Some g) k).
        { rewrite <- Eg. apply (some_parents k g); auto. }
        destruct (some ps) eqn:Sp; injection E as <-.
        * apply some_true in Sp. split; [intros C; destruct (C eq_refl S) as [|[_ C2]]; [discriminate|destruct C2; apply SP; auto]|]. split; [lia|]. intros c [].
        * apply some_false in Sp. split; [intros _; eexists; split; [left; reflexivity|exact One]|]. split; [lia|].
          intros c [<-|[]]. split; [|eauto]. intros _ _. right. split; auto. intros HP. apply SP in HP. contradiction.
      + injection E as <-. split; [intros _; eexists; split; [right; left; reflexivity|exact One]|].
        split; [intros _ _; eexists; split; [left; reflexivity|exact LN]|].
        intros c [<-|[<-|[]]]; (split; [intros _ _; left; auto|eauto 6]).
      + injection E as <-. split; [intros C; destruct (C eq_refl S) as [|[]]; discriminate|].
        split; [intros _ C; destruct (C eq_refl S) as [|[]]; discriminate|]. intros c [].
  Qed.
  Lemma gcell_call d s q c : 2 <= d -> group_cell num d s = Ok q -> In c q -> exists p tags, s_phys s = Some p /\ c = AddPhysicalGroup d tags p /\ numbers D d (represents d s) tags.
  Proof.
    unfold group_cell. intros L E I. destruct (s_phys s) as [p|]; inv_body. exists p. eexists. split; [reflexivity|]. split; [reflexivity|]. intros t. unfold represents. split.
    - intros [<-|[]]. exists s. rewrite conformal_number. auto.
    - intros (i & [[L' _]|[_ ->]] & ->); [lia|]. left. apply conformal_number.
  Qed.
  Lemma surface_0 f : numbers D 0 (in_surface_0 f) (surface_tags_0d num f).
  Proof.
    intros t. unfold surface_tags_0d, in_surface_0. rewrite in_unique, in_flat_map. split.
    - intros (c & Ic & I). apply in_map_iff in I as (v & <- & Iv). exists v. rewrite conformal_number. eauto.
    - intros (v & (c & Ic & Iv) & ->). exists c. split; auto. apply in_map_iff. exists v. rewrite conformal_number. auto.
  Qed.
  Lemma surface_1 f : numbers D 1 (in_surface_1 f) (surface_tags_1d num f).
  Proof.
    intros t. unfold surface_tags_1d, in_surface_1, stands_for. rewrite in_unique, in_flat_map. split.
    - intros (c & Ic & I). destruct (some (immersed c)) eqn:S.
      + apply in_map_iff in I as (v & <- & Iv). exists v. rewrite conformal_number. eauto 6.
      + apply some_false in S. destruct I as [<-|[]]. exists c. rewrite conformal_number. eauto 6.
    - intros (v & (c & Ic & Q) & ->). exists c. split; auto. rewrite <- conformal_number. destruct Q as [I|[E ->]].
      + destruct (immersed c) eqn:Ei; [destruct I|]. rewrite <- Ei in *. replace (some (immersed c)) with true by (rewrite Ei; reflexivity).
        apply in_map_iff. eauto.
      + rewrite E. simpl. auto.
  Qed.
  Lemma volume_1 f : numbers D 1 (in_volume_1 f) (volume_tags_1d num f).
  Proof.
    intros t. unfold volume_tags_1d, in_volume_1. rewrite in_unique, in_flat_map. split.
    - intros (c & Ic & I). apply in_app_iff in I as [I|I].
      + destruct (some (immersed c)) eqn:S; [|destruct I]. apply in_map_iff in I as (v & <- & Iv). exists v. rewrite conformal_number. eauto 6.
      + apply in_flat_map in I as (w & Iw & I). apply in_map_iff in I as (v & <- & Iv). exists v. rewrite conformal_number. eauto 8.
    - intros (v & (c & Ic & Q) & ->). exists c. split; auto. rewrite <- conformal_number. apply in_app_iff. destruct Q as [I|(w & Iw & I)].
      + left. destruct (immersed c) eqn:Ei; [destruct I|]. rewrite <- Ei in *. replace (some (immersed c)) with true by (rewrite Ei; reflexivity).
        apply in_map_iff. eauto.
      + right. apply in_flat_map. exists w. split; auto. apply in_map_iff. eauto.
  Qed.
  Lemma volume_2 f : numbers D 2 (in_volume_2 f) (volume_tags_2d num f).
  Proof.
    intros t. unfold volume_tags_2d, in_volume_2. rewrite in_unique, in_flat_map. split.
    - intros (c & Ic & I). destruct (some (immersed c)) eqn:S; [destruct I|]. apply some_false in S. destruct I as [<-|[]]. exists c. rewrite conformal_number. eauto.
    - intros (v & (Ic & Q) & ->). exists v. split; auto. rewrite Q, conformal_number. simpl. auto.
  Qed.
  Lemma esurface_call f q c : embed_surface num true f = Ok q -> In c q -> s_composite f = false /\
    ((exists tags, c = Embed 0 tags 2 (number D 2 f) /\ numbers D 0 (in_surface_0 f) tags) \/
     (exists tags, c = Embed 1 tags 2 (number D 2 f) /\ numbers D 1 (in_surface_1 f) tags) \/
     (exists i, in_surface_1 f i /\ c = SetTransfiniteCurve (number D 1 i) 10)).
  Proof.
    unfold embed_surface. intros E I. destruct (s_composite f) eqn:S; inv_body. split; auto. rewrite !conformal_number in I.
    destruct I as [<-|[<-|I]].
    - left. eexists. split; [reflexivity|apply surface_0].
    - right. left. eexists. split; [reflexivity|apply surface_1].
    - right. right. apply in_map_iff in I as (t & <- & It). apply surface_1 in It as (i & Qi & ->). eauto.
  Qed.
  Lemma evolume_call f q c : embed_volume num f = Ok q -> In c q -> s_composite f = false /\
    ((exists tags, c = Embed 1 tags 3 (number D 3 f) /\ numbers D 1 (in_volume_1 f) tags) \/
     (exists tags, c = Embed 2 tags 3 (number D 3 f) /\ numbers D 2 (in_volume_2 f) tags) \/
     (exists i, in_volume_1 f i /\ c = SetTransfiniteCurve (number D 1 i) 2)).
  Proof.
    unfold embed_volume. intros E I. destruct (s_composite f) eqn:S; inv_body. split; auto. rewrite !conformal_number in I.
    destruct I as [<-|[<-|I]].
    - left. eexists. split; [reflexivity|apply volume_1].
    - right. left. eexists. split; [reflexivity|apply volume_2].
    - right. right. apply in_map_iff in I as (t & <- & It). apply volume_1 in It as (i & Qi & ->). eauto.
  Qed.

  Hypothesis close_refl : forall x, pclose x x = true.
  Hypothesis enough : 1 <= fuel.
  Hypothesis whole_domain : complete dimension D.
  Hypothesis ready : graph_ready dimension graph D.
  Variable r : list call.
  Hypothesis result : transfer_occ pclose fuel dimension graph D = Ok r.
  Lemma content c : In c r <-> c = Synchronize \/ exists b s q, In b bodies /\ In s (nth (fst b) D []) /\ snd b s = Ok q /\ In c q.
  Proof.
    destruct (transfer_parts pclose fuel D dimension graph close_refl enough whole_domain ready)
      as (pts & lns & sfs & vls & g0 & g1 & g2 & g3 & e2 & e3 & (E0 & E1 & E2 & E3) & (F0 & F1 & F2 & F3 & F4 & F5) & E & _).
    rewrite result in E. injection E as ->. unfold entity_calls, bodies.
    split.
    - rewrite !in_app_iff. intros H.
      assert (G : forall b f q, In (b, f) bodies -> for_each f (nth b D []) = Ok q -> In c q ->
        c = Synchronize \/ exists b s q, In b bodies /\ In s (nth (fst b) D []) /\ snd b s = Ok q /\ In c q).
      { intros b f q Ib Ef Ic. right. destruct (for_each_In _ _ _ _ Ef Ic) as (s & q' & Is & Es & Iq). exists (b, f), s, q'. auto. }
      unfold bodies in G. simpl in H. rewrite ?in_app_iff in H.
      repeat match type of H with _ \/ _ => destruct H as [H|H] end; subst; auto; try contradiction.
      all: (eapply (G 0); [|exact E0|exact H]; simpl; tauto) || (eapply (G 1); [|exact E1|exact H]; simpl; tauto) ||
           (eapply (G 2); [|exact E2|exact H]; simpl; tauto) || (eapply (G 3); [|exact E3|exact H]; simpl; tauto) ||
           (eapply (G 0); [|exact F0|exact H]; simpl; tauto) || (eapply (G 1); [|exact F1|exact H]; simpl; tauto) ||
           (eapply (G 2); [|exact F2|exact H]; simpl; tauto) || (eapply (G 3); [|exact F3|exact H]; simpl; tauto) ||
           (eapply (G 2); [|exact F4|exact H]; simpl; tauto) || (eapply (G 3); [|exact F5|exact H]; simpl; tauto).
    - rewrite !in_app_iff. cbn [In]. rewrite ?in_app_iff. intros [->|(b & s & q & Ib & Is & Es & Iq)]; [simpl; tauto|]. simpl in Ib.
      repeat (destruct Ib as [<-|Ib]); try contradiction; simpl in Is, Es.
      + pose proof (for_each_each _ _ _ _ _ E0 Is Es _ Iq). tauto.
      + pose proof (for_each_each _ _ _ _ _ E1 Is Es _ Iq). tauto.
      + pose proof (for_each_each _ _ _ _ _ E2 Is Es _ Iq). tauto.
      + pose proof (for_each_each _ _ _ _ _ E3 Is Es _ Iq). tauto.
      + pose proof (for_each_each _ _ _ _ _ F0 Is Es _ Iq). tauto.
      + pose proof (for_each_each _ _ _ _ _ F1 Is Es _ Iq). tauto.
      + pose proof (for_each_each _ _ _ _ _ F2 Is Es _ Iq). tauto.
      + pose proof (for_each_each _ _ _ _ _ F3 Is Es _ Iq). tauto.
      + pose proof (for_each_each _ _ _ _ _ F4 Is Es _ Iq). tauto.
      + pose proof (for_each_each _ _ _ _ _ F5 Is Es _ Iq). tauto.
  Qed.
End Content.
