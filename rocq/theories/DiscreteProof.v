(** * Lemmas about the description of DiscreteDomain *)
From Coq Require Import List Arith ZArith Bool Lia Sorted.
From Verif Require Import Base BaseProof ShapeModel ShapeSpec ShapeProof TagModel TagSpec TagProof
  MesherModel MesherSpec MesherProof MesherProof2 DiscreteSpec.
Import ListNotations.

Section Depth.
  Context {P : Type}.
  Lemma depth_spec : forall (l : list nat) d, l <> [] ->
    d <= first_empty l d <= d + length l - 1 /\ (first_empty l d = d + length l - 1 \/ nth (first_empty l d - d) l 1 = 0) /\
    forall k, k < first_empty l d - d -> nth k l 1 <> 0.
  Proof.
    induction l as [|n l IH]; intros d N; [congruence|]. cbn [first_empty]. destruct (Nat.eqb_spec n 0) as [->|Hn].
    - rewrite Nat.sub_diag. simpl. split; [lia|]. split; [auto|lia].
    - destruct l as [|m l].
      + simpl. rewrite Nat.sub_0_r. split; [lia|]. split; [left; lia|lia].
      + destruct (IH (S d)) as (H1 & H2 & H3); [discriminate|]. simpl length in *. split; [lia|]. split.
        * destruct H2 as [H2|H2]; [left; lia|right]. replace (first_empty (m :: l) (S d) - d) with (S (first_empty (m :: l) (S d) - S d)) by lia. exact H2.
        * intros [|k] Hk; [exact Hn|]. simpl. apply H3. lia.
  Qed.
  Variable D : domain P.
  Hypothesis some_level : D <> [].
  Hypothesis gapless : forall d, nth d D [] = [] -> nth (S d) D [] = [].
  Notation depth := (first_empty (map (@length _) D) 0).
  Lemma above_empty d k : nth d D [] = [] -> d <= k -> nth k D [] = [].
  Proof. intros H L. induction L; auto. Qed.
  Lemma depth_bound : depth <= length D - 1.
  Proof. destruct (depth_spec (map (@length _) D) 0) as (H & _); [destruct D; [congruence|discriminate]|]. rewrite map_length in H. lia. Qed.
  Lemma level d : (if (d <? depth)%nat then get_at D (S d) else Ok []) = Ok (nth (S d) D []).
  Proof.
    destruct (depth_spec (map (@length _) D) 0) as (H1 & H2 & _); [destruct D; [congruence|discriminate]|]. rewrite map_length in *. rewrite Nat.sub_0_r in H2.
    assert (Ld : 1 <= length D) by (destruct D; [congruence|simpl; lia]).
    destruct (Nat.ltb_spec d depth) as [L|L].
    - unfold get_at. rewrite (nth_error_nth' _ []) by lia. reflexivity.
    - f_equal. symmetry. destruct H2 as [H2|H2]; [apply nth_overflow; lia|]. apply (above_empty depth); [|lia].
      destruct (Nat.lt_ge_cases depth (length D)) as [Q|Q]; [|apply nth_overflow; auto].
      rewrite (nth_indep _ 1 (length (@nil (shape P)))) in H2 by (rewrite map_length; auto). rewrite map_nth in H2. destruct (nth depth D []); [auto|discriminate].
  Qed.
  Lemma beyond d : (d <? depth)%nat = false -> nth (S d) D [] = [].
  Proof. intros H. pose proof (level d) as L. rewrite H in L. congruence. Qed.
  Lemma no_fourth : length D <= 4 -> (length D = 4 -> nth 2 D [] = []) -> (2 <? depth)%nat = false.
  Proof.
    intros L4 H. apply Nat.ltb_ge. pose proof depth_bound as B. destruct (Nat.eq_dec (length D) 4) as [Q|Q]; [|lia].
    destruct (depth_spec (map (@length _) D) 0) as (_ & _ & H3); [destruct D; [congruence|discriminate]|].
    destruct (Nat.le_gt_cases depth 2) as [?|G]; auto. exfalso. apply (H3 2); [lia|]. rewrite (nth_indep _ 1 (length (@nil (shape P)))) by (rewrite map_length; lia).
    rewrite map_nth, H; auto.
  Qed.
End Depth.

Section Convert.
  Context {P : Type}.
  Notation call := (call P).
  Notation shape := (shape P).
  Notation domain := (domain P).
  Definition with_visible (s : scene) (v : nat -> Z -> Prop) : scene := mk_scene (points s) (lines s) (curve_loops s) (surfaces s) (surface_loops s) (volumes s) v.
  Lemma optional (b : bool) (l : list call) s : (b = false -> l = []) -> accepted s l ->
    accepted s (if b then l ++ [Synchronize] else []) /\ exists v, afters s (if b then l ++ [Synchronize] else []) = with_visible (afters s l) v.
  Proof.
    intros H A. destruct b.
    - rewrite accepted_app. split; [simpl; auto|]. rewrite afters_app. eexists. reflexivity.
    - rewrite (H eq_refl). split; [exact I|]. exists (visible s). destruct s. reflexivity.
  Qed.

  Variable pclose : P -> P -> bool.
  Variable fuel : nat.
  Variable D : domain.
  Variable refinement : list Z * option Z.
  Hypothesis close_refl : forall x, pclose x x = true.
  Hypothesis enough : 1 <= fuel.
  Hypothesis good : proper D.
  Notation depth := (first_empty (map (@length _) D) 0).

  Lemma strides_ok : exists strides, compute_strides (map (@length _) D) = Ok strides /\
    forall d s, In s (nth d D []) -> (Z.of_nat (nth d strides 0%nat) + s_tag s + 1)%Z = place D d s.
  Proof.
    destruct good as (L & _ & Gap & _). destruct (strides_lemma (map (@length _) D)) as (st & E & _ & H); [rewrite map_length; lia|].
    exists st. split; auto. intros d s I. assert (Hk : forall k, k <= d -> nth k (map (@length _) D) 0 <> 0).
    { intros k Hk Q. assert (nth k D [] = []).
      { change 0 with (length (@nil shape)) in Q. rewrite map_nth in Q. destruct (nth k D []); [auto|discriminate]. }
      rewrite (above_empty D Gap k d) in I by auto. destruct I. }
    specialize (H d Hk). erewrite nth_error_nth by exact H. unfold place, total. f_equal. f_equal. f_equal.
    clear. generalize (S d) as k. intros k. revert k. induction D as [|l D' IH]; intros k; [rewrite !firstn_nil; reflexivity|]. destruct k; [reflexivity|].
    simpl. rewrite app_length, <- IH. reflexivity.
  Qed.

  Section Num.
    Variable strides : list nat.
    Hypothesis strided : forall d s, In s (nth d D []) -> (Z.of_nat (nth d strides 0%nat) + s_tag s + 1)%Z = place D d s.
    Definition num (d : nat) (t : Z) : Z := (Z.of_nat (nth d strides 0%nat) + t + 1)%Z.
    Lemma num_place d s : In s (nth d D []) -> num d (s_tag s) = place D d s.
    Proof. apply strided. Qed.
    Lemma num_inj d t t' : num d t = num d t' -> t = t'.
    Proof. unfold num. lia. Qed.
    Lemma num_pos d t : (0 <= t -> 0 < num d t)%Z.
    Proof. unfold num. lia. Qed.
    Definition kept (c : shape) : bool := negb (s_composite c || divided c).
    Lemma kept_drawn c : In c (nth 1 D []) -> (kept c = true <-> drawn D 1 c).
    Proof.
      intros I. unfold kept, drawn. assert (Hc : s_dim c = 1) by (apply good; auto). rewrite negb_true_iff, orb_false_iff. unfold divided. rewrite Hc. split.
      - intros [H1 H2]. split; auto. split; auto. intros i Ii Q. assert (X : existsb (fun i => (s_dim i =? 1)%nat) (immersed c) = true) by (apply existsb_exists; exists i; split; auto; apply Nat.eqb_eq; auto). congruence.
      - intros [_ [H1 H2]]. split; auto. destruct (existsb _ _) eqn:E; auto. apply existsb_exists in E as (i & Ii & Q). apply Nat.eqb_eq in Q. destruct (H2 i Ii Q).
    Qed.
    Definition seen_all (s : scene) : Prop := forall d t, visible s d t <-> exists x, drawn D d x /\ t = place D d x.

    Definition entity_part (pts lns sfs : list call) : list call :=
      pts ++ [Synchronize] ++ (if (0 <? depth)%nat then lns ++ [Synchronize] else []) ++ (if (1 <? depth)%nat then sfs ++ [Synchronize] else []) ++ [Synchronize].
    Definition pts : list call := flat_map (point_of num) (filter whole (nth 0 D [])).
    Definition lns : list call := flat_map (line_of num) (filter kept (nth 1 D [])).
    Definition sfs : list call := flat_map (surface_of pclose fuel num) (filter single (nth 2 D [])).
    Lemma entity_phase :
      for_each (add_vertex num) (nth 0 D []) = Ok pts /\ for_each (add_curve num) (nth 1 D []) = Ok lns /\ for_each (add_surface pclose fuel num) (nth 2 D []) = Ok sfs /\
      accepted nothing (entity_part pts lns sfs) /\ seen_all (afters nothing (entity_part pts lns sfs)).
    Proof.
      pose proof kept_drawn as KD.
      assert (Ne : D <> []) by (destruct good as (L & _); destruct D; [simpl in L; lia|discriminate]).
      pose proof good as (LD & L4 & Gap & Hdim & ND & C0 & C1 & C2). rewrite Forall_forall in C0, C1, C2.
      destruct (points_phase num num_inj (nth 0 D []) nothing) as (E0 & A0 & pl & B0 & P0); auto.
      { intros v I. apply (C0 v I). }
      fold pts in E0, A0, B0. set (s1 := after (P:=P) (with_points nothing pl) Synchronize).
      assert (K0 : forall v, drawn D 0 v -> In (num 0 (s_tag v)) pl).
      { intros v [I Iv]. apply P0. exists v. auto. }
      destruct (lines_phase num num_inj (add_curve num) kept (nth 1 D []) s1) as (E1 & A1 & ll & B1 & P1); auto.
      { intros c I K. unfold kept in K. apply negb_false_iff in K. unfold add_curve. rewrite K. reflexivity. }
      { intros c I K. unfold kept in K. apply negb_true_iff in K. unfold add_curve. rewrite K. reflexivity. }
      { intros c I K. apply KD in K; auto. destruct (C1 c I K) as (H1 & H2 & _). split; auto. }
      fold lns in E1, A1, B1.
      destruct (optional (0 <? depth)%nat lns s1) as (A1' & v1 & B1').
      { intros Q. apply (beyond D Ne Gap) in Q. unfold lns. rewrite Q. reflexivity. }
      { exact A1. }
      rewrite B1 in B1'. set (s2 := with_visible (with_lines s1 ll) v1) in *.
      assert (K1 : forall e, drawn D 1 e -> line_known num s2 e).
      { intros e He. assert (I : In e (nth 1 D [])) by apply He. destruct (C1 e I He) as (H1 & H2 & _). destruct (two_ends e H1) as (a & b & r & Eb).
        exists a, b, r. split; auto. split; [|apply (Hdim 1 e I)]. simpl. apply P1. exists e, a, b, r. repeat split; auto. apply KD; auto. }
      destruct (surfaces_phase pclose fuel num num_inj (nth 2 D []) s2) as (E2 & A2 & sl & sl' & B2 & P2); auto.
      { intros f I K. specialize (C2 f I). unfold proper_surface in C2. rewrite K in C2. destruct C2 as ((w & r & Eb & Cw & Hw) & _).
        destruct (closed_loop pclose fuel num num_pos s2 w close_refl enough Cw) as (signs & Eo & L & Ct & _); [intros e Ie; auto|].
        exists w, r, signs. repeat split; auto; try apply Cw; try apply Ct. }
      fold sfs in E2, A2, B2.
      destruct (optional (1 <? depth)%nat sfs s2) as (A2' & v2 & B2').
      { intros Q. apply (beyond D Ne Gap) in Q. unfold sfs. rewrite Q. reflexivity. }
      { exact A2. }
      split; [exact E0|]. split; [exact E1|]. split; [exact E2|]. unfold entity_part.
      split.
      - rewrite accepted_app. split; [exact A0|]. rewrite B0. cbn [app]. split; [exact I|]. fold s1. rewrite accepted_app. split; [exact A1'|]. rewrite B1'.
        rewrite accepted_app. split; [exact A2'|]. split; exact I.
      - rewrite !afters_app, B0. change (afters (with_points nothing pl) [Synchronize]) with s1. rewrite B1'. rewrite B2', B2.
        intros d t. match goal with |- visible (afters ?s [Synchronize]) d t <-> _ => change (visible (afters s [Synchronize]) d t) with (entity s d t) end.
        unfold entity. destruct d as [|[|[|[|d]]]]; simpl.
        + rewrite P0. split.
          * intros (v & Iv & W & ->). exists v. rewrite num_place by auto. split; auto. split; auto.
          * intros (v & [Iv W] & ->). exists v. rewrite num_place by auto. auto.
        + rewrite in_map_iff. split.
          * intros ([t' [a b]] & Et & It). simpl in Et. subst t'. apply P1 in It as (c & x & y & r & Ic & K & Eb & Et & _). exists c. rewrite <- num_place by auto. split; auto. apply KD; auto.
          * intros (c & Hc & ->). destruct (K1 c Hc) as (a & b & r & Eb & It & _). simpl in It. rewrite <- num_place by apply Hc. eexists. split; [|exact It]. reflexivity.
        + rewrite P2. split.
          * intros (v & Iv & W & ->). exists v. rewrite num_place by auto. split; auto. split; auto.
          * intros (v & [Iv W] & ->). exists v. rewrite num_place by auto. auto.
        + split; [tauto|]. intros (v & [Iv _] & _). change (In v (nth 3 D [])) in Iv. destruct (Nat.eq_dec (length D) 4) as [Q|Q]; [|rewrite nth_overflow in Iv by lia; destruct Iv].
          rewrite (Gap 2 (L4 Q)) in Iv. destruct Iv.
        + split; [tauto|]. intros (v & [Iv _] & _). change (In v (nth (S (S (S (S d)))) D [])) in Iv. rewrite nth_overflow in Iv by lia. destruct Iv.
    Qed.
    Lemma seen_drawn s d x : seen_all s -> drawn D d x -> visible s d (num d (s_tag x)).
    Proof. intros B H. apply B. exists x. split; auto. apply num_place, H. Qed.
    (** the two calls of a face *)
    Lemma face_calls f : drawn D 2 f -> exists w rest l, s_boundary f = w :: rest /\ map Z.abs l = map (place D 1) (immersed w) /\
      surface_of pclose fuel num f = [AddCurveLoop l (place D 2 f); AddPlaneSurface [place D 2 f] (place D 2 f)].
    Proof.
      intros [If Cf]. pose proof good as (LD & L4 & Gap & Hdim & ND & C0 & C1 & C2). rewrite Forall_forall in C1, C2. specialize (C2 f If).
      unfold proper_surface in C2. rewrite Cf in C2. destruct C2 as ((w & rest & Eb & Cw & Hw) & _).
      assert (G : forall e, In e (immersed w) -> line_known num (mk_scene [] (flat_map (line_entry num) (nth 1 D [])) [] [] [] [] (fun _ _ => False)) e).
      { intros e Ie. pose proof (Hw e Ie) as He. assert (I1 : In e (nth 1 D [])) by apply He.
        destruct (C1 e I1 He) as (L2 & _). destruct (two_ends e L2) as (a & b & q & Ebe). exists a, b, q. split; auto.
        split; [|apply (Hdim 1 e I1)]. simpl. apply in_flat_map. exists e. split; auto. unfold line_entry. rewrite Ebe. left. reflexivity. }
      destruct (closed_loop pclose fuel num num_pos _ w close_refl enough Cw G) as (signs & Eo & L & Ct & Fs).
      exists w, rest, (loop_of num w signs). split; auto. split.
      - unfold loop_of. rewrite map_map.
        assert (Pos : forall e, In e (immersed w) -> In e (nth 1 D []) /\ (0 <= s_tag e)%Z) by (intros e Ie; destruct (Hw e Ie) as (I1 & _); split; auto; apply (Hdim 1 e I1)).
        revert signs L Fs Pos Eo Ct. generalize (immersed w). intros l signs L Fs Pos _ _. revert signs L Fs. induction l as [|e l IH]; intros [|g signs] L Fs; simpl in *; try discriminate; auto.
        inversion Fs as [|? ? Fg Fs']; subst. rewrite IH; auto. f_equal. destruct (Pos e (or_introl eq_refl)) as [Ie Te]. rewrite <- num_place by auto.
        pose proof (num_pos 1 (s_tag e) Te). destruct Fg; subst g; lia.
      - unfold surface_of. rewrite Eb, Eo, num_place by auto. reflexivity.
    Qed.
    (** groups *)
    Lemma has_phys_iff p (s : shape) : has_phys p s = true <-> s_phys s = Some p.
    Proof. unfold has_phys. destruct (s_phys s) as [q|]; [rewrite Z.eqb_eq; split; congruence|split; discriminate]. Qed.
    Lemma in_physical p l : In p (physical_tags l) <-> exists s, In s l /\ s_phys (P:=P) s = Some p.
    Proof.
      unfold physical_tags. rewrite in_unique, in_flat_map. split; intros (s & I & H); exists s; (split; [auto|]).
      - destruct (s_phys s); [destruct H as [->|[]]; auto|destruct H].
      - rewrite H. left. auto.
    Qed.
    Definition vertex_group (p : Z) : call := AddPhysicalGroup 0 (map (fun v => num 0 (s_tag v)) (filter (has_phys p) (nth 0 D []))) p.
    Lemma group_vertices_map : group_vertices num (nth 0 D []) = map vertex_group (physical_tags (nth 0 D [])).
    Proof.
      unfold group_vertices. rewrite flat_map_concat_map.
      rewrite (map_ext_in _ (fun p => [vertex_group p])); [|].
      - induction (physical_tags (nth 0 D [])) as [|p l IH]; simpl; auto. f_equal. exact IH.
      - intros p I. apply in_physical in I as (s & Is & Ps). assert (X : some (filter (has_phys p) (nth 0 D [])) = true).
        { apply some_true. intros Q. assert (J : In s (filter (has_phys p) (nth 0 D []))) by (apply filter_In; split; auto; apply has_phys_iff; auto). rewrite Q in J. destruct J. }
        rewrite X. reflexivity.
    Qed.
    Lemma vertex_places p : places D 0 (tagged D 0 p) (map (fun v => num 0 (s_tag v)) (filter (has_phys p) (nth 0 D []))).
    Proof.
      pose proof good as (_ & _ & _ & _ & _ & C0 & _). rewrite Forall_forall in C0.
      intros t. rewrite in_map_iff. split.
      - intros (v & <- & I). apply filter_In in I as [I H]. apply has_phys_iff in H. exists v. split; [|apply num_place; auto]. split; auto. split; auto.
        apply (C0 v I). congruence.
      - intros (v & [[I Im] H] & ->). exists v. split; [apply num_place; auto|]. apply filter_In. split; auto. apply has_phys_iff. auto.
    Qed.
    Definition curve_tags (p : Z) : list Z := map (fun c => num 1 (s_tag c)) (filter (fun c => has_phys p c && negb (s_composite c) && negb (divided c)) (nth 1 D [])).
    Lemma curve_places p : places D 1 (tagged D 1 p) (curve_tags p).
    Proof.
      intros t. unfold curve_tags. rewrite in_map_iff. split.
      - intros (v & <- & I). apply filter_In in I as [I H]. apply andb_true_iff in H as [H H3]. apply andb_true_iff in H as [H1 H2]. apply has_phys_iff in H1.
        exists v. split; [|apply num_place; auto]. split; auto. apply kept_drawn; auto. unfold kept. rewrite negb_orb, H2, H3. reflexivity.
      - intros (v & [H E] & ->). assert (I : In v (nth 1 D [])) by apply H. exists v. split; [apply num_place; auto|]. apply filter_In. split; auto.
        apply (kept_drawn v I) in H. unfold kept in H. rewrite negb_orb in H. apply andb_true_iff in H as [-> ->]. rewrite (proj2 (has_phys_iff p v) E). reflexivity.
    Qed.
    Lemma surface_places p : places D 2 (tagged D 2 p) (map (fun s => num 2 (s_tag s)) (filter (has_phys p) (nth 2 D []))).
    Proof.
      pose proof good as (_ & _ & _ & _ & _ & _ & _ & C2). rewrite Forall_forall in C2.
      intros t. rewrite in_map_iff. split.
      - intros (v & <- & I). apply filter_In in I as [I H]. apply has_phys_iff in H. exists v. split; [|apply num_place; auto]. split; auto. split; auto.
        specialize (C2 v I). unfold proper_surface in C2. destruct (s_composite v); congruence.
      - intros (v & [[I Im] H] & ->). exists v. split; [apply num_place; auto|]. apply filter_In. split; auto. apply has_phys_iff. auto.
    Qed.
    Lemma group_ok s d tags p : seen_all s -> places D d (tagged D d p) tags -> forall x, In x tags -> visible s d x.
    Proof. intros B H x I. apply H in I as (i & [Di _] & ->). apply B. eauto. Qed.

    Definition g0 : list call := group_vertices num (nth 0 D []).
    Definition g1 : list call := group_curves num refinement (nth 1 D []).
    Definition g2 : list call := group_surfaces num (nth 2 D []).
    Definition e1 : list call := flat_map (fun c => if s_composite c || divided c then [] else [Embed 0 (unique_tags (map (fun i => num 0 (s_tag i)) (immersed c))) 1 (num 1 (s_tag c))]) (nth 1 D []).
    Definition e2 : list call := flat_map (fun f => if s_composite f then [] else [Embed 0 (surface_tags_0d num f) 2 (num 2 (s_tag f)); Embed 1 (surface_tags_1d num f) 2 (num 2 (s_tag f))]) (nth 2 D []).
    Lemma e1_ok : for_each (embed_curve num) (nth 1 D []) = Ok e1.
    Proof. apply for_each_ok. intros c _. unfold embed_curve. destruct (_ || _); reflexivity. Qed.
    Lemma e2_ok : for_each (embed_surface num false) (nth 2 D []) = Ok e2.
    Proof. apply for_each_ok. intros c _. unfold embed_surface. destruct (s_composite c); reflexivity. Qed.

    Lemma in_g0 c : In c g0 <-> exists p, In p (physical_tags (nth 0 D [])) /\ c = vertex_group p.
    Proof. unfold g0. rewrite group_vertices_map, in_map_iff. split; intros (p & H); exists p; intuition. Qed.
    Lemma in_g1 c : In c g1 <-> exists p, In p (physical_tags (nth 1 D [])) /\ (c = AddPhysicalGroup 1 (curve_tags p) p \/
      exists n t, snd refinement = Some n /\ In p (fst refinement) /\ In t (curve_tags p) /\ c = SetTransfiniteCurve t n).
    Proof.
      unfold g1, group_curves. rewrite in_flat_map. split; intros (p & Ip & H); exists p; (split; [exact Ip|]).
      - fold (curve_tags p) in H. destruct H as [<-|H]; [left; reflexivity|right]. destruct (snd refinement) as [n|]; [|destruct H].
        destruct (existsb (Z.eqb p) (fst refinement)) eqn:E; [|destruct H]. apply in_map_iff in H as (t & <- & It). exists n, t. split; auto. split; auto.
        apply existsb_exists in E as (q & Iq & Q). apply Z.eqb_eq in Q. subst q. exact Iq.
      - fold (curve_tags p). destruct H as [->|(n & t & E & Iq & It & ->)]; [left; reflexivity|right]. rewrite E.
        assert (X : existsb (Z.eqb p) (fst refinement) = true) by (apply existsb_exists; exists p; split; auto; apply Z.eqb_refl). rewrite X. apply in_map_iff. eauto.
    Qed.
    Lemma in_g2 c : In c g2 <-> exists p, In p (physical_tags (nth 2 D [])) /\ c = AddPhysicalGroup 2 (map (fun s => num 2 (s_tag s)) (filter (has_phys p) (nth 2 D []))) p.
    Proof. unfold g2, group_surfaces. rewrite in_map_iff. split; intros (p & H); exists p; intuition. Qed.
    Lemma in_e1 c : In c e1 <-> exists k, drawn D 1 k /\ c = Embed 0 (unique_tags (map (fun i => num 0 (s_tag i)) (immersed k))) 1 (place D 1 k).
    Proof.
      unfold e1. rewrite in_flat_map. split.
      - intros (k & Ik & H). destruct (s_composite k || divided k) eqn:E; [destruct H|]. destruct H as [<-|[]]. exists k. rewrite num_place by auto. split; auto. apply kept_drawn; auto. unfold kept. rewrite E. reflexivity.
      - intros (k & Dk & ->). assert (Ik : In k (nth 1 D [])) by apply Dk. exists k. split; auto. apply (kept_drawn k Ik) in Dk. unfold kept in Dk. apply negb_true_iff in Dk. rewrite Dk. left. rewrite num_place by auto. reflexivity.
    Qed.
    Lemma in_e2 c : In c e2 <-> exists f, drawn D 2 f /\ (c = Embed 0 (surface_tags_0d num f) 2 (place D 2 f) \/ c = Embed 1 (surface_tags_1d num f) 2 (place D 2 f)).
    Proof.
      unfold e2. rewrite in_flat_map. split.
      - intros (k & Ik & H). destruct (s_composite k) eqn:E; [destruct H|]. exists k. rewrite <- num_place by auto. split; [split; auto|]. destruct H as [<-|[<-|[]]]; auto.
      - intros (k & Dk & H). assert (Ik : In k (nth 2 D [])) by apply Dk. exists k. split; auto. destruct Dk as [_ Dk]. rewrite Dk. rewrite num_place by auto. destruct H as [->| ->]; [left|right; left]; auto.
    Qed.
    Lemma tags_0 k : drawn D 1 k -> places D 0 (fun i => In i (immersed k)) (unique_tags (map (fun i => num 0 (s_tag i)) (immersed k))).
    Proof.
      intros Dk. pose proof good as (_ & _ & _ & _ & _ & _ & C1 & _). rewrite Forall_forall in C1. assert (Ik : In k (nth 1 D [])) by apply Dk. destruct (C1 k Ik Dk) as (_ & _ & H).
      intros t. rewrite in_unique, in_map_iff. split.
      - intros (i & <- & Ii). exists i. split; auto. apply num_place, H, Ii.
      - intros (i & Ii & ->). exists i. split; auto. apply num_place, H, Ii.
    Qed.
    Lemma surf_0 f : drawn D 2 f -> places D 0 (in_surface_0 f) (surface_tags_0d num f) /\ forall i, in_surface_0 f i -> drawn D 0 i.
    Proof.
      intros [If Cf]. pose proof good as (_ & _ & _ & _ & _ & _ & _ & C2). rewrite Forall_forall in C2. specialize (C2 f If). unfold proper_surface in C2. rewrite Cf in C2. destruct C2 as [_ C2].
      assert (Dr : forall i, in_surface_0 f i -> drawn D 0 i) by (intros i (c & Ic & Ii); apply (C2 c Ic); auto). split; auto.
      intros t. unfold surface_tags_0d. rewrite in_unique, in_flat_map. split.
      - intros (c & Ic & It). apply in_map_iff in It as (v & <- & Iv). exists v. split; [exists c; auto|]. apply num_place, Dr. exists c. auto.
      - intros (v & (c & Ic & Iv) & ->). exists c. split; auto. apply in_map_iff. exists v. split; auto. apply num_place, Dr. exists c. auto.
    Qed.
    Lemma surf_1 f : drawn D 2 f -> places D 1 (in_surface_1 f) (surface_tags_1d num f) /\ forall i, in_surface_1 f i -> drawn D 1 i.
    Proof.
      intros [If Cf]. pose proof good as (_ & _ & _ & _ & _ & _ & _ & C2). rewrite Forall_forall in C2. specialize (C2 f If). unfold proper_surface in C2. rewrite Cf in C2. destruct C2 as [_ C2].
      assert (Dr : forall i, in_surface_1 f i -> drawn D 1 i) by (intros i (c & Ic & Ii); apply (C2 c Ic); auto). split; auto.
      intros t. unfold surface_tags_1d. rewrite in_unique, in_flat_map. split.
      - intros (c & Ic & It). destruct (some (immersed c)) eqn:E.
        + apply in_map_iff in It as (v & <- & Iv). exists v. assert (X : in_surface_1 f v) by (exists c; split; auto; left; auto). split; auto. apply num_place, Dr, X.
        + apply some_false in E. destruct It as [<-|[]]. exists c. assert (X : in_surface_1 f c) by (exists c; split; auto; right; auto). split; auto. apply num_place, Dr, X.
      - intros (v & X & ->). pose proof (Dr v X) as Dv. destruct X as (c & Ic & S). exists c. split; auto. destruct S as [Iv|[E ->]].
        + destruct (some (immersed c)) eqn:E; [|apply some_false in E; rewrite E in Iv; destruct Iv]. apply in_map_iff. exists v. split; auto. apply num_place, Dv.
        + rewrite E. simpl. left. apply num_place, Dv.
    Qed.

    Lemma passive_list s (l : list call) : (forall c, In c l -> passive c /\ in_order s c) -> accepted s l /\ afters s l = s.
    Proof.
      intros H. assert (F : Forall passive l) by (apply Forall_forall; intros c I; apply (H c I)). split; [|apply passive_afters; auto]. apply passive_accepted; auto. intros c I. apply (H c I).
    Qed.
    Ltac quiet := match goal with |- passive _ => intros ?; reflexivity end.
    Lemma g0_phase s : seen_all s -> accepted s g0 /\ afters s g0 = s.
    Proof. intros B. apply passive_list. intros c I. apply in_g0 in I as (p & _ & ->). split; [quiet|]. exact (group_ok s 0 _ p B (vertex_places p)). Qed.
    Lemma g1_phase s : seen_all s -> accepted s g1 /\ afters s g1 = s.
    Proof.
      intros B. apply passive_list. intros c I. apply in_g1 in I as (p & _ & [->|(n & t & _ & _ & It & ->)]); (split; [quiet|]).
      - exact (group_ok s 1 _ p B (curve_places p)).
      - simpl. apply (group_ok s 1 _ p B (curve_places p)). auto.
    Qed.
    Lemma g2_phase s : seen_all s -> accepted s g2 /\ afters s g2 = s.
    Proof. intros B. apply passive_list. intros c I. apply in_g2 in I as (p & _ & ->). split; [quiet|]. exact (group_ok s 2 _ p B (surface_places p)). Qed.
    Lemma e1_phase s : seen_all s -> accepted s e1 /\ afters s e1 = s.
    Proof.
      intros B. apply passive_list. intros c I. apply in_e1 in I as (k & Dk & ->). split; [quiet|]. split; [|apply B; eauto].
      pose proof good as (_ & _ & _ & _ & _ & _ & C1 & _). rewrite Forall_forall in C1. assert (Ik : In k (nth 1 D [])) by apply Dk. destruct (C1 k Ik Dk) as (_ & _ & H).
      intros x Ix. apply (tags_0 k Dk) in Ix as (i & Ii & ->). apply B. eauto.
    Qed.
    Lemma e2_phase s : seen_all s -> accepted s e2 /\ afters s e2 = s.
    Proof.
      intros B. apply passive_list. intros c I. apply in_e2 in I as (f & Df & [->| ->]); (split; [quiet|]); (split; [|apply B; eauto]).
      - destruct (surf_0 f Df) as [H H']. intros x Ix. apply H in Ix as (i & Ii & ->). apply B. eauto.
      - destruct (surf_1 f Df) as [H H']. intros x Ix. apply H in Ix as (i & Ii & ->). apply B. eauto.
    Qed.
    Definition group_part : list call :=
      (g0 ++ [Synchronize]) ++ (if (0 <? depth)%nat then g1 ++ [Synchronize] else []) ++ (if (1 <? depth)%nat then g2 ++ [Synchronize] else []) ++ [Synchronize] ++ e1 ++ e2.
    Definition settled (s : scene) : Prop := seen_all s /\ forall d t, visible s d t <-> entity s d t.
    Lemma settled_sync s : settled s -> settled (after (P:=P) s Synchronize).
    Proof. intros [B E]. split; [intros d t; change (entity s d t <-> exists x, drawn D d x /\ t = place D d x); rewrite <- E; apply B|]. intros d t. reflexivity. Qed.
    Definition fits (l : list call) : Prop := forall s, settled s -> accepted s l /\ settled (afters s l).
    Lemma fits_app l m : fits l -> fits m -> fits (l ++ m).
    Proof. intros A B s S. destruct (A s S) as [A1 S1]. destruct (B _ S1) as [B1 S2]. rewrite accepted_app, afters_app. auto. Qed.
    Lemma fits_sync : fits [Synchronize].
    Proof. intros s S. split; [simpl; auto|]. exact (settled_sync s S). Qed.
    Lemma fits_nil : fits [].
    Proof. intros s S. split; [exact I|exact S]. Qed.
    Lemma fits_quiet l : (forall s, seen_all s -> accepted s l /\ afters s l = s) -> fits l.
    Proof. intros H s S. destruct (H s (proj1 S)) as [A ->]. auto. Qed.
    Lemma group_phase : fits group_part.
    Proof.
      unfold group_part. repeat apply fits_app; try destruct (_ <? _)%nat; repeat apply fits_app; try apply fits_sync; try apply fits_nil; apply fits_quiet; intros s B.
      - apply g0_phase, B.
      - apply g1_phase, B.
      - apply g2_phase, B.
      - apply e1_phase, B.
      - apply e2_phase, B.
    Qed.
    Definition description : list call := entity_part pts lns sfs ++ group_part.
    Lemma description_accepted : accepted nothing description.
    Proof.
      destruct entity_phase as (_ & _ & _ & A & B). unfold description. rewrite accepted_app. split; auto. apply group_phase. split; auto.
      intros d t. unfold entity_part. rewrite !app_assoc, afters_app. reflexivity.
    Qed.
    (** What the description holds besides the synchronisations *)
    Lemma in_description c : c <> Synchronize ->
      (In c description <-> In c pts \/ In c lns \/ In c sfs \/ In c g0 \/ In c g1 \/ In c g2 \/ In c e1 \/ In c e2).
    Proof.
      intros N. assert (Ne : D <> []) by (destruct good as (L & _); destruct D; [simpl in L; lia|discriminate]).
      pose proof good as (_ & _ & Gap & _).
      assert (Y : forall l, In c (l ++ [Synchronize]) <-> In c l) by (intros l; rewrite in_app_iff; simpl; split; [intros [?|[?|[]]]; congruence|auto]).
      assert (X : forall (b : bool) l, (b = false -> l = []) -> (In c (if b then l ++ [Synchronize] else []) <-> In c l)).
      { intros [|] l H; [apply Y|]. rewrite H by auto. simpl. tauto. }
      unfold description, entity_part, group_part. rewrite !in_app_iff, !X; [rewrite ?in_app_iff; assert (~ In c [Synchronize]) by (simpl; intuition congruence); tauto|..]; intros Q;
        apply (beyond D Ne Gap) in Q; unfold lns, sfs, g1, g2; rewrite Q; reflexivity.
    Qed.
    Lemma in_pts c : In c pts <-> exists v p, drawn D 0 v /\ s_point v = Some p /\ c = AddPoint p (place D 0 v).
    Proof.
      unfold pts. rewrite in_flat_map. split.
      - intros (v & Iv & H). apply filter_In in Iv as [Iv W]. unfold point_of in H. destruct (s_point v) as [p|] eqn:E; [|destruct H]. destruct H as [<-|[]].
        exists v, p. rewrite num_place by auto. repeat split; auto. unfold whole in W. destruct (immersed v); [auto|discriminate].
      - intros (v & p & [Iv W] & E & ->). exists v. split; [apply filter_In; split; auto; unfold whole; rewrite W; reflexivity|]. unfold point_of. rewrite E. left. rewrite num_place by auto. reflexivity.
    Qed.
    Lemma in_lns c : In c lns <-> exists k x y rest, drawn D 1 k /\ s_boundary k = x :: y :: rest /\ c = AddLine (place D 0 x) (place D 0 y) (place D 1 k).
    Proof.
      pose proof good as (_ & _ & _ & _ & _ & _ & C1 & _). rewrite Forall_forall in C1. unfold lns. rewrite in_flat_map. split.
      - intros (v & Iv & H). apply filter_In in Iv as [Iv W]. apply (kept_drawn v Iv) in W. unfold line_of in H. destruct (s_boundary v) as [|x [|y rest]] eqn:E; try destruct H as [].
        subst c. exists v, x, y, rest. destruct (C1 v Iv W) as (_ & Hd & _). rewrite E in Hd. rewrite (num_place 1 v) by auto.
        rewrite (num_place 0 x), (num_place 0 y) by (apply Hd; simpl; auto). repeat split; auto; apply W. destruct H.
      - intros (k & x & y & rest & Dk & E & ->). assert (Ik : In k (nth 1 D [])) by apply Dk. exists k. split; [apply filter_In; split; auto; apply kept_drawn; auto|].
        unfold line_of. rewrite E. left. destruct (C1 k Ik Dk) as (_ & Hd & _). rewrite E in Hd. rewrite (num_place 1 k) by auto.
        rewrite (num_place 0 x), (num_place 0 y) by (apply Hd; simpl; auto). reflexivity.
    Qed.
    Lemma in_sfs c : In c sfs <-> exists f, drawn D 2 f /\ In c (surface_of pclose fuel num f).
    Proof.
      unfold sfs. rewrite in_flat_map. split; intros (f & H1 & H2); exists f; (split; [|exact H2]).
      - apply filter_In in H1 as [If S]. split; auto. unfold single in S. apply negb_true_iff in S. exact S.
      - destruct H1 as [If S]. apply filter_In. split; auto. unfold single. apply negb_true_iff. exact S.
    Qed.
  End Num.
  Lemma convert_ok : exists strides, (forall d s, In s (nth d D []) -> (Z.of_nat (nth d strides 0%nat) + s_tag s + 1)%Z = place D d s) /\
    convert_occ pclose fuel refinement D = Ok (description strides).
  Proof.
    destruct strides_ok as (st & E & H). exists st. split; auto. destruct (entity_phase st H) as (E0 & E1 & E2 & _).
    assert (Ne : D <> []) by (destruct good as (L & _); destruct D; [simpl in L; lia|discriminate]).
    pose proof good as (L4 & L4' & Gap & _). unfold convert_occ. rewrite E. cbn [bind].
    assert (E' : get_at D 0 = Ok (nth 0 D [])) by (destruct D; [congruence|reflexivity]). rewrite E'. cbn [bind].
    change (fun (d : nat) (t : Z) => (Z.of_nat (nth d st 0%nat) + t + 1)%Z) with (num st). rewrite E0. cbn [bind].
    rewrite (level D Ne Gap 0). cbn [bind]. rewrite E1. cbn [bind]. rewrite (level D Ne Gap 1). cbn [bind]. rewrite E2. cbn [bind].
    rewrite (no_fourth D Ne) by (auto; lia). rewrite e1_ok. cbn [bind]. rewrite e2_ok. cbn [bind].
    unfold description, entity_part, group_part. rewrite <- !app_assoc. reflexivity.
  Qed.
End Convert.
