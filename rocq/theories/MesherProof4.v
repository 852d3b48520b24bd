(** * Lemmas about the descriptions handed to gmsh: entities, groups and embeddings *)
From Coq Require Import List Arith ZArith Bool Lia Sorted.
From Verif Require Import Base BaseProof ShapeModel ShapeSpec ShapeProof TagModel TagProof MesherModel MesherSpec MesherProof MesherProof2 MesherProof3.
Import ListNotations.

Section Calls.
  Context {P : Type}.
  Notation call := (call P).
  Notation shape := (shape P).
  Notation domain := (domain P).
  Variable pclose : P -> P -> bool.
  Variable fuel : nat.
  Variable D : domain.
  Variable dimension : nat.
  Variable graph : option (digraph (Z * Z)).
  Hypothesis close_refl : forall x, pclose x x = true.
  Hypothesis enough : 1 <= fuel.
  Hypothesis whole_domain : complete dimension D.
  Hypothesis ready : graph_ready dimension graph D.
  Variable r : list call.
  Hypothesis result : transfer_occ pclose fuel dimension graph D = Ok r.
  Notation num := (conformal_num D).
  Notation bodies := (bodies pclose fuel D dimension graph).

  (** Which loop a call comes from *)
  Definition origin (c : call) : Prop :=
    (exists v, In v (nth 0 D []) /\ immersed v = [] /\ exists p, s_point v = Some p /\ c = AddPoint p (number D 0 v)) \/
    (exists k, In k (nth 1 D []) /\ s_composite k = false /\ immersed k = [] /\
       exists x y, nth_error (s_boundary k) 0 = Some x /\ nth_error (s_boundary k) 1 = Some y /\ c = AddLine (number D 0 x) (number D 0 y) (number D 1 k)) \/
    (exists f q, In f (nth 2 D []) /\ s_composite f = false /\ add_surface pclose fuel num f = Ok q /\ In c q /\
       ((exists l, c = AddCurveLoop l (number D 2 f)) \/ c = AddPlaneSurface [number D 2 f] (number D 2 f))) \/
    (exists b, In b (nth 3 D []) /\ s_composite b = false /\ exists shell, nth_error (s_boundary b) 0 = Some shell /\
       (c = AddSurfaceLoop (map (number D 2) (immersed shell)) (number D 3 b) \/ c = AddVolume [number D 3 b] (number D 3 b))) \/
    (exists d s p tags, d <> 1 /\ In s (nth d D []) /\ s_phys s = Some p /\ c = AddPhysicalGroup d tags p /\ numbers D d (represents d s) tags) \/
    (exists k p tags, In k (nth 1 D []) /\ s_phys k = Some p /\ counted dimension graph 1 k /\
       ((c = AddPhysicalGroup 1 tags p /\ numbers D 1 (represents 1 k) tags) \/ (2 <= dimension /\ c = AddPhysicalGroup 0 tags p /\ numbers D 0 (loose_ends k) tags))) \/
    (exists f, In f (nth 2 D []) /\ s_composite f = false /\
       ((exists tags, c = Embed 0 tags 2 (number D 2 f) /\ numbers D 0 (in_surface_0 f) tags) \/
        (exists tags, c = Embed 1 tags 2 (number D 2 f) /\ numbers D 1 (in_surface_1 f) tags) \/
        (exists i, in_surface_1 f i /\ c = SetTransfiniteCurve (number D 1 i) 10))) \/
    (exists f, In f (nth 3 D []) /\ s_composite f = false /\
       ((exists tags, c = Embed 1 tags 3 (number D 3 f) /\ numbers D 1 (in_volume_1 f) tags) \/
        (exists tags, c = Embed 2 tags 3 (number D 3 f) /\ numbers D 2 (in_volume_2 f) tags) \/
        (exists i, in_volume_1 f i /\ c = SetTransfiniteCurve (number D 1 i) 2))).
  Lemma origin_of c : In c r -> c <> Synchronize -> origin c.
  Proof.
    intros I N. apply (content pclose fuel D dimension graph close_refl enough whole_domain ready r result) in I as [->|(b & s & q & Ib & Is & Es & Iq)]; [destruct (N eq_refl)|].
    unfold origin. simpl in Ib. repeat (destruct Ib as [<-|Ib]); try contradiction; simpl in Is, Es.
    - left. destruct (vertex_call D _ _ _ Es Iq) as (H1 & p & H2 & H3). eauto 6.
    - right; left. destruct (line_call D _ _ _ Es Iq) as (H1 & H2 & x & y & H3 & H4 & H5). exists s. eauto 10.
    - right; right; left. destruct (surface_call pclose fuel D _ _ _ Es Iq) as (H1 & H2). exists s, q. auto.
    - right; right; right; left. destruct (volume_call D _ _ _ Es Iq) as (H1 & sh & H2 & H3). eauto 8.
    - right; right; right; right; left. destruct (gvertex_call D _ _ _ Es Iq) as (p & tags & H1 & H2 & H3). exists 0, s, p, tags. auto.
    - right; right; right; right; right; left. destruct (gcurve_call D dimension graph s q Es) as [[_ ->]|(p & H1 & _ & _ & H2)]; [destruct Iq|].
      destruct (H2 c Iq) as (H3 & tags & H4). exists s, p, tags. auto.
    - right; right; right; right; left. destruct (gcell_call D _ _ _ _ (le_n 2) Es Iq) as (p & tags & H1 & H2 & H3). exists 2, s, p, tags. auto.
    - right; right; right; right; left. destruct (gcell_call D _ _ _ _ (le_S _ _ (le_n 2)) Es Iq) as (p & tags & H1 & H2 & H3). exists 3, s, p, tags. repeat split; auto; apply H3.
    - right; right; right; right; right; right; left. destruct (esurface_call D _ _ _ Es Iq) as (H1 & H2). eauto.
    - right; right; right; right; right; right; right. destruct (evolume_call D _ _ _ Es Iq) as (H1 & H2). eauto.
  Qed.
  Lemma call_from b s q c : In b bodies -> In s (nth (fst b) D []) -> snd b s = Ok q -> In c q -> In c r.
  Proof. intros. apply (content pclose fuel D dimension graph close_refl enough whole_domain ready r result). right. eauto 8. Qed.
  Ltac cases H := unfold origin in H; repeat match type of H with _ \/ _ => destruct H as [H|H] end.
  Ltac refute := repeat match goal with
    | H : exists _, _ |- _ => destruct H
    | H : _ /\ _ |- _ => destruct H
    | H : _ \/ _ |- _ => destruct H
    end; discriminate.

  Lemma points_iff p t : In (AddPoint p t) r <-> exists v, elementary D 0 v /\ s_point v = Some p /\ t = number D 0 v.
  Proof.
    split.
    - intros I. apply origin_of in I; [|discriminate]. cases I; try (exfalso; refute).
      destruct I as (v & Iv & Im & p' & Ep & E). injection E as -> ->. exists v. split; auto. split; auto. split; auto. apply (vertex_single D dimension whole_domain v Iv).
    - intros (v & (Iv & _ & Im) & Ep & ->). apply (call_from (0, add_vertex num) v [AddPoint p (number D 0 v)]); [simpl; tauto|exact Iv| |left; reflexivity].
      simpl. unfold add_vertex. rewrite (Im (Nat.le_0_l 1)). simpl. rewrite Ep, conformal_number. reflexivity.
  Qed.
  Lemma lines_iff b e t : In (AddLine b e t) r <-> exists c x y rest, elementary D 1 c /\ s_boundary c = x :: y :: rest /\ t = number D 1 c /\ b = number D 0 x /\ e = number D 0 y.
  Proof.
    split.
    - intros I. apply origin_of in I; [|discriminate]. cases I; try (exfalso; refute).
      destruct I as (k & Ik & Ck & Im & x & y & Ex & Ey & E). injection E as -> -> ->.
      destruct (s_boundary k) as [|x0 [|y0 rest]] eqn:Eb; simpl in Ex, Ey; try discriminate. injection Ex as ->. injection Ey as ->.
      exists k, x, y, rest. repeat split; auto.
    - intros (c & x & y & rest & (Ic & Cc & Im) & Eb & -> & -> & ->). apply (call_from (1, line_body D) c [AddLine (number D 0 x) (number D 0 y) (number D 1 c)]); [simpl; tauto|exact Ic| |left; reflexivity].
      simpl. unfold line_body, add_line. rewrite Cc, (Im (le_n 1)), Eb. simpl. rewrite !conformal_number. reflexivity.
  Qed.
  (** The loop of a face *)
  Lemma face_body f : elementary D 2 f -> exists w rest l, s_boundary f = w :: rest /\ map Z.abs l = map (number D 1) (immersed w) /\
    add_surface pclose fuel num f = Ok [AddCurveLoop l (number D 2 f); AddPlaneSurface [number D 2 f] (number D 2 f)].
  Proof.
    intros (If & Cf & _). destruct whole_domain as (LD & NE & Hd3 & Hdim & ND & C0 & C1 & C2 & C3). rewrite Forall_forall in C2. specialize (C2 f If).
    unfold complete_surface in C2. rewrite Cf in C2. destruct C2 as ((w & rest & Eb & Cw & Hw) & _).
    assert (G : exists s, forall e, In e (immersed w) -> line_known num s e).
    { exists (mk_scene [] (flat_map (line_entry num) (nth 1 D [])) [] [] [] [] (fun _ _ => False)). intros e Ie. destruct (Hw e Ie) as (I1 & Ce & _).
      rewrite Forall_forall in C1. destruct (C1 e I1) as (_ & L2 & _). destruct (two_ends e (L2 Ce)) as (a & b & q & Ebe). exists a, b, q. split; auto.
      split; [|apply (Hdim 1 e I1)]. simpl. apply in_flat_map. exists e. split; auto. unfold line_entry. rewrite Ebe. left. reflexivity. }
    destruct G as (s & G).
    destruct (closed_loop pclose fuel num (conformal_pos D) s w close_refl enough Cw G) as (signs & Eo & L & Ct & Fs).
    exists w, rest, (loop_of num w signs). split; auto. split.
    - unfold loop_of. rewrite map_map.
      assert (Pos : forall e, In e (immersed w) -> (0 <= s_tag e)%Z) by (intros e Ie; destruct (Hw e Ie) as (I1 & _); apply (Hdim 1 e I1)).
      revert signs L Fs Pos Eo Ct. generalize (immersed w). clear - D. intros l signs L Fs Pos _ _. revert signs L Fs. induction l as [|e l IH]; intros [|g signs] L Fs; simpl in *; try discriminate; auto.
      inversion Fs as [|? ? Fg Fs']; subst. rewrite IH; auto. f_equal. rewrite conformal_number. pose proof (conformal_pos D 1 (s_tag e) (Pos e (or_introl eq_refl))).
      rewrite conformal_number in H. destruct Fg; subst g; lia.
    - unfold add_surface, orientation. rewrite Cf, Eb. cbn [get_at nth_error bind]. destruct Cw as (Kw & _). rewrite Kw, Eo. cbn [bind].
      rewrite (get_at_seq (fun t z => (t * z)%Z)) by (rewrite map_length; auto). cbn [bind]. rewrite conformal_number. reflexivity.
  Qed.
  Lemma loops_of f : elementary D 2 f ->
    exists w rest l, s_boundary f = w :: rest /\ map Z.abs l = map (number D 1) (immersed w) /\
      In (AddCurveLoop l (number D 2 f)) r /\ In (AddPlaneSurface [number D 2 f] (number D 2 f)) r.
  Proof.
    intros El. destruct (face_body f El) as (w & rest & l & Eb & Ea & E). exists w, rest, l. split; auto. split; auto. destruct El as (If & Cf & _).
    split; (eapply (call_from (2, add_surface pclose fuel num) f); [simpl; tauto|exact If|exact E|]); [left|right; left]; reflexivity.
  Qed.
  Lemma surfaces_only l t : In (AddCurveLoop l t) r \/ In (AddPlaneSurface l t) r -> exists f, elementary D 2 f /\ t = number D 2 f.
  Proof.
    intros [I|I]; (apply origin_of in I; [|discriminate]); cases I; try (exfalso; refute);
      destruct I as (f & q & If & Cf & _ & _ & [(l' & E)|E]); try discriminate; injection E as -> ->; exists f; (split; [split; [auto|split; [auto|lia]]|auto]).
  Qed.
  Lemma volumes_of b : elementary D 3 b ->
    exists shell rest, s_boundary b = shell :: rest /\
      In (AddSurfaceLoop (map (number D 2) (immersed shell)) (number D 3 b)) r /\ In (AddVolume [number D 3 b] (number D 3 b)) r.
  Proof.
    intros (Ib & Cb & _). destruct whole_domain as (LD & NE & Hd3 & Hdim & ND & C0 & C1 & C2 & C3). rewrite Forall_forall in C3. specialize (C3 b Ib).
    unfold complete_volume in C3. rewrite Cb in C3. destruct C3 as ((sh & rest & Eb & _) & _). exists sh, rest. split; auto.
    assert (E : add_volume num b = Ok [AddSurfaceLoop (map (number D 2) (immersed sh)) (number D 3 b); AddVolume [number D 3 b] (number D 3 b)]).
    { unfold add_volume. rewrite Cb, Eb. cbn [get_at nth_error bind]. rewrite <- !conformal_number.
      replace (map (number D 2) (immersed sh)) with (map (fun c => num 2 (s_tag c)) (immersed sh)) by (apply map_ext; intros; apply conformal_number). reflexivity. }
    split; (eapply (call_from (3, add_volume num) b); [simpl; tauto|exact Ib|exact E|]); [left|right; left]; reflexivity.
  Qed.
  Lemma volumes_only l t : In (AddSurfaceLoop l t) r \/ In (AddVolume l t) r -> exists b, elementary D 3 b /\ t = number D 3 b.
  Proof.
    intros [I|I]; (apply origin_of in I; [|discriminate]); cases I; try (exfalso; refute);
      destruct I as (f & If & Cf & sh & _ & [E|E]); try discriminate; injection E as -> ->; exists f; (split; [split; [auto|split; [auto|lia]]|auto]).
  Qed.

  (** ** Groups *)
  Lemma groups_sound d tags p : In (AddPhysicalGroup d tags p) r ->
    (exists s, In s (nth d D []) /\ s_phys s = Some p /\ counted dimension graph d s /\ numbers D d (represents d s) tags) \/
    (d = 0 /\ 2 <= dimension /\ exists c, In c (nth 1 D []) /\ s_phys c = Some p /\ counted dimension graph 1 c /\ numbers D 0 (loose_ends c) tags).
  Proof.
    intros I. apply origin_of in I; [|discriminate]. cases I; try (exfalso; refute).
    - destruct I as (d' & s & p' & tags' & Nd & Is & Ep & E & Nu). injection E as <- <- <-. left. exists s. repeat split; auto; try apply Nu. intros ->. congruence.
    - destruct I as (k & p' & tags' & Ik & Ep & Co & [[E Nu]|(L & E & Nu)]); injection E as -> -> ->.
      + left. exists k. auto.
      + right. split; auto. split; auto. exists k. auto.
  Qed.
  Lemma groups_cover d s p : In s (nth d D []) -> s_phys s = Some p -> counted dimension graph d s ->
    exists tags, In (AddPhysicalGroup d tags p) r /\ numbers D d (represents d s) tags.
  Proof.
    intros Is Ep Co. destruct d as [|[|[|[|d]]]].
    - assert (E : exists q, group_vertex num s = Ok q /\ q <> []).
      { unfold group_vertex. rewrite Ep. destruct (some (immersed s)); eexists; (split; [reflexivity|discriminate]). }
      destruct E as (q & E & N). destruct q as [|c q]; [destruct (N eq_refl)|].
      destruct (gvertex_call D s _ c E (or_introl eq_refl)) as (p' & tags & Ep' & -> & Nu). rewrite Ep in Ep'. injection Ep' as <-.
      exists tags. split; auto. eapply (call_from (0, group_vertex num) s); [simpl; tauto|exact Is|exact E|left; reflexivity].
    - assert (E : exists q, group_curve num dimension graph s = Ok q).
      { destruct (group_curve num dimension graph s) as [q|e] eqn:E; [eauto|].
        destruct (transfer_parts pclose fuel D dimension graph close_refl enough whole_domain ready) as (pts & lns & sfs & vls & g0 & g1 & g2 & g3 & e2 & e3 & _ & (_ & F1 & _) & _).
        exfalso. unfold for_each in F1. apply bind_Ok in F1 as (rs & F1 & _). apply mapM_Forall2 in F1. clear - F1 Is E. induction F1 as [|x y l l' Hx F IH]; [destruct Is|].
        destruct Is as [->|Is]; [congruence|auto]. }
      destruct E as (q & E). destruct (gcurve_call D dimension graph s q E) as [[N _]|(p' & Ep' & H & _)]; [congruence|].
      rewrite Ep in Ep'. injection Ep' as <-. destruct (H Co) as (tags & I & Nu). exists tags. split; auto.
      eapply (call_from (1, group_curve num dimension graph) s); [simpl; tauto|exact Is|exact E|exact I].
    - assert (E : group_cell num 2 s = Ok [AddPhysicalGroup 2 [num 2 (s_tag s)] p]) by (unfold group_cell; rewrite Ep; reflexivity).
      destruct (gcell_call D 2 s _ _ (le_n 2) E (or_introl eq_refl)) as (p' & tags & Ep' & Ec & Nu). injection Ec as <- <-.
      eexists. split; [|exact Nu]. eapply (call_from (2, group_cell num 2) s); [simpl; tauto|exact Is|exact E|left; reflexivity].
    - assert (E : group_cell num 3 s = Ok [AddPhysicalGroup 3 [num 3 (s_tag s)] p]) by (unfold group_cell; rewrite Ep; reflexivity).
      destruct (gcell_call D 3 s _ _ (le_S _ _ (le_n 2)) E (or_introl eq_refl)) as (p' & tags & Ep' & Ec & Nu). injection Ec as <- <-.
      eexists. split; [|exact Nu]. eapply (call_from (3, group_cell num 3) s); [simpl; tauto|exact Is|exact E|left; reflexivity].
    - destruct whole_domain as (LD & _ & Hd3 & _). rewrite nth_overflow in Is by lia. destruct Is.
  Qed.

  (** ** Embeddings *)
  Lemma embed_sound d tags d' t : In (Embed d tags d' t) r -> exists s, elementary D d' s /\ t = number D d' s /\
    ((d = 0 /\ d' = 2 /\ numbers D 0 (in_surface_0 s) tags) \/ (d = 1 /\ d' = 2 /\ numbers D 1 (in_surface_1 s) tags) \/
     (d = 1 /\ d' = 3 /\ numbers D 1 (in_volume_1 s) tags) \/ (d = 2 /\ d' = 3 /\ numbers D 2 (in_volume_2 s) tags)).
  Proof.
    intros I. apply origin_of in I; [|discriminate]. cases I; try (exfalso; refute).
    - destruct I as (f & If & Cf & [(tg & E & Nu)|[(tg & E & Nu)|(i & _ & E)]]); try discriminate; injection E as -> -> -> ->; exists f;
        (split; [split; [auto|split; [auto|lia]]|]); (split; [auto|]); tauto.
    - destruct I as (f & If & Cf & [(tg & E & Nu)|[(tg & E & Nu)|(i & _ & E)]]); try discriminate; injection E as -> -> -> ->; exists f;
        (split; [split; [auto|split; [auto|lia]]|]); (split; [auto|]); tauto.
  Qed.
  Lemma embed_cover_2 f : elementary D 2 f -> exists t0 t1, In (Embed 0 t0 2 (number D 2 f)) r /\ numbers D 0 (in_surface_0 f) t0 /\
    In (Embed 1 t1 2 (number D 2 f)) r /\ numbers D 1 (in_surface_1 f) t1 /\ (forall i, in_surface_1 f i -> In (SetTransfiniteCurve (number D 1 i) 10) r).
  Proof.
    intros (If & Cf & _). exists (surface_tags_0d num f), (surface_tags_1d num f).
    assert (E : exists q, embed_surface num true f = Ok (Embed 0 (surface_tags_0d num f) 2 (number D 2 f) :: Embed 1 (surface_tags_1d num f) 2 (number D 2 f) :: q) /\
      forall t, In t (surface_tags_1d num f) -> In (SetTransfiniteCurve t 10) q).
    { unfold embed_surface. rewrite Cf, conformal_number. eexists. split; [reflexivity|]. intros t I. apply in_map_iff. eauto. }
    destruct E as (q & E & Q).
    assert (G : forall c, In c (Embed 0 (surface_tags_0d num f) 2 (number D 2 f) :: Embed 1 (surface_tags_1d num f) 2 (number D 2 f) :: q) -> In c r).
    { intros c Ic. eapply (call_from (2, embed_surface num true) f); [simpl; tauto|exact If|exact E|exact Ic]. }
    split; [apply G; left; auto|]. split; [apply surface_0|]. split; [apply G; right; left; auto|]. split; [apply surface_1|].
    intros i Qi. apply G. right. right. apply Q. apply surface_1. eauto.
  Qed.
  Lemma embed_cover_3 f : elementary D 3 f -> exists t1 t2, In (Embed 1 t1 3 (number D 3 f)) r /\ numbers D 1 (in_volume_1 f) t1 /\
    In (Embed 2 t2 3 (number D 3 f)) r /\ numbers D 2 (in_volume_2 f) t2 /\ (forall i, in_volume_1 f i -> In (SetTransfiniteCurve (number D 1 i) 2) r).
  Proof.
    intros (If & Cf & _). exists (volume_tags_1d num f), (volume_tags_2d num f).
    assert (E : exists q, embed_volume num f = Ok (Embed 1 (volume_tags_1d num f) 3 (number D 3 f) :: Embed 2 (volume_tags_2d num f) 3 (number D 3 f) :: q) /\
      forall t, In t (volume_tags_1d num f) -> In (SetTransfiniteCurve t 2) q).
    { unfold embed_volume. rewrite Cf, conformal_number. eexists. split; [reflexivity|]. intros t I. apply in_map_iff. eauto. }
    destruct E as (q & E & Q).
    assert (G : forall c, In c (Embed 1 (volume_tags_1d num f) 3 (number D 3 f) :: Embed 2 (volume_tags_2d num f) 3 (number D 3 f) :: q) -> In c r).
    { intros c Ic. eapply (call_from (3, embed_volume num) f); [simpl; tauto|exact If|exact E|exact Ic]. }
    split; [apply G; left; auto|]. split; [apply volume_1|]. split; [apply G; right; left; auto|]. split; [apply volume_2|].
    intros i Qi. apply G. right. right. apply Q. apply volume_1. eauto.
  Qed.
End Calls.
