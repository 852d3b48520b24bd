(** * Where vertices touch an edge: C69 *)
From Coq Require Import List Arith ZArith Bool Reals Lia.
From Verif Require Import Base BaseProof VecBase VecProof GeoModel GeoSpec GeoProof GeoProof2 VertexModel VertexSpec VertexProof.
Import ListNotations.

Section Where.
  Variables ctol ptol ltol : R.
  Hypothesis ltol_ok : (0 <= ltol)%R.

  Definition hit_spec (h : heap) (v : nat) (e : nat * nat) (eps : R) (r : option hit) : Prop :=
    exists p a b, vpoint h v = Ok p /\ vpoint h (fst e) = Ok a /\ vpoint h (snd e) = Ok b /\
      match r with
      | None => misses eps p a b /\ ~ is_end ptol h v (fst e) /\ ~ is_end ptol h v (snd e)
      | Some (Existing x) => (x = fst e \/ x = snd e) /\ is_end ptol h v x
      | Some (New q) => touches_at ctol ltol eps p a b q /\ ~ is_end ptol h v (fst e) /\ ~ is_end ptol h v (snd e)
      end.

  Lemma strong_spec h v x s : strong_equality ptol h v x = Ok s -> (s = true <-> is_end ptol h v x).
  Proof.
    unfold strong_equality, is_end, vtag, vpoint, same_geometry. intros E. apply bind_Ok in E as (a & Ea & E). apply bind_Ok in E as (b & Eb & E). rewrite Ea, Eb. cbn [bind].
    injection E as <-. rewrite !andb_true_iff, Z.eqb_eq, allclose_true. split.
    - intros ((T & D) & C). split; [congruence|]. exists (snd a), (snd b). auto.
    - intros (T & p & q & Ep & Eq & C & D). injection T as T. injection Ep as <-. injection Eq as <-. auto.
  Qed.

  Lemma edge_hit_spec h v e eps r : edge_hit ctol ptol ltol h v e eps = Ok r -> hit_spec h v e eps r.
  Proof.
    intros E. unfold edge_hit, boundary_hit in E.
    apply bind_Ok in E as (bo & Eb & E). apply bind_Ok in Eb as (s0 & E0 & Eb). apply bind_Ok in Eb as (s1 & E1 & Eb).
    apply strong_spec in E0. apply strong_spec in E1.
    apply bind_Ok in Eb as (p & Ep & Eb). apply bind_Ok in Eb as (a & Ea & Eb). apply bind_Ok in Eb as (b & Ebb & Eb). injection Eb as <-.
    exists p, a, b. repeat (split; [assumption|]).
    destruct s0; [injection E as <-; split; [auto|apply E0; auto]|].
    destruct s1; [injection E as <-; split; [auto|apply E1; auto]|].
    assert (N0 : ~ is_end ptol h v (fst e)) by (intros Q; apply E0 in Q; discriminate).
    assert (N1 : ~ is_end ptol h v (snd e)) by (intros Q; apply E1 in Q; discriminate).
    unfold same_geometry in E. destruct (allclose eps p a) eqn:Ca.
    { injection E as <-. split; [|auto]. left. split; auto. apply allclose_true. auto. }
    destruct (allclose eps p b) eqn:Cb.
    { injection E as <-. split; [|auto]. right. left. split; auto. apply allclose_true. auto. }
    rewrite Ep, Ea, Ebb in E. cbn [bind] in E. injection E as <-.
    destruct (point_line_intersection ctol p a b ltol) as [q|] eqn:Q.
    - split; [|auto]. right. right. apply (proj2 (segment_lemma ctol ltol p a b ltol_ok)). auto.
    - split; [|auto]. split; [|split].
      + intros C. apply allclose_true in C. congruence.
      + intros C. apply allclose_true in C. congruence.
      + intros C. apply (proj1 (segment_lemma ctol ltol p a b ltol_ok)) in C as (x & C). congruence.
  Qed.

  Definition result_of (h1 : heap) (n : nat) (tag_min : Z) (o : option hit) (r : option nat) : Prop :=
    match o, r with
    | None, None => True
    | Some (Existing x), Some y => x = y
    | Some (New p), Some y => n <= y /\ nth_error h1 y = Some (tag_min, p)
    | _, _ => False
    end.
  Lemma result_mono h1 ps n n' tm o r : n' <= n -> result_of h1 n tm o r -> result_of (h1 ++ ps) n' tm o r.
  Proof.
    intros L. destruct o as [[x|p]|], r as [y|]; simpl; auto. intros (A & B). split; [lia|].
    rewrite nth_error_app1; auto. apply nth_error_Some. congruence.
  Qed.
  Lemma create_spec tag_min : forall hits h acc, exists ps results,
    fold_left (create tag_min) hits (h, acc) = (h ++ map (fun p => (tag_min, p)) ps, acc ++ results) /\
    Forall2 (result_of (h ++ map (fun p => (tag_min, p)) ps) (length h) tag_min) hits results.
  Proof.
    induction hits as [|o hits IH]; intros h acc.
    - exists [], []. simpl. rewrite !app_nil_r. auto.
    - cbn [fold_left]. destruct o as [[x|p]|]; cbn [create fst snd].
      + destruct (IH h (acc ++ [Some x])) as (ps & rs & E & F). exists ps, (Some x :: rs). split.
        * etransitivity; [exact E|]. rewrite <- app_assoc. reflexivity.
        * constructor; auto. reflexivity.
      + destruct (IH (h ++ [(tag_min, p)]) (acc ++ [Some (length h)])) as (ps & rs & E & F). exists (p :: ps), (Some (length h) :: rs). split.
        * etransitivity; [exact E|]. rewrite <- !app_assoc. reflexivity.
        * rewrite <- app_assoc in F. cbn [app map] in F |- *. constructor.
          -- split; [lia|]. rewrite nth_error_app2 by lia. rewrite Nat.sub_diag. reflexivity.
          -- eapply Forall2_impl; [|exact F]. intros o r. rewrite app_length. destruct o as [[x|q]|], r as [y|]; simpl; auto. intros (A & B). split; auto. lia.
      + destruct (IH h (acc ++ [None])) as (ps & rs & E & F). exists ps, (None :: rs). split.
        * etransitivity; [exact E|]. rewrite <- app_assoc. reflexivity.
        * constructor; auto. exact I.
  Qed.

  Lemma point_set (h : heap) x v w y : nth_error h x = Some w -> snd v = snd w -> vpoint (set_at h x v) y = vpoint h y.
  Proof.
    intros H S. unfold vpoint, get_at. rewrite nth_error_set_at. destruct (Nat.eq_dec x y) as [->|N]; auto.
    assert (L : y < length h) by (apply nth_error_Some; congruence). destruct (Nat.ltb_spec y (length h)); [|lia]. rewrite H. cbn [bind]. congruence.
  Qed.
  Lemma number_spec : forall results tools h tag intx used h' tag' intx' used', length results = length tools ->
    foldM number (combine results tools) (h, tag, intx, used) = Ok (h', tag', intx', used') ->
    length h' = length h /\ (forall y, vpoint h' y = vpoint h y) /\
    (forall y, ~ In y (somes results) -> vtag h' y = vtag h y) /\
    intx' = intx ++ somes results /\
    used' = used ++ flat_map (fun r => match fst r with Some _ => [snd r] | None => [] end) (combine results tools).
  Proof.
    induction results as [|o results IH]; intros tools h tag intx used h' tag' intx' used' L E.
    - destruct tools; [|discriminate]. simpl in E. inversion E; subst. simpl. rewrite !app_nil_r. auto 10.
    - destruct tools as [|v tools]; [discriminate|]. injection L as L. cbn [combine foldM] in E. unfold number at 1 in E. cbn [fst snd] in E. destruct o as [x|].
      + destruct (get_at h x) as [w|] eqn:Ex; [|discriminate]. cbn [bind] in E.
        assert (Nx : nth_error h x = Some w) by (unfold get_at in Ex; destruct (nth_error h x); congruence).
        apply IH in E; auto. destruct E as (A & B & C & -> & ->). split; [rewrite A; apply length_set_at|]. split; [|split; [|split]].
        * intros y. rewrite B. eapply point_set; eauto.
        * intros y Hy. unfold somes in Hy. cbn [flat_map app] in Hy. rewrite C by (intros Q; apply Hy; right; exact Q).
          rewrite vtag_set by (apply nth_error_Some; congruence). destruct (Nat.eqb_spec y x) as [->|]; auto. destruct Hy. left. auto.
        * unfold somes. cbn [flat_map app]. rewrite <- app_assoc. reflexivity.
        * cbn [combine flat_map fst snd app]. rewrite <- app_assoc. reflexivity.
      + cbn [bind] in E. apply IH in E; auto.
  Qed.

  Lemma where_lemma tag_min h tools e tag eps h' intx used :
    vertices_edge_intersection ctol ptol ltol tag_min h tools e tag eps = Ok (h', intx, used) ->
    (exists f, used = filter f tools /\ forall v, In v tools -> f v = false -> exists p a b,
       vpoint h v = Ok p /\ vpoint h (fst e) = Ok a /\ vpoint h (snd e) = Ok b /\ misses eps p a b /\ ~ is_end ptol h v (fst e) /\ ~ is_end ptol h v (snd e)) /\
    Forall2 (fun v x =>
       ((x = fst e \/ x = snd e) /\ is_end ptol h v x) \/
       (length h <= x /\ ~ is_end ptol h v (fst e) /\ ~ is_end ptol h v (snd e) /\ exists p a b q,
          vpoint h v = Ok p /\ vpoint h (fst e) = Ok a /\ vpoint h (snd e) = Ok b /\ vpoint h' x = Ok q /\ touches_at ctol ltol eps p a b q)) used intx /\
    (forall y, y < length h -> vpoint h' y = vpoint h y /\ (~ In y intx -> vtag h' y = vtag h y)).
  Proof.
    intros E. unfold vertices_edge_intersection in E. apply bind_Ok in E as (hits & Eh & E).
    destruct (create_spec tag_min hits h []) as (ps & rs & Ec & F). rewrite Ec in E. cbn [app] in E.
    assert (Lh := mapM_length _ _ _ Eh). assert (Lr : length hits = length rs) by (clear - F; induction F; simpl; auto).
    apply bind_Ok in E as ([[[h2 tg] ix] us] & Es & E). inversion E; subst h2 ix us. clear E.
    apply number_spec in Es; [|congruence]. destruct Es as (A & B & C & -> & ->). cbn [app] in *.
    set (h1 := h ++ map (fun p => (tag_min, p)) ps) in *.
    assert (P1 : forall y, y < length h -> vpoint h' y = vpoint h y).
    { intros y Hy. rewrite B. unfold vpoint, get_at, h1. rewrite nth_error_app1 by auto. reflexivity. }
    split; [|split].
    - set (f := fun v => match edge_hit ctol ptol ltol h v e eps with Ok None => false | _ => true end). exists f. split.
      + clear - Eh F. revert hits rs Eh F. induction tools as [|v tools IH]; intros hits rs Eh F.
        * inversion Eh; subst. inversion F; subst. reflexivity.
        * cbn [mapM] in Eh. apply bind_Ok in Eh as (o & Eo & Eh). apply bind_Ok in Eh as (os & Eos & Eh). injection Eh as <-.
          inversion F as [|? r ? rs' R F']; subst. cbn [combine flat_map filter fst snd]. unfold f at 1. rewrite Eo.
          rewrite (IH os rs' Eos F'). destruct o as [[x|p]|], r as [y|]; simpl in R; try contradiction; reflexivity.
      + intros v Hv Fv. unfold f in Fv. destruct (edge_hit ctol ptol ltol h v e eps) as [[o|]|] eqn:Q; try discriminate.
        apply edge_hit_spec in Q. destruct Q as (p & a & b & Ep & Ea & Eb & M & N0 & N1). exists p, a, b. auto 10.
    - assert (B' : forall y, vpoint h' y = vpoint h1 y) by auto. clear - Eh F B' ltol_ok. revert hits rs Eh F. induction tools as [|v tools IH]; intros hits rs Eh F.
      + inversion Eh; subst. inversion F; subst. constructor.
      + cbn [mapM] in Eh. apply bind_Ok in Eh as (o & Eo & Eh). apply bind_Ok in Eh as (os & Eos & Eh). injection Eh as <-.
        inversion F as [|? r ? rs' R F']; subst. specialize (IH os rs' Eos F').
        apply edge_hit_spec in Eo. destruct Eo as (p & a & b & Ep & Ea & Eb & K).
        unfold somes. destruct o as [[x|q]|], r as [y|]; simpl in R; try contradiction; cbn [combine flat_map fst snd app].
        * subst y. constructor; [left; exact K|exact IH].
        * destruct K as (K & N0 & N1). destruct R as (R1 & R2). constructor; [|exact IH]. right. split; [exact R1|]. split; [exact N0|]. split; [exact N1|].
          exists p, a, b, q. repeat (split; [assumption|]). split; [|exact K]. rewrite B'. unfold vpoint, get_at. rewrite R2. reflexivity.
        * exact IH.
    - intros y Hy. split; [apply P1; auto|]. intros Ny. rewrite C by auto. unfold vtag, get_at, h1. rewrite nth_error_app1 by auto. reflexivity.
  Qed.
End Where.
