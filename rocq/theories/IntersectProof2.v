(** * Lemmas: the points where edges cross *)
From Coq Require Import List Arith ZArith Bool Reals Lra Lia Permutation Sorted.
From Verif Require Import Base BaseProof VecBase VecProof GeoModel GeoSpec GeoProof VertexModel EmbedModel EmbedSpec EmbedProof IntersectModel IntersectSpec IntersectProof.
Import ListNotations.

Lemma foldM_inv {A S} (f : S -> A -> res S) (I : list A -> S -> Prop) (l : list A) :
  (forall pre x s, In x l -> I pre s -> exists s', f s x = Ok s' /\ I (pre ++ [x]) s') ->
  forall s, I [] s -> exists s', foldM f l s = Ok s' /\ I l s'.
Proof.
  intros H. assert (G : forall r pre s, (forall x, In x r -> In x l) -> I pre s -> exists s', foldM f r s = Ok s' /\ I (pre ++ r) s').
  { induction r as [|x r IH]; intros pre s Hr Hs; cbn [foldM]; [exists s; rewrite app_nil_r; auto|].
    destruct (H pre x s) as (s1 & E & I1); auto with datatypes. rewrite E. cbn [bind].
    destruct (IH (pre ++ [x]) s1) as (s2 & E2 & I2); auto with datatypes. exists s2. rewrite <- app_assoc in I2. auto. }
  intros s Hs. apply (G l []); auto.
Qed.
Lemma combine_snoc {A B} (l : list A) (m : list B) x y : length l = length m -> combine (l ++ [x]) (m ++ [y]) = combine l m ++ [(x, y)].
Proof. revert m. induction l as [|a l IH]; intros [|b m] H; try discriminate; cbn; auto. rewrite IH; auto. Qed.
Lemma in_combine_point {A B} (l : list A) (m : list B) y : length l = length m -> In y m -> exists x, In (x, y) (combine l m).
Proof.
  revert m. induction l as [|a l IH]; intros [|b m] H Hy; try discriminate; [destruct Hy|]. destruct Hy as [->|Hy]; [exists a; left; auto|].
  destruct (IH m) as (x & Hx); auto. exists x. right. auto.
Qed.

Lemma same_tag h x y : NoDup (map fst h) -> (x < length h)%nat -> (y < length h)%nat -> tg h x = tg h y -> x = y.
Proof.
  intros N Lx Ly E. apply (proj1 (NoDup_nth (map fst h) 0%Z) N); rewrite ?map_length; auto. unfold tg in E.
  change 0%Z with (fst (0%Z, vzero)). rewrite !map_nth. auto.
Qed.

Section Scan.
  Variable h : heap.
  Variable edges : list (option host).
  Variable eps : R.
  Variable axis : nat.
  Hypothesis N : clear_network h edges eps axis.

  Lemma edge_live i a b : edge_at edges i a b -> (a < length h)%nat /\ (b < length h)%nat.
  Proof.
    intros H. apply nth_error_In in H. destruct (net_edges _ _ _ _ N _ H) as (x & y & [= -> ->] & L). split; apply L; cbn; auto.
  Qed.
  Lemma entry_edge i e : nth_error edges i = Some (Some e) -> exists a b, e = mk_host [a; b] [] /\ edge_at edges i a b.
  Proof.
    intros H. pose proof (nth_error_In _ _ H) as H'. destruct (net_edges _ _ _ _ N _ H') as (x & y & -> & L). exists x, y. auto.
  Qed.
  Lemma edge_same i a b c d : edge_at edges i a b -> edge_at edges i c d -> a = c /\ b = d.
  Proof. unfold edge_at. intros H H'. rewrite H in H'. injection H' as -> ->. auto. Qed.
  Lemma meet_sym i j x : meet h edges i j x -> meet h edges j i x.
  Proof. intros (D & a & b & p & q & H). split; auto. exists p, q, a, b. tauto. Qed.
  Lemma crossing_sym i j x : crossing h edges i j x -> crossing h edges j i x.
  Proof. intros (M & H). split; [apply meet_sym; auto|]. intros v a b p q Ha Hb I1 I2. eapply H; eauto. Qed.

  Lemma end_points_edge i a b : edge_at edges i a b -> end_points h (mk_host [a; b] []) = Ok (pt h a, pt h b).
  Proof. intros H. destruct (edge_live _ _ _ H). unfold end_points. cbn [h_ends mapM]. rewrite !vpoint_live by auto. reflexivity. Qed.

  (** The end of edge [i] at a point where edges meet *)
  Lemma end_at_edge i j a b x : edge_at edges i a b -> meet h edges i j x -> exists o, end_at h x (mk_host [a; b] []) = Ok o /\
    match o with Some v => In v [a; b] /\ pt h v = x | None => forall v, In v [a; b] -> pt h v <> x end.
  Proof.
    intros H M. destruct (edge_live _ _ _ H) as (La & Lb). unfold end_at. cbn [h_ends]. rewrite on_boundary_spec by auto. cbn [bind].
    destruct (allclose_default x (pt h a)) eqn:Ea.
    { exists (Some a). split; auto. split; [cbn; auto|]. symmetry. apply (net_ends _ _ _ _ N i j x a b a M H); [cbn; auto|]. apply allclose_default_iff. auto. }
    destruct (allclose_default x (pt h b)) eqn:Eb.
    { exists (Some b). split; auto. split; [cbn; auto|]. symmetry. apply (net_ends _ _ _ _ N i j x a b b M H); [cbn; auto|]. apply allclose_default_iff. auto. }
    exists None. split; auto. intros v [<-|[<-|[]]] Q; subst x.
    - pose proof (proj2 (allclose_default_iff _ _) (near_refl (pt h a))). congruence.
    - pose proof (proj2 (allclose_default_iff _ _) (near_refl (pt h b))). congruence.
  Qed.

  Lemma get_live x : (x < length h)%nat -> get_at h x = Ok (tg h x, pt h x).
  Proof. intros L. unfold get_at, tg, pt. destruct (nth_error h x) as [v|] eqn:E; [|apply nth_error_None in E; lia]. rewrite (nth_error_nth _ _ _ E). destruct v; auto. Qed.

  Definition found (P : nat -> nat -> Prop) (st : list vec * list (nat * nat)) : Prop :=
    length (snd st) = length (fst st) /\
    (forall i j x, In ((i, j), x) (combine (snd st) (fst st)) -> (i < j)%nat /\ crossing h edges i j x) /\
    (forall i j x, P i j -> (i < j)%nat -> crossing h edges i j x -> In ((i, j), x) (combine (snd st) (fst st))).
  Lemma found_weak (P Q : nat -> nat -> Prop) st : (forall i j x, Q i j -> (i < j)%nat -> crossing h edges i j x -> P i j) -> found P st -> found Q st.
  Proof. intros H (F1 & F2 & F3). repeat split; eauto; eapply F2; eauto. Qed.

  Lemma tool_lemma P i a b st j t : edge_at edges i a b -> nth_error edges j = Some t -> found P st ->
    exists st', tool_step eps axis h i (mk_host [a; b] []) (pt h a, pt h b) st (j, t) = Ok st' /\ found (fun i' j' => P i' j' \/ (i' = i /\ j' = j)) st'.
  Proof.
    intros Hi Hj F. destruct st as [points cases]. unfold tool_step. cbn [snd fst].
    destruct t as [e|].
    2:{ eexists. split; eauto. eapply found_weak; [|exact F]. intros i' j' x [H|(-> & ->)]; auto. intros _ ((_ & (? & ? & p & q & _ & H & _)) & _). unfold edge_at in H. congruence. }
    destruct (entry_edge _ _ Hj) as (p & q & -> & Hj'). rewrite (end_points_edge _ _ _ Hj'). cbn [bind fst snd].
    destruct (j <=? i) eqn:L.
    { apply Nat.leb_le in L. eexists. split; eauto. eapply found_weak; [|exact F]. intros i' j' x [H|(-> & ->)]; auto. lia. }
    apply Nat.leb_gt in L.
    assert (T := test_lemma eps axis (pt h a) (pt h b) (pt h p) (pt h q) (net_eps _ _ _ _ N)).
    specialize (T ltac:(eapply (net_plane _ _ _ _ N i a b i a b); cbn; auto)).
    specialize (T ltac:(eapply (net_plane _ _ _ _ N i a b j p q); cbn; auto)).
    specialize (T ltac:(eapply (net_plane _ _ _ _ N i a b j p q); cbn; auto)).
    specialize (T (net_definite _ _ _ _ N i j a b p q L Hi Hj')).
    destruct (segment_test _ _ _ _ _ _ _) as [x|] eqn:E.
    2:{ eexists. split; eauto. eapply found_weak; [|exact F]. intros i' j' x [H|(-> & ->)]; auto. intros _ ((_ & a' & b' & p' & q' & H1 & H2 & S1 & S2) & _).
        destruct (edge_same _ _ _ _ _ Hi H1) as (<- & <-). destruct (edge_same _ _ _ _ _ Hj' H2) as (<- & <-). destruct (T x S1 S2). }
    destruct T as (S1 & S2 & Dab & Dpq & U).
    assert (M : meet h edges i j x). { split; [lia|]. exists a, b, p, q. auto. }
    assert (U' : forall y, crossing h edges i j y -> y = x).
    { intros y ((_ & a' & b' & p' & q' & H1 & H2 & T1 & T2) & _). destruct (edge_same _ _ _ _ _ Hi H1) as (<- & <-). destruct (edge_same _ _ _ _ _ Hj' H2) as (<- & <-). auto. }
    destruct (end_at_edge i j a b x Hi M) as (o & Eo & Ho). destruct (end_at_edge j i p q x Hj' (meet_sym _ _ _ M)) as (o' & Eo' & Ho').
    rewrite Eo, Eo'. cbn [bind].
    destruct (edge_live _ _ _ Hi) as (La & Lb). destruct (edge_live _ _ _ Hj') as (Lp & Lq).
    assert (C : exists c, same_vertex h o o' = Ok c /\ if c then ~ crossing h edges i j x else crossing h edges i j x).
    { assert (Z : forall v, o = Some v -> (v < length h)%nat). { intros v ->. destruct Ho as ([<-|[<-|[]]] & _); auto. }
      assert (Z' : forall v, o' = Some v -> (v < length h)%nat). { intros v ->. destruct Ho' as ([<-|[<-|[]]] & _); auto. }
      assert (OK : (forall v, In v [a; b] -> In v [p; q] -> pt h v <> x) -> crossing h edges i j x).
      { intros W. split; auto. intros v a' b' p' q' H1 H2. destruct (edge_same _ _ _ _ _ Hi H1) as (<- & <-). destruct (edge_same _ _ _ _ _ Hj' H2) as (<- & <-). auto. }
      destruct o as [v|], o' as [w|]; cbn [same_vertex].
      - rewrite !get_live by auto. cbn [bind fst snd]. eexists. split; [reflexivity|]. destruct Ho as (Iv & Pv), Ho' as (Iw & Pw).
        destruct ((tg h v =? tg h w)%Z && allclose_default (pt h v) (pt h w)) eqn:B.
        + apply andb_true_iff in B as (B & _). apply Z.eqb_eq in B. apply same_tag in B; auto using (net_tags _ _ _ _ N). subst w. intros (_ & X). exact (X v a b p q Hi Hj' Iv Iw Pv).
        + apply OK. intros z Iz Iz' Pz.
          assert (z = v). { destruct Iz as [<-|[<-|[]]], Iv as [<-|[<-|[]]]; auto; exfalso; apply Dab; congruence. }
          assert (z = w). { destruct Iz' as [<-|[<-|[]]], Iw as [<-|[<-|[]]]; auto; exfalso; apply Dpq; congruence. }
          subst v w. rewrite Z.eqb_refl in B. cbn [andb] in B. pose proof (proj2 (allclose_default_iff _ _) (near_refl (pt h z))). congruence.
      - exists false. split; auto.
      - exists false. split; auto.
      - exists false. split; auto. }
    destruct C as (c & Ec & Hc). rewrite Ec. cbn [bind]. destruct c.
    { eexists. split; eauto. eapply found_weak; [|exact F]. intros i' j' y [H|(-> & ->)]; auto. intros _ Y. pose proof (U' y Y). subst y. tauto. }
    destruct F as (F1 & F2 & F3). cbn [fst snd] in *.
    assert (Q : match find (allclose_default x) points with Some p0 => p0 | None => x end = x).
    { destruct (find (allclose_default x) points) as [y|] eqn:Ef; auto. apply find_some in Ef as (Iy & Ny). apply allclose_default_iff in Ny.
      destruct (in_combine_point cases points y F1 Iy) as ([k l] & Hk). apply F2 in Hk as (_ & (Mk & _)). symmetry. exact (net_points _ _ _ _ N i j x k l y M Mk Ny). }
    rewrite Q. eexists. split; [reflexivity|]. unfold found. cbn [fst snd]. rewrite combine_snoc by auto. split; [|split].
    - rewrite !app_length. cbn. lia.
    - intros i' j' y H. apply in_app_iff in H as [H|[[= -> -> ->]|[]]]; auto.
    - intros i' j' y [HP|(-> & ->)] L' Y; apply in_app_iff; [left; auto|right]. rewrite (U' y Y). left. auto.
  Qed.

  Lemma object_lemma P i e st : nth_error edges i = Some e -> found P st ->
    exists st', object_step eps axis h edges st (i, e) = Ok st' /\ found (fun i' j' => P i' j' \/ i' = i) st'.
  Proof.
    intros Hi F. unfold object_step. cbn [fst snd]. destruct e as [e|].
    2:{ eexists. split; eauto. eapply found_weak; [|exact F]. intros i' j' x [H| ->]; auto. intros _ ((_ & (a & b & p & q & H & _)) & _). unfold edge_at in H. congruence. }
    destruct (entry_edge _ _ Hi) as (a & b & -> & Hi'). rewrite (end_points_edge _ _ _ Hi'). cbn [bind].
    destruct (foldM_inv (tool_step eps axis h i (mk_host [a; b] []) (pt h a, pt h b)) (fun pre st => found (fun i' j' => P i' j' \/ (i' = i /\ exists t, In (j', t) pre)) st)
      (combine (seq 0 (length edges)) edges)) with (s := st) as (st' & E & F').
    - intros pre [j t] s Hj Fs. apply nth_error_numbered in Hj as (_ & Hj). rewrite Nat.sub_0_r in Hj.
      destruct (tool_lemma _ i a b s j t Hi' Hj Fs) as (s' & E & F'). exists s'. split; auto. eapply found_weak; [|exact F'].
      intros i' j' x [H|(-> & t' & H)] _ _; auto. apply in_app_iff in H as [H|[[= -> ->]|[]]]; eauto.
    - eapply found_weak; [|exact F]. intros i' j' x [H|(_ & t & H)]; [auto|destruct H].
    - exists st'. split; auto. eapply found_weak; [|exact F']. intros i' j' x [H'| ->] _ ((_ & (? & ? & p & q & _ & H & _)) & _); auto. right. split; auto.
      exists (Some (mk_host [p; q] [])). apply nth_error_numbered. rewrite Nat.sub_0_r. split; [lia|]. exact H.
  Qed.

  Lemma scan_lemma : exists points cases, foldM (object_step eps axis h edges) (combine (seq 0 (length edges)) edges) ([], []) = Ok (points, cases) /\
    length cases = length points /\
    (forall i j x, In ((i, j), x) (combine cases points) -> (i < j)%nat /\ crossing h edges i j x) /\
    (forall i j x, (i < j)%nat -> crossing h edges i j x -> In ((i, j), x) (combine cases points)).
  Proof.
    destruct (foldM_inv (object_step eps axis h edges) (fun pre st => found (fun i' j' => exists t, In (i', t) pre) st)
      (combine (seq 0 (length edges)) edges)) with (s := ([] : list vec, [] : list (nat * nat))) as ((points & cases) & E & F').
    - intros pre [i e] s Hi Fs. apply nth_error_numbered in Hi as (_ & Hi). rewrite Nat.sub_0_r in Hi.
      destruct (object_lemma _ i e s Hi Fs) as (s' & E & F'). exists s'. split; auto. eapply found_weak; [|exact F'].
      intros i' j' x (t' & H) _ _; auto. apply in_app_iff in H as [H|[[= -> ->]|[]]]; eauto.
    - split; [reflexivity|]. split; [intros i j x H; destruct H|]. intros i j x (t & H); destruct H.
    - exists points, cases. split; auto. destruct F' as (F1 & F2 & F3). cbn [fst snd] in *. split; auto. split; auto.
      intros i j x L C. apply F3; auto. destruct C as ((_ & (a & b & p & q & H & _)) & _). exists (Some (mk_host [a; b] [])).
      apply nth_error_numbered. rewrite Nat.sub_0_r. split; [lia|]. exact H.
  Qed.
End Scan.
