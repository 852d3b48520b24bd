(** * Lemmas: two different arrays of edges *)
From Coq Require Import List Arith ZArith Bool Reals Lra Lia Permutation Sorted.
From Verif Require Import Base BaseProof VecBase VecProof GeoModel GeoSpec GeoProof VertexModel ShapeSpec VertexSpec EmbedModel EmbedSpec EmbedProof EmbedProof2 EmbedProof3 IntersectModel IntersectSpec IntersectProof IntersectProof2 IntersectProof3 IntersectProof4.
Import ListNotations.

Section Total.
  Variable argsort_R : list R -> list nat.
  Variable argsort : list Z -> list nat.
  Hypothesis argsort_R_ok : is_argsort_R argsort_R.
  Hypothesis argsort_ok : is_argsort argsort.
  Lemma loop_total h vs cases l : (forall v, In v vs -> (v < length h)%nat) -> (forall i e, In (i, Some e) l -> exists a b, h_ends e = [a; b] /\ live h [a; b]) ->
    forall t hosts es, exists t' hosts' es', foldM (embed_step argsort_R argsort vs cases) l (h, t, hosts, es) = Ok (h, t', hosts', es').
  Proof.
    intros V. induction l as [|[i e] l IH]; intros L t hosts es; cbn [foldM]; [eauto|].
    assert (IH' := IH (fun i' e' H => L i' e' (or_intror H))). clear IH. unfold embed_step at 1. cbn [fst snd].
    destruct e as [e|]; [|cbn [bind]; apply IH']. cbv zeta. set (sel := map snd (filter _ (combine cases vs))). 
    assert (S : forall v, In v sel -> (v < length h)%nat).
    { intros v Hv. apply in_map_iff in Hv as ([c w] & <- & Hv). apply filter_In in Hv as (Hv & _). apply in_combine_r in Hv. auto. }
    destruct sel as [|v sel']; [cbn [bind]; apply IH'|]. destruct (L i e (or_introl eq_refl)) as (a & b & E & Lab).
    destruct (embed_total argsort_R argsort argsort_R_ok argsort_ok h (v :: sel') e t a b) as (e' & out & Em & _).
    { intros x Hx. cbn [In] in Hx. destruct Hx as [<-|[<-|Hx]]; [apply Lab; cbn; auto|apply Lab; cbn; auto|apply S; exact Hx]. }
    { exact E. }
    rewrite Em. cbn [bind]. destruct (h_immersed e') as [|[z zs] ws]; cbn [bind]; apply IH'.
  Qed.
End Total.

Section Two.
  Variable h : heap.
  Variables objects tools : list (option host).
  Variable eps : R.
  Variable axis : nat.
  Let all := objects ++ tools.
  Let k := length objects.
  Hypothesis N : clear_network h all eps axis.

  Lemma at_object i e : nth_error objects i = Some e -> (i < k)%nat /\ nth_error all i = Some e.
  Proof. intros H. assert (L : (i < k)%nat) by (apply nth_error_Some; congruence). split; auto. unfold all. rewrite nth_error_app1; auto. Qed.
  Lemma tool_at j : nth_error all (k + j) = nth_error tools j.
  Proof. unfold all, k. rewrite nth_error_app2 by lia. f_equal. lia. Qed.
  Lemma at_tool j e : nth_error tools j = Some e -> nth_error all (k + j) = Some e.
  Proof. rewrite tool_at. auto. Qed.

  Definition found2 (P : nat -> nat -> Prop) (st : list vec * list (nat * nat)) : Prop :=
    length (snd st) = length (fst st) /\
    (forall i j x, In ((i, j), x) (combine (snd st) (fst st)) -> (i < k)%nat /\ (i < j)%nat /\ crossing h all i (k + j) x) /\
    (forall i j x, P i j -> (i < j)%nat -> crossing h all i (k + j) x -> In ((i, j), x) (combine (snd st) (fst st))).
  Lemma found2_weak (P Q : nat -> nat -> Prop) st : (forall i j x, Q i j -> (i < j)%nat -> crossing h all i (k + j) x -> P i j) -> found2 P st -> found2 Q st.
  Proof. intros H (F1 & F2 & F3). split; [exact F1|]. split; [exact F2|]. intros i j x HQ L C. apply F3; eauto. Qed.

  Lemma tool2_lemma P i a b st j t : (i < k)%nat -> edge_at all i a b -> nth_error all (k + j) = Some t -> found2 P st ->
    exists st', tool_step eps axis h i (mk_host [a; b] []) (pt h a, pt h b) st (j, t) = Ok st' /\ found2 (fun i' j' => P i' j' \/ (i' = i /\ j' = j)) st'.
  Proof.
    intros Ik Hi Hj F. destruct st as [points cases]. unfold tool_step. cbn [snd fst].
    destruct t as [e|].
    2:{ eexists. split; eauto. eapply found2_weak; [|exact F]. intros i' j' x [H|(-> & ->)]; auto. intros _ ((_ & (? & ? & p & q & _ & H & _)) & _). unfold edge_at in H. congruence. }
    destruct (entry_edge h all eps axis N _ _ Hj) as (p & q & -> & Hj'). rewrite (end_points_edge h all eps axis N _ _ _ Hj'). cbn [bind fst snd].
    destruct (j <=? i) eqn:L.
    { apply Nat.leb_le in L. eexists. split; eauto. eapply found2_weak; [|exact F]. intros i' j' x [H|(-> & ->)]; auto. lia. }
    apply Nat.leb_gt in L.
    assert (T := test_lemma eps axis (pt h a) (pt h b) (pt h p) (pt h q) (net_eps _ _ _ _ N)).
    specialize (T ltac:(eapply (net_plane _ _ _ _ N i a b i a b); cbn; auto)).
    specialize (T ltac:(eapply (net_plane _ _ _ _ N i a b (k + j) p q); cbn; auto)).
    specialize (T ltac:(eapply (net_plane _ _ _ _ N i a b (k + j) p q); cbn; auto)).
    specialize (T (net_definite _ _ _ _ N i (k + j) a b p q ltac:(lia) Hi Hj')).
    destruct (segment_test _ _ _ _ _ _ _) as [x|] eqn:E.
    2:{ eexists. split; eauto. eapply found2_weak; [|exact F]. intros i' j' x [H|(-> & ->)]; auto. intros _ ((_ & a' & b' & p' & q' & H1 & H2 & S1 & S2) & _).
        destruct (edge_same all _ _ _ _ _ Hi H1) as (<- & <-). destruct (edge_same all _ _ _ _ _ Hj' H2) as (<- & <-). destruct (T x S1 S2). }
    destruct T as (S1 & S2 & Dab & Dpq & U).
    assert (M : meet h all i (k + j) x). { split; [lia|]. exists a, b, p, q. auto. }
    assert (U' : forall y, crossing h all i (k + j) y -> y = x).
    { intros y ((_ & a' & b' & p' & q' & H1 & H2 & T1 & T2) & _). destruct (edge_same all _ _ _ _ _ Hi H1) as (<- & <-). destruct (edge_same all _ _ _ _ _ Hj' H2) as (<- & <-). auto. }
    destruct (end_at_edge h all eps axis N i (k + j) a b x Hi M) as (o & Eo & Ho). destruct (end_at_edge h all eps axis N (k + j) i p q x Hj' (meet_sym h all _ _ _ M)) as (o' & Eo' & Ho').
    rewrite Eo, Eo'. cbn [bind].
    destruct (edge_live h all eps axis N _ _ _ Hi) as (La & Lb). destruct (edge_live h all eps axis N _ _ _ Hj') as (Lp & Lq).
    assert (C : exists c, same_vertex h o o' = Ok c /\ if c then ~ crossing h all i (k + j) x else crossing h all i (k + j) x).
    { assert (Z : forall v, o = Some v -> (v < length h)%nat). { intros v ->. destruct Ho as ([<-|[<-|[]]] & _); auto. }
      assert (Z' : forall v, o' = Some v -> (v < length h)%nat). { intros v ->. destruct Ho' as ([<-|[<-|[]]] & _); auto. }
      assert (OK : (forall v, In v [a; b] -> In v [p; q] -> pt h v <> x) -> crossing h all i (k + j) x).
      { intros W. split; auto. intros v a' b' p' q' H1 H2. destruct (edge_same all _ _ _ _ _ Hi H1) as (<- & <-). destruct (edge_same all _ _ _ _ _ Hj' H2) as (<- & <-). auto. }
      destruct o as [v|], o' as [w|]; cbn [same_vertex].
      - rewrite !get_live by auto. cbn [bind fst snd]. eexists. split; [reflexivity|]. destruct Ho as (Iv & Pv), Ho' as (Iw & Pw).
        destruct ((tg h v =? tg h w)%Z && allclose_default (pt h v) (pt h w)) eqn:B.
        + apply andb_true_iff in B as (B & _). apply Z.eqb_eq in B. apply same_tag in B; auto using (net_tags _ _ _ _ N). subst w. intros (_ & X). exact (X v a b p q Hi Hj' Iv Iw Pv).
        + apply OK. intros z Iz Iz' Pz.
          assert (z = v). { destruct Iz as [<-|[<-|[]]], Iv as [<-|[<-|[]]]; auto; exfalso; apply Dab; congruence. }
          assert (z = w). { destruct Iz' as [<-|[<-|[]]], Iw as [<-|[<-|[]]]; auto; exfalso; apply Dpq; congruence. }
          subst v w. rewrite Z.eqb_refl in B. cbn [andb] in B. pose proof (proj2 (allclose_default_iff _ _) (near_refl (pt h z))). congruence.
      - exists false. split; auto.
      - exists false. split; auto.
      - exists false. split; auto. }
    destruct C as (c & Ec & Hc). rewrite Ec. cbn [bind]. destruct c.
    { eexists. split; eauto. eapply found2_weak; [|exact F]. intros i' j' y [H|(-> & ->)]; auto. intros _ Y. pose proof (U' y Y). subst y. tauto. }
    destruct F as (F1 & F2 & F3). cbn [fst snd] in *.
    assert (Q : match find (allclose_default x) points with Some p0 => p0 | None => x end = x).
    { destruct (find (allclose_default x) points) as [y|] eqn:Ef; auto. apply find_some in Ef as (Iy & Ny). apply allclose_default_iff in Ny.
      destruct (in_combine_point cases points y F1 Iy) as ([m l] & Hk). apply F2 in Hk as (_ & _ & (Mk & _)). symmetry. exact (net_points _ _ _ _ N i (k + j) x m (k + l) y M Mk Ny). }
    rewrite Q. eexists. split; [reflexivity|]. unfold found2. cbn [fst snd]. rewrite combine_snoc by auto. split; [|split].
    - rewrite !app_length. cbn. lia.
    - intros i' j' y H. apply in_app_iff in H as [H|[[= -> -> ->]|[]]]; auto.
    - intros i' j' y [HP|(-> & ->)] L' Y; apply in_app_iff; [left; auto|right]. rewrite (U' y Y). left. auto.
  Qed.

  Lemma object2_lemma P i e st : nth_error objects i = Some e -> found2 P st ->
    exists st', object_step eps axis h tools st (i, e) = Ok st' /\ found2 (fun i' j' => P i' j' \/ i' = i) st'.
  Proof.
    intros Hi0 F. destruct (at_object _ _ Hi0) as (Ik & Hi). unfold object_step. cbn [fst snd]. destruct e as [e|].
    2:{ eexists. split; eauto. eapply found2_weak; [|exact F]. intros i' j' x [H| ->]; auto. intros _ ((_ & (a & b & p & q & H & _)) & _). unfold edge_at in H. congruence. }
    destruct (entry_edge h all eps axis N _ _ Hi) as (a & b & -> & Hi'). rewrite (end_points_edge h all eps axis N _ _ _ Hi'). cbn [bind].
    destruct (foldM_inv (tool_step eps axis h i (mk_host [a; b] []) (pt h a, pt h b)) (fun pre st => found2 (fun i' j' => P i' j' \/ (i' = i /\ exists t, In (j', t) pre)) st)
      (combine (seq 0 (length tools)) tools)) with (s := st) as (st' & E & F').
    - intros pre [j t] s Hj Fs. apply nth_error_numbered in Hj as (_ & Hj). rewrite Nat.sub_0_r in Hj.
      destruct (tool2_lemma _ i a b s j t Ik Hi' (at_tool _ _ Hj) Fs) as (s' & E & F'). exists s'. split; auto. eapply found2_weak; [|exact F'].
      intros i' j' x [H|(-> & t' & H)] _ _; auto. apply in_app_iff in H as [H|[[= -> ->]|[]]]; eauto.
    - eapply found2_weak; [|exact F]. intros i' j' x [H|(_ & t & H)]; [auto|destruct H].
    - exists st'. split; auto. eapply found2_weak; [|exact F']. intros i' j' x [H'| ->] _ ((_ & (? & ? & p & q & _ & H & _)) & _); auto. right. split; auto.
      exists (Some (mk_host [p; q] [])). apply nth_error_numbered. rewrite Nat.sub_0_r. split; [lia|]. rewrite <- tool_at. exact H.
  Qed.


  Lemma scan2_lemma : exists points cases, foldM (object_step eps axis h tools) (combine (seq 0 (length objects)) objects) ([], []) = Ok (points, cases) /\
    length cases = length points /\
    (forall i j x, In ((i, j), x) (combine cases points) -> (i < k)%nat /\ (i < j)%nat /\ crossing h all i (k + j) x) /\
    (forall i j x, (i < k)%nat -> (i < j)%nat -> crossing h all i (k + j) x -> In ((i, j), x) (combine cases points)).
  Proof.
    destruct (foldM_inv (object_step eps axis h tools) (fun pre st => found2 (fun i' j' => exists t, In (i', t) pre) st)
      (combine (seq 0 (length objects)) objects)) with (s := ([] : list vec, [] : list (nat * nat))) as ((points & cases) & E & F').
    - intros pre [i e] s Hi Fs. apply nth_error_numbered in Hi as (_ & Hi). rewrite Nat.sub_0_r in Hi.
      destruct (object2_lemma _ i e s Hi Fs) as (s' & E & F'). exists s'. split; auto. eapply found2_weak; [|exact F'].
      intros i' j' x (t' & H) _ _; auto. apply in_app_iff in H as [H|[[= -> ->]|[]]]; eauto.
    - split; [reflexivity|]. split; [intros i j x H; destruct H|]. intros i j x (t & H); destruct H.
    - exists points, cases. split; auto. destruct F' as (F1 & F2 & F3). cbn [fst snd] in *. split; auto. split; auto.
      intros i j x Ik L C. apply F3; auto. destruct C as ((_ & (a & b & p & q & H & _)) & _). exists (Some (mk_host [a; b] [])).
      apply nth_error_numbered. rewrite Nat.sub_0_r. split; [lia|]. unfold edge_at, all in H. rewrite nth_error_app1 in H by exact Ik. exact H.
  Qed.

  Lemma pairs_lemma argsort_R argsort e_shift v_shift p_shift : is_argsort_R argsort_R -> is_argsort argsort ->
    exists new hosts es, intersect_edges argsort_R argsort eps h objects tools axis e_shift v_shift p_shift =
        Ok (h ++ new, hosts, (es, combine (seq (length h) (length new)) (consecutive (p_shift + 1) (length new)))) /\
      map fst new = consecutive v_shift (length new) /\ StronglySorted lex (map snd new) /\
      forall x, In x (map snd new) <-> exists i j, (i < k)%nat /\ (i < j)%nat /\ crossing h all i (k + j) x.
  Proof.
    intros A1 A2. destruct scan2_lemma as (points & cases & E & Len & F2 & F3). unfold intersect_edges. rewrite E. cbn [bind].
    set (X := unique_points points). destruct (unique_spec points) as (SX & IX). fold X in SX, IX.
    assert (X_in : forall x, In x X <-> exists i j, (i < k)%nat /\ (i < j)%nat /\ crossing h all i (k + j) x).
    { intros x. rewrite IX. split.
      - intros H. destruct (in_combine_point cases points x Len H) as ([i j] & H'). apply F2 in H'. eauto.
      - intros (i & j & Ik & L & C). apply F3 in C; auto. eapply in_combine_r; eauto. }
    destruct points as [|p0 ps].
    - exists [], objects, []. rewrite app_nil_r. cbn [length seq combine map]. do 2 (split; [reflexivity|]). split; [constructor|exact X_in].
    - set (new := map _ (combine (seq 0 (length X)) X)).
      assert (NS : map snd new = X).
      { unfold new. clear. clearbody X. rewrite map_map. cbn. generalize 0%nat. induction X as [|x l IH]; intros z; cbn; auto. f_equal. auto. }
      assert (NL : length new = length X) by (rewrite <- NS, map_length; auto).
      assert (NF : map fst new = consecutive v_shift (length X)).
      { unfold new, consecutive. clear. clearbody X. rewrite map_map. cbn. generalize 0%nat. induction X as [|x l IH]; intros z; cbn; auto. f_equal. auto. }
      cbv zeta.
      match goal with |- context [foldM (embed_step argsort_R argsort ?v cases) ?l (_, e_shift, _, _)] => destruct (loop_total argsort_R argsort A1 A2 (h ++ new) v cases l) with (t := e_shift) (hosts := @nil (option host)) (es := @nil (Z * list nat)) as (t' & hosts & es & R) end.
      + intros v Hv. apply in_map_iff in Hv as (x & <- & Hx). apply IX in Hx. apply position_spec in Hx. fold X. rewrite app_length, NL. apply Nat.add_lt_mono_l. apply nth_error_Some. congruence.
      + intros i e He. apply in_combine_r in He. destruct (net_edges _ _ _ _ N e) as (a & b & -> & Lab). { unfold all. apply in_app_iff. auto. }
        exists a, b. split; [reflexivity|]. intros x Hx. rewrite app_length. specialize (Lab x Hx). lia.
      + exists new, hosts, es. rewrite R. cbn [bind]. split; [do 3 f_equal; rewrite NL; symmetry; apply list_pairs|]. rewrite NS, NL. auto.
  Qed.
End Two.
