(** * Lemmas: an edge cut at its crossings *)
From Coq Require Import List Arith ZArith Bool Reals Lra Lia Permutation Sorted.
From Verif Require Import Base BaseProof VecBase VecProof GeoModel GeoSpec GeoProof LineProof3 VertexModel ShapeSpec VertexSpec EmbedModel EmbedSpec EmbedProof EmbedProof2 EmbedProof3 IntersectModel IntersectSpec IntersectProof IntersectProof2.
Import ListNotations.

Lemma unique_spec points : StronglySorted lex (unique_points points) /\ forall x, In x (unique_points points) <-> In x points.
Proof.
  destruct (firsts_all points) as (S & F). split; [exact S|]. intros x. unfold unique_points. rewrite in_map_iff. split.
  - intros ([p i] & E & H). cbn [fst] in E. subst p. apply F in H as (H & _). eapply nth_error_In; eauto.
  - intros H. assert (G : exists i, nth_error points i = Some x /\ forall j, nth_error points j = Some x -> (i <= j)%nat).
    { clear F S. induction points as [|q l IH]; [destruct H|]. destruct (vec_compare q x) eqn:E.
      - pose proof (vec_compare_spec q x) as C. rewrite E in C. subst q. exists 0%nat. split; auto. lia.
      - destruct H as [->|H]. { pose proof (vec_compare_spec x x) as C. rewrite E in C. apply lex_irrefl in C. tauto. }
        destruct (IH H) as (i & Hi & M). exists (S i). split; auto. intros [|k] Hk; [|apply le_n_S; auto]. injection Hk as ->.
        pose proof (vec_compare_spec x x) as C. rewrite E in C. apply lex_irrefl in C. tauto.
      - destruct H as [->|H]. { pose proof (vec_compare_spec x x) as C. rewrite E in C. apply lex_irrefl in C. tauto. }
        destruct (IH H) as (i & Hi & M). exists (S i). split; auto. intros [|k] Hk; [|apply le_n_S; auto]. injection Hk as ->.
        pose proof (vec_compare_spec x x) as C. rewrite E in C. apply lex_irrefl in C. tauto. }
    destruct G as (i & Hi). exists (x, i). split; auto. apply F. auto.
Qed.
Lemma position_spec x X : In x X -> nth_error X (position x X) = Some x.
Proof.
  induction X as [|y X IH]; [intros []|]. intros H. cbn [position]. pose proof (vec_compare_spec x y) as C. destruct (vec_compare x y); [subst; auto| |];
    (destruct H as [->|H]; [apply lex_irrefl in C; tauto|]); cbn; auto.
Qed.

Lemma first_members h vs us : first_of_each h vs us -> (forall u w, In u vs -> In w vs -> pt h u = pt h w -> u = w) -> forall u, In u us <-> In u vs.
Proof.
  intros (_ & F) J u. rewrite F. split; [intros (i & H & _); eapply nth_error_In; eauto|]. intros H. clear F.
  assert (G : exists i, nth_error vs i = Some u /\ forall j w, nth_error vs j = Some w -> w = u -> (i <= j)%nat).
  { clear J. induction vs as [|v vs IH]; [destruct H|]. destruct (Nat.eq_dec v u) as [->|D]; [exists 0%nat; split; auto; lia|]. destruct H as [->|H]; [tauto|].
    destruct (IH H) as (i & Hi & M). exists (S i). split; auto. intros [|j] w Hj E; [cbn in Hj; congruence|]. apply le_n_S. eapply M; eauto. }
  destruct G as (i & Hi & M). exists i. split; auto. intros j w Hj E. apply (M j w Hj). apply J; auto. eapply nth_error_In; eauto.
Qed.
Lemma strict_sorted {A} (key : A -> R) l : StronglySorted (fun x y => (key x <= key y)%R) l -> NoDup l -> (forall x y, In x l -> In y l -> key x = key y -> x = y) ->
  StronglySorted (fun x y => (key x < key y)%R) l.
Proof.
  induction l as [|a l IH]; intros S D J; constructor; inversion S; inversion D; subst.
  - apply IH; auto. intros x y Hx Hy. apply J; right; auto.
  - rewrite Forall_forall in *. intros x Hx. specialize (H2 x Hx). destruct H2 as [H2|H2]; auto. apply J in H2; [|left; auto|right; auto]. subst. tauto.
Qed.
Lemma list_ext {A} (l l' : list A) : (forall i, nth_error l i = nth_error l' i) -> l = l'.
Proof.
  revert l'. induction l as [|x l IH]; intros [|y l'] H; auto; try (specialize (H 0%nat); discriminate).
  pose proof (H 0%nat) as H0. injection H0 as ->. f_equal. apply IH. intros i. exact (H (S i)).
Qed.
Lemma joined_tags h shift l es : joined h shift l es -> map fst es = consecutive shift (length es).
Proof.
  intros (Len & H). apply list_ext. intros k. unfold consecutive. rewrite !nth_error_map. destruct (Nat.lt_ge_cases k (length es)) as [L|L].
  - destruct (nth_error l k) as [x|] eqn:Ex; [|apply nth_error_None in Ex; lia]. destruct (nth_error l (S k)) as [y|] eqn:Ey; [|apply nth_error_None in Ey; lia].
    destruct (H k x y Ex Ey) as (ends & E & _). rewrite E. rewrite (nth_error_nth' _ 0%nat) by (rewrite seq_length; auto). rewrite seq_nth by auto. cbn. f_equal. lia.
  - rewrite !(proj2 (nth_error_None _ _)); auto. rewrite seq_length. auto.
Qed.

Section Cut.
  Variable argsort_R : list R -> list nat.
  Variable argsort : list Z -> list nat.
  Hypothesis AR : is_argsort_R argsort_R.
  Hypothesis AZ : is_argsort argsort.
  Variable h : heap.
  Variable edges : list (option host).
  Variable eps : R.
  Variable axis : nat.
  Hypothesis N : clear_network h edges eps axis.
  Variable new : heap. (* the new vertices *)
  Variable X : list vec.
  Hypothesis new_X : map snd new = X.
  Hypothesis X_sorted : StronglySorted lex X.
  Hypothesis X_in : forall x, In x X <-> exists i, cut_point h edges i x.
  Notation h' := (h ++ new).
  Notation n := (length h).

  Lemma pt_old v : (v < n)%nat -> pt h' v = pt h v.
  Proof. intros L. unfold pt. rewrite app_nth1; auto. Qed.
  Lemma pt_new x : In x X -> (n <= n + position x X < length h')%nat /\ pt h' (n + position x X) = x.
  Proof.
    intros H. apply position_spec in H. subst X. rewrite nth_error_map in H. destruct (nth_error new (position x (map snd new))) as [[t y]|] eqn:E; [|discriminate].
    injection H as ->. assert (L : (position x (map snd new) < length new)%nat) by (apply nth_error_Some; congruence). rewrite app_length. split; [lia|].
    unfold pt. rewrite app_nth2 by lia. replace (n + _ - n)%nat with (position x (map snd new)) by lia. rewrite (nth_error_nth _ _ _ E). auto.
  Qed.

  Lemma cut_distinct i x a b : cut_point h edges i x -> edge_at edges i a b -> pt h a <> pt h b /\ on_segment (pt h a) (pt h b) x.
  Proof.
    intros (j & (D & a' & b' & p & q & Hi & Hj & S1 & S2) & _) Hi'. destruct (edge_same _ _ _ _ _ _ Hi Hi') as (-> & ->). split; [|auto].
    destruct (Nat.lt_gt_cases i j) as (LG & _). destruct (LG D) as [L|L].
    - assert (T := test_lemma eps axis (pt h a) (pt h b) (pt h p) (pt h q) (net_eps _ _ _ _ N)
        ltac:(eapply (net_plane _ _ _ _ N i a b i a b); cbn; auto) ltac:(eapply (net_plane _ _ _ _ N i a b j p q); cbn; auto)
        ltac:(eapply (net_plane _ _ _ _ N i a b j p q); cbn; auto) (net_definite _ _ _ _ N i j a b p q L Hi Hj)).
      destruct (segment_test _ _ _ _ _ _ _); [tauto|destruct (T x S1 S2)].
    - assert (T := test_lemma eps axis (pt h p) (pt h q) (pt h a) (pt h b) (net_eps _ _ _ _ N)
        ltac:(eapply (net_plane _ _ _ _ N j p q j p q); cbn; auto) ltac:(eapply (net_plane _ _ _ _ N j p q i a b); cbn; auto)
        ltac:(eapply (net_plane _ _ _ _ N j p q i a b); cbn; auto) (net_definite _ _ _ _ N j i p q a b L Hj Hi)).
      destruct (segment_test _ _ _ _ _ _ _); [tauto|destruct (T x S2 S1)].
  Qed.

  Lemma cut_lemma i a b vs shift : edge_at edges i a b -> vs <> [] -> (forall v, In v vs <-> exists x, cut_point h edges i x /\ v = (n + position x X)%nat) ->
    exists a' b' es out, embed_vertex_in_edge argsort_R argsort h' vs (mk_host [a; b] []) shift = Ok (h', mk_host [a'; b'] es, out) /\
      cut h' n (cut_point h edges i) a b a' b' es /\ map fst es = consecutive shift (length es).
  Proof.
    intros Hi Ne V. set (C := cut_point h edges i) in *. destruct (edge_live _ _ _ _ N _ _ _ Hi) as (La & Lb).
    assert (CX : forall x, C x -> In x X) by (intros x H; apply X_in; exists i; auto).
    assert (VP : forall v, In v vs -> C (pt h' v) /\ (n <= v < length h')%nat /\ v = (n + position (pt h' v) X)%nat).
    { intros v H. apply V in H as (x & H & ->). destruct (pt_new x (CX x H)) as (L & ->). auto. }
    assert (VC : forall x, C x -> exists v, In v vs /\ pt h' v = x).
    { intros x H. exists (n + position x X)%nat. split; [apply V; eauto|]. apply pt_new. auto. }
    assert (Pa : pt h' a = pt h a) by (apply pt_old; auto). assert (Pb : pt h' b = pt h b) by (apply pt_old; auto).
    assert (Lh : (n <= length h')%nat) by (rewrite app_length; lia).
    assert (L : live h' (a :: b :: vs)). { intros v [<-|[<-|H]]; [lia|lia|]. destruct (VP v H) as (_ & ? & _). lia. }
    destruct (run argsort_R argsort AR AZ h' vs (mk_host [a; b] []) shift a b L eq_refl) as (us & _ & _ & _ & _ & F & _ & _).
    assert (J : forall u w, In u vs -> In w vs -> pt h' u = pt h' w -> u = w).
    { intros u w Hu Hw E. destruct (VP u Hu) as (_ & _ & ->), (VP w Hw) as (_ & _ & ->). rewrite E. auto. }
    assert (U : forall u, In u us <-> In u vs) by (apply (first_members h'); auto).
    assert (Dab : pt h a <> pt h b). { destruct vs as [|v vs0]; [tauto|]. destruct (VP v) as (H & _); [left; auto|]. apply (cut_distinct _ _ _ _ H Hi). }
    assert (ME : forall x, C x -> exists j, meet h edges i j x). { intros x (j & M & _). eauto. }
    (* the ends *)
    assert (NE : forall u v, In u us -> In v [a; b] -> near_point (pt h' u) (pt h v) -> pt h' u = pt h v).
    { intros u v Hu Hv H. apply U in Hu. destruct (VP u Hu) as (Hc & _). destruct (ME _ Hc) as (j & M). apply (net_ends _ _ _ _ N i j _ a b v M Hi Hv H). }
    assert (NN : forall u w, In u us -> In w us -> near_point (pt h' u) (pt h' w) -> u = w).
    { intros u w Hu Hw H. apply U in Hu, Hw. destruct (VP u Hu) as (Hc & _). destruct (VP w Hw) as (Hc' & _). destruct (ME _ Hc) as (j & M), (ME _ Hc') as (k & M').
      apply J; auto. apply (net_points _ _ _ _ N i j _ i k _ M M' H). }
    assert (ER : forall v, In v [a; b] -> exists v', (In v' us /\ pt h' v' = pt h v) \/ (v' = v /\ forall u, In u us -> pt h' u <> pt h v)).
    { intros v _. clear - us. induction us as [|u us IH]; [exists v; right; auto|]. pose proof (vec_compare_spec (pt h' u) (pt h v)) as K. destruct (vec_compare (pt h' u) (pt h v)).
      { exists u. left. split; auto. left. auto. }
      all: destruct IH as (v' & [(H & E)|(-> & H)]); [exists v'; left; split; auto; right; auto|].
      all: exists v; right; split; auto; intros w [<-|Hw]; auto; intros E; rewrite E in K; apply lex_irrefl in K; auto. }
    assert (ET : forall v v', In v [a; b] -> pt h' v = pt h v -> (In v' us /\ pt h' v' = pt h v) \/ (v' = v /\ forall u, In u us -> pt h' u <> pt h v) ->
      end_taken h' n C v v' /\ (replaced h' (fun u => In u us) v v') /\ (forall u, In u us -> (u = v' <-> pt h' u = pt h v))).
    { intros v v' Iv Pv [(H & E)|(-> & H)].
      - split; [|split].
        + split; [congruence|]. left. rewrite Pv, <- E. apply U in H. destruct (VP v' H) as (? & ? & _). split; [auto|lia].
        + right. split; auto. split; [rewrite E, Pv; apply near_refl|]. intros u Hu D. rewrite Pv. split; [intros K|intros K; apply D; apply NN; auto].
          apply D. apply NN; auto. rewrite E. auto.
        + intros u Hu. split; [intros ->; auto|]. intros K. apply J; try apply U; auto. congruence.
      - split; [|split].
        + split; auto. right. split; auto. rewrite Pv. intros K. destruct (VC _ K) as (u & Hu & E). apply U in Hu. exact (H u Hu E).
        + left. split; auto. intros u Hu K. rewrite Pv in K. apply (H u Hu). apply NE; auto.
        + intros u Hu. split; [intros ->|]; intros; exfalso; eapply H; eauto. }
    destruct (ER a) as (a' & Ea); [cbn; auto|]. destruct (ER b) as (b' & Eb); [cbn; auto|].
    destruct (ET a a') as (Ta & Ra & Ia); [cbn; auto|auto|auto|]. destruct (ET b b') as (Tb & Rb & Ib); [cbn; auto|auto|auto|].
    assert (Pa' : pt h' a' = pt h a) by (destruct Ta; congruence). assert (Pb' : pt h' b' = pt h b) by (destruct Tb; congruence).
    assert (Rb' : replaced h' (fun u => In u us /\ u <> a') b b').
    { destruct Rb as [(-> & H)|(H1 & H2 & H3)]; [left; split; auto; intros u (Hu & _); auto|]. right. split; [split; auto|].
      - intros ->. apply Dab. congruence.
      - split; auto. intros u (Hu & _). auto. }
    destruct (embed_lemma argsort_R argsort AR AZ h' vs (mk_host [a; b] []) shift a b us a' b' L eq_refl F Ra Rb') as (es & out & E & O & So & Z0 & Z1).
    destruct (embed_line argsort_R argsort AR AZ h' vs (mk_host [a; b] []) shift a b us a' b' L eq_refl F Ra Rb') as (es' & out' & E' & _ & _ & K).
    { intros u Hu. apply U in Hu. destruct (VP u Hu) as (Hc & _). destruct (cut_distinct _ _ _ _ Hc Hi) as (_ & (t & T & Et)). exists t. rewrite Pa', Pb'. split; [lra|auto]. }
    rewrite E in E'. injection E' as <- <-. cbn [h_immersed app] in *.
    exists a', b', es, out. split; auto.
    assert (O' : forall u, In u out <-> In u us /\ pt h' u <> pt h a /\ pt h' u <> pt h b).
    { intros u. rewrite O. split; [intros (Hu & Da & Db & _); split; [auto|split]; intros Q; [apply Da, Ia|apply Db, Ib]; auto|]. intros (Hu & Da & Db). split; [auto|]. split; [intros Q; apply Da, Ia; auto|]. split; [intros Q; apply Db, Ib; auto|].
      assert (Hv := Hu). apply U in Hv. destruct (VP u Hv) as (Hc & _). destruct (ME _ Hc) as (j & M). destruct (cut_distinct _ _ _ _ Hc Hi) as (_ & (t & T & Et)).
      unfold dist, within. rewrite Pa', Pb'.
      assert (NI : forall v, In v [a; b] -> ~ near (norm (vsub (pt h' u) (pt h a))) (norm (vsub (pt h v) (pt h a)))).
      { intros v Hv'. apply (net_inside _ _ _ _ N i j _ a b v M Hi); auto. intros w [<-|[<-|[]]]; auto. }
      split; [apply norm_pos_ne; auto|]. split; [|split].
      - rewrite Et, along_norm by lra. assert (0 < norm (vsub (pt h b) (pt h a)))%R by (apply norm_pos_ne; auto).
        assert (t <> 1%R). { intros ->. apply Db. rewrite Et. unfold between. destruct (pt h a), (pt h b). unfold vadd, vscale, vsub. cbn. f_equal; ring. } nra.
      - specialize (NI a ltac:(cbn; auto)). rewrite vsub_self, norm_vzero in NI. auto.
      - apply (NI b). cbn; auto. }
    destruct out as [|o out].
    - rewrite Z0 by auto. split; [|reflexivity]. split; [auto|split; [auto|left; split; [auto|]]]. intros x Hx. destruct (VC x Hx) as (v & Hv & <-). rewrite Pa, Pb.
      pose proof (vec_compare_spec (pt h' v) (pt h a)) as K1. pose proof (vec_compare_spec (pt h' v) (pt h b)) as K2. apply U in Hv.
      destruct (vec_compare (pt h' v) (pt h a)); [auto| |]; (destruct (vec_compare (pt h' v) (pt h b)); [auto| |]); exfalso; apply (proj2 (O' v)); split; auto; split; intros Q; rewrite Q in *; eapply lex_irrefl; eauto.
    - destruct Z1 as (mid & Pm & Sm & Jm); [discriminate|]. assert (Jt := joined_tags _ _ _ _ Jm). split; auto. split; [auto|split; [auto|right]]. exists mid, shift.
      assert (IM : forall v, In v mid <-> In v (o :: out)) by (intros v; split; apply Permutation_in; auto; apply Permutation_sym; auto).
      split; [intros ->; apply Permutation_nil in Pm; discriminate|]. split; [|split; [|split; [|split; [auto|]]]].
      + intros x. rewrite in_map_iff. split.
        * intros (v & <- & Hv). apply IM, O' in Hv as (Hv & Da & Db). apply U in Hv. rewrite Pa, Pb. destruct (VP v Hv). auto.
        * intros (Hc & Da & Db). rewrite Pa in Da. rewrite Pb in Db. destruct (VC x Hc) as (v & Hv & <-). exists v. split; auto. apply IM, O'. split; auto. apply U. auto.
      + intros v Hv. apply IM, O' in Hv as (Hv & _). apply U in Hv. destruct (VP v Hv) as (_ & ? & _). auto.
      + apply strict_sorted; auto.
        * apply (Permutation_NoDup (Permutation_sym Pm)). apply (NoDup_map_inv (pt h')). clear - So. induction So as [|x l S IH F]; constructor; auto. intros Hx. rewrite Forall_forall in F. apply F in Hx. eapply lex_irrefl; eauto.
        * intros u w Hu Hw Q. apply IM, O' in Hu as (Hu & _), Hw as (Hw & _). apply U in Hu, Hw. apply J; auto. destruct (VP u Hu) as (Hc & _), (VP w Hw) as (Hc' & _).
          destruct (cut_distinct _ _ _ _ Hc Hi) as (_ & (t & T & Et)), (cut_distinct _ _ _ _ Hc' Hi) as (_ & (t' & T' & Et')).
          unfold dist in Q. rewrite Pa', Et, Et', !along_norm in Q by lra. assert (0 < norm (vsub (pt h b) (pt h a)))%R by (apply norm_pos_ne; auto).
          assert (t = t') by nra. congruence.
      + intros q. rewrite Pa, Pb, <- Pa', <- Pb'. apply K. discriminate.
  Qed.
End Cut.
