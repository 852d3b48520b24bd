(** * Lemmas: intersected edges *)
From Coq Require Import List Arith ZArith Bool Reals Lra Lia Permutation Sorted.
From Verif Require Import Base BaseProof VecBase VecProof GeoModel GeoSpec GeoProof VertexModel ShapeSpec VertexSpec EmbedModel EmbedSpec EmbedProof IntersectModel IntersectSpec IntersectProof2 IntersectProof3.
Import ListNotations.

Lemma consecutive_app s m k : consecutive s (m + k) = consecutive s m ++ consecutive (s + Z.of_nat m) k.
Proof.
  unfold consecutive. rewrite seq_app, map_app. f_equal. cbn.
  replace m with (m + 0)%nat at 1 by lia. generalize 0%nat. induction k as [|k IH]; intros z; cbn; auto. f_equal; [lia|]. rewrite <- IH. do 3 f_equal. lia.
Qed.
Lemma max_consecutive s m : forall j, fold_left Z.max (map (fun k => (s + Z.of_nat k)%Z) (seq (S j) m)) (s + Z.of_nat j)%Z = (s + Z.of_nat j + Z.of_nat m)%Z.
Proof.
  induction m as [|m IH]; intros j; cbn [seq map fold_left]; [lia|]. replace (Z.max _ _) with (s + Z.of_nat (S j))%Z by lia. rewrite IH. lia.
Qed.
Lemma next_tag shift t ends (es : list (Z * list nat)) : map fst ((t, ends) :: es) = consecutive shift (S (length es)) ->
  (fold_left Z.max (map fst es) t + 1 = shift + Z.of_nat (S (length es)))%Z.
Proof.
  unfold consecutive. cbn [seq map fst]. intros H. injection H as -> ->. rewrite max_consecutive. lia.
Qed.

Lemma forall2_nth {A B} (R : A -> B -> Prop) l l' : Forall2 R l l' -> forall k a, nth_error l k = Some a -> exists b, nth_error l' k = Some b /\ R a b.
Proof.
  intros F. induction F as [|x y l l' H F IH]; intros [|k] a Hk; try discriminate.
  - injection Hk as ->. exists y. auto.
  - exact (IH k a Hk).
Qed.

Lemma list_pairs s m k : combine (seq m k) (consecutive s k) = map (fun z => ((m + z)%nat, (s + Z.of_nat z)%Z)) (seq 0 k).
Proof.
  unfold consecutive. replace m with (m + 0)%nat at 1 by lia. generalize 0%nat. induction k as [|k IH]; intros z; cbn; auto. f_equal. rewrite <- IH. do 2 f_equal. lia.
Qed.

Section Loop.
  Variable argsort_R : list R -> list nat.
  Variable argsort : list Z -> list nat.
  Hypothesis AR : is_argsort_R argsort_R.
  Hypothesis AZ : is_argsort argsort.
  Variable h : heap.
  Variable edges : list (option host).
  Variable eps : R.
  Variable axis : nat.
  Hypothesis N : clear_network h edges eps axis.
  Variables (e_shift v_shift p_shift : Z).
  Notation n := (length h).

  Definition treated (h' : heap) (ie : nat * option host) (e' : option host) : Prop :=
    match snd ie with
    | None => e' = None
    | Some e => exists a b a' b' es, e = mk_host [a; b] [] /\ e' = Some (mk_host [a'; b'] es) /\ cut h' n (cut_point h edges (fst ie)) a b a' b' es
    end.

  Lemma uncut h' i a b : (forall x, ~ cut_point h edges i x) -> cut h' n (cut_point h edges i) a b a b [].
  Proof.
    intros H. split; [|split].
    - split; auto.
    - split; auto.
    - left. split; auto. intros x Hx. destruct (H x Hx).
  Qed.

  Lemma loop_lemma new points cases : length cases = length points ->
    (forall i j x, In ((i, j), x) (combine cases points) -> (i < j)%nat /\ crossing h edges i j x) ->
    (forall i j x, (i < j)%nat -> crossing h edges i j x -> In ((i, j), x) (combine cases points)) ->
    map snd new = unique_points points ->
    exists tag hosts es, foldM (embed_step argsort_R argsort (map (fun p => (n + position p (unique_points points))%nat) points) cases) (combine (seq 0 (length edges)) edges) (h ++ new, e_shift, [], []) =
      Ok (h ++ new, tag, hosts, es) /\ Forall2 (treated (h ++ new)) (combine (seq 0 (length edges)) edges) hosts /\
      es = concat (map immersed_in hosts) /\ map fst es = consecutive e_shift (length es).
  Proof.
    intros Len F2 F3 NX. set (X := unique_points points) in *. destruct (unique_spec points) as (SX & IX). fold X in SX, IX.
    assert (X_in : forall x, In x X <-> exists i, cut_point h edges i x).
    { intros x. rewrite IX. split.
      - intros H. destruct (in_combine_point cases points x Len H) as ([i j] & H'). apply F2 in H' as (_ & H'). exists i, j. auto.
      - intros (i & j & C). pose proof C as ((D & _) & _). destruct (Nat.lt_gt_cases i j) as (LG & _). destruct (LG D) as [L|L].
        + apply F3 in C; auto. eapply in_combine_r; eauto.
        + apply crossing_sym in C. apply F3 in C; auto. eapply in_combine_r; eauto. }
    set (cv := map (fun p => (n + position p X)%nat) points).
    assert (CV : forall c v, In (c, v) (combine cases cv) <-> exists x, In (c, x) (combine cases points) /\ v = (n + position x X)%nat).
    { intros c v. subst cv. clearbody X. clear - Len. revert points Len. induction cases as [|c' cs IH]; intros [|x ps] Len; try discriminate; cbn; [split; [tauto|intros (? & [] & _)]|].
      injection Len as Len. rewrite (IH ps Len). split.
      - intros [[= -> <-]|(y & H & ->)]; [exists x; auto|exists y; auto].
      - intros (y & [[= -> ->]|H] & ->); [left; auto|right; eauto]. }
    destruct (foldM_inv (embed_step argsort_R argsort cv cases) (fun pre st => exists tag hosts es, st = (h ++ new, tag, hosts, es) /\ Forall2 (treated (h ++ new)) pre hosts /\
      es = concat (map immersed_in hosts) /\ map fst es = consecutive e_shift (length es) /\ tag = (e_shift + Z.of_nat (length es))%Z) (combine (seq 0 (length edges)) edges))
      with (s := (h ++ new, e_shift, [] : list (option host), [] : list (Z * list nat))) as (st & E & tag & hosts & es & -> & H).
    2:{ exists e_shift, [], []. cbn. repeat split; auto. lia. }
    2:{ exists tag, hosts, es. tauto. }
    intros pre [i e] s Hi (tag & hosts & es & -> & FA & EC & ET & Etag). apply nth_error_numbered in Hi as (_ & Hi). rewrite Nat.sub_0_r in Hi. unfold embed_step. cbn [fst snd].
    destruct e as [e|].
    2:{ eexists. split; [reflexivity|]. exists tag, (hosts ++ [None]), es. repeat split; auto.
        - apply Forall2_app; auto. constructor; [reflexivity|constructor].
        - rewrite map_app, concat_app. cbn. rewrite app_nil_r. auto. }
    destruct (entry_edge _ _ _ _ N _ _ Hi) as (a & b & -> & Hi').
    set (vs := map snd (filter _ _)).
    assert (V : forall v, In v vs <-> exists x, cut_point h edges i x /\ v = (n + position x X)%nat).
    { intros v. subst vs. rewrite in_map_iff. split.
      - intros ([[k l] v'] & <- & H). apply filter_In in H as (H & B). cbn [fst snd] in *. apply CV in H as (x & H & ->). apply F2 in H as (_ & H). exists x. split; auto.
        apply orb_true_iff in B as [B|B]; apply Nat.eqb_eq in B; subst; [exists l|exists k; apply crossing_sym]; auto.
      - intros (x & (j & C) & ->). pose proof C as ((D & _) & _). destruct (Nat.lt_gt_cases i j) as (LG & _). destruct (LG D) as [L|L].
        + exists ((i, j), (n + position x X)%nat). split; auto. apply filter_In. split; [apply CV; exists x; split; auto|]. cbn. rewrite Nat.eqb_refl. auto.
        + exists ((j, i), (n + position x X)%nat). split; auto. apply filter_In. split; [apply CV; exists x; split; auto using crossing_sym|]. cbn. rewrite Nat.eqb_refl. apply orb_true_r. }
    destruct vs as [|v0 vs0] eqn:Evs.
    { eexists. split; [reflexivity|]. exists tag, (hosts ++ [Some (mk_host [a; b] [])]), es. repeat split; auto.
      - apply Forall2_app; auto. constructor; [|constructor]. exists a, b, a, b, []. split; [auto|split; [auto|]]. apply uncut. intros x Hx. apply (proj2 (V (n + position x X)%nat)). eauto.
      - rewrite map_app, concat_app. cbn. rewrite app_nil_r. auto. }
    rewrite <- Evs in *. destruct (cut_lemma argsort_R argsort AR AZ h edges eps axis N new X NX SX X_in i a b vs tag Hi' ltac:(rewrite Evs; discriminate) V) as (a' & b' & es' & out & EE & Cut & T).
    rewrite EE. cbn [bind h_immersed].
    assert (TR : treated (h ++ new) (i, Some (mk_host [a; b] [])) (Some (mk_host [a'; b'] es'))) by (exists a, b, a', b', es'; auto).
    destruct es' as [|[t ends] es'].
    { eexists. split; [reflexivity|]. exists tag, (hosts ++ [Some (mk_host [a'; b'] [])]), es. split; [auto|]. split; [apply Forall2_app; auto|]. split; [|split; [auto|auto]].
      rewrite map_app, concat_app. cbn. rewrite app_nil_r. auto. }
    eexists. split; [reflexivity|]. eexists _, _, _. split; [reflexivity|]. split; [apply Forall2_app; auto|]. split; [|split].
    - rewrite map_app, concat_app, <- EC. cbn. rewrite app_nil_r. auto.
    - rewrite map_app, app_length, consecutive_app, <- ET, <- Etag, T. auto.
    - pose proof (next_tag _ _ _ _ T) as Q. rewrite app_length. cbn [length] in *. rewrite Q, Etag. lia.
  Qed.

  Lemma treated_all h' hosts : Forall2 (treated h') (combine (seq 0 (length edges)) edges) hosts ->
    length hosts = length edges /\ (forall i, nth_error edges i = Some None -> nth_error hosts i = Some None) /\
    forall i a b, edge_at edges i a b -> exists a' b' es, nth_error hosts i = Some (Some (mk_host [a'; b'] es)) /\ cut h' n (cut_point h edges i) a b a' b' es.
  Proof.
    intros F. assert (Len : length (combine (seq 0 (length edges)) edges) = length hosts) by (clear - F; induction F; cbn; auto). rewrite combine_length, seq_length, Nat.min_id in Len. split; [auto|].
    assert (G : forall i e, nth_error edges i = Some e -> exists e', nth_error hosts i = Some e' /\ treated h' (i, e) e').
    { intros i e Hi. assert (L : (i < length edges)%nat) by (apply nth_error_Some; congruence).
      assert (Hc : nth_error (combine (seq 0 (length edges)) edges) i = Some (i, e)).
      { rewrite (nth_error_nth' _ (0%nat, e)) by (rewrite combine_length, seq_length; lia). rewrite combine_nth by (rewrite seq_length; auto). rewrite seq_nth by auto. rewrite (nth_error_nth _ _ _ Hi). auto. }
      exact (forall2_nth _ _ _ F _ _ Hc). }
    split.
    - intros i Hi. destruct (G i None Hi) as (e' & He & T). cbn in T. subst. auto.
    - intros i a b Hi. destruct (G i _ Hi) as (e' & He & T). destruct T as (a0 & b0 & a' & b' & es & [= <- <-] & -> & C). eauto.
  Qed.

  Lemma intersect_lemma : exists new hosts es,
    intersect_edges argsort_R argsort eps h edges edges axis e_shift v_shift p_shift =
      Ok (h ++ new, hosts, (es, combine (seq n (length new)) (consecutive (p_shift + 1) (length new)))) /\
    map fst new = consecutive v_shift (length new) /\
    StronglySorted lex (map snd new) /\ (forall x, In x (map snd new) <-> exists i, cut_point h edges i x) /\
    es = concat (map immersed_in hosts) /\ map fst es = consecutive e_shift (length es) /\
    length hosts = length edges /\ (forall i, nth_error edges i = Some None -> nth_error hosts i = Some None) /\
    forall i a b, edge_at edges i a b -> exists a' b' es_i, nth_error hosts i = Some (Some (mk_host [a'; b'] es_i)) /\
      cut (h ++ new) n (cut_point h edges i) a b a' b' es_i.
  Proof.
    destruct (scan_lemma h edges eps axis N) as (points & cases & E & Len & F2 & F3). unfold intersect_edges. rewrite E. cbn [bind].
    set (X := unique_points points). destruct (unique_spec points) as (SX & IX). fold X in SX, IX.
    assert (X_in : forall x, In x X <-> exists i, cut_point h edges i x).
    { intros x. rewrite IX. split.
      - intros H. destruct (in_combine_point cases points x Len H) as ([i j] & H'). apply F2 in H' as (_ & H'). exists i, j. auto.
      - intros (i & j & C). pose proof C as ((D & _) & _). destruct (Nat.lt_gt_cases i j) as (LG & _). destruct (LG D) as [L|L].
        + apply F3 in C; auto. eapply in_combine_r; eauto.
        + apply crossing_sym in C. apply F3 in C; auto. eapply in_combine_r; eauto. }
    destruct points as [|p0 ps].
    - exists [], edges, []. cbn [length combine seq map app]. rewrite app_nil_r. split; [reflexivity|]. split; [reflexivity|]. split; [constructor|]. split; [exact X_in|].
      assert (NC : forall i x, ~ cut_point h edges i x) by (intros i x H; apply (proj2 (X_in x)); eauto).
      split; [|split; [reflexivity|split; [auto|split; [auto|]]]].
      + symmetry. assert (Z : forall e, In e edges -> immersed_in e = []). { intros [e|] He; [|reflexivity]. destruct (net_edges _ _ _ _ N _ He) as (a & b & -> & _). reflexivity. }
        clear - Z. induction edges as [|e l IH]; cbn; auto. rewrite Z by (left; auto). apply IH. intros; apply Z; right; auto.
      + intros i a b Hi. exists a, b, []. split; auto. apply uncut. auto.
    - set (new := map _ (combine (seq 0 (length X)) X)).
      assert (NS : map snd new = X).
      { unfold new. clear. clearbody X. rewrite map_map. cbn. generalize 0%nat. induction X as [|x l IH]; intros z; cbn; auto. f_equal. auto. }
      assert (NL : length new = length X) by (rewrite <- NS, map_length; auto).
      assert (NF : map fst new = consecutive v_shift (length X)).
      { unfold new, consecutive. clear. clearbody X. rewrite map_map. cbn. generalize 0%nat. induction X as [|x l IH]; intros z; cbn; auto. f_equal. auto. }
      destruct (loop_lemma new (p0 :: ps) cases Len F2 F3 NS) as (tag & hosts & es & EL & T & EC & ET). fold X in EL. rewrite EL. cbn [bind].
      destruct (treated_all _ _ T) as (L1 & L2 & L3). exists new, hosts, es. split.
      + do 3 f_equal. rewrite NL. symmetry. apply list_pairs.
      + rewrite NS, NL. tauto.
  Qed.
End Loop.
