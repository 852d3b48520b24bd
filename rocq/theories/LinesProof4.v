(** * Lemmas: a box with lines *)
From Coq Require Import List Arith ZArith Bool Reals Lia Permutation Sorted.
From Verif Require Import Base BaseProof VecBase GeoModel GeoSpec GeoProof2 ShapeModel ShapeSpec ShapeProof BoxProof VertexModel VertexSpec TagModel EmbedModel EmbedSpec EmbedProof EmbedProof2 EmbedProof3 IntersectModel IntersectSpec IntersectProof2 IntersectProof3 IntersectProof4 QueryModel QuerySpec QueryProof LinesModel LinesSpec LinesProof LinesProof2 LinesProof3.
Import ListNotations.

Lemma forall2_seq {A B} (R : A -> B -> Prop) (f : nat -> A) : forall l s, (forall k x, nth_error l k = Some x -> R (f (s + k)) x) -> Forall2 R (map f (seq s (length l))) l.
Proof.
  induction l as [|x l IH]; intros s H; cbn [length seq map]; [constructor|]. constructor; [specialize (H 0 x eq_refl); rewrite Nat.add_0_r in H; auto|].
  apply IH. intros k y Hy. replace (S s + k) with (s + S k) by lia. apply H. auto.
Qed.
Lemma seq_sorted : forall k s, StronglySorted lt (seq s k).
Proof. induction k as [|k IH]; intros s; cbn; constructor; auto. apply Forall_forall. intros x Hx. apply in_seq in Hx. lia. Qed.
Lemma vec_dec (p q : vec) : {p = q} + {p <> q}.
Proof. destruct p as [x y z], q as [x' y' z']. destruct (Req_EM_T x x'), (Req_EM_T y y'), (Req_EM_T z z'); subst; auto; right; intros [=]; auto. Qed.
Lemma nth_network n m k : nth_error (network n m) k =
  if k <? n then Some (Some (mk_host (side n k) [])) else if k =? n then Some None else if k <? n + 1 + m then Some (Some (mk_host [n + 2 * (k - n - 1); n + 2 * (k - n - 1) + 1] [])) else None.
Proof.
  unfold network. destruct (Nat.ltb_spec k n) as [L|L].
  - rewrite nth_error_app1 by (rewrite map_length, seq_length; auto). rewrite (map_nth_error _ k (seq 0 n) (d := k)); auto. rewrite (nth_error_nth' _ 0) by (rewrite seq_length; auto). rewrite seq_nth; auto.
  - rewrite nth_error_app2 by (rewrite map_length, seq_length; auto). rewrite map_length, seq_length. destruct (Nat.eqb_spec k n) as [->|Ne]; [rewrite Nat.sub_diag; auto|].
    replace (k - n) with (S (k - n - 1)) by lia. cbn [nth_error]. destruct (Nat.ltb_spec k (n + 1 + m)) as [L'|L'].
    + rewrite (map_nth_error _ _ (seq 0 m) (d := k - n - 1)); [do 5 f_equal; lia|]. rewrite (nth_error_nth' _ 0) by (rewrite seq_length; lia). rewrite seq_nth by lia. auto.
    + apply nth_error_None. rewrite map_length, seq_length. lia.
Qed.
Lemma length_network n m : length (network n m) = n + 1 + m.
Proof. unfold network. rewrite app_length. cbn [length]. rewrite !map_length, !seq_length. lia. Qed.
Lemma entry_network n m k : k < n + 1 + m -> k <> n -> exists a b, edge_at (network n m) k a b.
Proof.
  intros Hk Nk. unfold edge_at. rewrite nth_network. destruct (k <? n); [unfold side; destruct (S k =? n); eauto|]. destruct (Nat.eqb_spec k n); [lia|]. destruct (Nat.ltb_spec k (n + 1 + m)); [eauto|lia].
Qed.

Section Cut.
  Variables (h0 new : heap) (edges hosts : list (option host)) (eps : R).
  Hypothesis clear : clear_network h0 edges eps 2.
  Notation h := (h0 ++ new).
  Notation L := (length h0).
  Hypothesis sorted : StronglySorted lex (map snd new).
  Hypothesis points : forall x, In x (map snd new) <-> exists i, cut_point h0 edges i x.
  Hypothesis cuts : forall i a b, edge_at edges i a b -> exists a' b' es, nth_error hosts i = Some (Some (mk_host [a'; b'] es)) /\ cut h L (cut_point h0 edges i) a b a' b' es.
  Hypothesis same_length : length hosts = length edges.
  Hypothesis wires : forall i, nth_error edges i = Some None -> nth_error hosts i = Some None.

  Lemma old_pt x : x < L -> pt h x = pt h0 x.
  Proof. clear clear points cuts same_length wires. intros H. unfold pt. rewrite app_nth1; auto. Qed.
  Lemma edge_live' i a b : edge_at edges i a b -> a < L /\ b < L.
  Proof.
    intros H. destruct (net_edges _ _ _ _ clear (mk_host [a; b] [])) as (a1 & b1 & Q & Lv); [eapply nth_error_In; eauto|]. injection Q as <- <-. split; apply Lv; cbn; auto.
  Qed.
  Lemma end_live (C : vec -> Prop) v v' : v < L -> end_taken h L C v v' -> v' < length h.
  Proof. clear clear points cuts same_length wires. intros H (_ & [(_ & ?)|(_ & ->)]); [lia|]. rewrite app_length. lia. Qed.
  Lemma new_unique x y : L <= x < length h -> L <= y < length h -> pt h x = pt h y -> x = y.
  Proof. clear clear points cuts same_length wires.
    rewrite app_length. intros Hx Hy E. unfold pt in E. rewrite !app_nth2 in E by lia. rewrite <- !(map_nth snd) in E.
    assert (ND : NoDup (map snd new)). { clear - sorted. induction sorted as [|p l S IH F]; constructor; auto. intros H. rewrite Forall_forall in F. apply F in H. apply lex_irrefl in H. auto. }
    rewrite NoDup_nth with (d := snd (0%Z, vzero)) in ND. specialize (ND (x - L) (y - L)). rewrite map_length in ND. specialize (ND ltac:(lia) ltac:(lia) E). lia.
  Qed.
  Lemma host_sound k e : nth_error hosts k = Some (Some e) -> sound h e.
  Proof.
    intros H. destruct (nth_error edges k) as [[e0|]|] eqn:E.
    - destruct (net_edges _ _ _ _ clear e0) as (a & b & -> & _); [eapply nth_error_In; eauto|]. destruct (cuts k a b E) as (a' & b' & q & E' & Ta & Tb & C). assert (e = mk_host [a'; b'] q) as -> by congruence.
      destruct (edge_live' _ _ _ E) as (La & Lb). exists a', b'. split; [auto|]. split; [intros v [<-|[<-|[]]]; [apply (end_live (cut_point h0 edges k) a); auto|apply (end_live (cut_point h0 edges k) b); auto]|].
      destruct C as [(-> & _)|(mid & shift & Ne & _ & M & _ & J & _)]; [left; auto|right]. exists mid, shift. split; [auto|]. split; [intros v Hv; apply M in Hv; lia|auto].
    - rewrite (wires k E) in H. discriminate.
    - apply nth_error_None in E. assert (k < length hosts) by (apply nth_error_Some; congruence). lia.
  Qed.
  Lemma member_spec x : member hosts x <-> x = 0 \/ L <= x < length h \/ exists i a b, edge_at edges i a b /\ In x [a; b] /\ ~ cut_point h0 edges i (pt h0 x).
  Proof.
    split.
    - intros [->|(k & e & E & M)]; auto. right. destruct (nth_error edges k) as [[e0|]|] eqn:E0.
      + destruct (net_edges _ _ _ _ clear e0) as (a & b & -> & _); [eapply nth_error_In; eauto|]. destruct (cuts k a b E0) as (a' & b' & q & E' & Ta & Tb & C). assert (e = mk_host [a'; b'] q) as -> by congruence.
        destruct (edge_live' _ _ _ E0) as (La & Lb). cbn [h_ends h_immersed] in M.
        assert (EN : forall v v', In v [a; b] -> v < L -> end_taken h L (cut_point h0 edges k) v v' -> L <= v' < length h \/ exists i a b, edge_at edges i a b /\ In v' [a; b] /\ ~ cut_point h0 edges i (pt h0 v')).
        { intros v v' Iv Lv (_ & [(_ & K)|(K & ->)]); [left; auto|right]. exists k, a, b. rewrite old_pt in K by auto. auto. }
        assert (ENS : In x [a'; b'] -> L <= x < length h \/ exists i a b, edge_at edges i a b /\ In x [a; b] /\ ~ cut_point h0 edges i (pt h0 x)).
        { intros [<-|[<-|[]]]; [apply (EN a)|apply (EN b)]; cbn; auto. }
        destruct M as [M|(s & Hs & M)]; [auto|]. destruct C as [(-> & _)|(mid & shift & Ne & _ & Mi & _ & J & _)]; [destruct Hs|]. destruct s as [i ends]. destruct (joined_ends h _ _ _ J) as (J1 & _). apply (J1 i ends x Hs) in M.
        destruct M as [<-|M]; [apply ENS; left; auto|]. apply in_app_iff in M as [M|[<-|[]]]; [left; apply Mi; auto|apply ENS; right; left; auto].
      + rewrite (wires k E0) in E. discriminate.
      + apply nth_error_None in E0. assert (k < length hosts) by (apply nth_error_Some; congruence). lia.
    - intros [->|[Hx|(i & a & b & E & Ix & NC)]]; [left; auto| |].
      + right. assert (P : In (pt h x) (map snd new)).
        { unfold pt. rewrite app_nth2 by lia. apply in_map, nth_In. rewrite app_length in Hx. lia. }
        apply points in P as (i & C). destruct C as (j & (Ne & a & b & p & q & Ei & Hc) & Hc'). assert (C : cut_point h0 edges i (pt h x)) by (exists j; split; [split; [auto|exists a, b, p, q; auto]|auto]).
        destruct (cuts i a b Ei) as (a' & b' & es & E' & Ta & Tb & K). exists i, (mk_host [a'; b'] es). split; auto. destruct (edge_live' _ _ _ Ei) as (La & Lb).
        assert (EN : forall v v', v < L -> end_taken h L (cut_point h0 edges i) v v' -> pt h x = pt h v -> v' = x).
        { intros v v' Lv (Pv & [(_ & Lv')|(NC & _)]) Q; [apply new_unique; auto; congruence|]. destruct NC. congruence. }
        destruct (vec_dec (pt h x) (pt h a)) as [Qa|Qa]; [left; left; apply (EN a); auto|]. destruct (vec_dec (pt h x) (pt h b)) as [Qb|Qb]; [left; right; left; apply (EN b); auto|].
        right. destruct K as [(_ & K)|(mid & shift & Nm & Pm & Mi & _ & J & _)]; [destruct (K _ C); contradiction|].
        assert (I : In (pt h x) (map (pt h) mid)) by (apply Pm; auto). apply in_map_iff in I as (v & Qv & Iv). assert (v = x) as -> by (apply new_unique; auto).
        destruct (joined_ends h _ _ _ J) as (_ & J2 & _). destruct (J2 ltac:(cbn; rewrite app_length; cbn; lia) x) as (k & ends & Hk & Hv); [right; apply in_app_iff; auto|]. exists (k, ends). auto.
      + right. destruct (cuts i a b E) as (a' & b' & es & E' & Ta & Tb & _). exists i, (mk_host [a'; b'] es). split; auto. left. cbn [h_ends]. destruct (edge_live' _ _ _ E) as (La & Lb).
        destruct Ix as [<-|[<-|[]]]; [left; destruct Ta as (_ & [(K & _)|(_ & K)])|right; left; destruct Tb as (_ & [(K & _)|(_ & K)])]; auto; rewrite old_pt in K by auto; contradiction.
  Qed.
  Lemma member_live x : 0 < L -> member hosts x -> x < length h.
  Proof.
    intros L0 M. apply member_spec in M as [->|[M|(i & a & b & E & Ix & _)]]; [rewrite app_length; lia|lia|]. destruct (edge_live' _ _ _ E). rewrite app_length. destruct Ix as [<-|[<-|[]]]; lia.
  Qed.
End Cut.

Section Drawn.
  Variables (n m : nat) (h : heap) (vphys : list (option Z)) (area : option Z) (hosts : list (option host)) (phys : list (option Z)) (es : list (Z * list nat)).
  Hypothesis len : length hosts = n + 1 + m.
  Hypothesis at_wire : nth_error hosts n = Some None.
  Hypothesis at_edge : forall k, k < n + 1 + m -> k <> n -> exists e, nth_error hosts k = Some (Some e) /\ sound h e.
  Hypothesis all_subs : es = concat (map immersed_in hosts).
  Notation N := (mk_net h vphys n [0; 0] area hosts phys es).
  Variable t : nat -> Z.

  Lemma points_live l : live h l -> map s_point (map (vertex_tree N t) l) = map (fun x => Some (pt h x)) l.
  Proof. intros H. rewrite map_map. apply map_ext_in. intros x Hx. apply (vertex_live n h vphys area hosts phys es t x). auto. Qed.
  Lemma tags_of l : map s_tag (map (vertex_tree N t) l) = map t l.
  Proof. rewrite map_map. reflexivity. Qed.
  Lemma drawn_sub j : j < length es -> drawn h t (sub_tree N t j) (snd (nth j es (0%Z, []))).
  Proof.
    intros Hj. destruct (subs_all n m h vphys area hosts phys es len all_subs j Hj) as (k & Hk & I). destruct (Nat.eq_dec k n) as [->|Nk].
    { unfold subs_of in I. cbn [n_hosts] in I. rewrite (nth_error_nth _ _ None at_wire) in I. destruct I. }
    split; [reflexivity|]. unfold sub_tree. cbn [s_boundary n_subs]. split; [apply tags_of|]. apply points_live.
    destruct (at_edge k Hk Nk) as (e & E & a & b & Ee & Lv & IM). assert (Q := subs_block n h vphys area hosts phys es all_subs k _ E). cbn [immersed_in] in Q.
    assert (I' : In (nth j es (0%Z, [])) (h_immersed e)) by (rewrite <- Q; apply (in_map (fun j => nth j es (0%Z, []))); auto).
    destruct IM as [IM|(mid & shift & _ & Lm & J)]; [rewrite IM in I'; destruct I'|]. destruct (joined_ends h _ _ _ J) as (J1 & _ & _). destruct (nth j es (0%Z, [])) as [i ends] eqn:Ej. cbn [snd]. intros v Hv. apply (J1 _ _ v I') in Hv.
    destruct Hv as [<-|Hv]; [apply Lv; cbn; auto|]. apply in_app_iff in Hv as [Hv|[<-|[]]]; [apply Lm; auto|apply Lv; cbn; auto].
  Qed.
  Lemma subs_live k j : In j (subs_of N k) -> nth_error hosts k <> None -> j < length es.
  Proof.
    intros H Nk. destruct (nth_error hosts k) as [e|] eqn:E; [|tauto]. unfold subs_of in H. cbn [n_hosts] in H. rewrite (nth_error_nth _ _ None E) in H. apply in_seq in H. rewrite all_subs.
    rewrite (firstn_split _ _ _ E) in H. rewrite (firstn_split _ _ _ E), map_app, concat_app, app_length. cbn [map concat]. rewrite app_length.
    assert (Q : forall l, length (concat (map immersed_in l)) = list_sum (map n_immersed l)) by (intros l; induction l as [|[e'|] l IH]; cbn; auto; rewrite app_length, IH; auto).
    rewrite Q. assert (length (immersed_in e) = n_immersed e) by (destruct e; reflexivity).
    rewrite firstn_app, firstn_firstn, Nat.min_id in H. assert (Lk : length (firstn k hosts) = k) by (rewrite firstn_length; assert (k < length hosts) by (apply nth_error_Some; congruence); lia). rewrite Lk, Nat.sub_diag in H. cbn [firstn] in H. rewrite app_nil_r in H. lia.
  Qed.
  Lemma drawn_subs k e : nth_error hosts k = Some (Some e) -> Forall2 (fun c s => drawn h t c (snd s)) (map (sub_tree N t) (subs_of N k)) (h_immersed e).
  Proof.
    intros E. assert (Q := subs_block n h vphys area hosts phys es all_subs k _ E). cbn [immersed_in] in Q. rewrite <- Q.
    assert (Lv : forall j, In j (subs_of N k) -> j < length es) by (intros j Hj; eapply subs_live; eauto; congruence).
    revert Lv. generalize (subs_of N k). intros l Lv. induction l as [|j l IH]; cbn; constructor; [apply drawn_sub, Lv; left; auto|apply IH; intros i Hi; apply Lv; right; auto].
  Qed.
  Lemma drawn_edge k e : nth_error hosts k = Some (Some e) -> drawn h t (edge_tree N t k) (h_ends e).
  Proof.
    intros E. split; [reflexivity|]. unfold edge_tree. cbn [s_boundary n_hosts]. rewrite (nth_error_nth _ _ None E). split; [apply tags_of|apply points_live].
    assert (Hk : k < n + 1 + m) by (rewrite <- len; apply nth_error_Some; congruence). assert (Nk : k <> n) by (intros ->; congruence).
    destruct (at_edge k Hk Nk) as (e' & E' & a & b & Ee & Lv & _). assert (e' = e) as -> by congruence. rewrite Ee. auto.
  Qed.
  Lemma drawn_entry k eo : nth_error hosts k = Some eo -> k <> n -> drawn_host h t (edge_tree N t k) eo.
  Proof.
    intros E Nk. assert (Hk : k < n + 1 + m) by (rewrite <- len; apply nth_error_Some; congruence). destruct (at_edge k Hk Nk) as (e & E' & _). assert (eo = Some e) as -> by congruence.
    exists e. split; auto. split; [apply drawn_edge; auto|]. rewrite immersed_edge. apply drawn_subs. auto.
  Qed.
  Lemma drawn_sides : Forall2 (drawn_host h t) (map (edge_tree N t) (seq 0 n)) (firstn n hosts).
  Proof.
    replace n with (length (firstn n hosts)) at 2 by (rewrite firstn_length; lia). apply forall2_seq. intros k x Hx. cbn [plus]. assert (k < n) by (assert (Q : k < length (firstn n hosts)) by (apply nth_error_Some; congruence); rewrite firstn_length in Q; lia).
    apply drawn_entry; [|lia]. rewrite <- Hx. clear - H. revert k n H. induction hosts as [|e l IH]; intros [|k] [|n] H; try lia; auto. cbn. apply IH. lia.
  Qed.
  Lemma drawn_lines : Forall2 (drawn_host h t) (map (edge_tree N t) (line_positions N)) (skipn (S n) hosts).
  Proof.
    unfold line_positions. cbn [n_sides n_hosts]. replace (length hosts - S n) with (length (skipn (S n) hosts)) by apply skipn_length. apply forall2_seq. intros k x Hx. apply drawn_entry; [|lia].
    rewrite <- Hx. change (S n + k) with (S (n + k)). generalize hosts. clear. intros hosts. change (S (n + k)) with (S n + k). revert hosts. generalize (S n) as q. clear n. induction q as [|q IH]; intros hosts; auto. destruct hosts as [|e l]; [destruct k; auto|]. cbn. apply IH.
  Qed.
  Lemma drawn_all : Forall2 (fun c s => drawn h t c (snd s)) (map (sub_tree N t) (seq 0 (length es))) es.
  Proof. apply forall2_seq. intros k x Hx. cbn [plus]. rewrite <- (nth_error_nth _ _ (0%Z, []) Hx). apply drawn_sub. apply nth_error_Some. congruence. Qed.
  Lemma drawn_ring : Forall2 (drawn h t) (immersed (wire_tree N t)) (ring n hosts).
  Proof.
    rewrite immersed_wire. unfold ring.
    assert (G : forall l s, (forall k x, nth_error l k = Some x -> s + k < n /\ nth_error hosts (s + k) = Some x) ->
      Forall2 (drawn h t) (flat_map (fun k => match subs_of N k with [] => [edge_tree N t k] | l => map (sub_tree N t) l end) (seq s (length l)))
        (flat_map (fun e => match e with Some e => match h_immersed e with [] => [h_ends e] | es => map snd es end | None => [] end) l)).
    { induction l as [|x l IH]; intros s H; cbn [length seq flat_map]; [constructor|]. apply Forall2_app.
      - destruct (H 0 x eq_refl) as (Ls & Hs). rewrite Nat.add_0_r in Ls, Hs. destruct (at_edge s ltac:(lia) ltac:(lia)) as (e & E & _). assert (x = Some e) as -> by congruence.
        pose proof (drawn_subs s e E) as Q. pose proof (subs_block n h vphys area hosts phys es all_subs s _ E) as B. cbn [immersed_in] in B. destruct (subs_of N s) as [|j0 q].
        + cbn in B. rewrite <- B. constructor; [apply drawn_edge; auto|constructor].
        + destruct (h_immersed e) as [|s0 r] eqn:Ei; [discriminate|]. rewrite <- Ei in *. clear - Q. induction Q; cbn; constructor; auto.
      - apply IH. intros k y Hy. replace (S s + k) with (s + S k) by lia. apply H. auto. }
    specialize (G (firstn n hosts) 0). rewrite firstn_length_le in G by lia. apply G. intros k x Hx. assert (k < n) by (assert (Q : k < length (firstn n hosts)) by (apply nth_error_Some; congruence); rewrite firstn_length in Q; lia). cbn [plus]. split; auto.
    rewrite <- Hx. clear - H. revert k n H. induction hosts as [|e l IH]; intros [|k] [|n] H; try lia; auto. cbn. apply IH. lia.
  Qed.
End Drawn.
