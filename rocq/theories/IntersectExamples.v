(** * Concrete intersected edges *)
From Coq Require Import List Arith ZArith Bool Reals Lra Lia Permutation Sorted.
From Verif Require Import Base BaseProof VecBase VecProof GeoModel GeoSpec GeoProof GeoExamples VertexModel ShapeSpec ShapeExamples VertexSpec VertexExamples EmbedModel EmbedSpec EmbedProof EmbedProof2 EmbedProof3 EmbedExamples IntersectModel IntersectSpec IntersectProof IntersectProof2 IntersectProof3 IntersectProof4 IntersectProof5.
Import ListNotations.
Local Open Scope R_scope.

(** Edges from (0,0) to (4,0), from (1,-1) to (1,1), from (4,-1) to (4,1) and, after a wire,
    from (4,1) to (1,1), whose ends are ends of the two before. *)
Definition comb : heap := [(0%Z, P 0 0 0); (1%Z, P 4 0 0); (2%Z, P 1 (-1) 0); (3%Z, P 1 1 0); (4%Z, P 4 (-1) 0); (5%Z, P 4 1 0)].
Definition plain (a b : nat) : option host := Some (mk_host [a; b] []).
Definition comb_edges : list (option host) := [plain 0 1; plain 2 3; plain 4 5; None; plain 3 5].
Definition tiny : R := 1 / 1000000000000.

Lemma comb_at i a b : edge_at comb_edges i a b -> (i = 0 /\ a = 0 /\ b = 1)%nat \/ (i = 1 /\ a = 2 /\ b = 3)%nat \/ (i = 2 /\ a = 4 /\ b = 5)%nat \/ (i = 4 /\ a = 3 /\ b = 5)%nat.
Proof.
  unfold edge_at, comb_edges, plain. destruct i as [|[|[|[|[|i]]]]]; cbn; intros H; try discriminate H; try (injection H as <- <-; intuition lia). destruct i; discriminate.
Qed.
Lemma comb_meet i j x : meet comb comb_edges i j x ->
  ((i = 0 /\ j = 1 \/ i = 1 /\ j = 0)%nat /\ x = P 1 0 0) \/ ((i = 0 /\ j = 2 \/ i = 2 /\ j = 0)%nat /\ x = P 4 0 0) \/
  ((i = 1 /\ j = 4 \/ i = 4 /\ j = 1)%nat /\ x = P 1 1 0) \/ ((i = 2 /\ j = 4 \/ i = 4 /\ j = 2)%nat /\ x = P 4 1 0).
Proof.
  intros (D & a & b & p & q & Hi & Hj & (t & T & ->) & (r & R & E)).
  assert (Ex := f_equal vx E). assert (Ey := f_equal vy E). clear E.
  apply comb_at in Hi, Hj. repeat match goal with H : _ \/ _ |- _ => destruct H end; repeat match goal with H : _ /\ _ |- _ => destruct H end; subst; try congruence;
    unfold between, pt, comb, vadd, vscale, vsub, P in Ex, Ey |- *; cbn in Ex, Ey |- *.
  all: first [exfalso; lra | left; split; [lia|]; f_equal; lra | right; left; split; [lia|]; f_equal; lra | right; right; left; split; [lia|]; f_equal; lra | right; right; right; split; [lia|]; f_equal; lra].
Qed.
Lemma comb_cross_1 : crossing comb comb_edges 0 1 (P 1 0 0).
Proof.
  split.
  - split; [lia|]. exists 0%nat, 1%nat, 2%nat, 3%nat. split; [reflexivity|]. split; [reflexivity|]. unfold pt, comb; cbn [nth snd]. split; [exists (1 / 4)|exists (1 / 2)]; (split; [lra|]); apply vec_ext; unfold between, vadd, vscale, vsub, P; cbn; lra.
  - intros v a b p q Ha Hp. apply comb_at in Ha, Hp. intros Iv Iv'. repeat match goal with H : _ \/ _ |- _ => destruct H end; repeat match goal with H : _ /\ _ |- _ => destruct H end; subst; try congruence; cbn in Iv, Iv'; lia.
Qed.
Lemma comb_cross_2 : crossing comb comb_edges 0 2 (P 4 0 0).
Proof.
  split.
  - split; [lia|]. exists 0%nat, 1%nat, 4%nat, 5%nat. split; [reflexivity|]. split; [reflexivity|]. unfold pt, comb; cbn [nth snd]. split; [exists 1|exists (1 / 2)]; (split; [lra|]); apply vec_ext; unfold between, vadd, vscale, vsub, P; cbn; lra.
  - intros v a b p q Ha Hp. apply comb_at in Ha, Hp. intros Iv Iv'. repeat match goal with H : _ \/ _ |- _ => destruct H end; repeat match goal with H : _ /\ _ |- _ => destruct H end; subst; try congruence; cbn in Iv, Iv'; lia.
Qed.
Lemma comb_cuts x : (exists i, cut_point comb comb_edges i x) <-> x = P 1 0 0 \/ x = P 4 0 0.
Proof.
  split.
  - intros (i & j & M & C). apply comb_meet in M as [(_ & ->)|[(_ & ->)|[(O & ->)|(O & ->)]]]; auto; exfalso.
    + assert (E1 : edge_at comb_edges 1 2 3) by reflexivity. assert (E4 : edge_at comb_edges 4 3 5) by reflexivity.
      destruct O as [(-> & ->)|(-> & ->)]; [apply (C 3%nat 2%nat 3%nat 3%nat 5%nat)|apply (C 3%nat 3%nat 5%nat 2%nat 3%nat)]; cbn; auto.
    + assert (E2 : edge_at comb_edges 2 4 5) by reflexivity. assert (E4 : edge_at comb_edges 4 3 5) by reflexivity.
      destruct O as [(-> & ->)|(-> & ->)]; [apply (C 5%nat 4%nat 5%nat 3%nat 5%nat)|apply (C 5%nat 3%nat 5%nat 4%nat 5%nat)]; cbn; auto.
  - intros [-> | ->]; [exists 0%nat, 1%nat; apply comb_cross_1|exists 0%nat, 2%nat; apply comb_cross_2].
Qed.

Definition grid (p : vec) : Prop := exists m k, p = P (IZR m) (IZR k) 0 /\ (-4 <= m <= 4)%Z /\ (-4 <= k <= 4)%Z.
Lemma near_integer m k : (-4 <= k <= 4)%Z -> near (IZR m) (IZR k) -> m = k.
Proof.
  intros K H. unfold near in H. rewrite <- minus_IZR, <- !abs_IZR in H. assert (IZR (Z.abs k) <= 4) by (apply IZR_le; lia).
  assert (IZR (Z.abs (m - k)) < 1) by lra. apply lt_IZR in H1. lia.
Qed.
Lemma near_grid p q : grid p -> grid q -> near_point p q -> p = q.
Proof.
  intros (m & k & -> & _) (m' & k' & -> & M & K) (H1 & H2 & _). cbn in H1, H2. apply near_integer in H1, H2; auto. subst. auto.
Qed.
Lemma comb_grid v : (v < 6)%nat -> grid (pt comb v).
Proof.
  intros L. destruct v as [|[|[|[|[|[|v]]]]]]; try lia; unfold pt, comb; cbn [nth snd]; [exists 0%Z, 0%Z|exists 4%Z, 0%Z|exists 1%Z, (-1)%Z|exists 1%Z, 1%Z|exists 4%Z, (-1)%Z|exists 4%Z, 1%Z]; (split; [reflexivity|lia]).
Qed.
Lemma meet_grid i j x : meet comb comb_edges i j x -> grid x.
Proof.
  intros M. apply comb_meet in M as [(_ & ->)|[(_ & ->)|[(_ & ->)|(_ & ->)]]]; [exists 1%Z, 0%Z|exists 4%Z, 0%Z|exists 1%Z, 1%Z|exists 4%Z, 1%Z]; (split; [reflexivity|lia]).
Qed.
Lemma norm_is v r : 0 <= r -> dot v v = r * r -> norm v = r.
Proof. intros H E. unfold norm. rewrite E. apply sqrt_square. auto. Qed.

Ltac norms K l := apply (K 1%Z l); [apply norm_is; [lra|unfold pt, comb, dot, vsub, P; cbn [nth snd vx vy vz]; lra]|apply norm_is; [lra|unfold pt, comb, dot, vsub, P; cbn [nth snd vx vy vz]; lra]|lia|lia].
Lemma comb_clear : clear_network comb comb_edges tiny 2.
Proof.
  split.
  - unfold tiny. lra.
  - intros e H. cbn in H. repeat destruct H as [H|H]; try contradiction; try discriminate; injection H as <-; eexists _, _; (split; [reflexivity|]); intros v Hv; cbn in Hv; cbn; lia.
  - cbn. repeat constructor; cbn; intuition discriminate.
  - intros i a b j p q x y Hi Hj Ix Iy. apply comb_at in Hi, Hj.
    assert (Z : forall v, coord 2 (pt comb v) = 0). { intros v. unfold pt, comb. destruct v as [|[|[|[|[|[|[|v]]]]]]]; reflexivity. } rewrite !Z. auto.
  - intros i j a b p q L Hi Hj. apply comb_at in Hi, Hj. cbv zeta.
    repeat match goal with H : _ \/ _ |- _ => destruct H end; repeat match goal with H : _ /\ _ |- _ => destruct H end; subst; try lia;
      unfold area2, coord, cross, vsub, pt, comb, tiny, P; cbn [nth snd vx vy vz].
    all: first [left; match goal with |- context [Rabs ?x] => first [rewrite (Rabs_right x) by lra | rewrite (Rabs_left x) by lra] end; lra
      | right; split; [lra|]; match goal with |- context [Rabs ?x] => first [rewrite (Rabs_right x) by lra | rewrite (Rabs_left x) by lra] end; lra].
  - intros i j x a b v M Hi Hv H. apply near_grid in H; auto; [exact (meet_grid _ _ _ M)|]. apply comb_grid. apply comb_at in Hi. cbn in Hv. lia.
  - intros i j x a b v M Hi D Iv. pose proof (comb_at _ _ _ Hi) as Hc.
    assert (K : forall d l, norm (vsub x (pt comb a)) = IZR d -> norm (vsub (pt comb v) (pt comb a)) = IZR l -> (-4 <= l <= 4)%Z -> d <> l -> ~ near (norm (vsub x (pt comb a))) (norm (vsub (pt comb v) (pt comb a)))).
    { intros d l -> -> B Q H. apply near_integer in H; auto. }
    assert (Da := D a ltac:(cbn; auto)). assert (Db := D b ltac:(cbn; auto)).
    apply comb_meet in M as [(O & ->)|[(O & ->)|[(O & ->)|(O & ->)]]]; (destruct O as [(-> & ->)|(-> & ->)]);
      (destruct Hc as [(E & -> & ->)|[(E & -> & ->)|[(E & -> & ->)|(E & -> & ->)]]]; try discriminate E); try (exfalso; first [apply Da; reflexivity|apply Db; reflexivity]);
      (destruct Iv as [<-|[<-|[]]]); first [norms K 0%Z|norms K 2%Z|norms K 4%Z].
  - intros i j x k l y M M' H. apply near_grid; eauto using meet_grid.
Qed.
Lemma lex_same : forall l l', StronglySorted lex l -> StronglySorted lex l' -> (forall x, In x l <-> In x l') -> l = l'.
Proof.
  induction l as [|x l IH]; intros [|y l'] S S' H; auto.
  - exfalso. apply (proj2 (H y)). left. auto.
  - exfalso. apply (proj1 (H x)). left. auto.
  - inversion S as [|? ? S1 F1]; inversion S' as [|? ? S2 F2]; subst. rewrite Forall_forall in F1, F2.
    assert (x = y). { destruct (proj1 (H x) (or_introl eq_refl)) as [E|E]; auto. destruct (proj2 (H y) (or_introl eq_refl)) as [E'|E']; auto. exfalso. apply (lex_irrefl x). eapply lex_trans; eauto. }
    subst y. f_equal. apply IH; auto. intros z. split; intros Hz.
    + destruct (proj1 (H z) (or_intror Hz)) as [<-|E]; auto. exfalso. apply (lex_irrefl x). auto.
    + destruct (proj2 (H z) (or_intror Hz)) as [<-|E]; auto. exfalso. apply (lex_irrefl x). auto.
Qed.
Lemma comb_example : exists hosts es, intersect_edges argsort_R_example argsort_example tiny comb comb_edges comb_edges 2 20 6 30 =
  Ok (comb ++ [(6%Z, P 1 0 0); (7%Z, P 4 0 0)], hosts, (es, [(6%nat, 31%Z); (7%nat, 32%Z)])).
Proof.
  destruct (intersect_lemma argsort_R_example argsort_example argsort_R_example_ok argsort_example_ok _ _ _ _ comb_clear 20 6 30) as (new & hosts & es & E & F1 & S & F2 & _).
  assert (X : map snd new = [P 1 0 0; P 4 0 0]).
  { apply lex_same; auto. { repeat constructor. cbn. lra. } intros x. rewrite F2, comb_cuts. cbn. intuition auto. }
  destruct new as [|[t1 p1] [|[t2 p2] [|? ?]]]; try discriminate. injection X as E1 E2. injection F1 as E3 E4. cbn [fst] in *.
  exists hosts, es. rewrite E. cbn. rewrite E1, E2, E3, E4. reflexivity.
Qed.

(** ** Two arrays *)
(** The edge from (1,-1) to (1,1) as the only tool of the edge from (0,0) to (4,0). *)
Lemma skipped : intersect_edges argsort_R_example argsort_example tiny comb [plain 0 1] [plain 2 3] 2 20 6 30 = Ok (comb, [plain 0 1], ([], [])).
Proof. reflexivity. Qed.
Lemma pairs_refuted : ~ (forall argsort_R argsort eps h objects tools axis s t r h' hosts es vs, is_argsort_R argsort_R -> is_argsort argsort -> clear_network h (objects ++ tools) eps axis ->
  intersect_edges argsort_R argsort eps h objects tools axis s t r = Ok (h', hosts, (es, vs)) ->
  forall i j x, (i < length objects)%nat -> (j < length tools)%nat -> crossing h (objects ++ tools) i (length objects + j) x -> exists v, In v (map fst vs) /\ pt h' v = x).
Proof.
  intros H.
  assert (A : forall i a b, edge_at [plain 0 1; plain 2 3] i a b -> edge_at comb_edges i a b). { intros [|[|i]] a b E; try exact E. destruct i; discriminate. }
  assert (M : forall i j x, meet comb [plain 0 1; plain 2 3] i j x -> meet comb comb_edges i j x). { intros i j x (D & a & b & p & q & E & E' & K). split; auto. exists a, b, p, q. auto. }
  assert (N : clear_network comb ([plain 0 1] ++ [plain 2 3]) tiny 2).
  { destruct comb_clear as [N1 N2 N3 N4 N5 N6 N7 N8]. split; eauto.
    intros e [E|[E|[]]]; apply N2; rewrite <- E; cbn; auto. }
  destruct (H _ _ _ _ _ _ _ _ _ _ _ _ _ _ argsort_R_example_ok argsort_example_ok N skipped 0%nat 0%nat (P 1 0 0)) as (v & [] & _); [cbn; lia|cbn; lia|].
  destruct comb_cross_1 as (_ & C). split.
  - split; [cbn; lia|]. exists 0%nat, 1%nat, 2%nat, 3%nat. split; [reflexivity|]. split; [reflexivity|]. unfold pt, comb; cbn [nth snd]. split; [exists (1 / 4)|exists (1 / 2)]; (split; [lra|]); apply vec_ext; unfold between, vadd, vscale, vsub, P; cbn; lra.
  - intros v a b p q E E'. apply (C v); apply A; auto.
Qed.

(** The same tool in the second place. *)
Definition spaced : list (option host) := [plain 0 1] ++ [None; plain 2 3].
Lemma spaced_at i a b : edge_at spaced i a b -> exists i', (i = 0 /\ i' = 0 \/ i = 2 /\ i' = 1)%nat /\ edge_at comb_edges i' a b.
Proof. destruct i as [|[|[|i]]]; intros E; [exists 0%nat; auto|discriminate|exists 1%nat; auto|destruct i; discriminate]. Qed.
Lemma spaced_meet i j x : meet comb spaced i j x -> exists i' j', (i = 0 /\ i' = 0 \/ i = 2 /\ i' = 1)%nat /\ (j = 0 /\ j' = 0 \/ j = 2 /\ j' = 1)%nat /\ meet comb comb_edges i' j' x.
Proof.
  intros (D & a & b & p & q & E & E' & K). apply spaced_at in E as (i' & Hi & E), E' as (j' & Hj & E'). exists i', j'. split; [exact Hi|]. split; [exact Hj|].
  split; [lia|]. exists a, b, p, q. auto.
Qed.
Lemma spaced_clear : clear_network comb spaced tiny 2.
Proof.
  destruct comb_clear as [N1 N2 N3 N4 N5 N6 N7 N8]. split; auto.
  - intros e [E|[E|[E|[]]]]; try discriminate; apply N2; rewrite <- E; cbn; auto.
  - intros i a b j p q x y E E'. apply spaced_at in E as (i' & _ & E), E' as (j' & _ & E'). eapply N4; eauto.
  - intros i j a b p q L E E'. apply spaced_at in E as (i' & Hi & E), E' as (j' & Hj & E'). apply (N5 i' j'); auto. lia.
  - intros i j x a b v M E. apply spaced_meet in M as (i' & j' & Hi & _ & M). apply spaced_at in E as (i2 & Hi2 & E). replace i2 with i' in E by lia. eapply N6; eauto.
  - intros i j x a b v M E. apply spaced_meet in M as (i' & j' & Hi & _ & M). apply spaced_at in E as (i2 & Hi2 & E). replace i2 with i' in E by lia. eapply N7; eauto.
  - intros i j x k l y M M'. apply spaced_meet in M as (i' & j' & _ & _ & M), M' as (k' & l' & _ & _ & M'). eapply N8; eauto.
Qed.
Lemma spaced_cross : crossing comb spaced 0 2 (P 1 0 0).
Proof.
  destruct comb_cross_1 as ((_ & a & b & p & q & E & E' & K) & C). split.
  - split; [lia|]. exists a, b, p, q. auto.
  - intros v a' b' p' q' Ea Eb. apply (C v a' b' p' q'); auto.
Qed.
Lemma spaced_example : exists hosts es, intersect_edges argsort_R_example argsort_example tiny comb [plain 0 1] [None; plain 2 3] 2 20 6 30 =
  Ok (comb ++ [(6%Z, P 1 0 0)], hosts, (es, [(6%nat, 31%Z)])).
Proof.
  destruct (pairs_lemma comb [plain 0 1] [None; plain 2 3] tiny 2 spaced_clear argsort_R_example argsort_example 20 6 30 argsort_R_example_ok argsort_example_ok) as (new & hosts & es & E & F1 & S & F2).
  assert (X : map snd new = [P 1 0 0]).
  { apply lex_same; auto. { repeat constructor. } intros x. rewrite F2. split.
    - intros (i & j & Li & L & (M & _)). cbn in Li. apply spaced_meet in M as (i' & j' & Hi & Hj & M). apply comb_meet in M as [(_ & ->)|[(O & _)|[(O & _)|(O & _)]]]; [cbn; auto|lia|lia|lia].
    - intros [<-|[]]. exists 0%nat, 1%nat. split; [cbn; lia|]. split; [lia|]. exact spaced_cross. }
  destruct new as [|[t1 p1] [|? ?]]; try discriminate. injection X as E1. injection F1 as E3. cbn [fst] in *.
  exists hosts, es. rewrite E. cbn. rewrite E1, E3. reflexivity.
Qed.

(** ** Collinear edges *)
(** The edges from (0,0) to (10,0) and from (-7,0) to (-5,0). *)
Definition gap : heap := [(0%Z, P 0 0 0); (1%Z, P 10 0 0); (2%Z, P (-7) 0 0); (3%Z, P (-5) 0 0)].
Definition gap_edges : list (option host) := [plain 0 1; plain 2 3].
Definition gap' : heap := gap ++ [(4%Z, P (-7) 0 0)].
Lemma gap_test : segment_test tiny 0 1 (P 0 0 0) (P 10 0 0) (P (-7) 0 0) (P (-5) 0 0) = Some (P (-7) 0 0).
Proof.
  unfold segment_test, colinear_measurement, det2, vsub, P. cbn [entry vx vy vz].
  rewrite (proj2 (Rltb_true _ _)). 2:{ match goal with |- context [Rabs ?x] => replace x with 0 by ring end. rewrite Rabs_R0. unfold tiny. lra. }
  rewrite (proj2 (Rltb_true _ _)). 2:{ match goal with |- context [Rabs ?x] => replace x with 0 by ring end. rewrite Rabs_R0. unfold tiny. lra. }
  cbn [negb andb]. rewrite (proj2 (GeoProof.Rleb_false (Rabs (0 - 10)) (Rabs (0 - 0)))). 2:{ rewrite (Rabs_left (0 - 10)), Rminus_0_r, Rabs_R0 by lra. lra. }
  cbn [entry vx]. rewrite (proj2 (GeoProof.Rleb_false 0 (-5))) by lra. rewrite andb_false_r. reflexivity.
Qed.
Lemma gap_far p q : vx p = -7 -> vx q = 0 \/ vx q = 10 \/ vx q = -5 -> allclose_default p q = false.
Proof.
  intros E K. apply not_true_iff_false. intros H. apply allclose_default_iff in H as (H & _). unfold near in H. rewrite E in H.
  destruct K as [K|[K|K]]; rewrite K in H; rewrite (Rabs_left (_ - _)) in H by lra; [rewrite Rabs_R0 in H|rewrite Rabs_right in H by lra|rewrite (Rabs_left (-5)) in H by lra]; lra.
Qed.
Lemma gap_scan : foldM (object_step tiny 2 gap gap_edges) (combine (seq 0 2) gap_edges) ([], []) = Ok ([P (-7) 0 0], [(0, 1)%nat]).
Proof.
  cbn [combine seq foldM gap_edges object_step fst snd plain length]. unfold end_points. cbn [h_ends mapM]. unfold vpoint. cbn [get_at nth_error gap bind snd].
  unfold tool_step, end_points. cbn [snd fst h_ends mapM]. unfold vpoint. cbn [get_at nth_error gap bind snd fst Nat.leb]. cbn [axis_pos fst snd]. cbn [plain bind mapM h_ends get_at nth_error gap snd fst]. rewrite gap_test.
  unfold end_at. cbn [h_ends]. rewrite !on_boundary_spec by (cbn; lia). cbn [bind]. unfold pt. cbn [nth gap snd].
  rewrite (gap_far (P (-7) 0 0) (P 0 0 0)), (gap_far (P (-7) 0 0) (P 10 0 0)), (proj2 (allclose_default_iff _ _) (near_refl (P (-7) 0 0))) by (cbn; auto).
  reflexivity.
Qed.
Lemma gap_embed : exists es out, embed_vertex_in_edge argsort_R_example argsort_example gap' [4%nat] (mk_host [0%nat; 1%nat] []) 20 = Ok (gap', mk_host [0%nat; 1%nat] es, out) /\
  exists t ends, In (t, ends) es /\ In 4%nat ends.
Proof.
  assert (L : live gap' [0%nat; 1%nat; 4%nat]) by (intros x K; cbn in K; cbn; lia).
  assert (F : first_of_each gap' [4%nat] [4%nat]).
  { split; [repeat constructor|]. intros u. split; [intros [<-|[]]; exists 0%nat; split; auto; lia|]. intros ([|[|i]] & H & _); try discriminate. injection H as <-. left. auto. }
  assert (G : forall v, In v [0; 1]%nat -> ~ near_point (pt gap' 4) (pt gap' v)).
  { intros v Hv H. apply allclose_default_iff in H. rewrite gap_far in H; [discriminate|reflexivity|]. destruct Hv as [<-|[<-|[]]]; cbn; auto. }
  assert (Ra : replaced gap' (fun u => In u [4%nat]) 0 0) by (left; split; auto; intros u [<-|[]]; apply G; cbn; auto).
  assert (Rb : replaced gap' (fun u => In u [4%nat] /\ u <> 0%nat) 1 1) by (left; split; auto; intros u ([<-|[]] & _); apply G; cbn; auto).
  destruct (embed_lemma argsort_R_example argsort_example argsort_R_example_ok argsort_example_ok _ _ (mk_host [0%nat; 1%nat] []) 20 _ _ _ _ _ L eq_refl F Ra Rb) as (es & out & E & Mem & So & _ & J).
  exists es, out. split; [exact E|].
  assert (D1 : dist gap' 0 1 = 10) by (apply norm_is; [lra|unfold pt, gap', gap, dot, vsub, P; cbn [nth app snd vx vy vz]; lra]).
  assert (D2 : dist gap' 0 4 = 7) by (apply norm_is; [lra|unfold pt, gap', gap, dot, vsub, P; cbn [nth app snd vx vy vz]; lra]).
  assert (O : In 4%nat out). { apply Mem. rewrite D1, D2. split; [left; auto|]. split; [lia|]. split; [lia|]. unfold within, near. rewrite (Rabs_right (7 - 0)), (Rabs_left (7 - 10)), Rabs_R0, (Rabs_right 10) by lra. lra. }
  destruct J as (mid & Pm & _ & Len & Jm); [intros Z; rewrite Z in O; destruct O|].
  assert (O' : In 4%nat mid) by (eapply Permutation_in; [apply Permutation_sym; exact Pm|exact O]). destruct mid as [|m mid]; [destruct O'|].
  apply in_split in O' as (l1 & l2 & Q). destruct (Jm (length l1) (nth (length l1) (0%nat :: (m :: mid) ++ [1%nat]) 0%nat) 4%nat) as (ends & He & Pe & _).
  - apply nth_error_nth'. cbn [length]. rewrite app_length, Q, app_length. cbn. lia.
  - cbn [nth_error]. rewrite Q, <- app_assoc. rewrite nth_error_app2, Nat.sub_diag by lia. reflexivity.
  - exists (Z.of_nat (length l1) + 20)%Z, ends. split; [eapply nth_error_In; eauto|]. eapply Permutation_in; [apply Permutation_sym; exact Pe|]. cbn. auto.
Qed.
Lemma gap_example : exists h' hosts es vs ends es_0 t ends_0,
  intersect_edges argsort_R_example argsort_example tiny gap gap_edges gap_edges 2 20 4 30 = Ok (h', hosts, (es, vs)) /\
  nth_error hosts 0 = Some (Some (mk_host ends es_0)) /\ In (t, ends_0) es_0 /\ In 4%nat ends_0 /\ pt h' 4 = P (-7) 0 0.
Proof.
  destruct gap_embed as (es & out & E & t & ends_0 & I1 & I2).
  unfold intersect_edges. change (length gap_edges) with 2%nat. rewrite gap_scan. cbn [bind].
  replace (unique_points [P (-7) 0 0]) with [P (-7) 0 0] by reflexivity.
  assert (Z : position (P (-7) 0 0) [P (-7) 0 0] = 0%nat). { cbn [position]. pose proof (vec_compare_spec (P (-7) 0 0) (P (-7) 0 0)) as C. destruct (vec_compare _ _); auto; apply lex_irrefl in C; tauto. }
  cbn [map combine seq length]. rewrite Z. change (gap ++ [((4 + Z.of_nat (fst (0%nat, P (-7) 0 0)))%Z, snd (0%nat, P (-7) 0 0))]) with gap'.
  cbn [combine seq gap_edges foldM plain]. unfold embed_step at 1. cbn [fst snd combine filter Nat.eqb orb map length gap Nat.add]. 
  change (length gap + 0)%nat with 4%nat. cbn [plain]. rewrite E. cbn [bind h_immersed]. destruct es as [|[t0 e0] es]; [destruct I1|].
  cbn [bind]. unfold embed_step. cbn [plain fst snd combine filter Nat.eqb orb map].
  destruct (embed_total argsort_R_example argsort_example argsort_R_example_ok argsort_example_ok gap' [4%nat] (mk_host [2%nat; 3%nat] []) (fold_left Z.max (map fst es) t0 + 1) 2 3) as (e' & out' & E' & _); [intros x K; cbn in K; cbn; lia|reflexivity|].
  rewrite E'. cbn [bind]. destruct (h_immersed e') as [|[t1 e1] es1] eqn:Ei; cbn [bind];
    eexists _, _, _, _, _, _, _, _; (split; [reflexivity|]); (split; [reflexivity|]); (split; [exact I1|]); auto.
Qed.
Lemma collinear_refuted : ~ (forall argsort_R argsort eps h edges axis s t r h' hosts es vs, is_argsort_R argsort_R -> is_argsort argsort -> 0 < eps -> NoDup (map fst h) ->
  (forall e, In e edges -> exists a b, e = Some (mk_host [a; b] []) /\ live h [a; b] /\ pt h a <> pt h b /\ coord axis (pt h a) = 0 /\ coord axis (pt h b) = 0) ->
  intersect_edges argsort_R argsort eps h edges edges axis s t r = Ok (h', hosts, (es, vs)) ->
  forall i a b ends es_i k ends_k v, edge_at edges i a b -> nth_error hosts i = Some (Some (mk_host ends es_i)) -> In (k, ends_k) es_i -> In v ends_k -> on_segment (pt h a) (pt h b) (pt h' v)).
Proof.
  intros H. destruct gap_example as (h' & hosts & es & vs & ends & es_0 & t & ends_0 & E & E0 & I1 & I2 & E4).
  assert (G : on_segment (pt gap 0) (pt gap 1) (pt h' 4)).
  { eapply (H _ _ _ _ _ _ _ _ _ _ _ _ _ argsort_R_example_ok argsort_example_ok); [| | |exact E| |exact E0|exact I1|exact I2].
    - unfold tiny. lra.
    - cbn. repeat constructor; cbn; intuition discriminate.
    - intros e [<-|[<-|[]]]; eexists _, _; (split; [reflexivity|]); (split; [intros v Hv; cbn in Hv; cbn; lia|]); (split; [|split; reflexivity]); unfold pt, gap; cbn [nth snd]; intros Q; apply (f_equal vx) in Q; cbn in Q; lra.
    - reflexivity. }
  rewrite E4 in G. destruct G as (u & U & Q). apply (f_equal vx) in Q. unfold pt, gap, between, vadd, vscale, vsub, P in Q. cbn [nth snd vx] in Q. lra.
Qed.
Lemma comb_shared : on_segment (pt comb 0) (pt comb 1) (P 1 0 0) /\ on_segment (pt comb 2) (pt comb 3) (P 1 0 0).
Proof. unfold pt, comb; cbn [nth snd]. split; [exists (1 / 4)|exists (1 / 2)]; (split; [lra|]); apply vec_ext; unfold between, vadd, vscale, vsub, P; cbn; lra. Qed.

(** Here the edge from (1,1) to (4,1) is the second object, and the second tool crosses the first
    object. *)
Definition off : list (option host) := [plain 0 1; plain 3 5] ++ [None; plain 2 3].
Lemma off_at i a b : edge_at off i a b -> exists i', (i = 0 /\ i' = 0 \/ i = 1 /\ i' = 4 \/ i = 3 /\ i' = 1)%nat /\ edge_at comb_edges i' a b.
Proof. destruct i as [|[|[|[|i]]]]; intros E; [exists 0%nat; auto|exists 4%nat; auto|discriminate|exists 1%nat; auto|destruct i; discriminate]. Qed.
Lemma off_meet i j x : meet comb off i j x -> exists i' j', (i = 0 /\ i' = 0 \/ i = 1 /\ i' = 4 \/ i = 3 /\ i' = 1)%nat /\ meet comb comb_edges i' j' x.
Proof.
  intros (D & a & b & p & q & E & E' & K). apply off_at in E as (i' & Hi & E), E' as (j' & Hj & E'). exists i', j'. split; [exact Hi|].
  split; [lia|]. exists a, b, p, q. auto.
Qed.
Lemma off_clear : clear_network comb off tiny 2.
Proof.
  destruct comb_clear as [N1 N2 N3 N4 N5 N6 N7 N8]. split; auto.
  - intros e [E|[E|[E|[E|[]]]]]; try discriminate; apply N2; rewrite <- E; cbn; auto 6.
  - intros i a b j p q x y E E'. apply off_at in E as (i' & _ & E), E' as (j' & _ & E'). eapply N4; eauto.
  - intros i j a b p q L E E'. pose proof E as F. pose proof E' as F'. apply off_at in F as (i' & Hi & F), F' as (j' & Hj & F').
    destruct (Nat.lt_ge_cases i' j'); [apply (N5 i' j'); auto|]. assert (i = 1 /\ j = 3)%nat as (-> & ->) by lia. injection E as <- <-. injection E' as <- <-.
    left. unfold area2, coord, cross, vsub, pt, comb, tiny, P. cbn [nth snd vx vy vz]. match goal with |- context [Rabs ?x] => rewrite (Rabs_right x) by lra end. lra.
  - intros i j x a b v M E. apply off_meet in M as (i' & j' & Hi & M). apply off_at in E as (i2 & Hi2 & E). replace i2 with i' in E by lia. eapply N6; eauto.
  - intros i j x a b v M E. apply off_meet in M as (i' & j' & Hi & M). apply off_at in E as (i2 & Hi2 & E). replace i2 with i' in E by lia. eapply N7; eauto.
  - intros i j x k l y M M'. apply off_meet in M as (i' & j' & _ & M), M' as (k' & l' & _ & M'). eapply N8; eauto.
Qed.
Lemma off_test : segment_test tiny 0 1 (P 0 0 0) (P 4 0 0) (P 1 (-1) 0) (P 1 1 0) = Some (P 1 0 0).
Proof.
  pose proof (test_lemma tiny 2 (P 0 0 0) (P 4 0 0) (P 1 (-1) 0) (P 1 1 0)) as T. cbn [axis_pos fst snd] in T.
  assert (Z0 : on_segment (P 0 0 0) (P 4 0 0) (P 1 0 0)) by (exists (1 / 4); split; [lra|]; apply vec_ext; unfold between, vadd, vscale, vsub, P; cbn; lra).
  assert (Z1 : on_segment (P 1 (-1) 0) (P 1 1 0) (P 1 0 0)) by (exists (1 / 2); split; [lra|]; apply vec_ext; unfold between, vadd, vscale, vsub, P; cbn; lra).
  destruct (segment_test tiny 0 1 (P 0 0 0) (P 4 0 0) (P 1 (-1) 0) (P 1 1 0)) as [x|].
  - destruct T as (_ & _ & _ & _ & U); try reflexivity; [unfold tiny; lra| |f_equal; symmetry; auto].
    left. unfold area2, coord, cross, vsub, tiny, P. cbn [vx vy vz]. match goal with |- context [Rabs ?x] => rewrite (Rabs_right x) by lra end. lra.
  - exfalso. refine (T _ _ _ _ _ _ Z0 Z1); try reflexivity; [unfold tiny; lra|].
    left. unfold area2, coord, cross, vsub, tiny, P. cbn [vx vy vz]. match goal with |- context [Rabs ?x] => rewrite (Rabs_right x) by lra end. lra.
Qed.
Lemma off_far v : (v < 6)%nat -> allclose_default (P 1 0 0) (pt comb v) = false.
Proof.
  intros L. apply not_true_iff_false. intros H. apply allclose_default_iff in H. apply near_grid in H; [|exists 1%Z, 0%Z; split; [reflexivity|lia]|apply comb_grid; exact L].
  destruct v as [|[|[|[|[|[|v]]]]]]; try lia; unfold pt, comb, P in H; cbn in H; injection H; intros; lra.
Qed.
Lemma off_scan : foldM (object_step tiny 2 comb [None; plain 2 3]) (combine (seq 0 2) [plain 0 1; plain 3 5]) ([], []) = Ok ([P 1 0 0], [(0, 1)%nat]).
Proof.
  cbn [combine seq foldM object_step fst snd plain length]. unfold end_points. cbn [h_ends mapM]. unfold vpoint. cbn [get_at nth_error comb bind snd].
  unfold tool_step, end_points. cbn [snd fst h_ends mapM]. unfold vpoint. cbn [get_at nth_error comb bind snd fst Nat.leb plain mapM h_ends]. cbn [axis_pos fst snd]. rewrite off_test.
  unfold end_at. cbn [h_ends]. change [(0%Z, P 0 0 0); (1%Z, P 4 0 0); (2%Z, P 1 (-1) 0); (3%Z, P 1 1 0); (4%Z, P 4 (-1) 0); (5%Z, P 4 1 0)] with comb.
  rewrite !on_boundary_spec by (cbn; lia). cbn [bind]. rewrite !off_far by lia. reflexivity.
Qed.
Definition off' : heap := comb ++ [(6%Z, P 1 0 0)].
Lemma off_embed s : exists es out, embed_vertex_in_edge argsort_R_example argsort_example off' [6%nat] (mk_host [3%nat; 5%nat] []) s = Ok (off', mk_host [3%nat; 5%nat] es, out) /\
  exists t ends, In (t, ends) es /\ In 6%nat ends.
Proof.
  assert (L : live off' [3%nat; 5%nat; 6%nat]) by (intros x K; cbn in K; cbn; lia).
  assert (F : first_of_each off' [6%nat] [6%nat]).
  { split; [repeat constructor|]. intros u. split; [intros [<-|[]]; exists 0%nat; split; auto; lia|]. intros ([|[|i]] & H & _); try discriminate. injection H as <-. left. auto. }
  assert (G : forall v, In v [3; 5]%nat -> ~ near_point (pt off' 6) (pt off' v)).
  { intros v Hv H. apply allclose_default_iff in H. assert (Q : allclose_default (P 1 0 0) (pt comb v) = false) by (apply off_far; cbn in Hv; lia).
    destruct Hv as [<-|[<-|[]]]; unfold pt, off', comb in *; cbn [nth app snd] in *; congruence. }
  assert (Ra : replaced off' (fun u => In u [6%nat]) 3 3) by (left; split; auto; intros u [<-|[]]; apply G; cbn; auto).
  assert (Rb : replaced off' (fun u => In u [6%nat] /\ u <> 3%nat) 5 5) by (left; split; auto; intros u ([<-|[]] & _); apply G; cbn; auto).
  destruct (embed_lemma argsort_R_example argsort_example argsort_R_example_ok argsort_example_ok _ _ (mk_host [3%nat; 5%nat] []) s _ _ _ _ _ L eq_refl F Ra Rb) as (es & out & E & Mem & So & _ & J).
  exists es, out. split; [exact E|].
  assert (D1 : dist off' 3 5 = 3) by (apply norm_is; [lra|unfold pt, off', comb, dot, vsub, P; cbn [nth app snd vx vy vz]; lra]).
  assert (D2 : dist off' 3 6 = 1) by (apply norm_is; [lra|unfold pt, off', comb, dot, vsub, P; cbn [nth app snd vx vy vz]; lra]).
  assert (O : In 6%nat out). { apply Mem. rewrite D1, D2. split; [left; auto|]. split; [lia|]. split; [lia|]. unfold within, near. rewrite (Rabs_right (1 - 0)), (Rabs_left (1 - 3)), Rabs_R0, (Rabs_right 3) by lra. lra. }
  destruct J as (mid & Pm & _ & Len & Jm); [intros Z; rewrite Z in O; destruct O|].
  assert (O' : In 6%nat mid) by (eapply Permutation_in; [apply Permutation_sym; exact Pm|exact O]). destruct mid as [|m mid]; [destruct O'|].
  apply in_split in O' as (l1 & l2 & Q). destruct (Jm (length l1) (nth (length l1) (3%nat :: (m :: mid) ++ [5%nat]) 0%nat) 6%nat) as (ends & He & Pe & _).
  - apply nth_error_nth'. cbn [length]. rewrite app_length, Q, app_length. cbn. lia.
  - cbn [nth_error]. rewrite Q, <- app_assoc. rewrite nth_error_app2, Nat.sub_diag by lia. reflexivity.
  - exists (Z.of_nat (length l1) + s)%Z, ends. split; [eapply nth_error_In; eauto|]. eapply Permutation_in; [apply Permutation_sym; exact Pe|]. cbn. auto.
Qed.
Lemma off_example : exists h' hosts es vs ends es_1 t ends_1,
  intersect_edges argsort_R_example argsort_example tiny comb [plain 0 1; plain 3 5] [None; plain 2 3] 2 20 6 30 = Ok (h', hosts, (es, vs)) /\
  nth_error hosts 1 = Some (Some (mk_host ends es_1)) /\ In (t, ends_1) es_1 /\ In 6%nat ends_1 /\ pt h' 6 = P 1 0 0.
Proof.
  unfold intersect_edges. change (length [plain 0 1; plain 3 5]) with 2%nat. rewrite off_scan. cbn [bind].
  replace (unique_points [P 1 0 0]) with [P 1 0 0] by reflexivity.
  assert (Z : position (P 1 0 0) [P 1 0 0] = 0%nat). { cbn [position]. pose proof (vec_compare_spec (P 1 0 0) (P 1 0 0)) as C. destruct (vec_compare _ _); auto; apply lex_irrefl in C; tauto. }
  cbn [map combine seq length]. rewrite Z. change (comb ++ [((6 + Z.of_nat (fst (0%nat, P 1 0 0)))%Z, snd (0%nat, P 1 0 0))]) with off'.
  cbn [combine seq foldM plain]. unfold embed_step at 1. cbn [fst snd combine filter Nat.eqb orb map length Nat.add].
  change (length comb + 0)%nat with 6%nat. cbn [plain].
  destruct (embed_total argsort_R_example argsort_example argsort_R_example_ok argsort_example_ok off' [6%nat] (mk_host [0%nat; 1%nat] []) 20 0 1) as (e' & out' & E' & _); [intros x K; cbn in K; cbn; lia|reflexivity|].
  rewrite E'. cbn [bind]. destruct (h_immersed e') as [|[t0 e0] es0] eqn:Ei; cbn [bind]; unfold embed_step; cbn [plain fst snd combine filter Nat.eqb orb map].
  all: match goal with |- context [embed_vertex_in_edge _ _ off' [6%nat] (mk_host [3%nat; 5%nat] []) ?s] => destruct (off_embed s) as (es & out & E & t & ends_1 & I1 & I2) end.
  all: rewrite E; cbn [bind h_immersed]; destruct es as [|[t1 e1] es]; [destruct I1|]; cbn [bind];
    eexists _, _, _, _, _, _, _, _; (split; [reflexivity|]); (split; [reflexivity|]); (split; [exact I1|]); auto.
Qed.
Lemma tools_refuted : ~ (forall argsort_R argsort eps h objects tools axis s t r h' hosts es vs, is_argsort_R argsort_R -> is_argsort argsort -> clear_network h (objects ++ tools) eps axis ->
  intersect_edges argsort_R argsort eps h objects tools axis s t r = Ok (h', hosts, (es, vs)) ->
  forall i a b ends es_i k ends_k v, edge_at objects i a b -> nth_error hosts i = Some (Some (mk_host ends es_i)) -> In (k, ends_k) es_i -> In v ends_k -> on_segment (pt h a) (pt h b) (pt h' v)).
Proof.
  intros H. destruct off_example as (h' & hosts & es & vs & ends & es_1 & t & ends_1 & E & E1 & I1 & I2 & Q).
  pose proof (H _ _ _ _ _ _ _ _ _ _ _ _ _ _ argsort_R_example_ok argsort_example_ok off_clear E 1%nat 3%nat 5%nat ends es_1 t ends_1 6%nat eq_refl E1 I1 I2) as (z & _ & B).
  rewrite Q in B. assert (Y := f_equal vy B). unfold between, pt, comb, vadd, vscale, vsub, P in Y. cbn in Y. lra.
Qed.
