(** * Examples: edges collapsed and intersected, C98, C99 *)
From Coq Require Import List Arith ZArith Bool Reals Lra Lia Sorted.
From Verif Require Import Base BaseProof VecBase VecProof GeoModel GeoSpec GeoProof GeoProof2 GeoExamples ShapeModel ShapeSpec ShapeExamples VertexModel VertexSpec VertexExamples LineSpec LineExamples EdgeOpsModel EdgeOpsSpec EdgeOpsProof EdgeOpsProof2.
Import ListNotations.
Local Open Scope R_scope.

(** ** C98 *)
Definition node (t : Z) (p : vec) : shape vec := new_vertex t p.
Definition line_ (t : Z) (phys : option Z) (a b : shape vec) (inner : list (shape vec)) : shape vec := mk_shape Edge t phys None [a; b] inner.
Definition pt_a : vec := P 0 0 0.
Definition pt_b : vec := P 1 0 0.
Definition e_tool : shape vec := line_ 4 (Some 9%Z) (node 0 pt_a) (node 1 pt_b) [].
Definition e_same : shape vec := line_ 7 None (node 2 pt_a) (node 3 pt_b) [].
Definition e_back : shape vec := line_ 7 None (node 2 pt_b) (node 3 pt_a) [].

Lemma node_at t p : vertex_at (node t p) p.
Proof. split; reflexivity. Qed.
Lemma line_at t ph s s' p q i : edge_at (line_ t ph (node s p) (node s' q) i) p q.
Proof. split; [reflexivity|]. eexists _, _. split; [reflexivity|]. split; apply node_at. Qed.
Lemma line_settled t ph s s' p q i : (s < s')%Z -> Forall (fun c => s_kind c = Vertex) i -> settled (line_ t ph (node s p) (node s' q) i).
Proof.
  intros L F. split; [repeat constructor|]. split; [|split; [|split; [|discriminate]]].
  - eapply Forall_impl; [|exact F]. intros c K. unfold admissible, s_dim. rewrite K. apply Nat.le_0_l.
  - repeat constructor. simpl. lia.
  - simpl. intros x y [<-|[<-|[]]] [<-|[<-|[]]]; simpl; intros; try reflexivity; lia.
Qed.
Lemma tool_settled : settled e_tool.
Proof. apply line_settled; [reflexivity|constructor]. Qed.
Lemma close_self t p : 0 <= t -> close t p p.
Proof. intros H. apply allclose_true. apply allclose_refl. exact H. Qed.
Lemma g_tol : g = tol.
Proof. unfold g, tol. lra. Qed.
Lemma g_pos : 0 <= g.
Proof. unfold g. lra. Qed.
Lemma a_not_b : ~ close g pt_a pt_b.
Proof. intros (H & _). unfold pt_a, pt_b, P in H. simpl in H. rewrite (Rabs_left (0 - 1)), (Rabs_right 1) in H by lra. unfold g in H. lra. Qed.

Lemma collapse_example : exists object', collapse_edge argsort_example g 2 e_tool e_same g = Ok (true, object') /\ copies e_tool object'.
Proof.
  destruct (edge_lemma argsort_example argsort_example_ok g 0 e_tool e_same pt_a pt_b pt_a pt_b g (Rle_refl _) (line_at _ _ _ _ _ _ _) (line_at _ _ _ _ _ _ _) eq_refl tool_settled)
    as (r & o & E & H & _ & C).
  assert (r = true) as -> by (apply H; split; apply close_self, g_pos). exists o. split; [exact E|]. destruct (C eq_refl) as (_ & [((S & _) & _)|(_ & K)]); [|exact K].
  exfalso. inversion S as [? ? ? ? D|? ? ? ? T]; subst; discriminate.
Qed.
Lemma collapse_vertex_example : exists object', collapse_vertex argsort_example g 1 (node 1 pt_b) (node 5 pt_b) g = Ok (true, object') /\ copies (node 1 pt_b) object'.
Proof.
  assert (St : settled (node 1 pt_b)) by (repeat split; try constructor; simpl; try tauto; discriminate).
  destruct (vertex_lemma argsort_example argsort_example_ok g 0 (node 1 pt_b) (node 5 pt_b) pt_b pt_b g (Rle_refl _) (node_at _ _) (node_at _ _) St) as (r & o & E & H & _ & C).
  assert (r = true) as -> by (apply H; apply close_self, g_pos). exists o. split; [exact E|]. destruct (C eq_refl) as [(S & _)|(_ & K & _)]; [|exact K].
  exfalso. inversion S as [? ? ? ? D D' T|? ? D]; subst; [discriminate|]. apply D. reflexivity.
Qed.
Lemma back_example : edge_at e_tool pt_a pt_b /\ edge_at e_back pt_b pt_a /\ collapse_edge argsort_example g 2 e_tool e_back g = Ok (false, e_back).
Proof.
  split; [apply line_at|]. split; [apply line_at|].
  destruct (edge_lemma argsort_example argsort_example_ok g 0 e_tool e_back pt_a pt_b pt_b pt_a g (Rle_refl _) (line_at _ _ _ _ _ _ _) (line_at _ _ _ _ _ _ _) eq_refl tool_settled)
    as (r & o & E & H & F & _).
  destruct r; [exfalso; apply a_not_b; apply H; reflexivity|]. rewrite E, (F eq_refl). reflexivity.
Qed.
Lemma same_ends s t : same allclose_default s t -> s_dim s <> 0%nat -> Forall2 (same allclose_default) (s_boundary s) (s_boundary t).
Proof. intros S N. inversion S; subst; [contradiction|assumption]. Qed.
Lemma same_tag s t : same allclose_default s t -> s_tag s = s_tag t.
Proof. intros S. inversion S; subst; assumption. Qed.
(** an immersed vertex hides the ends *)
Definition pt_m : vec := P (1 / 2) 0 0.
Definition m_tool : shape vec := line_ 4 (Some 9%Z) (node 0 pt_a) (node 1 pt_b) [node 5 pt_m].
Definition m_object : shape vec := line_ 4 None (node 2 pt_a) (node 3 pt_b) [node 5 pt_m].
Lemma immersed_example : edge_at m_tool pt_a pt_b /\ edge_at m_object pt_a pt_b /\ settled m_tool /\
  collapse_edge argsort_example g 2 m_tool m_object g = Ok (true, m_object) /\ ~ same allclose_default m_tool m_object.
Proof.
  split; [apply line_at|]. split; [apply line_at|]. split; [apply line_settled; [reflexivity|repeat constructor]|]. split.
  - unfold collapse_edge, edge_strong_equality. rewrite !(edge_geometry m_tool m_object pt_a pt_b pt_a pt_b _ (line_at _ _ _ _ _ _ _) (line_at _ _ _ _ _ _ _)).
    rewrite !allclose_refl by apply g_pos. cbn [shape_eq]. unfold m_tool, m_object, line_, node, new_vertex, new_shape, s_dim.
    cbn [s_kind s_boundary immersed length Nat.eqb negb andb combine mapM fst snd bind s_point s_tag kind_dim Z.eqb Pos.eqb]. rewrite default_refl. reflexivity.
  - intros S. apply same_ends in S; [|discriminate]. unfold m_tool, m_object, line_ in S. cbn [s_boundary] in S. inversion S as [|? ? ? ? V W]. apply same_tag in V. discriminate.
Qed.

(** ** C99 *)
Lemma tag_apart h v x t t' : vtag h v = Ok t -> vtag h x = Ok t' -> t <> t' -> ~ is_end g h v x.
Proof. intros E F N (H & _). congruence. Qed.
Lemma far_close p q : (exists k, 1 / 1000 < Rabs (axis_part p k - axis_part q k) /\ Rabs (axis_part q k) <= 30) -> ~ close g p q.
Proof. intros (k & K & B) (X & Y & Z). unfold g in *. destruct k as [|[|k]]; cbn [axis_part] in K, B; lra. Qed.
Ltac far k := apply far_close; exists k; unfold P; simpl; split; unfold Rabs; repeat destruct (Rcase_abs _); lra.
Ltac off k k' := split; [eapply tag_apart; [reflexivity|reflexivity|discriminate]|split; [eapply tag_apart; [reflexivity|reflexivity|discriminate]|split; [far k|far k']]].
Lemma not_near p a b : box p -> 1 / 4 <= dot (vsub b a) (vsub b a) -> (forall t, ~ flat_near (between a b t) p) -> forall x, ~ near_segment g g p a b x.
Proof. intros B L N x H. rewrite g_tol in H. apply near_flat in H; [|exact B|exact L]. destruct H as (t & H). exact (N t H). Qed.
Ltac apart_from := apply not_near; [nums|nums|intros; nums].

(** two edges that cross *)
Lemma crossing_placed : placed crossing (2, 3)%nat (P 2 (-2) 0) (P 2 2 0) /\ placed crossing (0, 1)%nat (P 0 0 0) (P 4 0 0).
Proof. repeat split. Qed.
Lemma crossing_clear : clear_of g g crossing (2, 3)%nat (P 2 (-2) 0) (P 2 2 0) (0, 1)%nat (P 0 0 0) (P 4 0 0).
Proof. split; [off 1%nat 1%nat|]. split; [off 1%nat 1%nat|]. split; apart_from. Qed.
Lemma crossing_meet : meet (P 2 (-2) 0, P 2 2 0) (P 0 0 0, P 4 0 0) (P 2 0 0) /\ cross (vsub (P 2 2 0) (P 2 (-2) 0)) (vsub (P 4 0 0) (P 0 0 0)) <> vzero.
Proof.
  split.
  - split; exists (1 / 2); (split; [lra|]); unfold P, between; apply vec_ext; simpl; field.
  - intros E. apply (f_equal vz) in E. unfold P in E. simpl in E. lra.
Qed.
Lemma crossing_edges_example : edge_edge_intersection lstsq_example g g crossing (2, 3)%nat (0, 1)%nat 100 g g = Ok (Some (Fresh (Tag 100) (Rows [P 2 0 0]))).
Proof.
  destruct crossing_placed as (T & O). destruct crossing_meet as (M & X).
  exact (crossing_lemma lstsq_example g g g_pos _ _ _ _ _ _ _ _ _ _ _ g_pos lstsq_example_ok T O crossing_clear M X).
Qed.
(** two edges apart *)
Definition parallel : heap := [(0%Z, P 0 0 0); (1%Z, P 4 0 0); (2%Z, P 0 1 0); (3%Z, P 4 1 0)].
Lemma parallel_example : placed parallel (2, 3)%nat (P 0 1 0) (P 4 1 0) /\ placed parallel (0, 1)%nat (P 0 0 0) (P 4 0 0) /\
  clear_of g g parallel (2, 3)%nat (P 0 1 0) (P 4 1 0) (0, 1)%nat (P 0 0 0) (P 4 0 0) /\
  (forall t s, - g <= t <= 1 + 2 * g -> - g <= s <= 1 + 2 * g -> ~ close g (between (P 0 1 0) (P 4 1 0) t) (between (P 0 0 0) (P 4 0 0) s)).
Proof.
  split; [repeat split|]. split; [repeat split|]. split.
  - split; [off 1%nat 1%nat|]. split; [off 1%nat 1%nat|]. split; apart_from.
  - intros t s Ht Hs (_ & H & _). unfold between, P in H. simpl in H. unfold g in *.
    replace (1 + t * (1 - 1) - (0 + s * (0 - 0))) with 1 in H by ring. replace (0 + s * (0 - 0)) with 0 in H by ring. rewrite Rabs_R0, Rabs_R1 in H. lra.
Qed.
(** an edge ending on another *)
Definition junction : heap := [(0%Z, P 0 0 0); (1%Z, P 4 0 0); (2%Z, P 2 0 0); (3%Z, P 2 3 0)].
Lemma junction_to : forall tag p_eps l_eps, edge_edge_intersection lstsq_example g g junction (2, 3)%nat (0, 1)%nat tag p_eps l_eps = Ok (Some (Fresh (Float p_eps) (Flat (P 2 0 0)))).
Proof.
  intros tag p_eps l_eps. unfold edge_edge_intersection, edge_edge_boundary_intersection, edge_hit, boundary_hit, strong_equality, vpoint, get_at, junction.
  cbn [fst snd nth_error bind Z.eqb Pos.eqb andb]. unfold same_geometry.
  rewrite (far_x g 2 0), (far_x g 2 4), (far_x g 2 0), (far_x g 2 4) by dist. cbn [bind]. rewrite (found_self g g); [reflexivity|unfold g; lra|apply on_x; lra|apply far_x; dist|apply far_x; dist].
Qed.
Lemma junction_from : forall tag p_eps, edge_edge_intersection lstsq_example g g junction (0, 1)%nat (2, 3)%nat tag p_eps g = Ok (Some (Fresh (Tag tag) (Rows [P 2 0 0]))).
Proof.
  intros tag p_eps. apply (crossing_lemma lstsq_example g g g_pos junction (0, 1)%nat (P 0 0 0) (P 4 0 0) (2, 3)%nat (P 2 0 0) (P 2 3 0)); try exact g_pos; try exact lstsq_example_ok; try (repeat split; fail).
  - split; [off 0%nat 0%nat|]. split; [off 0%nat 0%nat|]. split; apart_from.
  - split; [exists (1 / 2)|exists 0]; (split; [lra|]); unfold P, between; apply vec_ext; simpl; field.
  - intros E. apply (f_equal vz) in E. unfold P in E. simpl in E. lra.
Qed.
(** edges that overlap *)
Definition overlapping : heap := [(0%Z, P 0 0 0); (1%Z, P 10 0 0); (2%Z, P 4 0 0); (3%Z, P 5 0 0)].
Lemma overlap_inner : forall lstsq tag p_eps l_eps, edge_edge_intersection lstsq g g overlapping (2, 3)%nat (0, 1)%nat tag p_eps l_eps = Ok (Some (Fresh (Float p_eps) (Flat (P 4 0 0)))).
Proof.
  intros lstsq tag p_eps l_eps. unfold edge_edge_intersection, edge_edge_boundary_intersection, edge_hit, boundary_hit, strong_equality, vpoint, get_at, overlapping.
  cbn [fst snd nth_error bind Z.eqb Pos.eqb andb]. unfold same_geometry.
  rewrite (far_x g 4 0), (far_x g 4 10), (far_x g 5 0), (far_x g 5 10) by dist. cbn [bind].
  rewrite (found_self g g (P 4 0 0)); [|unfold g; lra|apply on_x; lra|apply far_x; dist|apply far_x; dist].
  reflexivity.
Qed.
Lemma overlap_outer : forall lstsq tag p_eps, 
  minimum_norm (vsub (P 10 0 0) (P 0 0 0)) (vsub (P 5 0 0) (P 4 0 0)) (vsub (P 4 0 0) (P 0 0 0)) (lstsq (vsub (P 10 0 0) (P 0 0 0)) (vsub (P 5 0 0) (P 4 0 0)) (vsub (P 4 0 0) (P 0 0 0))) ->
  edge_edge_intersection lstsq g g overlapping (0, 1)%nat (2, 3)%nat tag p_eps g = Ok None.
Proof.
  intros lstsq tag p_eps M. pose proof (inside_missed_lemma lstsq M) as (L & _).
  assert (N : forall p, p = P 0 0 0 \/ p = P 10 0 0 -> forall x, ~ near_segment g g p (P 4 0 0) (P 5 0 0) x).
  { intros p Hp x [(_ & H)|[(_ & H)|(_ & _ & H & H')]].
    - revert H. destruct Hp as [->| ->]; far 0%nat.
    - revert H. destruct Hp as [->| ->]; far 0%nat.
    - assert (A : norm (vsub (P 5 0 0) (P 4 0 0)) = 1) by (unfold norm, P, dot; simpl; replace ((5 - 4) * (5 - 4) + (0 - 0) * (0 - 0) + (0 - 0) * (0 - 0)) with 1 by ring; apply sqrt_1).
      rewrite A in H, H'. destruct Hp as [->| ->].
      + assert (B : norm (vsub (P 0 0 0) (P 4 0 0)) = 4) by (apply Rle_antisym; apply (norm_bounds _ 4 4); try lra; unfold P, dot; simpl; lra). rewrite B in H. unfold g in H. lra.
      + assert (B : norm (vsub (P 10 0 0) (P 4 0 0)) = 6) by (apply Rle_antisym; apply (norm_bounds _ 6 6); try lra; unfold P, dot; simpl; lra). rewrite B in H. unfold g in H. lra. }
  unfold edge_edge_intersection.
  destruct (clear_boundary g g g_pos overlapping (0, 1)%nat (P 0 0 0) (P 10 0 0) (2, 3)%nat (P 4 0 0) (P 5 0 0) (Float p_eps)) as (B & _).
  - repeat split.
  - repeat split.
  - split; [off 0%nat 0%nat|]. split; [off 0%nat 0%nat|]. split; apply N; auto.
  - rewrite B. cbn [bind]. unfold vpoint, get_at, overlapping. cbn [fst snd nth_error bind]. rewrite g_tol. cbn zeta in L. rewrite L. reflexivity.
Qed.
Lemma overlap_solution : minimum_norm (vsub (P 10 0 0) (P 0 0 0)) (vsub (P 5 0 0) (P 4 0 0)) (vsub (P 4 0 0) (P 0 0 0)) (40 / 101, - (4 / 101)).
Proof.
  split; [apply exact_least_squares; unfold P; apply vec_ext; vec; field|]. intros (t, s) Hl.
  apply (least_squares_residual _ _ _ (2 / 5) 0) in Hl; [|unfold P; apply vec_ext; vec; field]. cbn [fst snd] in *. apply (f_equal vx) in Hl. unfold P in Hl. vec. assert (E : s = 10 * t - 4) by lra. subst s. clear Hl.
  assert (0 <= (101 * t - 40) * (101 * t - 40)) by (apply Rle_0_sqr). nra.
Qed.
(** a vertex shared *)
Definition corner : heap := [(0%Z, P 0 0 0); (1%Z, P 4 0 0); (2%Z, P 0 3 0)].
Lemma corner_example : forall lstsq tag p_eps l_eps, edge_edge_intersection lstsq g g corner (0, 2)%nat (0, 1)%nat tag p_eps l_eps = Ok (Some (Old 0)).
Proof.
  intros lstsq tag p_eps l_eps. unfold edge_edge_intersection, edge_edge_boundary_intersection, boundary_hit, strong_equality, vpoint, get_at, corner.
  cbn [fst snd nth_error bind Z.eqb Pos.eqb andb]. unfold same_geometry. rewrite default_refl, allclose_refl by apply g_pos. reflexivity.
Qed.
