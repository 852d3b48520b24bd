(** * Lemmas about points on lines and edges: C106 *)
From Coq Require Import List Arith ZArith Bool Reals Lra Lia.
From Verif Require Import Base BaseProof VecBase VecProof GeoModel GeoSpec GeoProof GeoProof2 GeoExamples ShapeModel ShapeSpec ShapeProof DomProof BoxProof EdgeOpsModel EmbedSpec EmbedProof IntersectSpec SnapModel SnapSpec.
Import ListNotations.
Local Open Scope R_scope.

Lemma Reqb_true x y : Reqb x y = true <-> x = y.
Proof. unfold Reqb. destruct (Req_EM_T x y); split; congruence. Qed.
Lemma Reqb_false x y : Reqb x y = false <-> x <> y.
Proof. unfold Reqb. destruct (Req_EM_T x y); split; congruence. Qed.
Lemma coord_between c A B t : coord c (between A B t) = coord c A + t * (coord c B - coord c A).
Proof. destruct c as [|[|c]]; reflexivity. Qed.
Lemma vec_coord A B : (forall c, coord c A = coord c B) -> A = B.
Proof. intros H. apply vec_ext; [apply (H 0%nat)|apply (H 1%nat)|apply (H 2%nat)]. Qed.

Theorem line_test A B P : point_line_test A B P = true <-> (A = B /\ P = A) \/ (A <> B /\ on_line_where_different A B P).
Proof.
  unfold point_line_test. destruct (Reqb (vx A) (vx B) && Reqb (vy A) (vy B) && Reqb (vz A) (vz B)) eqn:E.
  - rewrite !andb_true_iff, !Reqb_true in E. destruct E as ((X & Y) & Z). rewrite !andb_true_iff, !Reqb_true. split.
    + intros ((Px & Py) & Pz). left. split; apply vec_ext; congruence.
    + intros [(_ & ->)|(N & _)]; auto. destruct N. apply vec_ext; auto.
  - assert (N : A <> B). { intros ->. rewrite !(proj2 (Reqb_true _ _) eq_refl) in E. discriminate. }
    set (T := fun a b x => if Reqb b a then [] else [(x - a) / (b - a)]).
    assert (TT : forall a b x t, In t (T a b x) <-> a <> b /\ x = a + t * (b - a)).
    { intros a b x t. unfold T. destruct (Reqb b a) eqn:Q.
      - apply Reqb_true in Q. split; [intros []|]. intros (K & _). congruence.
      - apply Reqb_false in Q. assert (b - a <> 0) by lra. split.
        + intros [<-|[]]. split; [congruence|]. field. auto.
        + intros (_ & ->). left. field. auto. }
    set (l := T (vx A) (vx B) (vx P) ++ T (vy A) (vy B) (vy P) ++ T (vz A) (vz B) (vz P)).
    assert (S : match l with [] => false | t0 :: _ => forallb (fun t => Reqb t t0) l end = true <-> exists t0, In t0 l /\ forall t, In t l -> t = t0).
    { destruct l as [|t0 l']; [split; [discriminate|intros (? & [] & _)]|]. rewrite forallb_forall. split.
      - intros H. exists t0. split; [left; auto|]. intros t I. apply Reqb_true. auto.
      - intros (u & I & H) t It. apply Reqb_true. rewrite (H t It), (H t0 (or_introl eq_refl)). auto. }
    change (match l with [] => false | t0 :: _ => forallb (fun t => Reqb t t0) l end = true <-> (A = B /\ P = A) \/ (A <> B /\ on_line_where_different A B P)).
    rewrite S. clear S.
    assert (L : forall t, In t l <-> exists c, coord c A <> coord c B /\ coord c P = coord c (between A B t)).
    { intros t. unfold l. rewrite !in_app_iff, !TT. split.
      - intros [H|[H|H]]; [exists 0%nat|exists 1%nat|exists 2%nat]; rewrite coord_between; exact H.
      - intros (c & H). rewrite coord_between in H. destruct c as [|[|c]]; auto. }
    assert (U : forall c t, coord c A <> coord c B -> exists u, coord c P = coord c (between A B u) /\ (coord c P = coord c (between A B t) -> u = t)).
    { intros c t D. exists ((coord c P - coord c A) / (coord c B - coord c A)). rewrite !coord_between. assert (coord c B - coord c A <> 0) by lra. split; [field; auto|].
      intros ->. field. auto. }
    split.
    + intros (t0 & I & H). right. split; auto. exists t0. intros c D. destruct (U c t0 D) as (u & Eu & _). rewrite <- (H u); auto. apply L. exists c. auto.
    + intros [(K & _)|(_ & (t & H))]; [contradiction|]. exists t. split.
      * assert (D : exists c, coord c A <> coord c B).
        { destruct (Req_EM_T (vx A) (vx B)) as [X|X]; [|exists 0%nat; auto]. destruct (Req_EM_T (vy A) (vy B)) as [Y|Y]; [|exists 1%nat; auto]. destruct (Req_EM_T (vz A) (vz B)) as [Z|Z]; [|exists 2%nat; auto]. destruct N. apply vec_ext; auto. }
        destruct D as (c & D). apply L. exists c. auto.
      * intros u I. apply L in I as (c & D & Q). specialize (H c D). rewrite coord_between in Q, H. assert (coord c B - coord c A <> 0) by lra. apply Rmult_eq_reg_r with (coord c B - coord c A); auto. lra.
Qed.
Lemma line_complete A B P : A <> B -> on_line A B P -> point_line_test A B P = true.
Proof. intros N (t & ->). apply line_test. right. split; auto. exists t. auto. Qed.
Lemma line_sound A B P : (forall c, coord c A <> coord c B) -> point_line_test A B P = true -> on_line A B P.
Proof. intros D H. apply line_test in H as [(-> & _)|(_ & (t & H))]; [destruct (D 0%nat); auto|]. exists t. apply vec_coord. intros c. apply H. apply D. Qed.
Lemma line_refuted : ~ (forall A B P, A <> B -> point_line_test A B P = true -> on_line A B P).
Proof.
  intros H. destruct (H (GeoExamples.P 0 0 0) (GeoExamples.P 1 0 0) (GeoExamples.P 0 7 0)) as (t & E).
  - intros E. apply (f_equal vx) in E. cbn in E. lra.
  - apply line_test. right. split; [intros E; apply (f_equal vx) in E; cbn in E; lra|]. exists 0. intros c D. rewrite coord_between. destruct c as [|[|c]]; cbn in *; lra.
  - apply (f_equal vy) in E. cbn in E. lra.
Qed.

(** ** Vertices *)
Section Vertices.
  Variable argsort : list Z -> list nat.
  Hypothesis argsort_ok : is_argsort argsort.
  Variables ctol ptol : R.
  Variable fuel : nat.
  Hypothesis deep : (1 <= fuel)%nat.

  Lemma strong_vertices tol t ph p t' ph' p' : vertex_strong_equality tol fuel (vertex_at t ph p) (vertex_at t' ph' p') = Ok ((t =? t')%Z && allclose_default p p' && allclose tol p p').
  Proof. destruct fuel as [|n]; [lia|]. reflexivity. Qed.
  Lemma strong_iff tol t t' p p' : (t =? t')%Z && allclose_default p p' && allclose tol p p' = true <-> t = t' /\ near_point p p' /\ close tol p p'.
  Proof. rewrite !andb_true_iff, Z.eqb_eq, allclose_default_iff, allclose_true. tauto. Qed.
  Lemma assign_vertex t ph p t' ph' p' : shape_assignment argsort (vertex_at t' ph' p') (vertex_at t ph p) = Ok (vertex_at t ph p).
  Proof.
    unfold shape_assignment. cbn [s_dim s_kind vertex_at kind_dim Nat.eqb negb s_composite kind_composite Bool.eqb s_tag s_phys s_point s_boundary s_embedded].
    rewrite boundary_id; auto; constructor.
  Qed.
  Lemma collapse_lemma eps t ph p t' ph' p' : exists r object,
    collapse_vertex argsort ctol fuel (vertex_at t ph p) (vertex_at t' ph' p') eps = Ok (r, object) /\
    (r = true <-> t = t' /\ near_point p p' /\ close ctol p p') /\
    (r = false /\ close eps p p' -> object = vertex_at t ph p) /\ (r = true \/ ~ close eps p p' -> object = vertex_at t' ph' p').
  Proof.
    unfold collapse_vertex. rewrite strong_vertices. cbn [bind]. destruct ((t =? t')%Z && _ && _) eqn:S.
    - exists true, (vertex_at t' ph' p'). split; auto. split; [split; auto; intros _; apply strong_iff; auto|]. split; auto. intros (K & _). discriminate.
    - assert (NS : ~ (t = t' /\ near_point p p' /\ close ctol p p')) by (rewrite <- strong_iff; congruence).
      cbn [vertex_with_same_geometry point_of vertex_at s_point bind]. destruct (allclose eps p p') eqn:G; cbn [bind].
      + fold (vertex_at t ph p). fold (vertex_at t' ph' p'). rewrite assign_vertex. cbn [bind]. apply allclose_true in G.
        do 2 eexists. split; [reflexivity|]. split; [split; [discriminate|tauto]|]. split; auto. intros [K|K]; [discriminate|contradiction].
      + assert (~ close eps p p') by (rewrite <- allclose_true; congruence).
        do 2 eexists. split; [reflexivity|]. split; [split; [discriminate|tauto]|]. split; auto. tauto.
  Qed.
  Lemma meet_lemma eps tag t ph p t' ph' p' :
    (t = t' /\ near_point p p' /\ close ptol p p' -> vertex_vertex_intersection ptol fuel (vertex_at t ph p) (vertex_at t' ph' p') tag eps = Ok (Some (vertex_at t' ph' p'))) /\
    (~ (t = t' /\ near_point p p' /\ close ptol p p') -> close eps p p' -> vertex_vertex_intersection ptol fuel (vertex_at t ph p) (vertex_at t' ph' p') tag eps = Ok (Some (vertex_at tag None p))) /\
    (~ (t = t' /\ near_point p p' /\ close ptol p p') -> ~ close eps p p' -> vertex_vertex_intersection ptol fuel (vertex_at t ph p) (vertex_at t' ph' p') tag eps = Ok None).
  Proof.
    unfold vertex_vertex_intersection. rewrite strong_vertices. cbn [bind]. rewrite <- strong_iff, <- allclose_true.
    split; [intros ->; reflexivity|]. cbn [vertex_with_same_geometry point_of vertex_at s_point bind]. split; intros N G; apply not_true_iff_false in N; rewrite N; [|apply not_true_iff_false in G]; rewrite G; reflexivity.
  Qed.

  (** ** Edges *)
  Lemma boundary_hit_lemma v p e a b eps u w : s_point v = Some p -> s_boundary e = [u; w] -> s_point u = Some a -> s_point w = Some b ->
    vertex_edge_boundary_intersection v e eps = Ok (if allclose eps p a then Some u else if allclose eps p b then Some w else None).
  Proof.
    intros Pv Be Pu Pw. unfold vertex_edge_boundary_intersection. rewrite Be. cbn [mapM]. unfold vertex_with_same_geometry, point_of. rewrite Pv, Pu, Pw. cbn [bind get_at nth_error].
    destruct (allclose eps p a); cbn [bind]; auto. destruct (allclose eps p b); reflexivity.
  Qed.
  Lemma edge_hit_lemma v p e a b eps u w : s_point v = Some p -> s_boundary e = [u; w] -> s_point u = Some a -> s_point w = Some b ->
    exists r, vertex_edge_intersection ctol v e eps = Ok r /\
      (r = None <-> ~ close eps p a /\ ~ close eps p b /\ ~ close ctol p a /\ ~ close ctol p b) /\
      (forall x, r = Some x -> (x = u /\ (close eps p a \/ ~ close eps p b /\ close ctol p a)) \/
                               (x = w /\ ~ close eps p a /\ (close eps p b \/ ~ close ctol p a /\ close ctol p b))).
  Proof.
    intros Pv Be Pu Pw. unfold vertex_edge_intersection. rewrite !(boundary_hit_lemma v p e a b _ u w) by auto. cbn [bind].
    assert (K : forall tol x y, close tol x y <-> allclose tol x y = true) by (intros; symmetry; apply allclose_true).
    pose proof (K eps p a) as K1. pose proof (K eps p b) as K2. pose proof (K ctol p a) as K3. pose proof (K ctol p b) as K4. clear K.
    destruct (allclose eps p a), (allclose eps p b), (allclose ctol p a), (allclose ctol p b); eexists; (split; [reflexivity|]); (split; [split; intros Q; try discriminate; intuition congruence|]); intros x Q; try discriminate Q; injection Q as <-; intuition congruence.
  Qed.
End Vertices.
Lemma middle_refuted : ~ (forall ctol fuel v p e a b, 0 <= ctol <= / 1000 -> (1 <= fuel)%nat -> s_point v = Some p -> edge_from_to e a b -> on_segment a b p ->
  exists x, vertex_edge_intersection ctol v e ctol = Ok (Some x)).
Proof.
  intros H. set (u := vertex_at 1 None (GeoExamples.P 0 0 0)). set (w := vertex_at 2 None (GeoExamples.P 2 0 0)). set (v := vertex_at 3 None (GeoExamples.P 1 0 0)).
  set (e := mk_shape Edge 4 None None [u; w] []).
  destruct (H (/ 1000) 1%nat v (GeoExamples.P 1 0 0) e (GeoExamples.P 0 0 0) (GeoExamples.P 2 0 0)) as (x & E); auto.
  - lra.
  - exists u, w. auto.
  - exists (1 / 2). split; [lra|]. apply vec_ext; cbn; lra.
  - destruct (edge_hit_lemma (/ 1000) v (GeoExamples.P 1 0 0) e (GeoExamples.P 0 0 0) (GeoExamples.P 2 0 0) (/ 1000) u w eq_refl eq_refl eq_refl eq_refl) as (r & E' & K & _).
    rewrite E' in E. injection E as ->. 
    assert (C0 : ~ close (/ 1000) (GeoExamples.P 1 0 0) (GeoExamples.P 0 0 0)). { intros (C & _). cbn in C. rewrite Rabs_R0 in C. rewrite Rabs_right in C; lra. }
    assert (C2 : ~ close (/ 1000) (GeoExamples.P 1 0 0) (GeoExamples.P 2 0 0)). { intros (C & _). cbn in C. rewrite (Rabs_right 2) in C by lra. rewrite Rabs_left in C; lra. }
    discriminate (proj2 K (conj C0 (conj C2 (conj C0 C2)))).
Qed.

(** ** Faces *)
Lemma edge_between_lemma p q e a b : edge_from_to e a b -> exists c, edge_between p q e = Ok c /\ (c = true <-> joins p q e).
Proof.
  intros (v & w & B & Pv & Pw). unfold edge_between. rewrite B. cbn [mapM]. unfold point_of. rewrite Pv, Pw. cbn [bind get_at nth_error]. eexists. split; [reflexivity|].
  rewrite orb_true_iff, !andb_true_iff, !allclose_default_iff. split.
  - intros H. exists a, b. split; auto. exists v, w. auto.
  - intros (a' & b' & (v' & w' & B' & Pv' & Pw') & H). rewrite B in B'. injection B' as <- <-. rewrite Pv in Pv'. rewrite Pw in Pw'. injection Pv' as <-. injection Pw' as <-. auto.
Qed.
Lemma first_edge_lemma p q l : Forall (fun e => exists a b, edge_from_to e a b) l -> exists r, first_edge p q l = Ok r /\
  match r with
  | Some e => exists l1 l2, l = l1 ++ e :: l2 /\ joins p q e /\ forall e', In e' l1 -> ~ joins p q e'
  | None => forall e, In e l -> ~ joins p q e
  end.
Proof.
  induction l as [|e l IH]; intros F; [exists None; split; auto|]. inversion F as [|? ? (a & b & Fe) F']; subst. cbn [first_edge].
  destruct (edge_between_lemma p q e a b Fe) as (c & -> & K). cbn [bind]. destruct c.
  - exists (Some e). split; auto. exists [], l. split; auto. split; [apply K; auto|intros ? []].
  - assert (N : ~ joins p q e) by (intros J; apply K in J; discriminate). destruct (IH F') as (r & -> & H). exists r. split; auto. destruct r as [x|].
    + destruct H as (l1 & l2 & -> & J & H). exists (e :: l1), l2. split; auto. split; auto. intros e' [<-|I]; auto.
    + intros e' [<-|I]; auto.
Qed.
Theorem face_lemma p q face : Forall (fun e => exists a b, edge_from_to e a b) (flat_map immersed (s_boundary face)) -> exists r, points_on_face_boundary p q face = Ok r /\
  match r with
  | Some e => exists l1 l2, flat_map immersed (s_boundary face) = l1 ++ e :: l2 /\ joins p q e /\ forall e', In e' l1 -> ~ joins p q e'
  | None => forall e, In e (flat_map immersed (s_boundary face)) -> ~ joins p q e
  end.
Proof.
  unfold points_on_face_boundary. induction (s_boundary face) as [|w l IH]; intros F; [exists None; split; auto|]. cbn [flat_map] in F. apply Forall_app in F as (Fw & F).
  cbn [first_wire flat_map]. destruct (first_edge_lemma p q _ Fw) as (r & -> & H). cbn [bind]. destruct r as [e|].
  - exists (Some e). split; auto. destruct H as (l1 & l2 & -> & J & H). exists l1, (l2 ++ flat_map immersed l). split; [rewrite <- app_assoc; reflexivity|]. auto.
  - destruct (IH F) as (r & -> & H'). exists r. split; auto. destruct r as [e|].
    + destruct H' as (l1 & l2 & -> & J & H'). exists (immersed w ++ l1), l2. split; [rewrite <- app_assoc; reflexivity|]. split; auto. intros e' I. apply in_app_or in I as [I|I]; auto.
    + intros e I. apply in_app_or in I as [I|I]; auto.
Qed.
