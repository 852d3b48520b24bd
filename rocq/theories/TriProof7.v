(** * Lemmas: intersecting triangles and quadrilaterals, C89, C90: witnesses *)
From Coq Require Import List Arith ZArith Bool QArith Qabs Qfield Lia Lqa.
From Verif Require Import Base BaseProof FracModel SegModel SegProof TriModel TriSpec TriProof TriProof2 TriProof3 TriProof4 TriProof5 TriProof6.
Import ListNotations.
Local Open Scope Q_scope.
Notation P := mk_point.

Ltac in_tri u v w := exists u, v, w; repeat split; try reflexivity; try discriminate.

Lemma orientation_lemma : exists p1 q1 r1 a b c x y, triangle_triangle_intersection eps_12 p1 q1 r1 a b c = Ok (hit x y) /\
  triangle_triangle_intersection eps_12 p1 q1 r1 b a c = Ok None /\
  forall z, between x y z -> in_triangle p1 q1 r1 z /\ in_triangle a b c z.
Proof.
  exists (P 0 0 0), (P 1 0 0), (P 0 0 1), (P (-1) (-1) 0), (P 3 (-1) 0), (P (-1) 3 0). do 2 eexists.
  split; [vm_compute; reflexivity|]. split; [vm_compute; reflexivity|].
  intros z (t & Ht & E1 & E2 & E3). simpl in E1, E2, E3. split.
  - exists t, (1 - t), 0. repeat split; simpl; lra.
  - exists (1 - (1 - t + 1) / 4 - (1 # 4)), ((1 - t + 1) / 4), (1 # 4). unfold Qdiv; change (/ 4) with (1 # 4); repeat split; simpl; lra.
Qed.
Lemma outside_lemma : exists p1 q1 r1 a b c x y, triangle_triangle_intersection eps_12 p1 q1 r1 a b c = Ok (hit x y) /\ ~ in_triangle a b c x.
Proof.
  exists (P (-1) 0 (-1)), (P (-1) 0 1), (P 3 2 (1 # 2)), (P 0 0 0), (P 2 0 0), (P 0 2 0). do 2 eexists.
  split; [vm_compute; reflexivity|]. intros (u & v & w & H1 & H2 & H3 & H4 & E1 & E2 & E3). simpl in E1, E2, E3. lra.
Qed.
Lemma vertex_lemma : exists p1 q1 r1 a b c x y, triangle_triangle_intersection eps_12 p1 q1 r1 a b c = Ok None /\ ~ peq x y /\
  forall z, between x y z -> in_triangle p1 q1 r1 z /\ in_triangle a b c z.
Proof.
  exists (P (-1) (-1) 1), (P (-1) (-1) (-1)), (P 5 5 (-1)), (P 0 0 0), (P 2 0 0), (P 0 2 0), (P 0 0 0), (P 1 1 0).
  split; [vm_compute; reflexivity|]. split; [intros (E & _); simpl in E; lra|].
  intros z (t & Ht & E1 & E2 & E3). simpl in E1, E2, E3. split.
  - exists (1 # 2), (1 - (1 # 2) - (t + 1) / 6), ((t + 1) / 6). unfold Qdiv. change (/ 6) with (1 # 6). repeat split; simpl; lra.
  - exists (1 - t), (t / 2), (t / 2). unfold Qdiv. change (/ 2) with (1 # 2). repeat split; simpl; lra.
Qed.
Lemma ones_lemma : exists p1 q1 r1 a b c x y x' y', triangle_triangle_intersection eps_12 p1 q1 r1 a b c = Ok None /\
  triangle_triangle_intersection eps_12 (shifted p1) (shifted q1) (shifted r1) (shifted a) (shifted b) (shifted c) = Ok (hit x' y') /\
  ~ peq x y /\ forall z, between x y z -> in_triangle p1 q1 r1 z /\ in_triangle a b c z.
Proof.
  exists (P 1 0 2), (P 1 0 0), (P 1 12 0), (P 0 1 1), (P 4 1 1), (P 0 5 1), (P 1 1 1), (P 1 4 1). do 2 eexists.
  split; [vm_compute; reflexivity|]. split; [vm_compute; reflexivity|]. split; [intros (_ & E & _); simpl in E; lra|].
  intros z (t & Ht & E1 & E2 & E3). simpl in E1, E2, E3. split.
  - exists (1 # 2), (1 - (1 # 2) - (1 + 3 * t) / 12), ((1 + 3 * t) / 12). unfold Qdiv. change (/ 12) with (1 # 12). repeat split; simpl; lra.
  - exists (1 - (1 # 4) - 3 * t / 4), (1 # 4), (3 * t / 4). unfold Qdiv. change (/ 4) with (1 # 4). repeat split; simpl; lra.
Qed.

(** ** quadrilaterals *)
Lemma parallelogram_convex p q r s : peq r (P (px q + px s - px p) (py q + py s - py p) (pz q + pz s - pz p)) -> convex (in_quad p q r s).
Proof.
  intros Er. assert (E : forall k, coord r k == coord q k + coord s k - coord p k).
  { rewrite peq_coord in Er. intros k. rewrite Er. destruct k as [|[|k]]; simpl; reflexivity. }
  assert (G : forall z, in_quad p q r s z <-> exists a b, 0 <= a <= 1 /\ 0 <= b <= 1 /\ forall k, coord z k == coord p k + a * (coord q k - coord p k) + b * (coord s k - coord p k)).
  { intros z. unfold in_quad. rewrite !in_triangle_bary. split.
    - intros [(u & v & w & H1 & H2 & H3 & B1 & B2)|(u & v & w & H1 & H2 & H3 & B1 & B2)].
      + exists v, w. split; [lra|]. split; [lra|]. intros k. rewrite B2. assert (X : u == 1 - v - w) by lra. rewrite X. ring.
      + exists (u + v), (v + w). split; [lra|]. split; [lra|]. intros k. rewrite B2, E. assert (X : u == 1 - v - w) by lra. rewrite X. ring.
    - intros (a & b & Ha & Hb & Hz). destruct (Qlt_le_dec 1 (a + b)) as [L|L].
      + right. exists (1 - b), (a + b - 1), (1 - a). split; [lra|]. split; [lra|]. split; [lra|]. split; [ring|]. intros k. rewrite Hz, E. ring.
      + left. exists (1 - a - b), a, b. split; [lra|]. split; [lra|]. split; [lra|]. split; [ring|]. intros k. rewrite Hz. ring. }
  intros x y z Hx Hy (t & Ht & Ez). rewrite G in *. destruct Hx as (a & b & Ha & Hb & Hx), Hy as (a' & b' & Ha' & Hb' & Hy).
  exists (a + t * (a' - a)), (b + t * (b' - b)). split; [nra|]. split; [nra|]. rewrite peq_coord in Ez. intros k.
  rewrite Ez, coord_along, Hx, Hy. ring.
Qed.
Lemma first_four_lemma eps o0 o1 o2 o3 t0 t1 t2 t3 more more' :
  polygon_polygon_intersection eps (o0 :: o1 :: o2 :: o3 :: more) (t0 :: t1 :: t2 :: t3 :: more') =
  polygon_polygon_intersection eps [o0; o1; o2; o3] [t0; t1; t2; t3].
Proof. reflexivity. Qed.
Lemma short_lemma eps o t : (length o < 4)%nat \/ (length t < 4)%nat -> polygon_polygon_intersection eps o t = Err IndexError.
Proof.
  intros H. unfold polygon_polygon_intersection, get_at.
  destruct o as [|o0 [|o1 [|o2 [|o3 o]]]]; try reflexivity. destruct t as [|t0 [|t1 [|t2 [|t3 t]]]]; try reflexivity. simpl in H. lia.
Qed.
Lemma coplanar_quads_lemma eps o0 o1 o2 o3 t0 t1 t2 t3 more more' :
  (forall a b c x, In (a, b, c) [(t0, t1, t3); (t1, t2, t3)] -> In x [o0; o1; o2; o3] -> in_plane a b c x) ->
  polygon_polygon_intersection eps (o0 :: o1 :: o2 :: o3 :: more) (t0 :: t1 :: t2 :: t3 :: more') = Ok None.
Proof.
  intros H. unfold polygon_polygon_intersection, get_at. cbn [nth_error bind].
  rewrite !coplanar_lemma by (left; intros x Hx; apply H; [simpl; auto|destruct Hx as [<-|[<-|[<-|[]]]]; simpl; auto]). reflexivity.
Qed.
(** a quadrilateral and a pentagon whose last corner is ignored *)
Lemma pentagon_lemma : exists o0 o1 o2 o3 t0 t1 t2 t3 t4 x y z,
  polygon_polygon_intersection eps_12 [o0; o1; o2; o3] [t0; t1; t2; t3; t4] = Ok (hit x y) /\
  in_quad o0 o1 o2 o3 z /\ in_triangle t3 t4 t0 z /\ ~ between x y z.
Proof.
  exists (P 1 (-1) (-1)), (P 1 9 (-1)), (P 1 9 1), (P 1 (-1) 1), (P 0 0 0), (P 4 0 0), (P 4 4 0), (P 3 5 0), (P 0 4 0). do 2 eexists.
  exists (P 1 4 0). split; [vm_compute; reflexivity|]. split; [|split].
  - left. exists 0, (1 # 2), (1 # 2). repeat split; simpl; lra.
  - exists (1 # 3), (7 # 12), (1 # 12). repeat split; simpl; lra.
  - intros (t & Ht & _ & E & _). simpl in E. lra.
Qed.
(** two rectangles that make the routine fail *)
Lemma placeholder_lemma : exists o0 o1 o2 o3 t0 t1 t2 t3,
  polygon_polygon_intersection eps_12 [o0; o1; o2; o3] [t0; t1; t2; t3] = Err ValueError /\
  convex (in_quad o0 o1 o2 o3) /\ convex (in_quad t0 t1 t2 t3).
Proof.
  exists (P 1 (4 # 10000000000000) 1), (P 1 (4 # 10000000000000) (-1)), (P 2 (- (4 # 10000000000000)) (-1)), (P 2 (- (4 # 10000000000000)) 1),
    (P 0 0 0), (P 4 0 0), (P 4 4 0), (P 0 4 0).
  split; [vm_compute; reflexivity|]. split; apply parallelogram_convex; (split; [vm_compute; reflexivity|split; vm_compute; reflexivity]).
Qed.
