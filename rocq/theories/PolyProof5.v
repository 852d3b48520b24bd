(** * Lemmas: stars, non-convex polygons, C91, C92 *)
From Coq Require Import List Arith ZArith Bool Reals Lra Lia.
From Verif Require Import Base BaseProof VecBase VecProof GeoModel GeoSpec GeoProof GeoProof2 PolyModel PolySpec PolyProof PolyProof2 PolyProof3 PolyProof4.
Import ListNotations.
Local Open Scope R_scope.

Lemma small_lemma pts : (length pts < 4)%nat -> convex_q pts = Ok true.
Proof. intros L. unfold convex_q. rewrite (proj2 (Nat.ltb_lt _ _) L). reflexivity. Qed.
Lemma far_default u w : norm w < norm u -> 1 / 100000000 + 1 / 100000 * norm w < norm u - norm w -> isclose_default (norm u) (norm w) = false.
Proof.
  intros H1 H2. unfold isclose_default. apply Rleb_false. rewrite (Rabs_right (norm w)) by (pose proof (norm_nonneg w); lra). rewrite Rabs_right by lra. exact H2.
Qed.
Lemma parallelogram_lemma c u w : 1 / 100000000 + 1 / 100000 * norm w < norm u - norm w -> norm u < 3 * norm w ->
  convex_q (parallelogram c u w) = Ok false /\ convex_q (parallelogram c w u) = Ok false.
Proof.
  intros H1 H2. assert (H : norm w < norm u) by (pose proof (norm_nonneg w); lra).
  destruct (parallelogram_normal c u w (conj H H2) (far_default u w H H1)) as [E1 E2].
  split; apply zero_normal_not_convex; simpl; try lia; assumption.
Qed.
Lemma parallelogram_convex c u w : cross u w <> vzero -> convex_polygon (cross u w) (parallelogram c u w).
Proof.
  intros N. pose proof (dot_pos _ N) as D. split; [simpl; lia|]. split.
  - split; [exact N|]. intros p q Ip Iq. unfold parallelogram in *.
    destruct Ip as [<-|[<-|[<-|[<-|[]]]]]; destruct Iq as [<-|[<-|[<-|[<-|[]]]]]; unfold dot, cross; simpl; ring.
  - intros i j Li Lj D1 D2. simpl in Li, Lj.
    assert (Q : side (cross u w) (corner (parallelogram c u w) i) (corner (parallelogram c u w) (i + 1)) (corner (parallelogram c u w) j) = 2 * dot (cross u w) (cross u w)).
    { destruct i as [|[|[|[|]]]]; [| | | |lia]; (destruct j as [|[|[|[|]]]]; [| | | |lia]); simpl in D1, D2; try lia;
        unfold corner, parallelogram, side; simpl; unfold dot, cross; simpl; ring. }
    rewrite Q. lra.
Qed.
Lemma parallelogram_fails_lemma delaunay ctol eps c u w p :
  1 / 100000000 + 1 / 100000 * norm w < norm u - norm w -> norm u < 3 * norm w -> vz u = 0 -> vz w = 0 ->
  (forall flat, (exists h, forall q, In q flat -> snd q = h) -> exists e, delaunay flat = Err e) ->
  exists e, point_polygon_intersection delaunay ctol p (parallelogram c u w) eps = Err e.
Proof.
  intros H1 H2. assert (H : norm w < norm u) by (pose proof (norm_nonneg w); lra). apply parallelogram_fails; [auto|apply far_default; assumption].
Qed.

(** ** a star *)
Definition star : list vec := [mk_vec 4 3 0; mk_vec (-4) 3 0; mk_vec 3 (-4) 0; mk_vec 3 4 0; mk_vec (-4) (-3) 0; mk_vec 4 (-3) 0; mk_vec (-3) 4 0; mk_vec (-3) (-4) 0].
Lemma star_mean : vmean star = vzero.
Proof. unfold vmean, vsum, star. simpl. apply vec_ext; simpl; field. Qed.
Lemma star_true : convex_q star = Ok true.
Proof.
  apply (equidistant_convex (mk_vec 0 0 1)).
  - split; [intros E; injection E; lra|]. intros p q Ip Iq. assert (Z : forall v, In v star -> vz v = 0).
    { intros v I. unfold star in I. repeat (destruct I as [<-|I]; [reflexivity|]). destruct I. }
    unfold dot. simpl. rewrite (Z p Ip), (Z q Iq). ring.
  - exists (norm (mk_vec 4 3 0)). rewrite star_mean. intros p I. unfold norm. f_equal.
    unfold star in I. repeat (destruct I as [<-|I]; [unfold dot; simpl; ring|]). destruct I.
  - intros i L. simpl in L. do 8 (destruct i as [|i]; [unfold corner, star, dot, cross; simpl; lra|]). lia.
Qed.
Lemma star_not n : ~ convex_polygon n star.
Proof.
  intros (_ & _ & S). pose proof (S 0 2 ltac:(simpl; lia) ltac:(simpl; lia) ltac:(lia) ltac:(simpl; lia))%nat as H1.
  pose proof (S 0 3 ltac:(simpl; lia) ltac:(simpl; lia) ltac:(lia) ltac:(simpl; lia))%nat as H2.
  revert H1 H2. unfold side, corner, star, dot, cross. simpl. lra.
Qed.
Lemma star_lemma : exists pts, convex_q pts = Ok true /\ (forall n, ~ convex_polygon n pts) /\
  exists p, on_segment (corner pts 0) (corner pts 1) p /\ on_segment (corner pts 2) (corner pts 3) p /\
    (forall i, (i < 4)%nat -> p <> corner pts i).
Proof.
  exists star. split; [exact star_true|]. split; [exact star_not|]. exists (mk_vec 3 3 0). split; [|split].
  - exists (1 / 8). split; [lra|]. unfold between. apply vec_ext; simpl; field.
  - exists (7 / 8). split; [lra|]. unfold between. apply vec_ext; simpl; field.
  - intros i L E. do 4 (destruct i as [|i]; [unfold corner, star in E; simpl in E; injection E; lra|]). lia.
Qed.

(** ** triangulation of polygons that are not recognised as convex *)
Lemma concat_filter {A} (f : A -> bool) l : concat (map (fun t => if f t then [] else [t]) l) = filter (fun t => negb (f t)) l.
Proof. induction l as [|x l IH]; [reflexivity|]. cbn [map concat filter]. rewrite IH. destruct (f x); reflexivity. Qed.
Lemma triangulation_lemma delaunay pts ij simplices : convex_q pts = Ok false -> projection_directions pts = Ok ij ->
  delaunay (flat_points ij pts) = Ok simplices ->
  (forall i j k, In (i, j, k) simplices -> (i < length pts)%nat /\ (j < length pts)%nat /\ (k < length pts)%nat) ->
  triangulate_polygon delaunay pts =
    Ok (map (triangle_of pts) (filter (fun t => negb (winding_number (middle (flat_points ij pts) t) (flat_points ij pts) =? 0)%Z) simplices)).
Proof.
  intros E Ep Ed L. unfold triangulate_polygon. rewrite E. cbn [bind]. rewrite Ep. cbn [bind].
  change (map (fun v => (axis_of v (fst ij), axis_of v (snd ij))) pts) with (flat_points ij pts). rewrite Ed. cbn [bind].
  set (flat := flat_points ij pts). assert (Lf : length flat = length pts) by (unfold flat, flat_points; apply map_length).
  rewrite (mapM_Ok_map _ (fun t => if (winding_number (middle flat t) flat =? 0)%Z then [] else [t])).
  2:{ intros [[i j] k] I. destruct (L i j k I) as (L1 & L2 & L3). rewrite (get_at_lt flat i (0, 0)), (get_at_lt flat j (0, 0)), (get_at_lt flat k (0, 0)) by lia. reflexivity. }
  cbn [bind]. rewrite concat_filter. apply mapM_Ok_map. intros [[i j] k] I. apply filter_In in I as [I _]. destruct (L i j k I) as (L1 & L2 & L3).
  rewrite (get_at_lt pts i vzero), (get_at_lt pts j vzero), (get_at_lt pts k vzero) by lia. reflexivity.
Qed.
(** the projection of a plane polygon onto two axes keeps different points of the plane apart *)
Lemma projection_lemma n pts N : (3 <= length pts)%nat -> planar n pts -> polygon_normal pts = Ok N -> N <> vzero ->
  exists i j, projection_directions pts = Ok (i, j) /\
    forall p q, dot n (vsub p q) = 0 -> axis_part p i = axis_part q i -> axis_part p j = axis_part q j -> p = q.
Proof.
  intros L Pl EN NZ. unfold projection_directions. rewrite EN. cbn [bind].
  destruct (polygon_normal_Ok pts L) as (pa & pb & pc & EN' & Fa & Fb & Fc). rewrite EN in EN'. injection EN' as EN'.
  assert (Ne : pts <> []) by (intros E; rewrite E in L; simpl in L; lia).
  assert (D : forall p q, from_corners pts p -> from_corners pts q -> dot n (vsub p q) = 0).
  { intros p q Fp Fq. pose proof (from_corners_plane n pts p (corner pts 0) Pl Fp (corner_In pts 0 Ne)) as H1.
    pose proof (from_corners_plane n pts q (corner pts 0) Pl Fq (corner_In pts 0 Ne)) as H2. revert H1 H2. unfold dot. simpl. lra. }
  pose proof (cross_plane n (vsub pb pa) (vsub pc pa) (proj1 Pl) (D _ _ Fb Fa) (D _ _ Fc Fa)) as Ec.
  destruct (normalize_scale (cross (vsub pb pa) (vsub pc pa))) as (k & K & Ek). rewrite Ek, Ec in EN'.
  set (l := dot n (cross (vsub pb pa) (vsub pc pa)) / dot n n) in *. clearbody l.
  assert (EN2 : N = vscale (k * l) n) by (rewrite EN'; apply vec_ext; simpl; ring). clear Ec Ek EN' EN D Fa Fb Fc pa pb pc.
  set (h := k * l) in *. clearbody h. clear k K l.
  assert (A : forall x, Rabs x = 0 -> x = 0) by (intros x E; destruct (Req_dec x 0) as [|Z]; [assumption|exfalso; exact (Rabs_no_R0 x Z E)]).
  assert (NN : Rabs (vx N) <> 0 \/ Rabs (vy N) <> 0 \/ Rabs (vz N) <> 0).
  { destruct (Req_dec (Rabs (vx N)) 0) as [E1|]; [|auto]. destruct (Req_dec (Rabs (vy N)) 0) as [E2|]; [|auto]. destruct (Req_dec (Rabs (vz N)) 0) as [E3|]; [|auto].
    exfalso. apply NZ. apply vec_ext; simpl; apply A; assumption. }
  pose proof (Rabs_pos (vx N)) as P1. pose proof (Rabs_pos (vy N)) as P2. pose proof (Rabs_pos (vz N)) as P3.
  assert (C : forall c, Rabs (h * c) <> 0 -> c <> 0) by (intros c H ->; apply H; rewrite Rmult_0_r; apply Rabs_R0).
  assert (Cx : Rabs (vx N) <> 0 -> vx n <> 0) by (rewrite EN2; apply C). assert (Cy : Rabs (vy N) <> 0 -> vy n <> 0) by (rewrite EN2; apply C). assert (Cz : Rabs (vz N) <> 0 -> vz n <> 0) by (rewrite EN2; apply C).
  assert (Zero : forall c x y, c <> 0 -> c * (x - y) = 0 -> x = y) by (intros c x y H E; apply Rmult_integral in E as [E|E]; [contradiction|lra]).
  unfold argmax, argbest. cbn [best_index Nat.add].
  assert (Fx : vx n <> 0 -> forall p q, dot n (vsub p q) = 0 -> axis_part p 1 = axis_part q 1 -> axis_part p 2 = axis_part q 2 -> p = q).
  { intros H p q E E1 E2. simpl in E1, E2. apply vec_ext; [|exact E1|exact E2]. apply (Zero (vx n)); [exact H|]. unfold dot in E. simpl in E. rewrite E1, E2 in E. lra. }
  assert (Fy : vy n <> 0 -> forall p q, dot n (vsub p q) = 0 -> axis_part p 0 = axis_part q 0 -> axis_part p 2 = axis_part q 2 -> p = q).
  { intros H p q E E1 E2. simpl in E1, E2. apply vec_ext; [exact E1| |exact E2]. apply (Zero (vy n)); [exact H|]. unfold dot in E. simpl in E. rewrite E1, E2 in E. lra. }
  assert (Fz : vz n <> 0 -> forall p q, dot n (vsub p q) = 0 -> axis_part p 0 = axis_part q 0 -> axis_part p 1 = axis_part q 1 -> p = q).
  { intros H p q E E1 E2. simpl in E1, E2. apply vec_ext; [exact E1|exact E2|]. apply (Zero (vz n)); [exact H|]. unfold dot in E. simpl in E. rewrite E1, E2 in E. lra. }
  clear EN2 C.
  destruct (Rltb (Rabs (vx N)) (Rabs (vy N))) eqn:T1.
  - apply Rltb_true in T1. destruct (Rltb (Rabs (vy N)) (Rabs (vz N))) eqn:T2; cbn [bind].
    + apply Rltb_true in T2. exists 0%nat, 1%nat. split; [reflexivity|]. apply Fz, Cz. lra.
    + apply Rltb_false in T2. exists 0%nat, 2%nat. split; [reflexivity|]. apply Fy, Cy. lra.
  - apply Rltb_false in T1. destruct (Rltb (Rabs (vx N)) (Rabs (vz N))) eqn:T2; cbn [bind].
    + apply Rltb_true in T2. exists 0%nat, 1%nat. split; [reflexivity|]. apply Fz, Cz. lra.
    + apply Rltb_false in T2. exists 1%nat, 2%nat. split; [reflexivity|]. apply Fx, Cx. destruct NN as [|[|]]; lra.
Qed.
Lemma winding_full p pts : (forall i, (i < length pts)%nat -> ~ on_segment2 (corner2 pts i) (corner2 pts (i + 1)) p) ->
  forall w, turns_around p pts w <-> w = winding_number p pts.
Proof.
  intros Off w. split; [intros T; apply (turns_unique p pts Off _ _ T (winding_lemma p pts Off))|intros ->; apply winding_lemma; exact Off].
Qed.
