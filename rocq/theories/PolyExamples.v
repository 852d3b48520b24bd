(** * Examples: a rectangle, a rhombus, a square in the plane, C91, C92 *)
From Coq Require Import List Arith ZArith Bool Reals Lra Lia.
From Verif Require Import Base VecBase VecProof GeoModel GeoSpec GeoProof GeoProof2 GeoExamples PolyModel PolySpec PolyProof PolyProof2 PolyProof3 PolyProof4 PolyProof5.
Import ListNotations.
Local Open Scope R_scope.

Definition rectangle : list vec := [P 0 0 0; P 2 0 0; P 2 1 0; P 0 1 0].
Definition up : vec := P 0 0 1.
Lemma rectangle_mean : vmean rectangle = P 1 (1 / 2) 0.
Proof. unfold rectangle. rewrite vec4_mean. unfold P. apply vec_ext; simpl; field. Qed.
Lemma rectangle_plane : planar up rectangle.
Proof.
  split; [intros E; injection E; lra|]. intros p q Ip Iq. unfold rectangle in *.
  destruct Ip as [<-|[<-|[<-|[<-|[]]]]]; destruct Iq as [<-|[<-|[<-|[<-|[]]]]]; unfold up, P, dot; simpl; ring.
Qed.
Lemma rectangle_convex : convex_polygon up rectangle.
Proof.
  split; [simpl; lia|]. split; [exact rectangle_plane|]. intros i j Li Lj D1 D2. simpl in Li, Lj.
  destruct i as [|[|[|[|]]]]; [| | | |lia]; (destruct j as [|[|[|[|]]]]; [| | | |lia]); simpl in D1, D2; try lia;
    unfold corner, rectangle, side, up, P, dot, cross; simpl; lra.
Qed.
Lemma rectangle_equidistant : equidistant rectangle.
Proof.
  exists (norm (P 1 (1 / 2) 0)). rewrite rectangle_mean. intros p I. unfold norm. f_equal. unfold rectangle in I.
  destruct I as [<-|[<-|[<-|[<-|[]]]]]; unfold dot, P; simpl; field.
Qed.
Lemma rectangle_recognised : planar up rectangle /\ equidistant rectangle /\ turns_left up rectangle /\ convex_q rectangle = Ok true.
Proof.
  pose proof (convex_turns _ _ rectangle_convex) as T. split; [exact rectangle_plane|]. split; [exact rectangle_equidistant|]. split; [exact T|].
  exact (equidistant_convex up rectangle rectangle_plane rectangle_equidistant T).
Qed.
Lemma rectangle_inside : convex_polygon up rectangle /\ convex_q rectangle = Ok true /\ in_polygon up rectangle (P (3 / 2) (3 / 4) 0).
Proof.
  split; [exact rectangle_convex|]. split; [apply rectangle_recognised|]. split; [unfold corner, rectangle, up, P, dot; simpl; ring|].
  intros i L. simpl in L. destruct i as [|[|[|[|]]]]; [| | | |lia]; unfold corner, rectangle, side, up, P, dot, cross; simpl; lra.
Qed.
Lemma norm_ge_x v : Rabs (vx v) <= norm v.
Proof.
  unfold norm. rewrite <- sqrt_Rsqr_abs. apply sqrt_le_1_alt. unfold dot, Rsqr. nra.
Qed.
Lemma norm_le k v : 0 <= k -> dot v v <= k * k -> norm v <= k.
Proof. intros K H. unfold norm. rewrite <- (sqrt_square k K). apply sqrt_le_1_alt. exact H. Qed.
Lemma rectangle_fan a b : fan_edge rectangle a b -> (0 <= vx a <= 2 /\ 0 <= vy a <= 1 /\ vz a = 0) /\ (0 <= vx b <= 2 /\ 0 <= vy b <= 1 /\ vz b = 0).
Proof.
  assert (Co : forall i, 0 <= vx (corner rectangle i) <= 2 /\ 0 <= vy (corner rectangle i) <= 1 /\ vz (corner rectangle i) = 0).
  { intros i. assert (I : In (corner rectangle i) rectangle) by (apply corner_In; discriminate). unfold rectangle in I at 2.
    destruct I as [<-|[<-|[<-|[<-|[]]]]]; unfold P; simpl; lra. }
  assert (M : 0 <= vx (vmean rectangle) <= 2 /\ 0 <= vy (vmean rectangle) <= 1 /\ vz (vmean rectangle) = 0) by (rewrite rectangle_mean; unfold P; simpl; lra).
  intros (i & _ & [[-> ->]|[[-> ->]|[-> ->]]]); auto.
Qed.
Lemma rectangle_outside : let p := P 100 0 0 in
  dot up (vsub p (corner rectangle 0)) = 0 /\ ~ in_polygon up rectangle p /\ (forall a b x, fan_edge rectangle a b -> ~ near_segment tol tol p a b x).
Proof.
  intros p. split; [unfold corner, rectangle, up, p, P, dot; simpl; ring|]. split.
  - intros [_ S]. pose proof (S 1%nat ltac:(simpl; lia)) as H. revert H. unfold corner, rectangle, side, up, p, P, dot, cross. simpl. lra.
  - intros a b x F. destruct (rectangle_fan a b F) as [(Ax & Ay & Az) (Bx & By & Bz)].
    assert (Far : forall q, 0 <= vx q <= 2 -> ~ close tol q p).
    { intros q Q [H _]. unfold p, P, tol in H. simpl in H. rewrite Rabs_left in H by lra. rewrite Rabs_right in H by lra. lra. }
    intros [[_ H]|[[_ H]|(_ & _ & H & _)]]; [exact (Far a Ax H)|exact (Far b Bx H)|].
    pose proof (norm_ge_x (vsub p a)) as N1. replace (vx (vsub p a)) with (100 - vx a) in N1 by reflexivity. rewrite Rabs_right in N1 by lra.
    assert (N2 : norm (vsub b a) <= 3). { apply norm_le; [lra|]. unfold dot, vsub. simpl. rewrite Az, Bz. nra. }
    unfold tol in H. lra.
Qed.
Lemma rectangle_above : let p := P 1 (1 / 2) 5 in
  (forall i, (i < length rectangle)%nat -> 6 * tol < Rabs (volume6 (vmean rectangle) (corner rectangle i) (corner rectangle (i + 1)) p)) /\
  (forall q, q = vmean rectangle \/ In q rectangle -> ~ close tol q p).
Proof.
  intros p. split.
  - rewrite rectangle_mean. intros i L. simpl in L. unfold tol.
    assert (V : volume6 (P 1 (1 / 2) 0) (corner rectangle i) (corner rectangle (i + 1)) p = 5).
    { destruct i as [|[|[|[|]]]]; [| | | |lia]; unfold corner, rectangle, volume6, p, P, dot, cross; simpl; field. }
    rewrite V, Rabs_right; lra.
  - assert (Far : forall q, vz q = 0 -> ~ close tol q p).
    { intros q Q (_ & _ & H). unfold p, P, tol in H. simpl in H. rewrite Q in H. rewrite Rabs_left in H by lra. rewrite Rabs_right in H by lra. lra. }
    intros q [->|I]; apply Far; [rewrite rectangle_mean; reflexivity|]. unfold rectangle in I. destruct I as [<-|[<-|[<-|[<-|[]]]]]; reflexivity.
Qed.
(** a rhombus *)
Lemma rhombus_example : let u := P 2 0 0 in let w := P 0 1 0 in
  1 / 100000000 + 1 / 100000 * norm w < norm u - norm w /\ norm u < 3 * norm w /\ vz u = 0 /\ vz w = 0 /\ cross u w <> vzero.
Proof.
  intros u w. assert (Nu : norm u = 2) by (unfold u; rewrite norm_x by reflexivity; rewrite Rabs_right; lra).
  assert (Nw : norm w = 1). { unfold w, norm. replace (dot (P 0 1 0) (P 0 1 0)) with 1 by (unfold P, dot; simpl; ring). apply sqrt_1. }
  rewrite Nu, Nw. split; [lra|]. split; [lra|]. split; [reflexivity|]. split; [reflexivity|]. intros E. apply (f_equal vz) in E. unfold u, w, P in E. simpl in E. lra.
Qed.
Lemma two_points_example (inside : vec -> bool) delaunay :
  inside (P (3 / 2) (3 / 4) 0) = true -> inside (P 100 0 0) = false ->
  forall p, In p [P (3 / 2) (3 / 4) 0; P 100 0 0] -> point_polygon_intersection delaunay tol p rectangle tol = Ok (if inside p then Some p else None).
Proof.
  intros I1 I2 p [<-|[<-|[]]].
  - rewrite I1. destruct rectangle_inside as (C & E & I). apply (found_lemma delaunay tol tol ltac:(unfold tol; lra) up); assumption.
  - rewrite I2. destruct rectangle_outside as (D & N & F). destruct rectangle_inside as (C & E & _). apply (outside_polygon_lemma delaunay tol tol ltac:(unfold tol; lra) up); assumption.
Qed.

(** a square of the plane *)
Definition square : list (R * R) := [(1, 1); (-1, 1); (-1, -1); (1, -1)].
Lemma square_off : forall i, (i < length square)%nat -> ~ on_segment2 (corner2 square i) (corner2 square (i + 1)) (0, 0).
Proof.
  intros i L (t & B & E1 & E2). simpl in L. destruct i as [|[|[|[|]]]]; [| | | |lia]; unfold corner2, square in *; simpl in *; lra.
Qed.
Lemma square_inside : forall i, (i < length square)%nat ->
  let u := minus2 (corner2 square i) (0, 0) in let v := minus2 (corner2 square (i + 1)) (0, 0) in 0 < fst u * snd v - snd u * fst v.
Proof. intros i L. simpl in L. destruct i as [|[|[|[|]]]]; [| | | |lia]; unfold corner2, square, minus2; simpl; lra. Qed.
Lemma square_outside : forall q, In q square -> let u := minus2 q (5, 0) in 0 < fst (-1, 0) * fst u + snd (-1, 0) * snd u.
Proof. intros q I. unfold square in I. destruct I as [<-|[<-|[<-|[<-|[]]]]]; unfold minus2; simpl; lra. Qed.
(** a dart *)
Definition dart : list vec := [P 6 0 0; P (-2) 3 0; P 1 0 0; P (-2) (-3) 0].
Lemma dart_normal : polygon_normal dart = Ok (P 0 0 1).
Proof.
  unfold polygon_normal. assert (M : vmean dart = P (3 / 4) 0 0) by (unfold dart; rewrite vec4_mean; unfold P; apply vec_ext; simpl; field).
  rewrite M.
  assert (N0 : norm (vsub (P 6 0 0) (P (3 / 4) 0 0)) = 21 / 4).
  { replace (vsub (P 6 0 0) (P (3 / 4) 0 0)) with (P (21 / 4) 0 0) by (unfold P; apply vec_ext; simpl; field). rewrite norm_x by reflexivity. rewrite Rabs_right; lra. }
  assert (N2 : norm (vsub (P 1 0 0) (P (3 / 4) 0 0)) = 1 / 4).
  { replace (vsub (P 1 0 0) (P (3 / 4) 0 0)) with (P (1 / 4) 0 0) by (unfold P; apply vec_ext; simpl; field). rewrite norm_x by reflexivity. rewrite Rabs_right; lra. }
  assert (N31 : norm (vsub (P (-2) (-3) 0) (P (3 / 4) 0 0)) = norm (vsub (P (-2) 3 0) (P (3 / 4) 0 0))) by (unfold norm; f_equal; unfold P, dot; simpl; ring).
  assert (B1 : 2 < norm (vsub (P (-2) 3 0) (P (3 / 4) 0 0)) < 21 / 4).
  { split.
    - replace 2 with (norm (P 2 0 0)) by (rewrite norm_x by reflexivity; apply Rabs_right; lra). apply norm_lt_sq. unfold P, dot. simpl. lra.
    - rewrite <- N0. apply norm_lt_sq. unfold P, dot. simpl. lra. }
  set (r := norm (vsub (P (-2) 3 0) (P (3 / 4) 0 0))) in *.
  assert (D : map (fun p : vec => norm (vsub p (P (3 / 4) 0 0))) dart = [21 / 4; r; 1 / 4; r]) by (unfold dart; cbn [map]; rewrite N0, N2, N31; reflexivity).
  rewrite D. clearbody r. clear D N0 N2 N31. cbv zeta.
  assert (T : forall x y : R, x < y -> Rltb x y = true) by (intros; apply best_gt; assumption).
  assert (F : forall x y : R, y <= x -> Rltb x y = false) by (intros; apply Rltb_false; assumption).
  assert (I0 : argmax [21 / 4; r; 1 / 4; r] = Ok 0%nat).
  { unfold argmax, argbest. cbn [best_index]. try rewrite (F (21 / 4) r) by lra. cbn [best_index]. try rewrite (F (21 / 4) (1 / 4)) by lra. cbn [best_index]. try rewrite (F (21 / 4) r) by lra. cbn [best_index]. reflexivity. }
  assert (I1 : argmin [21 / 4; r; 1 / 4; r] = Ok 2%nat).
  { unfold argmin, argbest. cbn [best_index]. try rewrite (T r (21 / 4)) by lra. cbn [best_index]. try rewrite (T (1 / 4) r) by lra. cbn [best_index]. try rewrite (F r (1 / 4)) by lra. cbn [best_index]. reflexivity. }
  rewrite I0, I1. cbn [bind get_at nth_error].
  replace (isclose_default (21 / 4) (1 / 4)) with false by (symmetry; apply Rleb_false; rewrite !Rabs_right; lra).
  cbn [bind dart delete_at app get_at nth_error].
  assert (M3 : vmean [P (-2) 3 0; P 1 0 0; P (-2) (-3) 0] = P (-1) 0 0) by (rewrite vec3_mean; unfold P; apply vec_ext; simpl; field).
  rewrite M3. assert (M4 : vmean [P (-2) 3 0; P 1 0 0; P (-2) (-3) 0; P (-1) 0 0] = P (-1) 0 0) by (rewrite vec4_mean; unfold P; apply vec_ext; simpl; field).
  rewrite M4. assert (N4 : norm (vsub (P (-1) 0 0) (P (3 / 4) 0 0)) = 7 / 4).
  { replace (vsub (P (-1) 0 0) (P (3 / 4) 0 0)) with (P (- (7 / 4)) 0 0) by (unfold P; apply vec_ext; simpl; field). rewrite norm_x by reflexivity. rewrite Rabs_left; lra. }
  rewrite N4.
  assert (J0 : argmax [r; 1 / 4; r; 7 / 4] = Ok 0%nat).
  { unfold argmax, argbest. cbn [best_index]. try rewrite (F r (1 / 4)) by lra. cbn [best_index]. try rewrite (F r r) by lra. cbn [best_index]. try rewrite (F r (7 / 4)) by lra. cbn [best_index]. reflexivity. }
  assert (J1 : argmin [r; 1 / 4; r; 7 / 4] = Ok 1%nat).
  { unfold argmin, argbest. cbn [best_index]. try rewrite (T (1 / 4) r) by lra. cbn [best_index]. try rewrite (F r (1 / 4)) by lra. cbn [best_index]. try rewrite (F (7 / 4) (1 / 4)) by lra. cbn [best_index]. reflexivity. }
  rewrite J0, J1. cbn [bind get_at nth_error].
  f_equal. set (c := cross (vsub (P (-2) 3 0) (P 6 0 0)) (vsub (P 1 0 0) (P 6 0 0))).
  assert (Ec : c = vscale 15 (P 0 0 1)) by (unfold c, P; apply vec_ext; simpl; ring).
  unfold normalize. rewrite Ec, norm_scale. replace (norm (P 0 0 1)) with 1.
  2:{ unfold norm. replace (dot (P 0 0 1) (P 0 0 1)) with 1 by (unfold P, dot; simpl; ring). symmetry. apply sqrt_1. }
  rewrite Rabs_right by lra. destruct (Req_EM_T _ _); [lra|]. unfold P. apply vec_ext; simpl; field.
Qed.
Lemma dart_false : convex_q dart = Ok false.
Proof.
  assert (L : (4 <= length dart)%nat) by (simpl; lia).
  destruct (convex_q dart) as [[|]|e] eqn:E; [|reflexivity|].
  - exfalso. destruct (convex_q_sound dart L E) as (n & _ & T). pose proof (T 0%nat ltac:(simpl; lia)) as T0. pose proof (T 1%nat ltac:(simpl; lia)) as T1.
    revert T0 T1. unfold corner, dart, P, dot, cross. simpl. lra.
  - rewrite (convex_q_Ok dart _ L dart_normal) in E. discriminate.
Qed.
Lemma dart_directions : projection_directions dart = Ok (0, 1)%nat.
Proof.
  unfold projection_directions. rewrite dart_normal. cbn [bind]. unfold argmax, argbest, P. cbn [best_index vx vy vz]. rewrite Rabs_R0, ?best_eq. cbn [best_index bind].
  rewrite Rabs_R1. rewrite (best_gt 0 1) by lra. reflexivity.
Qed.
Lemma rectangle_normal : exists N, polygon_normal rectangle = Ok N /\ N <> vzero.
Proof.
  destruct (convex_q_plane up rectangle) as (pa & pb & pc & E & _ & Z); [simpl; lia|exact rectangle_plane|apply convex_turns, rectangle_convex|].
  eexists. split; [exact E|]. intros N. destruct rectangle_recognised as (_ & _ & _ & T).
  destruct (normalize_scale (cross (vsub pb pa) (vsub pc pa))) as (k & K & Ek). rewrite Ek in N.
  rewrite Z in T; [discriminate|]. set (c := cross (vsub pb pa) (vsub pc pa)) in *. clearbody c.
  pose proof (f_equal vx N) as N1. pose proof (f_equal vy N) as N2. pose proof (f_equal vz N) as N3. simpl in N1, N2, N3. apply vec_ext; simpl; nra.
Qed.
