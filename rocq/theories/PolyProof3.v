(** * Lemmas: parallelograms, points in polygons, C91 *)
From Coq Require Import List Arith ZArith Bool Reals Lra Lia.
From Verif Require Import Base BaseProof VecBase VecProof GeoModel GeoSpec GeoProof GeoProof2 PolyModel PolySpec PolyProof PolyProof2.
Import ListNotations.
Local Open Scope R_scope.

(** ** parallelograms *)
Lemma normalize_zero : normalize vzero = vzero.
Proof. destruct (normalize_scale vzero) as (k & _ & ->). apply vec_ext; simpl; ring. Qed.
Lemma vec4_mean a b c d : vmean [a; b; c; d] = vscale (1 / 4) (vadd a (vadd b (vadd c d))).
Proof. unfold vmean, vsum. simpl. apply vec_ext; simpl; field. Qed.
Lemma vec3_mean a b c : vmean [a; b; c] = vscale (1 / 3) (vadd a (vadd b c)).
Proof. unfold vmean, vsum. simpl. apply vec_ext; simpl; field. Qed.
Lemma norm_opp v : norm (vscale (-1) v) = norm v.
Proof. rewrite norm_scale. rewrite Rabs_left by lra. ring. Qed.
Lemma parallelogram_mean c u w : vmean (parallelogram c u w) = c.
Proof. unfold parallelogram. rewrite vec4_mean. apply vec_ext; simpl; field. Qed.

Lemma best_lt (x y : R) : x < y -> Rltb y x = false.
Proof. intros. apply Rltb_false. lra. Qed.
Lemma best_eq (x : R) : Rltb x x = false.
Proof. apply Rltb_false. lra. Qed.
Lemma best_gt (x y : R) : x < y -> Rltb x y = true.
Proof. intros. apply Rltb_true. exact H. Qed.

(** the two diagonals are clearly different and neither is three times the other *)
Lemma parallelogram_normal c u w : norm w < norm u < 3 * norm w -> isclose_default (norm u) (norm w) = false ->
  polygon_normal (parallelogram c u w) = Ok vzero /\ polygon_normal (parallelogram c w u) = Ok vzero.
Proof.
  intros [H1 H2] Cl.
  assert (Du : norm (vsub (vadd c u) c) = norm u) by (f_equal; apply vec_ext; simpl; ring).
  assert (Dw : norm (vsub (vadd c w) c) = norm w) by (f_equal; apply vec_ext; simpl; ring).
  assert (Du' : norm (vsub (vsub c u) c) = norm u) by (rewrite <- (norm_opp u); f_equal; apply vec_ext; simpl; ring).
  assert (Dw' : norm (vsub (vsub c w) c) = norm w) by (rewrite <- (norm_opp w); f_equal; apply vec_ext; simpl; ring).
  assert (Nu : 0 <= norm w) by apply norm_nonneg.
  split.
  - unfold polygon_normal. rewrite parallelogram_mean. unfold parallelogram. cbn [map]. rewrite Du, Dw, Du', Dw'.
    unfold argmax, argmin, argbest. cbn [best_index Nat.add].
    rewrite !(best_lt (norm w) (norm u)), !(best_gt (norm w) (norm u)), !best_eq by exact H1. cbn [best_index Nat.add].
    rewrite ?(best_lt (norm w) (norm u)), ?(best_gt (norm w) (norm u)), ?best_eq by exact H1. cbn [best_index Nat.add].
    unfold get_at at 1 2. cbn [bind nth_error]. rewrite Cl. unfold get_at at 1. cbn [bind nth_error delete_at app].
    set (rest := [vadd c w; vsub c u; vsub c w]).
    assert (Er : vmean rest = vsub c (vscale (1 / 3) u)) by (unfold rest; rewrite vec3_mean; apply vec_ext; simpl; field).
    assert (Er4 : vmean [vadd c w; vsub c u; vsub c w; vmean rest] = vsub c (vscale (1 / 3) u)).
    { rewrite Er, vec4_mean. apply vec_ext; simpl; field. }
    unfold rest at 1. cbn [app]. fold rest. rewrite Er4, Er.
    assert (D3 : norm (vsub (vsub c (vscale (1 / 3) u)) c) = norm u / 3).
    { transitivity (norm (vscale (- (1 / 3)) u)); [f_equal; apply vec_ext; simpl; ring|]. rewrite norm_scale, Rabs_left by lra. field. }
    rewrite D3. cbn [best_index Nat.add].
    rewrite !(best_gt (norm w) (norm u)) by exact H1. cbn [best_index Nat.add].
    rewrite ?(best_lt (norm w) (norm u)), ?(best_gt (norm w) (norm u)), ?best_eq by exact H1. cbn [best_index Nat.add].
    rewrite ?(best_lt (norm u / 3) (norm u)), ?(best_lt (norm w) (norm u)), ?best_eq by lra. cbn [best_index Nat.add].
    rewrite ?(best_gt (norm u / 3) (norm w)) by lra. cbn [best_index Nat.add bind get_at nth_error].
    unfold rest. cbn [app nth_error bind].
    f_equal. rewrite <- normalize_zero at 1. f_equal. apply vec_ext; simpl; field.
  - unfold polygon_normal. rewrite parallelogram_mean. unfold parallelogram. cbn [map]. rewrite Du, Dw, Du', Dw'.
    unfold argmax, argmin, argbest. cbn [best_index Nat.add].
    rewrite !(best_lt (norm w) (norm u)), !(best_gt (norm w) (norm u)) by exact H1. cbn [best_index Nat.add].
    rewrite ?(best_lt (norm w) (norm u)), ?(best_gt (norm w) (norm u)), ?best_eq by exact H1. cbn [best_index Nat.add].
    rewrite ?(best_lt (norm w) (norm u)), ?(best_gt (norm w) (norm u)), ?best_eq by exact H1. cbn [best_index Nat.add].
    unfold get_at at 1 2. cbn [bind nth_error]. rewrite Cl. unfold get_at at 1. cbn [bind nth_error delete_at app].
    set (rest := [vadd c w; vsub c w; vsub c u]).
    assert (Er : vmean rest = vsub c (vscale (1 / 3) u)) by (unfold rest; rewrite vec3_mean; apply vec_ext; simpl; field).
    assert (Er4 : vmean [vadd c w; vsub c w; vsub c u; vmean rest] = vsub c (vscale (1 / 3) u)).
    { rewrite Er, vec4_mean. apply vec_ext; simpl; field. }
    unfold rest at 1. cbn [app]. fold rest. rewrite Er4, Er.
    assert (D3 : norm (vsub (vsub c (vscale (1 / 3) u)) c) = norm u / 3).
    { transitivity (norm (vscale (- (1 / 3)) u)); [f_equal; apply vec_ext; simpl; ring|]. rewrite norm_scale, Rabs_left by lra. field. }
    rewrite D3. cbn [best_index Nat.add].
    rewrite ?best_eq. cbn [best_index Nat.add].
    rewrite !(best_gt (norm w) (norm u)) by exact H1. cbn [best_index Nat.add].
    rewrite ?(best_lt (norm w) (norm u)), ?(best_gt (norm w) (norm u)), ?best_eq by exact H1. cbn [best_index Nat.add].
    rewrite ?(best_lt (norm u / 3) (norm u)), ?(best_lt (norm w) (norm u)), ?best_eq by lra. cbn [best_index Nat.add].
    rewrite ?(best_gt (norm u / 3) (norm w)) by lra. cbn [best_index Nat.add bind get_at nth_error].
    unfold rest. cbn [app nth_error bind].
    f_equal. rewrite <- normalize_zero at 1. f_equal. apply vec_ext; simpl; field.
Qed.
Lemma zero_normal_not_convex pts : (4 <= length pts)%nat -> polygon_normal pts = Ok vzero -> convex_q pts = Ok false.
Proof.
  intros L E. rewrite (convex_q_Ok pts _ L E). f_equal. apply Z.eqb_neq. rewrite (sum_const _ 0%Z); [lia|]. intros i Li.
  replace (dot vzero (normalize (turn pts i))) with 0 by (unfold dot; simpl; ring). apply sign_zero.
Qed.

Section Points.
  Variable delaunay : list (R * R) -> res (list (nat * nat * nat)).
  Variables ctol eps : R.
  Hypothesis He : 0 <= eps.

  Lemma recognised_triangles n pts : convex_polygon n pts -> convex_q pts = Ok true ->
    triangulate_polygon delaunay pts = Ok (map (fun i => (vmean pts, corner pts i, corner pts (i + 1))) (seq 0 (length pts))).
  Proof.
    intros C E. unfold triangulate_polygon. rewrite E. cbn [bind]. rewrite (triangulate_Ok pts (proj1 C)). f_equal.
    apply map_ext_in. intros i I. apply in_seq in I. rewrite (corner_lt pts i) by lia. reflexivity.
  Qed.
  Lemma point_answer n pts p : convex_polygon n pts -> convex_q pts = Ok true ->
    exists b : bool, point_polygon_intersection delaunay ctol p pts eps = Ok (if b then Some p else None) /\
      (b = true <-> exists i, (i < length pts)%nat /\ exists x, point_triangle_intersection ctol p (vmean pts) (corner pts i) (corner pts (i + 1)) eps = Some x).
  Proof.
    intros C E. unfold point_polygon_intersection. rewrite (recognised_triangles n pts C E). cbn [bind]. rewrite map_map.
    eexists. split; [reflexivity|]. rewrite existsb_exists. split.
    - intros (o & I & S). apply in_map_iff in I as (i & <- & I). apply in_seq in I. exists i. split; [lia|].
      destruct (point_triangle_intersection ctol p (vmean pts) (corner pts i) (corner pts (i + 1)) eps) as [x|]; [eauto|discriminate].
    - intros (i & L & x & Ex). exists (Some x). split; [|reflexivity]. apply in_map_iff. exists i. split; [exact Ex|apply in_seq; lia].
  Qed.
  Lemma found_lemma n pts p : convex_polygon n pts -> convex_q pts = Ok true -> in_polygon n pts p ->
    point_polygon_intersection delaunay ctol p pts eps = Ok (Some p).
  Proof.
    intros C E I. destruct (point_answer n pts p C E) as (b & -> & B). replace b with true; [reflexivity|]. symmetry. apply B.
    destruct (in_fan n pts C p I) as (i & L & T). exists i. split; [exact L|]. apply triangle_found; [exact He|apply (fan_proper n pts C i L)|exact T].
  Qed.
  Lemma outside_polygon_lemma n pts p : convex_polygon n pts -> convex_q pts = Ok true ->
    dot n (vsub p (corner pts 0)) = 0 -> ~ in_polygon n pts p -> (forall a b x, fan_edge pts a b -> ~ near_segment ctol eps p a b x) ->
    point_polygon_intersection delaunay ctol p pts eps = Ok None.
  Proof.
    intros C E Pl N F. destruct (point_answer n pts p C E) as (b & -> & B). destruct b; [|reflexivity]. exfalso.
    destruct (proj1 B eq_refl) as (i & L & x & Ex).
    rewrite triangle_outside in Ex; try discriminate; auto.
    - apply (fan_proper n pts C i L).
    - unfold volume6.
      assert (Ne : pts <> []) by (apply (pts_nonempty n pts C)).
      assert (C0 : In (corner pts 0) pts) by (apply corner_In; exact Ne).
      pose proof (mean_plane n pts C (corner pts 0) C0) as M0. pose proof (corner_plane n pts C i (corner pts 0) C0) as M1.
      pose proof (corner_plane n pts C (i + 1) (corner pts 0) C0) as M2.
      set (a := vsub (corner pts i) (vmean pts)). set (b := vsub (corner pts (i + 1)) (vmean pts)). set (y := vsub p (vmean pts)).
      assert (A : dot n a = 0) by (unfold a; revert M0 M1; unfold dot; simpl; lra).
      assert (B' : dot n b = 0) by (unfold b; revert M0 M2; unfold dot; simpl; lra).
      assert (Y : dot n y = 0) by (unfold y; revert M0 Pl; unfold dot; simpl; lra).
      rewrite (cross_plane n a b (proj1 (proj1 (proj2 C))) A B'), dot_scale_l, Y. ring.
    - intros I. apply N. apply (fan_in n pts C i p L I).
    - intros z. apply F. exists i. split; [exact L|]. auto.
    - intros z. apply F. exists i. split; [exact L|]. auto.
    - intros z. apply F. exists i. split; [exact L|]. auto.
  Qed.
  Lemma off_plane_lemma n pts p : convex_polygon n pts -> convex_q pts = Ok true ->
    (forall i, (i < length pts)%nat -> 6 * eps < Rabs (volume6 (vmean pts) (corner pts i) (corner pts (i + 1)) p)) ->
    (forall q, q = vmean pts \/ In q pts -> ~ close ctol q p) ->
    point_polygon_intersection delaunay ctol p pts eps = Ok None.
  Proof.
    intros C E V F. destruct (point_answer n pts p C E) as (b & -> & B). destruct b; [|reflexivity]. exfalso.
    destruct (proj1 B eq_refl) as (i & L & x & Ex).
    assert (Ne : pts <> []) by (apply (pts_nonempty n pts C)).
    rewrite triangle_far in Ex; [discriminate|exact He|apply V; exact L|apply F; left; reflexivity|apply F; right; apply corner_In; exact Ne|apply F; right; apply corner_In; exact Ne].
  Qed.
  (** many points: the answers are exactly those points that are found, with the mask *)
  Lemma points_lemma (inside : vec -> bool) pts points :
    (forall p, In p points -> point_polygon_intersection delaunay ctol p pts eps = Ok (if inside p then Some p else None)) ->
    points_polygon_intersection delaunay ctol points pts eps = Ok (filter inside points, map inside points).
  Proof.
    intros H. unfold points_polygon_intersection.
    rewrite (mapM_Ok_map _ (fun p => if inside p then Some p else None)) by exact H. cbn [bind]. f_equal. unfold keep_found. f_equal.
    - clear H. induction points as [|p l IH]; [reflexivity|]. cbn [map flat_map filter]. rewrite IH. destruct (inside p); reflexivity.
    - rewrite map_map. apply map_ext. intros p. destruct (inside p); reflexivity.
  Qed.
  (** a parallelogram in a plane z = constant: the corners are projected on a line *)
  Lemma parallelogram_fails c u w p : norm w < norm u < 3 * norm w -> isclose_default (norm u) (norm w) = false -> vz u = 0 -> vz w = 0 ->
    (forall flat, (exists h, forall q, In q flat -> snd q = h) -> exists e, delaunay flat = Err e) ->
    exists e, point_polygon_intersection delaunay ctol p (parallelogram c u w) eps = Err e.
  Proof.
    intros H Cl Zu Zw Q. destruct (parallelogram_normal c u w H Cl) as [E _].
    unfold point_polygon_intersection, triangulate_polygon. rewrite (zero_normal_not_convex (parallelogram c u w)); [|simpl; lia|exact E]. cbn [bind].
    unfold projection_directions. rewrite E. cbn [bind]. unfold argmax, argbest. cbn [best_index vx vy vz vzero]. rewrite Rabs_R0, best_eq. cbn [best_index bind].
    rewrite ?best_eq. cbn [best_index bind fst snd].
    destruct (Q (map (fun v => (axis_of v 1, axis_of v 2)) (parallelogram c u w))) as [e Ee].
    - exists (vz c). intros q I. apply in_map_iff in I as (v & <- & I). simpl. unfold parallelogram in I. destruct I as [<-|[<-|[<-|[<-|[]]]]]; simpl; rewrite ?Zu, ?Zw; ring.
    - rewrite Ee. exists e. reflexivity.
  Qed.
End Points.
