(** * Examples: least squares, crossing lines, a rectangle, C93, C94 *)
From Coq Require Import List Arith ZArith Bool Reals Lra Lia Permutation Sorted Classical.
From Verif Require Import Base BaseProof VecBase VecProof GeoModel GeoSpec GeoProof GeoProof2 GeoExamples VertexExamples PolyModel PolySpec PolyProof PolyProof2 PolyProof3 PolyExamples LineModel LineSpec LineProof LineProof2 LineProof3 LineProof4 LineProof5.
Import ListNotations.
Local Open Scope R_scope.

(** ** a solver of least squares problems *)
Definition lstsq_example (d1 d2 r : vec) : R * R :=
  let g11 := dot d1 d1 in let g12 := dot d1 d2 in let g22 := dot d2 d2 in
  let D := g11 * g22 - g12 * g12 in
  if Req_EM_T D 0 then
    if Req_EM_T g11 0 then (if Req_EM_T g22 0 then (0, 0) else (0, - (dot d2 r / g22)))
    else (dot d1 r / g11, 0)
  else ((g22 * dot d1 r - g12 * dot d2 r) / D, (g12 * dot d1 r - g11 * dot d2 r) / D).
Lemma normal_equations d1 d2 r t s : let e := vsub (vsub (vscale t d1) (vscale s d2)) r in dot d1 e = 0 -> dot d2 e = 0 -> least_squares d1 d2 r (t, s).
Proof.
  intros e H1 H2 t' s'. cbn [fst snd]. fold e. apply norm_le_sq.
  set (f := vsub (vsub (vscale t' d1) (vscale s' d2)) r).
  assert (E : f = vadd e (vsub (vscale (t' - t) d1) (vscale (s' - s) d2))) by (unfold f, e; apply vec_ext; simpl; ring).
  set (g := vsub (vscale (t' - t) d1) (vscale (s' - s) d2)) in *.
  assert (O : dot e g = 0).
  { replace (dot e g) with ((t' - t) * dot d1 e - (s' - s) * dot d2 e) by (unfold g, dot; simpl; ring). rewrite H1, H2. ring. }
  rewrite E. replace (dot (vadd e g) (vadd e g)) with (dot e e + 2 * dot e g + dot g g) by (unfold dot; simpl; ring). rewrite O.
  assert (0 <= dot g g) by (unfold dot; nra). lra.
Qed.
Lemma gram_zero u v : dot u u * dot v v - dot u v * dot u v = 0 -> cross u v = vzero.
Proof.
  intros H. apply dot_self_zero. rewrite <- H. unfold dot, cross. simpl. ring.
Qed.
Lemma lstsq_example_ok : solves lstsq_example.
Proof.
  intros d1 d2 r. unfold lstsq_example. set (g11 := dot d1 d1). set (g12 := dot d1 d2). set (g22 := dot d2 d2).
  assert (X1 : forall t s, dot d1 (vsub (vsub (vscale t d1) (vscale s d2)) r) = t * g11 - s * g12 - dot d1 r) by (intros; unfold g11, g12, dot; simpl; ring).
  assert (X2 : forall t s, dot d2 (vsub (vsub (vscale t d1) (vscale s d2)) r) = t * g12 - s * g22 - dot d2 r) by (intros; unfold g12, g22, dot; simpl; ring).
  destruct (Req_EM_T (g11 * g22 - g12 * g12) 0) as [D|D]; [destruct (Req_EM_T g11 0) as [G1|G1]; [destruct (Req_EM_T g22 0) as [G2|G2]|]|]; apply normal_equations; rewrite ?X1, ?X2.
  - apply dot_self_zero in G1. rewrite G1. unfold dot. simpl. ring.
  - apply dot_self_zero in G2. rewrite G2. unfold dot. simpl. ring.
  - apply dot_self_zero in G1. unfold g12. rewrite G1. unfold dot. simpl. ring.
  - apply dot_self_zero in G1. unfold g12. rewrite G1. replace (dot vzero d2) with 0 by (unfold dot; simpl; ring). field. exact G2.
  - field. exact G1.
  - (* parallel *) assert (Z : d2 = vscale (g12 / g11) d1).
    { apply gram_zero in D. pose proof (f_equal vx D) as A. pose proof (f_equal vy D) as B. pose proof (f_equal vz D) as C. simpl in A, B, C.
      assert (Y : vscale g11 d2 = vscale g12 d1).
      { apply vec_ext; unfold g11, g12, dot; simpl; apply Rminus_diag_uniq.
        - transitivity (vz d1 * (vz d1 * vx d2 - vx d1 * vz d2) - vy d1 * (vx d1 * vy d2 - vy d1 * vx d2)); [ring|rewrite B, C; ring].
        - transitivity (vx d1 * (vx d1 * vy d2 - vy d1 * vx d2) - vz d1 * (vy d1 * vz d2 - vz d1 * vy d2)); [ring|rewrite A, C; ring].
        - transitivity (vy d1 * (vy d1 * vz d2 - vz d1 * vy d2) - vx d1 * (vz d1 * vx d2 - vx d1 * vz d2)); [ring|rewrite A, B; ring]. }
      pose proof (f_equal vx Y) as A'. pose proof (f_equal vy Y) as B'. pose proof (f_equal vz Y) as C'. simpl in A', B', C'. clear - G1 A' B' C'. clearbody g11 g12.
      apply vec_ext; simpl; apply Rmult_eq_reg_l with g11; try exact G1; [rewrite A'|rewrite B'|rewrite C']; field; exact G1. }
    replace (dot d2 r) with (g12 / g11 * dot d1 r) by (rewrite Z at 1; unfold dot; simpl; ring). field. exact G1.
  - field. exact D.
  - field. exact D.
Qed.

(** ** points that are not near *)
Lemma norm_ge_y v : Rabs (vy v) <= norm v.
Proof. unfold norm. rewrite <- sqrt_Rsqr_abs. apply sqrt_le_1_alt. unfold dot, Rsqr. nra. Qed.
Lemma norm_ge_z v : Rabs (vz v) <= norm v.
Proof. unfold norm. rewrite <- sqrt_Rsqr_abs. apply sqrt_le_1_alt. unfold dot, Rsqr. nra. Qed.
Lemma abs_bounds x k : Rabs x <= k -> - k <= x <= k.
Proof. unfold Rabs. destruct (Rcase_abs x); lra. Qed.
Definition box (p : vec) : Prop := -30 <= vx p <= 30 /\ -30 <= vy p <= 30 /\ -30 <= vz p <= 30.
Definition flat_near (p q : vec) : Prop := - (1 / 1000000) <= vx p - vx q <= 1 / 1000000 /\ - (1 / 1000000) <= vy p - vy q <= 1 / 1000000 /\ - (1 / 1000000) <= vz p - vz q <= 1 / 1000000.
Lemma close_flat a p : box p -> close tol a p -> flat_near a p.
Proof.
  intros (X & Y & Z) (A & B & C). assert (K : forall y, -30 <= y <= 30 -> Rabs y <= 30) by (intros y Hy; apply Rabs_le; exact Hy).
  pose proof (K _ X). pose proof (K _ Y). pose proof (K _ Z). unfold tol in *. apply abs_bounds in A, B, C. split; [|split]; lra.
Qed.
Lemma near_flat p a b x : box p -> 1 / 4 <= dot (vsub b a) (vsub b a) -> near_segment tol tol p a b x -> exists t, flat_near (between a b t) p.
Proof.
  intros Bp L [(_ & H)|[(_ & H)|(_ & (t & H) & _)]].
  - exists 0. replace (between a b 0) with a by (unfold between; apply vec_ext; simpl; ring). apply close_flat; assumption.
  - exists 1. replace (between a b 1) with b by (unfold between; apply vec_ext; simpl; ring). apply close_flat; assumption.
  - exists t. set (v := vsub p (between a b t)) in *.
    assert (N : 1 / 2 <= norm (vsub b a)) by (pose proof (norm_nonneg (vsub b a)); rewrite <- norm_sq in L; nra).
    assert (V : norm v <= 1 / 1000000) by (pose proof (norm_nonneg v); unfold tol in H; nra).
    pose proof (norm_ge_x v) as A. pose proof (norm_ge_y v) as B. pose proof (norm_ge_z v) as C.
    assert (A' : Rabs (vx v) <= 1 / 1000000) by lra. assert (B' : Rabs (vy v) <= 1 / 1000000) by lra. assert (C' : Rabs (vz v) <= 1 / 1000000) by lra.
    apply abs_bounds in A', B', C'. unfold v in A', B', C'. simpl in A', B', C'. unfold flat_near, between. simpl. lra.
Qed.
Ltac nums := unfold box, flat_near, between, P, dot, tol in *; simpl in *; lra.
(** two segments apart *)
Lemma apart_flat u v p q : box u -> box v -> 1 / 4 <= dot (vsub q p) (vsub q p) -> (forall s, - (1 / 100) <= s <= 101 / 100 -> box (between p q s)) ->
  (forall t, ~ flat_near (between p q t) u) -> (forall t, ~ flat_near (between p q t) v) ->
  (forall t s, - (1 / 100) <= t <= 101 / 100 -> - (1 / 100) <= s <= 101 / 100 -> ~ flat_near (between u v t) (between p q s)) -> apart tol tol tol (u, v) (p, q).
Proof.
  intros Bu Bv L Bs Nu Nv N. split; simpl.
  - intros e x [->| ->] H; apply near_flat in H; try assumption; destruct H as (t & H); [exact (Nu t H)|exact (Nv t H)].
  - intros t s Ht Hs H. unfold tol in Ht, Hs. apply (N t s); [lra|lra|]. apply close_flat; [apply Bs; lra|exact H].
Qed.
Lemma cross_flat u v p q z t s : box u -> box v -> 1 / 4 <= dot (vsub q p) (vsub q p) -> cross (vsub v u) (vsub q p) <> vzero ->
  0 <= t <= 1 -> 0 <= s <= 1 -> z = between u v t -> z = between p q s ->
  (forall r, ~ flat_near (between p q r) u) -> (forall r, ~ flat_near (between p q r) v) -> cross_at tol tol (u, v) (p, q) z.
Proof.
  intros Bu Bv L C Ht Hs Ez Ez' Nu Nv. split; [exact C|]. split; [split; [exists t|exists s]; split; assumption|]. simpl.
  intros e x [->| ->] H; exfalso; apply near_flat in H; try assumption; destruct H as (r & H); [exact (Nu r H)|exact (Nv r H)].
Qed.

(** ** three lines: two that cross, one ending on the first *)
Definition line_a : segment := (P (-2) 0 0, P 2 0 0).
Definition line_b : segment := (P 0 (-1) 0, P 0 1 0).
Definition line_c : segment := (P 1 3 0, P 1 4 0).
Lemma lines_clear : forall l m, In l [line_a; line_b; line_c] -> In m [line_a; line_b; line_c] ->
  l = m \/ (~ (nearly (fst l) (fst m) /\ nearly (snd l) (snd m)) /\ clear_cut tol tol tol l m).
Proof.
  assert (F : forall l m, (exists k, 1 / 1000 < Rabs (axis_part (fst l) k - axis_part (fst m) k) /\ Rabs (axis_part (fst m) k) <= 10) -> ~ (nearly (fst l) (fst m) /\ nearly (snd l) (snd m))).
  { intros l m (k & K & B) ((X & Y & Z) & _). destruct k as [|[|k]]; cbn [axis_part] in K, B; lra. }
  intros l m [<-|[<-|[<-|[]]]] [<-|[<-|[<-|[]]]]; try (left; reflexivity); right; (split; [apply F; first
    [exists 0%nat; unfold line_a, line_b, line_c, P; simpl; split; unfold Rabs; repeat destruct (Rcase_abs _); lra | exists 1%nat; unfold line_a, line_b, line_c, P; simpl; split; unfold Rabs; repeat destruct (Rcase_abs _); lra]|]).
  - right. exists (P 0 0 0). apply (cross_flat _ _ _ _ _ (1 / 2) (1 / 2)); try (intros; nums); try (unfold between, P; apply vec_ext; simpl; field).
    intros E. apply (f_equal vz) in E. unfold P in E. simpl in E. lra.
  - left. apply apart_flat; intros; nums.
  - right. exists (P 0 0 0). apply (cross_flat _ _ _ _ _ (1 / 2) (1 / 2)); try (intros; nums); try (unfold between, P; apply vec_ext; simpl; field).
    intros E. apply (f_equal vz) in E. unfold P in E. simpl in E. lra.
  - left. apply apart_flat; intros; nums.
  - left. apply apart_flat; intros; nums.
  - left. apply apart_flat; intros; nums.
Qed.
Lemma lines_meet : meet line_a line_b (P 0 0 0).
Proof. split; exists (1 / 2); split; try lra; unfold line_a, line_b, between, P; apply vec_ext; simpl; field. Qed.
Lemma overlap_example : let l := (P 1 0 0, P 0 0 0) in let m := (P 0 0 0, P 1 0 0) in
  ~ (nearly (fst l) (fst m) /\ nearly (snd l) (snd m)) /\ on_segment (fst m) (snd m) (fst l) /\ on_segment (fst m) (snd m) (snd l).
Proof.
  cbn zeta. cbn [fst snd]. split; [|split].
  - intros ((H & _) & _). unfold P in H. simpl in H. rewrite Rabs_R0, Rminus_0_r, Rabs_R1 in H. lra.
  - exists 1. split; [lra|]. unfold between, P; apply vec_ext; simpl; ring.
  - exists 0. split; [lra|]. unfold between, P; apply vec_ext; simpl; ring.
Qed.

(** ** the rectangle *)
Lemma rectangle_edges u v : fan_edge rectangle u v ->
  In (u, v) [(P 1 (1 / 2) 0, P 0 0 0); (P 0 0 0, P 2 0 0); (P 2 0 0, P 1 (1 / 2) 0);
             (P 1 (1 / 2) 0, P 2 0 0); (P 2 0 0, P 2 1 0); (P 2 1 0, P 1 (1 / 2) 0);
             (P 1 (1 / 2) 0, P 2 1 0); (P 2 1 0, P 0 1 0); (P 0 1 0, P 1 (1 / 2) 0);
             (P 1 (1 / 2) 0, P 0 1 0); (P 0 1 0, P 0 0 0); (P 0 0 0, P 1 (1 / 2) 0)].
Proof.
  intros (i & L & H). simpl in L. rewrite rectangle_mean in H.
  destruct i as [|[|[|[|]]]]; [| | | |lia]; unfold corner, rectangle in H; simpl in H; destruct H as [(-> & ->)|[(-> & ->)|(-> & ->)]]; simpl; tauto.
Qed.
Ltac each_edge H := apply rectangle_edges in H; simpl in H; repeat (destruct H as [H|H]; [injection H as <- <-|]); [..|destruct H].
(** across, through the inside of a triangle of the fan *)
Definition above : vec := P (7 / 4) (1 / 2) 1.
Definition below : vec := P (7 / 4) (1 / 2) (-1).
Definition through : vec := P (7 / 4) (1 / 2) 0.
Lemma through_inside : in_polygon up rectangle through.
Proof.
  split; [unfold corner, rectangle, up, through, P, dot; simpl; ring|].
  intros i L. simpl in L. destruct i as [|[|[|[|]]]]; [| | | |lia]; unfold corner, rectangle, side, up, through, P, dot, cross; simpl; lra.
Qed.
Lemma far_end e : vz e = 1 \/ vz e = -1 -> forall c, vz c = 0 -> ~ close tol c e.
Proof.
  intros E c Z (_ & _ & H). rewrite Z in H. destruct E as [E|E]; rewrite E in H; unfold tol, Rabs in H; repeat destruct (Rcase_abs _) in H; lra.
Qed.
Lemma across_example : (forall i, (i < length rectangle)%nat -> crosses_plane tol tol (vmean rectangle) (corner rectangle i) (corner rectangle (i + 1)) above below through) /\
  (forall u v, fan_edge rectangle u v -> clear_cut tol tol tol (u, v) (above, below) /\ definite tol tol through u v) /\ in_polygon up rectangle through.
Proof.
  split; [|split; [|exact through_inside]].
  - intros i L. simpl in L. rewrite rectangle_mean.
    assert (V : forall z, volume6 (P 1 (1 / 2) 0) (corner rectangle i) (corner rectangle (i + 1)) (P (7 / 4) (1 / 2) z) = z).
    { intros z. destruct i as [|[|[|[|]]]]; [| | | |lia]; unfold corner, rectangle, volume6, P, dot, cross; simpl; field. }
    assert (Z : forall j, vz (corner rectangle j) = 0).
    { intros j. assert (I : In (corner rectangle j) rectangle) by (apply corner_In; discriminate). unfold rectangle in I at 2. destruct I as [<-|[<-|[<-|[<-|[]]]]]; reflexivity. }
    unfold crosses_plane, off_plane, above, below, through. rewrite !V.
    split; [exists (1 / 2); split; [lra|]; unfold between, P; apply vec_ext; simpl; field|]. split; [reflexivity|].
    split; [unfold tol; rewrite Rabs_left by lra; lra|]. split; right; (split; [unfold tol, Rabs; destruct (Rcase_abs _); lra|]);
    (split; [|split]); apply far_end; unfold P; simpl; auto.
  - intros u v H. split.
    + left. each_edge H; apply apart_flat; intros; unfold above, below in *; nums.
    + intros x N. exfalso. each_edge H; apply near_flat in N; try (unfold through; nums); destruct N as (t & N); unfold through in N; nums.
Qed.
(** along the plane *)
Definition left_end : vec := P (-1) (1 / 4) 0.
Definition right_end : vec := P 3 (1 / 4) 0.
Lemma flat_outside p : vx p < 0 \/ 2 < vx p -> ~ in_polygon up rectangle p.
Proof.
  intros H (_ & S). pose proof (S 1%nat ltac:(simpl; lia)) as A. pose proof (S 3%nat ltac:(simpl; lia)) as B.
  revert A B. unfold corner, rectangle, side, up, P, dot, cross. simpl. lra.
Qed.
Lemma within_crossings w : fan_crossing rectangle left_end right_end w -> In w [P 0 (1 / 4) 0; P (1 / 2) (1 / 4) 0; P (3 / 2) (1 / 4) 0; P 2 (1 / 4) 0].
Proof.
  intros (u & v & H & (t & Ht & E) & (s & Hs & F)). rewrite F in E. pose proof (f_equal vx E) as X. pose proof (f_equal vy E) as Y.
  assert (W : forall k, 4 * s - 1 = k -> w = P k (1 / 4) 0) by (intros k K; rewrite F, <- K; unfold left_end, right_end, between, P; apply vec_ext; simpl; ring).
  each_edge H; unfold left_end, right_end, between, P in X, Y; simpl in X, Y; try (exfalso; lra).
  - right. left. symmetry. apply W. lra.
  - right. right. left. symmetry. apply W. lra.
  - right. right. left. symmetry. apply W. lra.
  - right. right. right. left. symmetry. apply W. lra.
  - left. symmetry. apply W. lra.
  - right. left. symmetry. apply W. lra.
Qed.
Lemma within_example : dot up (vsub left_end (corner rectangle 0)) = 0 /\ dot up (vsub right_end (corner rectangle 0)) = 0 /\
  ~ in_polygon up rectangle left_end /\ ~ in_polygon up rectangle right_end /\
  (forall u v, fan_edge rectangle u v -> clear_cut tol tol tol (u, v) (left_end, right_end) /\ forall x, ~ near_segment tol tol left_end u v x /\ ~ near_segment tol tol right_end u v x) /\
  (forall x y, fan_crossing rectangle left_end right_end x -> fan_crossing rectangle left_end right_end y -> within (/ 10000000000) x y -> x = y).
Proof.
  split; [unfold corner, rectangle, up, left_end, P, dot; simpl; ring|]. split; [unfold corner, rectangle, up, right_end, P, dot; simpl; ring|].
  split; [apply flat_outside; unfold left_end, P; simpl; lra|]. split; [apply flat_outside; unfold right_end, P; simpl; lra|]. split.
  - assert (CZ : forall u v k t, cross (vsub v u) (vsub right_end left_end) <> vzero -> box u -> box v -> 0 <= t <= 1 -> -1 <= k <= 3 -> between u v t = P k (1 / 4) 0 -> (vy u < 1 / 5 \/ 1 / 3 < vy u) -> (vy v < 1 / 5 \/ 1 / 3 < vy v) ->
      clear_cut tol tol tol (u, v) (left_end, right_end)).
    { intros u v k t C Bu Bv Ht Hk E Yu Yv. right. exists (P k (1 / 4) 0).
      apply (cross_flat u v left_end right_end _ t ((k + 1) / 4)); try assumption.
      - unfold left_end, right_end, P, dot; simpl; lra.
      - lra.
      - symmetry. exact E.
      - unfold left_end, right_end, between, P. apply vec_ext; simpl; field.
      - intros r (_ & H & _). unfold left_end, right_end, between, P in H. simpl in H. lra.
      - intros r (_ & H & _). unfold left_end, right_end, between, P in H. simpl in H. lra. }
    assert (AP : forall u v, box u -> box v -> (vy u < 1 / 5 /\ vy v < 1 / 5) \/ (1 / 3 < vy u /\ 1 / 3 < vy v) ->
      (forall t s, - (1 / 100) <= t <= 101 / 100 -> - (1 / 100) <= s <= 101 / 100 -> ~ flat_near (between u v t) (between left_end right_end s)) -> clear_cut tol tol tol (u, v) (left_end, right_end)).
    { intros u v Bu Bv Y N. left. apply apart_flat; try assumption.
      - unfold left_end, right_end, P, dot; simpl; lra.
      - intros s Hs. unfold left_end, right_end; nums.
      - intros t (_ & H & _). unfold left_end, right_end, between, P in H. simpl in H. lra.
      - intros t (_ & H & _). unfold left_end, right_end, between, P in H. simpl in H. lra. }
    intros u v H. split.
    + each_edge H.
      * apply (CZ _ _ (1 / 2) (1 / 2)); try nums; try (unfold between, P; apply vec_ext; simpl; field). intros E. apply (f_equal vz) in E. unfold left_end, right_end, P in E. simpl in E. lra.
      * apply AP; try nums. intros t s Ht Hs N. unfold left_end, right_end in N. nums.
      * apply (CZ _ _ (3 / 2) (1 / 2)); try nums; try (unfold between, P; apply vec_ext; simpl; field). intros E. apply (f_equal vz) in E. unfold left_end, right_end, P in E. simpl in E. lra.
      * apply (CZ _ _ (3 / 2) (1 / 2)); try nums; try (unfold between, P; apply vec_ext; simpl; field). intros E. apply (f_equal vz) in E. unfold left_end, right_end, P in E. simpl in E. lra.
      * apply (CZ _ _ 2 (1 / 4)); try nums; try (unfold between, P; apply vec_ext; simpl; field). intros E. apply (f_equal vz) in E. unfold left_end, right_end, P in E. simpl in E. lra.
      * apply AP; try nums. intros t s Ht Hs N. unfold left_end, right_end in N. nums.
      * apply AP; try nums. intros t s Ht Hs N. unfold left_end, right_end in N. nums.
      * apply AP; try nums. intros t s Ht Hs N. unfold left_end, right_end in N. nums.
      * apply AP; try nums. intros t s Ht Hs N. unfold left_end, right_end in N. nums.
      * apply AP; try nums. intros t s Ht Hs N. unfold left_end, right_end in N. nums.
      * apply (CZ _ _ 0 (3 / 4)); try nums; try (unfold between, P; apply vec_ext; simpl; field). intros E. apply (f_equal vz) in E. unfold left_end, right_end, P in E. simpl in E. lra.
      * apply (CZ _ _ (1 / 2) (1 / 2)); try nums; try (unfold between, P; apply vec_ext; simpl; field). intros E. apply (f_equal vz) in E. unfold left_end, right_end, P in E. simpl in E. lra.
    + intros x. split; intros N; each_edge H; apply near_flat in N; try (unfold left_end, right_end; nums); destruct N as (t & N); unfold left_end, right_end in N; nums.
  - intros x y X Y (D & _). apply within_crossings in X, Y. apply abs_bounds in D. simpl in X, Y.
    destruct X as [<-|[<-|[<-|[<-|[]]]]]; destruct Y as [<-|[<-|[<-|[<-|[]]]]]; try reflexivity; exfalso; unfold P in D; simpl in D; lra.
Qed.
(** a line beside the rectangle *)
Lemma beside_example : forall i, (i < length rectangle)%nat -> beside tol (vmean rectangle) (corner rectangle i) (corner rectangle (i + 1)) (P 0 0 1) (P 5 5 2).
Proof.
  intros i L. simpl in L. rewrite rectangle_mean. left. destruct i as [|[|[|[|]]]]; [| | | |lia]; unfold corner, rectangle, volume6, P, dot, cross, tol; simpl; lra.
Qed.
(** the diagonal *)
Definition far_low : vec := P (-20) (-10) 0.
Definition far_high : vec := P 4 2 0.
Lemma diagonal_example : dot up (vsub far_low (corner rectangle 0)) = 0 /\ dot up (vsub far_high (corner rectangle 0)) = 0 /\ ~ in_polygon up rectangle far_low /\
  (forall u v x, fan_edge rectangle u v -> ~ near_segment tol tol far_low u v x) /\ fan_edge rectangle (P 0 0 0) (P 1 (1 / 2) 0) /\
  on_segment far_low far_high (P 0 0 0) /\ on_segment far_low far_high (P 1 (1 / 2) 0).
Proof.
  split; [unfold corner, rectangle, up, far_low, P, dot; simpl; ring|]. split; [unfold corner, rectangle, up, far_high, P, dot; simpl; ring|].
  split; [apply flat_outside; unfold far_low, P; simpl; lra|]. split; [|split; [|split]].
  - intros u v x H N. destruct (rectangle_fan u v H) as ((Ux & Uy & Uz) & (Vx & Vy & Vz)).
    assert (F : forall w, 0 <= vx w -> ~ flat_near w far_low) by (intros w W (K & _); unfold far_low, P in K; simpl in K; lra).
    assert (B : box far_low) by (unfold far_low; nums).
    destruct N as [(_ & N)|[(_ & N)|(_ & _ & N & _)]]; [apply close_flat in N; [exact (F u (proj1 Ux) N)|exact B]|apply close_flat in N; [exact (F v (proj1 Vx) N)|exact B]|].
    pose proof (norm_ge_x (vsub far_low u)) as X. replace (vx (vsub far_low u)) with (-20 - vx u) in X by reflexivity. rewrite Rabs_left in X by lra.
    assert (L : norm (vsub v u) <= 3) by (apply norm_le; [lra|unfold dot; simpl; nra]). unfold tol in N. lra.
  - exists 3%nat. split; [simpl; lia|]. right. right. rewrite rectangle_mean. split; reflexivity.
  - exists (5 / 6). split; [lra|]. unfold far_low, far_high, between, P; apply vec_ext; simpl; field.
  - exists (7 / 8). split; [lra|]. unfold far_low, far_high, between, P; apply vec_ext; simpl; field.
Qed.
(** an end in the plane of the rectangle, inside *)
Definition inner_end : vec := P (7 / 4) (3 / 8) 0.
Definition outer : vec := P 3 (3 / 8) 0.
Definition exit : vec := P 2 (3 / 8) 0.
Lemma inner_clear u v : fan_edge rectangle u v -> clear_cut tol tol tol (u, v) (inner_end, outer).
Proof.
  intros H. each_edge H.
  5: { right. exists exit. apply (cross_flat _ _ _ _ _ (3 / 8) (1 / 5)); try (intros; unfold inner_end, outer, exit in *; nums); try (unfold inner_end, outer, exit, between, P; apply vec_ext; simpl; field).
       intros E. apply (f_equal vz) in E. unfold inner_end, outer, P in E. simpl in E. lra. }
  all: left; apply apart_flat; intros; unfold inner_end, outer in *; nums.
Qed.
Lemma inner_crossing w : fan_crossing rectangle inner_end outer w <-> w = exit.
Proof.
  split.
  - intros (u & v & H & (t & Ht & E) & (s & Hs & F)). rewrite F in E. pose proof (f_equal vx E) as X. pose proof (f_equal vy E) as Y.
    assert (K : 7 / 4 + 5 / 4 * s = 2 \/ False) by (each_edge H; unfold inner_end, outer, between, P in X, Y; simpl in X, Y; lra).
    destruct K as [K|[]]. rewrite F. unfold inner_end, outer, exit, between, P in *. apply vec_ext; simpl; lra.
  - intros ->. exists (P 2 0 0), (P 2 1 0). split; [exists 1%nat; split; [simpl; lia|]; right; left; split; reflexivity|].
    split; [exists (3 / 8); split; [lra|]|exists (1 / 5); split; [lra|]]; unfold inner_end, outer, exit, between, P; apply vec_ext; simpl; field.
Qed.
Lemma inner_far u v x : fan_edge rectangle u v -> ~ near_segment tol tol inner_end u v x.
Proof. intros H N. each_edge H; apply near_flat in N; try (unfold inner_end; nums); destruct N as (t & N); unfold inner_end in N; nums. Qed.
Lemma outer_far u v x : fan_edge rectangle u v -> ~ near_segment tol tol outer u v x.
Proof. intros H N. each_edge H; apply near_flat in N; try (unfold outer; nums); destruct N as (t & N); unfold outer in N; nums. Qed.
Lemma inner_end_lost : forall delaunay,
  line_polygon_intersection lstsq_example argsort_R_example delaunay tol tol 10000000000 (inner_end, outer) rectangle tol = Ok (Some [exit]).
Proof.
  intros delaunay. pose proof rectangle_convex as C. pose proof (proj2 (proj2 (proj2 rectangle_recognised))) as Q.
  assert (T0 : 0 <= tol <= 1 / 100000000) by (unfold tol; lra). assert (T1 : 0 <= tol) by lra.
  assert (Pi : dot up (vsub inner_end (corner rectangle 0)) = 0) by (unfold corner, rectangle, up, inner_end, P, dot; simpl; ring).
  assert (Po : dot up (vsub outer (corner rectangle 0)) = 0) by (unfold corner, rectangle, up, outer, P, dot; simpl; ring).
  assert (No : ~ in_polygon up rectangle outer) by (apply flat_outside; unfold outer, P; simpl; lra).
  assert (O : forall i, (i < length rectangle)%nat -> point_triangle_intersection tol outer (vmean rectangle) (corner rectangle i) (corner rectangle (i + 1)) tol = None).
  { intros i L. apply (outer_end tol tol T0 T1 up rectangle C outer i L Po No). intros u v x H. apply outer_far. exact H. }
  destruct (crossings_found lstsq_example argsort_R_example delaunay tol tol tol 10000000000 lstsq_example_ok argsort_R_example_ok T0 T1 T1 up rectangle C Q inner_end outer ltac:(lra) Pi Po) as [(H & _)|(x & y & X & Y & _ & R)].
  - intros i L. right. apply O. exact L.
  - intros i L. destruct (Nat.eq_dec i 1) as [->|Ni].
    + right. exists exit, (P 2 0 0), (P 2 1 0). split; [right; left; split; reflexivity|].
      split; [exists (3 / 8); split; [lra|]|exists (1 / 5); split; [lra|]]; unfold inner_end, outer, exit, between, P; apply vec_ext; simpl; field.
    + left. split; [|apply O; exact L].
      apply triangle_outside; [exact T1|apply (fan_proper up rectangle C i L)|apply (fan_volume up rectangle C i inner_end L Pi)| | | |].
      2,3,4: intros x; apply inner_far; exists i; split; [exact L|tauto].
      intros (s & t & Hs & Ht & Hst & E). rewrite rectangle_mean in E. pose proof (f_equal vx E) as X. pose proof (f_equal vy E) as Y. simpl in L.
      destruct i as [|[|[|[|]]]]; [|lia| | |lia]; unfold corner, rectangle, inner_end, P in X, Y; simpl in X, Y; lra.
  - exact inner_clear.
  - intros x y X Y _. apply inner_crossing in X, Y. congruence.
  - exfalso. apply (H exit). apply inner_crossing. reflexivity.
  - apply inner_crossing in X, Y. subst x y. destruct R as [(_ & R)|(R & _)]; [exact R|contradiction].
Qed.
Lemma inner_refuted : ~ (forall lstsq argsort delaunay (ctol ptol eps scale : R) (n : vec) (pts : list vec) (p q : vec), solves lstsq -> sorts argsort ->
  0 <= ctol <= 1 / 100000000 -> 0 <= ptol -> 0 <= eps -> 0 < scale -> convex_polygon n pts -> convex_q pts = Ok true ->
  dot n (vsub p (corner pts 0)) = 0 -> dot n (vsub q (corner pts 0)) = 0 ->
  (forall u v, fan_edge pts u v -> clear_cut ctol ptol eps (u, v) (p, q) /\ forall x, ~ near_segment ctol eps p u v x /\ ~ near_segment ctol eps q u v x) ->
  (forall x y, fan_crossing pts p q x -> fan_crossing pts p q y -> within (/ scale) x y -> x = y) ->
  exists r, line_polygon_intersection lstsq argsort delaunay ctol ptol scale (p, q) pts eps = Ok r /\ exact_ends (fun w => in_polygon n pts w /\ on_segment p q w) p r).
Proof.
  intros H. destruct (H lstsq_example argsort_R_example (fun _ => Err ValueError) tol tol tol 10000000000 up rectangle inner_end outer) as (r & E & X).
  - exact lstsq_example_ok.
  - exact argsort_R_example_ok.
  - unfold tol; lra.
  - unfold tol; lra.
  - unfold tol; lra.
  - lra.
  - exact rectangle_convex.
  - apply rectangle_recognised.
  - unfold corner, rectangle, up, inner_end, P, dot; simpl; ring.
  - unfold corner, rectangle, up, outer, P, dot; simpl; ring.
  - intros u v F. split; [exact (inner_clear u v F)|]. intros x. split; [apply inner_far|apply outer_far]; exact F.
  - intros x y A B _. apply inner_crossing in A, B. congruence.
  - rewrite inner_end_lost in E. injection E as <-. cbn [exact_ends] in X.
    assert (K : inner_end = exit).
    { apply X. split; [|exists 0; split; [lra|]; unfold between; apply vec_ext; simpl; ring].
      split; [unfold corner, rectangle, up, inner_end, P, dot; simpl; ring|].
      intros i L. simpl in L. destruct i as [|[|[|[|]]]]; [| | | |lia]; unfold corner, rectangle, side, up, inner_end, P, dot, cross; simpl; lra. }
    apply (f_equal vx) in K. unfold inner_end, exit, P in K. simpl in K. lra.
Qed.
(** a line whose end is nearly in the plane *)
Definition start_low : vec := P 5 5 (1 / 100000000000).
Definition end_high : vec := P 5 5 1.
Lemma low_triangle : point_triangle_intersection tol start_low (P 0 0 0) (P 1 0 0) (P 0 1 0) tol = None.
Proof.
  assert (B : box start_low) by (unfold start_low; nums).
  assert (T : proper_triangle (P 0 0 0) (P 1 0 0) (P 0 1 0)) by (intros E; apply (f_equal vz) in E; unfold P in E; simpl in E; lra).
  destruct (point_triangle_intersection tol start_low (P 0 0 0) (P 1 0 0) (P 0 1 0) tol) as [x|] eqn:E; [|reflexivity]. exfalso.
  assert (N : forall u v x, 0 <= vx u <= 1 -> 0 <= vx v <= 1 -> 0 <= vy u <= 1 -> 0 <= vy v <= 1 -> 1 / 4 <= dot (vsub v u) (vsub v u) ->
     (forall t, ~ flat_near (between u v t) start_low) -> ~ near_segment tol tol start_low u v x) by (intros u v y _ _ _ _ L F H; apply near_flat in H; [|exact B|exact L]; destruct H as (t & H); exact (F t H)).
  apply triangle_sound in E; [|unfold tol; lra|exact T].
  destruct E as [[_ H]|[[_ H]|[[_ H]|[_ [H|[H|[H|[_ H]]]]]]]].
  - apply close_flat in H; [|exact B]. unfold start_low in H. nums.
  - apply close_flat in H; [|exact B]. unfold start_low in H. nums.
  - apply close_flat in H; [|exact B]. unfold start_low in H. nums.
  - revert H. apply N; try nums. intros t K. unfold start_low in K. nums.
  - revert H. apply N; try nums. intros t K. unfold start_low in K. nums.
  - revert H. apply N; try nums. intros t K. unfold start_low in K. nums.
  - destruct H as (q & (u & v & U & V & W & Q) & D1 & D2). rewrite Q in D1, D2. unfold start_low, dot, P in D1, D2. simpl in D1, D2. lra.
Qed.
Lemma high_triangle : point_triangle_intersection tol end_high (P 0 0 0) (P 1 0 0) (P 0 1 0) tol = None.
Proof.
  assert (B : box end_high) by (unfold end_high; nums).
  apply triangle_far; [unfold tol; lra| | | |]; try (intros H; apply close_flat in H; [|exact B]; unfold end_high in H; nums).
  replace (volume6 (P 0 0 0) (P 1 0 0) (P 0 1 0) end_high) with 1 by (unfold volume6, end_high, P, dot, cross; simpl; ring). rewrite Rabs_R1. unfold tol. lra.
Qed.
Lemma false_example : line_triangle_intersection lstsq_example tol tol 10000000000 (start_low, end_high) (P 0 0 0) (P 1 0 0) (P 0 1 0) tol = Ok LT_false.
Proof.
  assert (T0 : 0 <= tol <= 1 / 100000000) by (unfold tol; lra). assert (T1 : 0 <= tol) by lra.
  unfold line_triangle_intersection.
  replace (line_triangle_incidence start_low end_high (P 0 0 0) (P 1 0 0) (P 0 1 0) tol) with true.
  2: { symmetry. apply not_false_is_true. intros H. apply incidence_spec in H; [|exact T1]. unfold beside, start_low, volume6, P, dot, cross, tol in H. simpl in H. lra. }
  rewrite low_triangle, high_triangle. cbn [negb is_some andb].
  destruct (lines_line_lemma lstsq_example tol tol tol lstsq_example_ok T0 T1 T1 [(P 0 0 0, P 1 0 0); (P 1 0 0, P 0 1 0); (P 0 1 0, P 0 0 0)] start_low end_high) as (out & -> & O).
  - intros l [<-|[<-|[<-|[]]]]; left; apply apart_flat; intros; unfold start_low, end_high in *; nums.
  - cbn [bind]. destruct out as [|w out].
    + set (n := cross _ _). assert (N : n = P 0 0 1) by (unfold n, P; apply vec_ext; simpl; ring). rewrite N.
      replace (dot (P 0 0 1) (vsub end_high start_low)) with (1 - 1 / 100000000000) by (unfold start_low, end_high, P, dot; simpl; ring).
      replace (dot (P 0 0 1) (vsub (P 0 0 0) start_low)) with (- (1 / 100000000000)) by (unfold start_low, P, dot; simpl; ring).
      replace (isclose tol (1 - 1 / 100000000000) 0) with false.
      2: { symmetry. apply not_true_is_false. intros H. apply isclose_true in H. rewrite Rabs_R0, Rabs_right in H by lra. unfold tol in H. lra. }
      replace (Rltb (- (1 / 100000000000) / (1 - 1 / 100000000000)) 0) with true; [reflexivity|]. symmetry. apply Rltb_true. lra.
    + exfalso. destruct (proj1 (O w) (or_introl eq_refl)) as (l & L & (t & Ht & X) & (s & Hs & Y)). rewrite Y in X. pose proof (f_equal vx X) as Xx. pose proof (f_equal vy X) as Xy.
      destruct L as [<-|[<-|[<-|[]]]]; unfold start_low, end_high, between, P in Xx, Xy; simpl in Xx, Xy; lra.
Qed.
Lemma false_many : lines_triangle_intersection lstsq_example tol tol 10000000000 [(start_low, end_high)] (P 0 0 0) (P 1 0 0) (P 0 1 0) tol = Ok ([LT_false], [false]).
Proof. unfold lines_triangle_intersection. cbn [mapM]. rewrite false_example. reflexivity. Qed.
Lemma false_refuted : ~ (forall lstsq (ctol ptol eps scale : R) (lines : list (vec * vec)) (a b c : vec) arr mask, solves lstsq ->
  0 <= ctol <= 1 / 100000000 -> 0 <= ptol -> 0 <= eps -> 0 < scale -> proper_triangle a b c ->
  lines_triangle_intersection lstsq ctol ptol scale lines a b c eps = Ok (arr, mask) -> length arr = count_occ bool_dec mask true).
Proof.
  intros H. assert (T : proper_triangle (P 0 0 0) (P 1 0 0) (P 0 1 0)) by (intros E; apply (f_equal vz) in E; unfold P in E; simpl in E; lra).
  pose proof (H lstsq_example tol tol tol 10000000000 _ _ _ _ _ _ lstsq_example_ok ltac:(unfold tol; lra) ltac:(unfold tol; lra) ltac:(unfold tol; lra) ltac:(lra) T false_many) as K. discriminate.
Qed.
Lemma three_lines_cross : crossing_point [line_a; line_b; line_c] [line_a; line_b; line_c] (P 0 0 0).
Proof.
  exists line_a, line_b. split; [left; reflexivity|]. split; [right; left; reflexivity|]. split; [|exact lines_meet].
  intros E. apply (f_equal (fun l : segment => vx (fst l))) in E. unfold line_a, line_b, P in E. simpl in E. lra.
Qed.
Lemma triangle_example : let a := P 1 (1 / 2) 0 in let b := P 2 0 0 in let c := P 2 1 0 in
  proper_triangle a b c /\ crosses_plane tol tol a b c above below through /\
  (forall u v, triangle_edge a b c u v -> clear_cut tol tol tol (u, v) (above, below) /\ definite tol tol through u v) /\ in_triangle a b c through.
Proof.
  destruct across_example as (A & B & _). cbn zeta. pose proof (A 1%nat ltac:(simpl; lia)) as K. rewrite rectangle_mean in K. split; [|split; [exact K|split]].
  - intros E; apply (f_equal vz) in E; unfold P in E; simpl in E; lra.
  - intros u v T. apply B. exists 1%nat. split; [simpl; lia|]. rewrite rectangle_mean. unfold triangle_edge in T. exact T.
  - exists (3 / 8), (3 / 8). split; [lra|]. split; [lra|]. split; [lra|]. unfold through, P; apply vec_ext; simpl; field.
Qed.
(** two lines through the rectangle *)
Lemma two_lines : Forall2 (fun (l : vec * vec) z => (forall i, (i < length rectangle)%nat -> crosses_plane tol tol (vmean rectangle) (corner rectangle i) (corner rectangle (i + 1)) (fst l) (snd l) z) /\
    (forall u v, fan_edge rectangle u v -> clear_cut tol tol tol (u, v) l /\ definite tol tol z u v)) [(above, below); (above, below)] [through; through].
Proof. destruct across_example as (A & B & _). constructor; [exact (conj A B)|]. constructor; [exact (conj A B)|constructor]. Qed.
(** one point and two points *)
Lemma sizes_example : forall delaunay, lines_polygon_intersection lstsq_example argsort_R_example delaunay tol tol 10000000000
  [(above, below); (left_end, right_end)] rectangle tol = Err ValueError.
Proof.
  intros delaunay. pose proof rectangle_convex as C. pose proof (proj2 (proj2 (proj2 rectangle_recognised))) as Q.
  assert (T0 : 0 <= tol <= 1 / 100000000) by (unfold tol; lra). assert (T1 : 0 <= tol) by lra.
  destruct across_example as (A & B & I). destruct within_example as (W1 & W2 & W3 & W4 & W5 & W6).
  destruct (polygon_across lstsq_example argsort_R_example delaunay tol tol tol 10000000000 lstsq_example_ok argsort_R_example_ok T0 T1 T1 up rectangle C Q above below through A B) as (E1 & _).
  destruct (polygon_within lstsq_example argsort_R_example delaunay tol tol tol 10000000000 lstsq_example_ok argsort_R_example_ok T0 T1 T1 up rectangle C Q left_end right_end ltac:(lra) W1 W2 W3 W4 W5 W6) as (r & E2 & X).
  assert (S0 : in_polygon up rectangle (P 0 (1 / 4) 0) /\ on_segment left_end right_end (P 0 (1 / 4) 0)).
  { split; [split; [unfold corner, rectangle, up, P, dot; simpl; ring|]; intros i L; simpl in L; destruct i as [|[|[|[|]]]]; [| | | |lia]; unfold corner, rectangle, side, up, P, dot, cross; simpl; lra|].
    exists (1 / 4). split; [lra|]. unfold left_end, right_end, between, P; apply vec_ext; simpl; field. }
  assert (S2 : in_polygon up rectangle (P 2 (1 / 4) 0) /\ on_segment left_end right_end (P 2 (1 / 4) 0)).
  { split; [split; [unfold corner, rectangle, up, P, dot; simpl; ring|]; intros i L; simpl in L; destruct i as [|[|[|[|]]]]; [| | | |lia]; unfold corner, rectangle, side, up, P, dot, cross; simpl; lra|].
    exists (3 / 4). split; [lra|]. unfold left_end, right_end, between, P; apply vec_ext; simpl; field. }
  destruct r as [l|]; [|exfalso; exact (X _ S0)].
  destruct l as [|x [|y [|z l]]]; cbn [exact_ends] in X; try (destruct X; fail).
  - exfalso. apply X in S0, S2. rewrite <- S2 in S0. apply (f_equal vx) in S0. unfold P in S0. simpl in S0. lra.
  - destruct (lines_polygon_lemma lstsq_example argsort_R_example delaunay tol tol tol 10000000000 [(above, below); (left_end, right_end)] rectangle [Some [through]; Some [x; y]]) as (_ & K).
    + constructor; [exact (E1 I)|]. constructor; [exact E2|constructor].
    + apply (K [through] [x; y]); [left; reflexivity|right; left; reflexivity|discriminate].
Qed.
