(** * Lemmas: normals, rotations, polygons, C52, C53, C55 *)
From Coq Require Import List Arith Bool Reals Lra Lia.
From Verif Require Import Base BaseProof VecBase VecProof GeoModel GeoSpec.
Import ListNotations.
Local Open Scope R_scope.

Lemma Rltb_true x y : Rltb x y = true <-> x < y.
Proof. unfold Rltb. destruct (Rlt_dec x y); split; intros; auto; discriminate. Qed.
Lemma Rltb_false x y : Rltb x y = false <-> y <= x.
Proof. unfold Rltb. destruct (Rlt_dec x y); split; intros; auto; try discriminate; lra. Qed.
Lemma Rleb_true x y : Rleb x y = true <-> x <= y.
Proof. unfold Rleb. destruct (Rle_dec x y); split; intros; auto; discriminate. Qed.
Lemma Rleb_false x y : Rleb x y = false <-> y < x.
Proof. unfold Rleb. destruct (Rle_dec x y); split; intros; auto; try discriminate; lra. Qed.

(** ** rotations *)
Lemma trig theta : sin theta * sin theta + cos theta * cos theta = 1.
Proof. pose proof (sin2_cos2 theta) as H. unfold Rsqr in H. exact H. Qed.
Lemma rotate_dot u v theta axis u' v' : rotate_vector u theta axis = Some u' -> rotate_vector v theta axis = Some v' -> dot u' v' = dot u v.
Proof.
  pose proof (trig theta) as T. intros Hu Hv. destruct axis as [|[|[|]]]; simpl in *; try discriminate; inversion Hu; inversion Hv; subst; clear Hu Hv;
    unfold dot; simpl.
  - transitivity (vx u * vx v + (sin theta * sin theta + cos theta * cos theta) * (vy u * vy v + vz u * vz v)); [ring|]. rewrite T. ring.
  - transitivity (vy u * vy v + (sin theta * sin theta + cos theta * cos theta) * (vx u * vx v + vz u * vz v)); [ring|]. rewrite T. ring.
  - transitivity (vz u * vz v + (sin theta * sin theta + cos theta * cos theta) * (vx u * vx v + vy u * vy v)); [ring|]. rewrite T. ring.
Qed.
Lemma rotate_axis u theta axis u' : rotate_vector u theta axis = Some u' -> axis_part u' axis = axis_part u axis.
Proof. destruct axis as [|[|[|]]]; simpl; intros H; inversion H; reflexivity. Qed.
Lemma rotate_defined u theta axis : (exists u', rotate_vector u theta axis = Some u') <-> (axis < 3)%nat.
Proof.
  destruct axis as [|[|[|]]]; simpl; split; intros H; eauto; try lia. destruct H; discriminate.
Qed.
Lemma rotate_norm u theta axis u' : rotate_vector u theta axis = Some u' -> norm u' = norm u.
Proof. intros H. unfold norm. rewrite (rotate_dot _ _ _ _ _ _ H H). reflexivity. Qed.
Lemma rotation_lemma u theta axis : (axis < 3)%nat ->
  exists u', rotate_vector u theta axis = Some u' /\ norm u' = norm u /\ axis_part u' axis = axis_part u axis /\
    dot u u' = cos theta * (dot u u - axis_part u axis * axis_part u axis) + axis_part u axis * axis_part u axis /\
    axis_part (cross u u') axis = sin theta * (dot u u - axis_part u axis * axis_part u axis).
Proof.
  intros H. apply (rotate_defined u theta) in H as [u' E]. exists u'. split; auto. split; [eapply rotate_norm; eauto|]. split; [eapply rotate_axis; eauto|].
  destruct axis as [|[|[|]]]; simpl in E; inversion E; subst u'; split; unfold dot, cross; simpl; ring.
Qed.

Lemma embed_lemma b0 b1 : b0 <> b1 -> exists n c, embed_normal b0 b1 = (Some n, c) /\ unit n /\
  vadd c c = vadd b0 b1 /\ (dot n (vsub b1 b0) = 0 <-> vz b0 = vz b1).
Proof.
  intros H. assert (D : vsub b1 b0 <> vzero) by (intros Q; apply vsub_zero in Q; congruence).
  pose proof (norm_pos _ D) as P. unfold embed_normal. cbn [rotate_vector].
  do 2 eexists. split; [reflexivity|]. split; [|split].
  - unfold unit. rewrite (rotate_norm (vdiv (vsub b1 b0) (norm (vsub b1 b0))) (PI / 2) 2); [apply norm_unit; auto|reflexivity].
  - apply vec_ext; unfold vmean, vsum; simpl; field.
  - unfold z_rotation. rewrite cos_PI2, sin_PI2.
    match goal with |- ?x = 0 <-> _ => replace x with ((vz b1 - vz b0) * (vz b1 - vz b0) / norm (vsub b1 b0)) end.
    2:{ set (k := norm (vsub b1 b0)) in *. unfold dot, vdiv, vsub. simpl. field. lra. }
    split.
    + intros E. assert ((vz b1 - vz b0) * (vz b1 - vz b0) = 0).
      { apply (Rmult_eq_reg_r (/ norm (vsub b1 b0))); [|apply Rinv_neq_0_compat; lra]. unfold Rdiv in E. rewrite E. ring. }
      nra.
    + intros ->. unfold Rdiv. ring.
Qed.

(** ** polygons *)
Lemma vadd_assoc u v w : vadd u (vadd v w) = vadd (vadd u v) w.
Proof. vring. Qed.
Lemma vsum_app l l' : vsum (l ++ l') = vadd (vsum l) (vsum l').
Proof. induction l; simpl; [vring|]. rewrite IHl. apply vadd_assoc. Qed.
Lemma vsum_scale k l : vsum (map (vscale k) l) = vscale k (vsum l).
Proof. induction l; simpl; [vring|]. rewrite IHl. vring. Qed.

Lemma vsum_pairs (f g : vec -> vec -> vec) c l x : (forall a b, f a b = vadd (g a b) (vsub (cross c a) (cross c b))) -> forall y,
  vsum (map (fun ab => f (fst ab) (snd ab)) (combine (x :: l) (l ++ [y]))) =
  vadd (vsum (map (fun ab => g (fst ab) (snd ab)) (combine (x :: l) (l ++ [y])))) (vsub (cross c x) (cross c y)).
Proof.
  intros H. revert x. induction l as [|z l IH]; intros x y; simpl.
  - rewrite H. vring.
  - simpl in IH. rewrite IH. rewrite H. vring.
Qed.
Lemma nth_app_last {A} (l : list A) x d i : (i <= length l)%nat -> nth i (l ++ [x]) d = if (i =? length l)%nat then x else nth i l d.
Proof.
  intros H. destruct (Nat.eqb_spec i (length l)) as [->|Hn].
  - rewrite app_nth2, Nat.sub_diag; auto.
  - rewrite app_nth1; auto. lia.
Qed.
Lemma pairs_seq {B} (f : vec -> vec -> B) x l : map (fun ab => f (fst ab) (snd ab)) (combine (x :: l) (l ++ [x])) =
  map (fun i => f (nth i (x :: l) vzero) (nth ((i + 1) mod length (x :: l)) (x :: l) vzero)) (seq 0 (length (x :: l))).
Proof.
  apply (nth_ext _ _ (f vzero vzero) (f vzero vzero)).
  - rewrite !map_length, combine_length, app_length, seq_length. cbn [length]. lia.
  - intros i Hi. rewrite map_length, combine_length, app_length in Hi. cbn [length] in Hi.
    rewrite (map_nth (fun ab => f (fst ab) (snd ab)) _ (vzero, vzero)), combine_nth by (rewrite app_length; cbn [length]; lia).
    rewrite (nth_indep (map _ (seq _ _)) _ (f (nth 0 (x :: l) vzero) (nth ((0 + 1) mod length (x :: l)) (x :: l) vzero))) by (rewrite map_length, seq_length; simpl; lia).
    rewrite (map_nth (fun i => f (nth i (x :: l) vzero) (nth ((i + 1) mod length (x :: l)) (x :: l) vzero)) _ 0%nat), seq_nth by (simpl; lia).
    cbn [fst snd Nat.add]. f_equal. rewrite nth_app_last by lia. simpl length.
    destruct (Nat.eqb_spec i (length l)) as [->|Hn].
    + replace (length l + 1)%nat with (S (length l)) by lia. rewrite Nat.mod_same by lia. reflexivity.
    + rewrite Nat.mod_small by lia. replace (i + 1)%nat with (S i) by lia. reflexivity.
Qed.

Lemma triangulate_Ok points : (3 <= length points)%nat -> triangulate_convex_polygon points =
  Ok (map (fun i => (vmean points, nth i points vzero, nth ((i + 1) mod length points) points vzero)) (seq 0 (length points))).
Proof.
  intros H. unfold triangulate_convex_polygon. destruct (Nat.ltb_spec (length points) 3); [lia|].
  rewrite (mapM_Ok_map _ (fun i => (vmean points, nth i points vzero, nth ((i + 1) mod length points) points vzero))).
  2:{ intros i Hi. apply in_seq in Hi. unfold get_at. rewrite (nth_error_nth' points vzero) by lia. cbn [bind].
      rewrite (nth_error_nth' points vzero) by lia. cbn [bind]. rewrite Nat.mod_small by lia. reflexivity. }
  cbn [bind]. unfold get_at. rewrite (nth_error_nth' points vzero) by lia. cbn [bind]. rewrite (nth_error_nth' points vzero) by lia. cbn [bind]. f_equal.
  assert (Es : seq 0 (length points) = seq 0 (length points - 1) ++ [(length points - 1)%nat]) by (replace (length points) with (S (length points - 1)) at 1 by lia; rewrite seq_S; reflexivity).
  rewrite Es, map_app. cbn [map].
  replace (length points - 1 + 1)%nat with (length points) by lia. rewrite Nat.mod_same by lia. reflexivity.
Qed.

Lemma triangulate_lemma points : 
  ((length points < 3)%nat -> triangulate_convex_polygon points = Err ValueError) /\
  ((3 <= length points)%nat -> exists ts, triangulate_convex_polygon points = Ok ts /\ length ts = length points /\
     (forall i, (i < length points)%nat -> nth_error ts i =
        Some (vmean points, nth i points vzero, nth ((i + 1) mod length points) points vzero)) /\
     vsum (map triangle_area ts) = polygon_area points).
Proof.
  split.
  - intros H. unfold triangulate_convex_polygon. destruct (Nat.ltb_spec (length points) 3); auto. lia.
  - intros H. rewrite triangulate_Ok by auto. eexists. split; [reflexivity|]. split; [rewrite map_length, seq_length; auto|]. split.
    + intros i Hi. rewrite (map_nth_error _ i (seq 0 (length points)) (d := i)); auto.
      rewrite (nth_error_nth' _ 0%nat) by (rewrite seq_length; auto). rewrite seq_nth; auto.
    + rewrite map_map. unfold polygon_area. rewrite <- vsum_scale, map_map. destruct points as [|x l]; [simpl in H; lia|].
      set (c := vmean (x :: l)).
      rewrite <- (pairs_seq (fun a b => triangle_area (c, a, b)) x l), <- (pairs_seq (fun a b => vscale (1 / 2) (cross a b)) x l).
      rewrite (vsum_pairs (fun a b => triangle_area (c, a, b)) (fun a b => vscale (1 / 2) (cross a b)) (vscale (1 / 2) c)).
      * vring.
      * intros a b. unfold triangle_area. vring.
Qed.

(** ** normals *)
Lemma sign_fix n o : unit n -> exists n', n' = (if Rltb (dot n o) 0 then vscale (-1) n else n) /\ unit n' /\ 0 <= dot n' o /\
  (dot n o <> 0 -> 0 < dot n' o) /\ (forall w, dot n w = 0 -> dot n' w = 0).
Proof.
  intros U. eexists. split; [reflexivity|]. destruct (Rltb (dot n o) 0) eqn:E.
  - apply Rltb_true in E. unfold unit in *. rewrite norm_scale, U, dot_scale_l. rewrite Rabs_left by lra. repeat split; try lra.
    intros w Hw. rewrite dot_scale_l, Hw. ring.
  - apply Rltb_false in E. repeat split; auto. intros. lra.
Qed.
Lemma outward_dot n x : x <> vzero -> dot n (vdiv x (norm x)) = dot n x / norm x.
Proof. intros. rewrite vdiv_scale, dot_scale_r. unfold Rdiv. ring. Qed.
Lemma div_pos x k : 0 < k -> (0 < x / k <-> 0 < x).
Proof.
  intros Hk. split; intros H.
  - replace x with (x / k * k) by (field; lra). apply Rmult_lt_0_compat; auto.
  - apply Rmult_lt_0_compat; auto. apply Rinv_0_lt_compat; auto.
Qed.
Lemma div_nonneg x k : 0 < k -> 0 <= x / k -> 0 <= x.
Proof. intros Hk H. replace x with (x / k * k) by (field; lra). apply Rmult_le_pos; lra. Qed.
Lemma div_zero x k : 0 < k -> (x / k = 0 <-> x = 0).
Proof. intros Hk. split; intros H; [replace x with (x / k * k) by (field; lra); rewrite H; ring|rewrite H; unfold Rdiv; ring]. Qed.

(** end of a line *)
Lemma normal_0 a b f : a <> b -> f = a \/ f = b -> exists n, normal [a; b] [f] 0 = Ok n /\ unit n /\
  0 < dot n (vsub f (vmean [a; b])) /\ cross n (vsub b a) = vzero.
Proof.
  intros Hab Hf. unfold normal. cbn [bind].
  assert (Mf : vmean [f] = f) by (apply vec_ext; unfold vmean, vsum; simpl; field).
  rewrite Mf. set (x := vsub f (vmean [a; b])).
  assert (Hx : exists k, x = vscale k (vsub b a) /\ k <> 0).
  { destruct Hf as [->| ->]; [exists (- / 2)|exists (/ 2)]; (split; [|lra]); apply vec_ext; unfold x, vmean, vsum; simpl; field. }
  destruct Hx as (k & Ek & Hk).
  assert (D : vsub b a <> vzero) by (intros Q; apply vsub_zero in Q; congruence).
  assert (Hx : x <> vzero).
  { intros Q. apply D. apply norm_zero. assert (norm x = 0) by (rewrite Q; apply norm_vzero). rewrite Ek, norm_scale in H.
    apply Rmult_integral in H as [H|H]; auto. apply Rabs_no_R0 in Hk. lra. }
  pose proof (norm_pos _ Hx) as P. set (o := vdiv x (norm x)).
  assert (Uo : norm o = 1) by (apply norm_unit; auto).
  assert (Eo : vdiv o (norm o) = o) by (rewrite Uo; clearbody o; apply vec_ext; simpl; field).
  rewrite Eo. assert (dot o o = 1) by (apply dot_1; auto).
  replace (Rltb (dot o o) 0) with false by (symmetry; apply Rltb_false; lra).
  eexists. split; [reflexivity|]. split; [exact Uo|]. split.
  - assert (dot o x / norm x = 1) by (rewrite <- outward_dot; auto). apply (div_pos _ (norm x)); auto. lra.
  - unfold o. rewrite vdiv_scale, Ek. vring.
Qed.

(** edge of a triangle *)
Lemma cross_unit v o : unit v -> cross v o <> vzero -> let w := vdiv (cross v o) (norm (cross v o)) in
  unit (cross v w) /\ dot (cross v w) v = 0 /\ dot (cross v w) o = - norm (cross v o) /\ dot (cross v w) (cross v o) = 0.
Proof.
  intros Uv H w. assert (Uw : dot w w = 1) by (apply dot_1, norm_unit; auto). apply dot_1 in Uv.
  assert (Ovw : dot v w = 0) by (unfold w; rewrite vdiv_scale, dot_scale_r; rewrite dot_sym, cross_l; ring).
  pose proof (norm_pos _ H) as P. pose proof (norm_sq (cross v o)) as N2. rewrite lagrange, Uv in N2.
  split; [|split; [|split]].
  - apply norm_1. rewrite lagrange, Uw, Uv, Ovw. ring.
  - apply cross_l.
  - set (k := norm (cross v o)) in *. unfold w. rewrite vdiv_scale.
    replace (dot (cross v (vscale (/ k) (cross v o))) o) with ((/ k) * (dot v o * dot v o - dot v v * dot o o)) by vring.
    rewrite Uv. replace (dot v o * dot v o - 1 * dot o o) with (- (k * k)) by lra. field. lra.
  - unfold w. rewrite vdiv_scale. vring.
Qed.

Lemma normal_1 p0 a b : let x := vsub (vmean [a; b]) (vmean p0) in cross (vsub b a) x <> vzero ->
  exists n, normal p0 [a; b] 1 = Ok n /\ unit n /\ 0 < dot n x /\ dot n (vsub b a) = 0 /\ dot n (cross (vsub b a) x) = 0.
Proof.
  intros x H. unfold normal. cbn [get_at nth_error bind]. fold x.
  assert (Hx : x <> vzero) by (intros Q; apply H; rewrite Q; vring).
  assert (D : vsub b a <> vzero) by (intros Q; apply H; rewrite Q; vring).
  pose proof (norm_pos _ Hx) as Px. pose proof (norm_pos _ D) as Pd.
  set (e := vsub b a) in *. set (v := vdiv e (norm e)). set (o := vdiv x (norm x)).
  assert (Uv : unit v) by (apply norm_unit; auto).
  assert (Ec : cross v o = vscale (/ norm e * / norm x) (cross e x)).
  { unfold v, o. rewrite !vdiv_scale. vring. }
  assert (Hc : cross v o <> vzero).
  { intros Q. apply H. rewrite Q in Ec. apply norm_zero. assert (norm (vscale (/ norm e * / norm x) (cross e x)) = 0) by (rewrite <- Ec; apply norm_vzero).
    rewrite norm_scale in H0. apply Rmult_integral in H0 as [H0|H0]; auto. exfalso. revert H0. apply Rabs_no_R0.
    apply Rmult_integral_contrapositive_currified; apply Rinv_neq_0_compat; lra. }
  destruct (cross_unit v o Uv Hc) as (U & Ov & Oo & Oc). pose proof (norm_pos _ Hc) as Pc.
  destruct (sign_fix _ o U) as (n' & En & Un & Nn & Sn & On). rewrite <- En.
  eexists. split; [reflexivity|]. split; auto. split; [|split].
  - assert (0 < dot n' o) by (apply Sn; rewrite Oo; lra). unfold o in H0. rewrite outward_dot in H0 by auto. apply (div_pos _ (norm x)); auto.
  - apply On in Ov. unfold v in Ov. rewrite outward_dot in Ov by auto. apply (div_zero _ (norm e)); auto.
  - apply On in Oc. rewrite Ec, dot_scale_r in Oc. apply Rmult_integral in Oc as [Oc|Oc]; auto. exfalso. revert Oc.
    apply Rmult_integral_contrapositive_currified; apply Rinv_neq_0_compat; lra.
Qed.

(** face of a tetrahedron *)
Lemma normal_2 p0 a b c : let x := vsub (vmean [a; b; c]) (vmean p0) in proper_triangle a b c -> x <> vzero ->
  exists n, normal p0 [a; b; c] 2 = Ok n /\ unit n /\ 0 <= dot n x /\ dot n (vsub b a) = 0 /\ dot n (vsub c a) = 0 /\
  (dot (cross (vsub b a) (vsub c a)) x <> 0 -> 0 < dot n x).
Proof.
  intros x H Hx. unfold normal. cbn [get_at nth_error bind]. fold x. pose proof (norm_pos _ Hx) as Px.
  set (m := vmean [a; b; c]).
  assert (Ec : cross (vsub a m) (vsub b m) = vscale (1 / 3) (cross (vsub b a) (vsub c a))).
  { apply vec_ext; unfold m, vmean, vsum; simpl; field. }
  set (g := cross (vsub b a) (vsub c a)) in *.
  assert (Hg : vscale (1 / 3) g <> vzero).
  { intros Q. apply H. apply norm_zero. assert (norm (vscale (1 / 3) g) = 0) by (rewrite Q; apply norm_vzero). rewrite norm_scale, Rabs_right in H0 by lra. fold g. lra. }
  rewrite Ec. set (h := vscale (1 / 3) g) in *. pose proof (norm_pos _ Hg) as Ph.
  assert (U : unit (vdiv h (norm h))) by (apply norm_unit; auto).
  destruct (sign_fix _ (vdiv x (norm x)) U) as (n' & En & Un & Nn & Sn & On). rewrite <- En.
  eexists. split; [reflexivity|]. split; auto. split; [|split; [|split]].
  - rewrite outward_dot in Nn by auto. apply (div_nonneg _ (norm x)); auto.
  - apply On. rewrite vdiv_scale, dot_scale_l. unfold h, g. rewrite dot_scale_l, cross_l. ring.
  - apply On. rewrite vdiv_scale, dot_scale_l. unfold h, g. rewrite dot_scale_l, cross_r. ring.
  - intros Hd. assert (0 < dot n' (vdiv x (norm x))).
    { apply Sn. rewrite outward_dot by auto. intros Q. apply div_zero in Q; auto. rewrite vdiv_scale, dot_scale_l in Q. unfold h in Q at 2. rewrite dot_scale_l in Q.
      apply Rmult_integral in Q as [Q|Q]; [revert Q; apply Rinv_neq_0_compat; lra|]. lra. }
    rewrite outward_dot in H0 by auto. apply (div_pos _ (norm x)); auto.
Qed.

(** all facets of a simplex *)
From Coq Require Import Permutation.
Lemma vsum_perm l l' : Permutation l l' -> vsum l = vsum l'.
Proof. induction 1; simpl; auto; [rewrite IHPermutation; auto|vring|congruence]. Qed.
Lemma vmean_perm l l' : Permutation l l' -> vmean l = vmean l'.
Proof. intros H. unfold vmean. rewrite (vsum_perm _ _ H), (Permutation_length H). reflexivity. Qed.
Lemma mean_eq p0 p1 opp : Permutation p0 (p1 ++ [opp]) -> vmean p0 = vmean (p1 ++ [opp]).
Proof. apply vmean_perm. Qed.

Lemma normal_lemma p0 p1 opp : Permutation p0 (p1 ++ [opp]) -> proper_simplex p1 opp ->
  exists n, normal p0 p1 (length p1 - 1) = Ok n /\ unit n /\
    (forall f g, In f p1 -> In g p1 -> dot n (vsub g f) = 0) /\
    (forall f, In f p1 -> dot n (vsub opp f) < 0) /\ spans p1 opp n.
Proof.
  intros P H. assert (P' := mean_eq _ _ _ P). destruct p1 as [|a [|b [|c [|]]]]; try contradiction; cbn [proper_simplex spans length Nat.sub app] in *.
  - destruct (normal_0 a opp a) as (n & E & U & D & X); auto.
    assert (E' : normal p0 [a] 0 = Ok n) by (unfold normal in *; rewrite P'; exact E).
    exists n. split; auto. split; auto. split; [|split].
    + intros f g [<-|[]] [<-|[]]. vring.
    + intros f [<-|[]]. unfold vmean, vsum in D. vec. lra.
    + exact X.
  - unfold proper_triangle in H. set (x := vsub (vmean [a; b]) (vmean p0)).
    assert (Ex : vsub opp a = vadd (vscale (-3) x) (vscale (1 / 2) (vsub b a))).
    { unfold x. rewrite P'. apply vec_ext; unfold vmean, vsum; simpl; field. }
    assert (Ec : cross (vsub b a) (vsub opp a) = vscale (-3) (cross (vsub b a) x)).
    { rewrite Ex. clearbody x. vring. }
    destruct (normal_1 p0 a b) as (n & E & U & D & O1 & O2).
    { fold x. intros Q. apply H. rewrite Ec, Q. vring. }
    fold x in D, O2. clearbody x. exists n. split; auto. split; auto. split; [|split].
    + intros f g [<-|[<-|[]]] [<-|[<-|[]]]; vec; lra.
    + assert (dot n (vsub opp a) < 0). { rewrite Ex. vec. lra. }
      intros f [<-|[<-|[]]]; auto. vec. lra.
    + rewrite Ec, dot_scale_r, O2. ring.
  - unfold proper_tetra in H. set (x := vsub (vmean [a; b; c]) (vmean p0)).
    assert (Ex : vsub opp a = vadd (vscale (-4) x) (vscale (1 / 3) (vadd (vsub b a) (vsub c a)))).
    { unfold x. rewrite P'. apply vec_ext; unfold vmean, vsum; simpl; field. }
    assert (Ed : dot (cross (vsub b a) (vsub c a)) (vsub opp a) = -4 * dot (cross (vsub b a) (vsub c a)) x).
    { rewrite Ex. clearbody x. vec. field. }
    destruct (normal_2 p0 a b c) as (n & E & U & D & O1 & O2 & S).
    { intros Q. apply H. rewrite Q. vec. ring. }
    { fold x. intros Q. apply H. rewrite Ed, Q. clear. vec. ring. }
    fold x in D, S. assert (S' : 0 < dot n x) by (apply S; intros Q; apply H; rewrite Ed, Q; ring). clear S D.
    clearbody x. exists n. split; auto. split; auto. split; [|split; [|exact I]].
    + intros f g [<-|[<-|[<-|[]]]] [<-|[<-|[<-|[]]]]; vec; lra.
    + assert (dot n (vsub opp a) < 0). { rewrite Ex. vec. lra. }
      intros f [<-|[<-|[<-|[]]]]; auto; vec; lra.
Qed.
