(** * Lemmas: tangential components on a common face, and traces on faces *)
From Coq Require Import List Arith ZArith Bool Reals Lra Lia Permutation FunctionalExtensionality.
From Verif Require Import Base BaseProof MeshModel MeshSpec OrientModel OrientSpec OrientProof VecBase VecProof MapModel MapSpec MapProof JacProof SpaceModel ElementModel ElementSpec ElementProof ElementProof2 ElementProof3 ElementProof4 ElementProof5 ElementProof6 ElementProof7 TraceModel TraceSpec TraceProof TraceProof2 TraceProof3 TraceProof4 FaceTangentSpec FaceTangentProof.
Import ListNotations.
Local Open Scope R_scope.

Lemma along_perm_nodes pos c l l' : Permutation l l' -> along_nodes pos c l = along_nodes pos c l'.
Proof.
  intros P. unfold along_nodes, vsum. induction P as [|x l l' P IH|x y l|l l' l'' P1 IH1 P2 IH2]; auto.
  - cbn [map fold_right]. rewrite IH. reflexivity.
  - cbn [map fold_right]. apply vec_ext; simpl; ring.
  - congruence.
Qed.
Lemma rsum_on_perm c l l' : Permutation l l' -> rsum_on c l = rsum_on c l'.
Proof.
  intros P. unfold rsum_on. induction P as [|x l l' P IH|x y l|l l' l'' P1 IH1 P2 IH2]; auto.
  - cbn [map fold_right]. rewrite IH. reflexivity.
  - cbn [map fold_right]. ring.
  - congruence.
Qed.
Lemma nodes_split n0 n1 n2 n3 i : (i < 4)%nat -> Permutation [n0; n1; n2; n3] (nth i [n0; n1; n2; n3] 0%nat :: face_of [n0; n1; n2; n3] i).
Proof.
  intros Hi. destruct i as [|[|[|[|i]]]]; try lia; cbn [nth face_of].
  - reflexivity.
  - apply perm_swap.
  - eapply Permutation_trans; [apply perm_skip, perm_swap|apply perm_swap].
  - eapply Permutation_trans; [apply perm_skip, perm_skip, perm_swap|]. eapply Permutation_trans; [apply perm_skip, perm_swap|apply perm_swap].
Qed.
(** A direction of the face alone *)
Lemma face_direction pos c n0 n1 n2 n3 i : (i < 4)%nat -> c (nth i [n0; n1; n2; n3] 0%nat) = 0 ->
  along_nodes pos c [n0; n1; n2; n3] = along_nodes pos c (face_of [n0; n1; n2; n3] i) /\ rsum_on c [n0; n1; n2; n3] = rsum_on c (face_of [n0; n1; n2; n3] i).
Proof.
  intros Hi Z. pose proof (nodes_split n0 n1 n2 n3 i Hi) as P. rewrite (along_perm_nodes _ _ _ _ P), (rsum_on_perm _ _ _ P). split.
  - unfold along_nodes at 1, vsum. cbn [map fold_right]. rewrite Z. fold (vsum (map (fun x => vscale (c x) (pos x)) (face_of [n0; n1; n2; n3] i))). fold (along_nodes pos c (face_of [n0; n1; n2; n3] i)).
    apply vec_ext; simpl; ring.
  - unfold rsum_on at 1. cbn [map fold_right]. rewrite Z. unfold rsum_on. ring.
Qed.
Lemma opposite_notin n0 n1 n2 n3 i : (i < 4)%nat -> NoDup [n0; n1; n2; n3] -> ~ In (nth i [n0; n1; n2; n3] 0%nat) (face_of [n0; n1; n2; n3] i).
Proof.
  intros Hi N. apply (Permutation_NoDup (nodes_split n0 n1 n2 n3 i Hi)) in N. apply NoDup_cons_iff in N. tauto.
Qed.

(** Vectors orthogonal to the normal are directions of the face. *)
Definition spread (x y z : nat) (b c : R) (k : nat) : R := if (k =? x)%nat then - b - c else if (k =? y)%nat then b else if (k =? z)%nat then c else 0.
Lemma cross_solve a b v : dot v (cross a b) = 0 -> dot (cross a b) (cross a b) <> 0 ->
  v = vadd (vscale (dot (cross v b) (cross a b) / dot (cross a b) (cross a b)) a) (vscale (dot (cross a v) (cross a b) / dot (cross a b) (cross a b)) b).
Proof.
  intros H Nz. set (nn := dot (cross a b) (cross a b)) in *.
  assert (Q : vscale nn v = vadd (vadd (vscale (dot (cross v b) (cross a b)) a) (vscale (dot (cross a v) (cross a b)) b)) (vscale (dot v (cross a b)) (cross a b))).
  { unfold nn. apply vec_ext; unfold vscale, vadd, dot, cross; cbn [vx vy vz]; ring. }
  rewrite H in Q. pose proof (f_equal vx Q) as Qx. pose proof (f_equal vy Q) as Qy. pose proof (f_equal vz Q) as Qz.
  unfold vscale, vadd in Qx, Qy, Qz. cbn [vx vy vz] in Qx, Qy, Qz.
  apply vec_ext; unfold vscale, vadd; cbn [vx vy vz]; apply (Rmult_eq_reg_l nn); auto; rewrite ?Qx, ?Qy, ?Qz; field; auto.
Qed.
Lemma direction_of pos x y z v : x <> y -> x <> z -> y <> z -> dot v (area pos [x; y; z]) = 0 -> area pos [x; y; z] <> vzero ->
  exists c, (forall k, ~ In k [x; y; z] -> c k = 0) /\ rsum_on c [x; y; z] = 0 /\ v = along_nodes pos c [x; y; z].
Proof.
  intros D1 D2 D3 H Nz. cbn [area] in *. set (a := vsub (pos y) (pos x)) in *. set (b := vsub (pos z) (pos x)) in *.
  assert (Nn : dot (cross a b) (cross a b) <> 0).
  { intros Q. apply Nz. clear - Q. destruct (cross a b) as [p q r]. unfold dot in Q. cbn [vx vy vz] in Q. apply vec_ext; cbn; nra. }
  pose proof (cross_solve a b v H Nn) as Q. revert Q. generalize (dot (cross v b) (cross a b) / dot (cross a b) (cross a b)) (dot (cross a v) (cross a b) / dot (cross a b) (cross a b)). intros p q Q.
  exists (spread x y z p q). unfold spread. split; [|split].
  - intros k Hk. simpl in Hk. destruct (Nat.eqb_spec k x); [subst; tauto|]. destruct (Nat.eqb_spec k y); [subst; tauto|]. destruct (Nat.eqb_spec k z); [subst; tauto|]. auto.
  - unfold rsum_on. cbn [map fold_right]. rewrite !Nat.eqb_refl. rewrite (proj2 (Nat.eqb_neq y x)), (proj2 (Nat.eqb_neq z x)), (proj2 (Nat.eqb_neq z y)) by auto. ring.
  - unfold along_nodes, vsum. cbn [map fold_right]. rewrite !Nat.eqb_refl. rewrite (proj2 (Nat.eqb_neq y x)), (proj2 (Nat.eqb_neq z x)), (proj2 (Nat.eqb_neq z y)) by auto.
    rewrite Q. unfold a, b. apply vec_ext; unfold vscale, vadd, vsub, vzero; cbn [vx vy vz]; ring.
Qed.
Lemma face_area_nonzero pos n0 n1 n2 n3 i f : (i < 4)%nat -> NoDup [n0; n1; n2; n3] -> measure (frame pos [n0; n1; n2; n3]) <> 0 ->
  increasing f -> Permutation f (face_of [n0; n1; n2; n3] i) -> exists a b c, f = [a; b; c] /\ (a < b < c)%nat /\ area pos f <> vzero.
Proof.
  intros Hi N M I P. destruct (face_of_distinct _ _ _ _ i N Hi) as (x & y & z & Ef & _).
  assert (L : length f = 3%nat) by (apply Permutation_length in P; rewrite Ef in P; auto).
  destruct (increasing_three f L I) as (a & b & c & -> & Lt). exists a, b, c. split; auto. split; auto. intros Z.
  destruct (area_sign pos (face_of [n0; n1; n2; n3] i) a b c Lt ltac:(symmetry; auto)) as (A & _ & _). rewrite Z in A.
  apply M. unfold measure, frame. cbn [map]. cbv zeta.
  assert (D : dot (cross (vsub (pos n1) (pos n0)) (vsub (pos n2) (pos n0))) (vsub (pos n3) (pos n0)) = 0).
  { assert (Q : dot (area pos (face_of [n0; n1; n2; n3] i)) (vsub (pos n0) (pos n1)) = 0 /\ dot (area pos (face_of [n0; n1; n2; n3] i)) (vsub (pos n3) (pos n0)) = 0 /\
      dot (area pos (face_of [n0; n1; n2; n3] i)) (vsub (pos n2) (pos n0)) = 0).
    { rewrite A. unfold dot, vscale, vzero; cbn [vx vy vz]. repeat split; ring. }
    clear - Q Hi. destruct Q as (Q1 & Q2 & Q3). destruct i as [|[|[|[|i]]]]; try lia; cbn in Q1, Q2, Q3; unfold dot, cross, vsub in *; cbn [vx vy vz] in *; first [clear Q2 Q3; lra | clear Q1 Q2; lra | clear Q1 Q3; lra]. }
  rewrite D. apply Rabs_R0.
Qed.

Section Shared.
  Variable qr : nat -> matrix -> matrix * matrix.
  Variable inv : nat -> matrix -> matrix.
  Hypothesis Hinv : is_inverse inv.
  Variable X : list vec.
  Variable pos : nat -> vec.

  Lemma sorted_inc (x y : nat) : x <> y -> exists e, increasing e /\ Permutation e [x; y].
  Proof.
    intros D. destruct (Nat.lt_ge_cases x y); [exists [x; y]|exists [y; x]]; (split; [repeat constructor; lia|auto]). apply perm_swap.
  Qed.

  Lemma shared_face_tangent_lemma cs el1 el2 g n me mf phi psi_e psi_f points1 points2 t1 t2 :
    el_generator el1 = g -> el_generator el2 = g -> placed qr X cs el1 pos 3 -> placed qr X cs el2 pos 3 -> hcurl_faces g n me mf phi psi_e psi_f ->
    points_of 3 points1 -> points_of 3 points2 -> evaluated qr inv X cs el1 points1 t1 -> evaluated qr inv X cs el2 points2 t2 ->
    forall k1 k2 p1 p2 i1 i2 f l v, nth_error points1 k1 = Some p1 -> nth_error points2 k2 = Some p2 -> (i1 < 4)%nat -> (i2 < 4)%nat ->
      nth i1 (linear_shapes p1) 0 = 0 -> nth i2 (linear_shapes p2) 0 = 0 ->
      barycentric (c_nodes (el_cell el1)) p1 l -> barycentric (c_nodes (el_cell el2)) p2 l ->
      sorted_face el1 i1 f -> sorted_face el2 i2 f -> dot v (area pos f) = 0 ->
      (flipped el1 i1 = flipped el2 i2 -> forall r, (r < mf)%nat ->
         dot (value_at t1 k1 (nth r (dofs g 2 i1) 0%nat)) v = dot (value_at t2 k2 (nth r (dofs g 2 i2) 0%nat)) v) /\
      (forall j1 j2 r, edge_of_face i1 j1 -> edge_of_face i2 j2 ->
         Permutation (tetra_edge_of (c_nodes (el_cell el1)) j1) (tetra_edge_of (c_nodes (el_cell el2)) j2) -> (r < me)%nat ->
         dot (value_at t1 k1 (nth r (dofs g 1 j1) 0%nat)) v = dot (value_at t2 k2 (nth r (dofs g 1 j2) 0%nat)) v) /\
      (forall a, (a < n)%nat -> ~ In a (dofs g 2 i1) -> (forall j, edge_of_face i1 j -> ~ In a (dofs g 1 j)) -> dot (value_at t1 k1 a) v = 0).
  Proof.
    intros G1 G2 P1 P2 H Q1 Q2 V1 V2 k1 k2 p1 p2 i1 i2 f l v A1 A2 B1 B2 C1 C2 D1 D2 F1 F2 Hv.
    pose proof (face_tangent_lemma qr inv Hinv X pos cs el1 n me mf phi psi_e psi_f points1 P1) as L1. rewrite G1 in L1. destruct (L1 H Q1) as (t1' & E1 & _ & H1).
    pose proof (face_tangent_lemma qr inv Hinv X pos cs el2 n me mf phi psi_e psi_f points2 P2) as L2. rewrite G2 in L2. destruct (L2 H Q2) as (t2' & E2 & _ & H2).
    assert (t1' = t1). { destruct V1 as (m1 & V1 & V1'), E1 as (m2 & E1 & E1'). congruence. }
    assert (t2' = t2). { destruct V2 as (m1 & V2 & V2'), E2 as (m2 & E2 & E2'). congruence. }
    subst t1' t2'. destruct P1 as [[(_ & Ln1 & N1 & _) _] [_ [M1 _]]]. destruct P2 as [[(_ & Ln2 & N2 & _) _] [_ _]].
    pose proof F1 as [I1 F1']. pose proof F2 as [I2 F2'].
    destruct (list4 _ Ln1) as (a0 & a1 & a2 & a3 & Ea). destruct (list4 _ Ln2) as (b0 & b1 & b2 & b3 & Eb).
    rewrite Ea in *. rewrite Eb in *.
    destruct (face_area_nonzero pos a0 a1 a2 a3 i1 f B1 N1 M1 I1 F1') as (x & y & z & -> & Lt & Nz).
    destruct (direction_of pos x y z v ltac:(lia) ltac:(lia) ltac:(lia) Hv Nz) as (c & Cz & Cs & Ev).
    assert (O1 : c (nth i1 [a0; a1; a2; a3] 0%nat) = 0).
    { apply Cz. intros Q. apply (opposite_notin a0 a1 a2 a3 i1 B1 N1). eapply Permutation_in; eauto. }
    assert (O2 : c (nth i2 [b0; b1; b2; b3] 0%nat) = 0).
    { apply Cz. intros Q. apply (opposite_notin b0 b1 b2 b3 i2 B2 N2). eapply Permutation_in; eauto. }
    destruct (face_direction pos c a0 a1 a2 a3 i1 B1 O1) as [W1 S1]. destruct (face_direction pos c b0 b1 b2 b3 i2 B2 O2) as [W2 S2].
    rewrite <- (along_perm_nodes _ _ _ _ F1'), <- Ev in W1. rewrite <- (rsum_on_perm _ _ _ F1'), Cs in S1.
    rewrite <- (along_perm_nodes _ _ _ _ F2'), <- Ev in W2. rewrite <- (rsum_on_perm _ _ _ F2'), Cs in S2.
    destruct (H1 k1 p1 i1 l c A1 B1 C1 D1 (conj O1 S1)) as (R1 & T1 & U1). destruct (H2 k2 p2 i2 l c A2 B2 C2 D2 (conj O2 S2)) as (R2 & T2 & _).
    rewrite W1 in R1, T1, U1. rewrite W2 in R2, T2. split; [|split].
    - intros Fl r Hr. rewrite (R1 _ r F1 Hr), (R2 _ r F2 Hr), Fl. reflexivity.
    - intros j1 j2 r J1 J2 Pm Hr. destruct (tetra_edge_distinct a0 a1 a2 a3 j1 N1 (proj1 J1)) as [L3 N3].
      destruct (list2 _ L3) as (s & q & Ee). assert (Hsq : s <> q) by (rewrite Ee in N3; apply NoDup_cons_iff in N3 as [N3 _]; simpl in N3; intros ->; tauto).
      destruct (sorted_inc s q Hsq) as (e & Ie & Pe). rewrite <- Ee in Pe.
      rewrite (T1 j1 e r J1 Ie Pe Hr), (T2 j2 e r J2 Ie ltac:(eapply Permutation_trans; eauto) Hr). reflexivity.
    - intros a Ha Hf He. apply U1; auto.
  Qed.
End Shared.

(** ** Traces *)
Section Trace.
  Variable qr : nat -> matrix -> matrix * matrix.
  Variable inv : nat -> matrix -> matrix.
  Hypothesis Hinv : is_inverse inv.
  Variable X : list vec.
  Variable pos : nat -> vec.
  Variable cs : cells.

  Lemma in_edge_of_face n0 n1 n2 n3 i j x : (i < 4)%nat -> NoDup [n0; n1; n2; n3] -> edge_of_face i j -> In x (tetra_edge_of [n0; n1; n2; n3] j) -> In x (face_of [n0; n1; n2; n3] i).
  Proof.
    intros Hi N [Hj Hn] Hx. destruct i as [|[|[|[|i]]]]; try lia; destruct j as [|[|[|[|[|[|j]]]]]]; try lia; cbn in Hn, Hx |- *; tauto.
  Qed.

  Lemma face_tangent_trace_lemma el n me mf phi psi_e psi_f points c1 i : placed qr X cs el pos 3 -> hcurl_faces (el_generator el) n me mf phi psi_e psi_f ->
    facet_of c1 el i -> facet_points c1 points ->
    exists t all, trace qr inv X cs points c1 el false = Ok t /\ trace qr inv X cs points c1 el true = Ok all /\
      shape t 4 (length points) mf 3 /\ shape all 4 (length points) n 3 /\
      forall k p, nth_error points k = Some p ->
        (forall r, (r < mf)%nat -> value_at t k r = value_at all k (nth r (dofs (el_generator el) 2 i) 0%nat)) /\
        forall f l c, increasing f -> Permutation f (c_nodes c1) -> barycentric (c_nodes c1) p l -> rsum_on c (c_nodes c1) = 0 ->
          let v := along_nodes pos c (c_nodes c1) in
          (forall r, (r < mf)%nat -> dot (value_at t k r) v = psi_f r (map (both l c) (if flipped el i then reflected f else f))) /\
          (forall j e r, edge_of_face i j -> increasing e -> Permutation e (tetra_edge_of (c_nodes (el_cell el)) j) -> (r < me)%nat ->
             dot (value_at all k (nth r (dofs (el_generator el) 1 j) 0%nat)) v = psi_e r (map (both l c) e)) /\
          (forall a, (a < n)%nat -> ~ In a (dofs (el_generator el) 2 i) -> (forall j, edge_of_face i j -> ~ In a (dofs (el_generator el) 1 j)) -> dot (value_at all k a) v = 0).
  Proof.
    intros P H F Fp. pose proof P as [[(D & Ln & N & _) _] _]. destruct (facet_dim _ _ _ _ F D) as [D1 Hi].
    destruct (mapped_points points c1 el i F Fp) as (mapped & E & Pm & Lm & Hm). rewrite D in Pm.
    destruct (face_tangent_lemma qr inv Hinv X pos cs el n me mf phi psi_e psi_f mapped P H Pm) as (t & Ev & St & Hf).
    destruct (trace_eq qr inv X cs points c1 el i mapped t F E Ev) as [T1 T2].
    pose proof H as (_ & _ & _ & _ & [(lo & Elo & Llo) Hlo] & _). rewrite D1 in T2.
    destruct (Hlo i ltac:(lia)) as (Ld & _ & Bd). pose proof St as (S1 & S2 & S3 & S4).
    exists (picked t (dofs (el_generator el) 2 i)), t. split; [apply (T2 lo); [auto|lia|rewrite S3; auto]|]. split; auto.
    rewrite Lm in *. split; [unfold shape, picked; cbn [tb_der tb_pts tb_dof tb_vs]; auto|]. split; auto.
    intros k p Hk. destruct (Hm k p Hk) as (q & Hq & Bq & Zq). split; [intros r Hr; reflexivity|].
    intros f l c If Pf Bl Sc v. destruct Fp as [_ Fp]. rewrite Forall_forall in Fp. specialize (Fp p (nth_error_In _ _ Hk)).
    destruct (facet_weights c1 el i p F Fp) as [Nw Lw]. rewrite D1 in Bq, Lw. cbn [weights] in Bq, Lw.
    pose proof F as [_ F']. rewrite D in F'. cbn [facet_nodes] in F'.
    destruct (list4 _ Ln) as (n0 & n1 & n2 & n3 & En). rewrite En in *.
    set (c' := fun x => if in_dec Nat.eq_dec x (c_nodes c1) then c x else 0).
    assert (Cc : forall x, In x (c_nodes c1) -> c' x = c x) by (intros x Hx; unfold c'; destruct (in_dec _ _ _); tauto).
    assert (O : c' (nth i [n0; n1; n2; n3] 0%nat) = 0).
    { unfold c'. destruct (in_dec _ _ _) as [Q|]; auto. exfalso. apply (opposite_notin n0 n1 n2 n3 i ltac:(lia) N). eapply Permutation_in; eauto. }
    destruct (face_direction pos c' n0 n1 n2 n3 i ltac:(lia) O) as [W S].
    rewrite <- (along_perm_nodes _ _ _ _ F') in W. rewrite <- (rsum_on_perm _ _ _ F') in S.
    assert (W' : along_nodes pos c' (c_nodes c1) = v).
    { unfold v, along_nodes. f_equal. apply map_ext_in. intros x Hx. rewrite Cc; auto. }
    assert (S' : rsum_on c' (c_nodes c1) = 0).
    { rewrite <- Sc. unfold rsum_on. f_equal. apply map_ext_in. intros x Hx. auto. }
    rewrite W' in W. rewrite S' in S.
    assert (Mb : forall h, (forall x, In x h -> In x (c_nodes c1)) -> map (both (weight_of (c_nodes c1) (linear_shapes p)) c') h = map (both l c) h).
    { intros h Hh. apply map_ext_in. intros x Hx. unfold both. rewrite Cc by auto. f_equal. symmetry. apply barycentric_weight; auto. }
    destruct (Hf k q i _ c' Hq ltac:(lia) (Zq ltac:(lia)) Bq (conj O S)) as (Q1 & Q2 & Q3). rewrite W in Q1, Q2, Q3.
    split; [|split].
    - intros r Hr. change (value_at (picked t (dofs (el_generator el) 2 i)) k r) with (value_at t k (nth r (dofs (el_generator el) 2 i) 0%nat)).
      rewrite (Q1 f r); auto.
      + rewrite Mb; auto. intros x Hx. eapply Permutation_in; [exact Pf|]. destruct (flipped el i); auto. eapply Permutation_in; [apply reflected_perm|]; auto.
      + split; auto. rewrite En. eapply Permutation_trans; eauto.
    - intros j e r Hj Ie Pe Hr. rewrite (Q2 j e r Hj Ie Pe Hr). rewrite Mb; auto. intros x Hx. eapply Permutation_in; [symmetry; exact F'|].
      apply (in_edge_of_face n0 n1 n2 n3 i j); auto; [lia|]. eapply Permutation_in; eauto.
    - intros a Ha Hn He. apply Q3; auto.
  Qed.
End Trace.
