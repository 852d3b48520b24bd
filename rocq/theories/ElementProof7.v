(** * Lemmas: the statements for families of elements *)
From Coq Require Import List Arith ZArith Bool Reals Lra Lia Permutation FunctionalExtensionality.
From Verif Require Import Base BaseProof MeshModel MeshSpec GraphModel OrientModel OrientSpec OrientProof VecBase VecProof MapModel MapSpec MapProof JacProof SpaceModel ElementModel ElementSpec ElementProof ElementProof2 ElementProof3 ElementProof4 ElementProof5 ElementProof6.
Import ListNotations.
Local Open Scope R_scope.

Section Families.
  Variable qr : nat -> matrix -> matrix * matrix.
  Variable inv : nat -> matrix -> matrix.
  Hypothesis Hinv : is_inverse inv.
  Variable X : list vec.
  Variable pos : nat -> vec.

  Lemma normal_3d_lemma cs el n m phi psi points : placed qr X cs el pos 3 -> hdiv_3d (el_generator el) n m phi psi -> points_of 3 points ->
    exists t, evaluated qr inv X cs el points t /\ shape t 4 (length points) n 3 /\
      forall k p i f l, nth_error points k = Some p -> (i < 4)%nat -> nth i (linear_shapes p) 0 = 0 -> barycentric (c_nodes (el_cell el)) p l ->
        sorted_face el i f ->
        (forall r, (r < m)%nat -> dot (value_at t k (nth r (dofs (el_generator el) 2 i) 0%nat)) (area pos f) =
           handedness pos (c_nodes (el_cell el)) * if flipped el i then - psi r (map l (reflected f)) else psi r (map l f)) /\
        (forall a, (a < n)%nat -> ~ In a (dofs (el_generator el) 2 i) -> dot (value_at t k a) (area pos f) = 0).
  Proof.
    intros [[P1 P2] [P3 P4]] (H1 & H2 & H3 & H4 & H5 & H6 & H7 & H8) [Q1 Q2].
    destruct (face_flux_lemma qr inv Hinv X cs el pos n m phi psi points P1 P2 P3 P4 H1 H2 H3 H4 H5 H6 H7 H8 Q1 Q2) as (mp & t & E1 & E2 & S1 & S2 & S3 & S4 & H).
    exists t. split; [exists mp; auto|]. split; [unfold shape; auto|]. intros k p i f l A1 A2 A3 A4 [A5 A6]. apply (H k p i f l A1 A2 A3 A4 A5 A6).
  Qed.
  Lemma normal_2d_lemma cs el n m phi psi points : placed qr X cs el pos 2 -> hdiv_2d (el_generator el) n m phi psi -> points_of 2 points ->
    exists t, evaluated qr inv X cs el points t /\ shape t 3 (length points) n 3 /\
      forall k p i e l nu, nth_error points k = Some p -> (i < 3)%nat -> nth i (linear_shapes p) 0 = 0 -> barycentric (c_nodes (el_cell el)) p l ->
        stored_edge cs (el_cell el) i e ->
        (forall r, (r < m)%nat -> dot (value_at t k (nth r (dofs (el_generator el) 1 i) 0%nat)) (cross (along pos e) nu) =
           facing nu pos (c_nodes (el_cell el)) * psi r (map l e)) /\
        (forall a, (a < n)%nat -> ~ In a (dofs (el_generator el) 1 i) -> dot (value_at t k a) (cross (along pos e) nu) = 0).
  Proof.
    intros [P1 [P3 P4]] (H1 & H2 & H3 & H4 & H5 & H6) [Q1 Q2].
    destruct (edge_flux_lemma qr inv Hinv X cs el pos n m phi psi points P1 P3 P4 H1 H2 H3 H4 H5 H6 Q1 Q2) as (mp & t & E1 & E2 & S1 & S2 & S3 & S4 & H).
    exists t. split; [exists mp; auto|]. split; [unfold shape; auto|]. exact H.
  Qed.
  Lemma tangent_3d_lemma cs el n m mf phi psi points : placed qr X cs el pos 3 -> hcurl_3d (el_generator el) n m mf phi psi -> points_of 3 points ->
    exists t, evaluated qr inv X cs el points t /\ shape t 4 (length points) n 3 /\
      forall k p i e l, nth_error points k = Some p -> (i < 6)%nat -> on_edge 3 i p -> barycentric (c_nodes (el_cell el)) p l ->
        increasing e -> Permutation e (tetra_edge_of (c_nodes (el_cell el)) i) ->
        (forall r, (r < m)%nat -> dot (value_at t k (nth r (dofs (el_generator el) 1 i) 0%nat)) (along pos e) = psi r (map l e)) /\
        (forall a, (a < n)%nat -> ~ In a (dofs (el_generator el) 1 i) -> dot (value_at t k a) (along pos e) = 0).
  Proof.
    intros [[P1 P2] [P3 P4]] (H1 & H2 & H3 & H4 & H5 & H6 & H7 & H8) [Q1 Q2].
    destruct (edge_tangent3_lemma qr inv Hinv X cs el pos n m mf phi psi points P1 P2 P3 P4 H1 H2 H3 H4 H5 H6 H7 H8 Q1 Q2) as (mp & t & E1 & E2 & S1 & S2 & S3 & S4 & H).
    exists t. split; [exists mp; auto|]. split; [unfold shape; auto|]. exact H.
  Qed.
  Lemma tangent_2d_lemma cs el n m phi psi points : placed qr X cs el pos 2 -> hcurl_2d (el_generator el) n m phi psi -> points_of 2 points ->
    exists t, evaluated qr inv X cs el points t /\ shape t 3 (length points) n 3 /\
      forall k p i e l, nth_error points k = Some p -> (i < 3)%nat -> on_edge 2 i p -> barycentric (c_nodes (el_cell el)) p l ->
        stored_edge cs (el_cell el) i e ->
        (forall r, (r < m)%nat -> dot (value_at t k (nth r (dofs (el_generator el) 1 i) 0%nat)) (along pos e) = psi r (map l e)) /\
        (forall a, (a < n)%nat -> ~ In a (dofs (el_generator el) 1 i) -> dot (value_at t k a) (along pos e) = 0).
  Proof.
    intros [P1 [P3 P4]] (H1 & H2 & H3 & H4 & H5 & H6) [Q1 Q2].
    destruct (edge_tangent2_lemma qr inv Hinv X cs el pos n m phi psi points P1 P3 P4 H1 H2 H3 H4 H5 H6 Q1 Q2) as (mp & t & E1 & E2 & S1 & S2 & S3 & S4 & H).
    exists t. split; [exists mp; auto|]. split; [unfold shape; auto|]. exact H.
  Qed.

  (** Two tetrahedra with a common face *)
  Lemma shared_face_lemma cs el1 el2 g n m phi psi points1 points2 t1 t2 :
    el_generator el1 = g -> el_generator el2 = g -> placed qr X cs el1 pos 3 -> placed qr X cs el2 pos 3 -> hdiv_3d g n m phi psi ->
    points_of 3 points1 -> points_of 3 points2 -> evaluated qr inv X cs el1 points1 t1 -> evaluated qr inv X cs el2 points2 t2 ->
    forall k1 k2 p1 p2 i1 i2 f l r, nth_error points1 k1 = Some p1 -> nth_error points2 k2 = Some p2 -> (i1 < 4)%nat -> (i2 < 4)%nat ->
      nth i1 (linear_shapes p1) 0 = 0 -> nth i2 (linear_shapes p2) 0 = 0 ->
      barycentric (c_nodes (el_cell el1)) p1 l -> barycentric (c_nodes (el_cell el2)) p2 l ->
      sorted_face el1 i1 f -> sorted_face el2 i2 f -> flipped el1 i1 = flipped el2 i2 -> (r < m)%nat ->
      let flux1 := dot (value_at t1 k1 (nth r (dofs g 2 i1) 0%nat)) (area pos f) in
      let flux2 := dot (value_at t2 k2 (nth r (dofs g 2 i2) 0%nat)) (area pos f) in
      (handedness pos (c_nodes (el_cell el1)) = handedness pos (c_nodes (el_cell el2)) -> flux1 = flux2) /\
      (handedness pos (c_nodes (el_cell el1)) = - handedness pos (c_nodes (el_cell el2)) -> flux1 = - flux2).
  Proof.
    intros G1 G2 P1 P2 H Q1 Q2 V1 V2 k1 k2 p1 p2 i1 i2 f l r A1 A2 B1 B2 C1 C2 D1 D2 F1 F2 Fl Hr.
    pose proof (normal_3d_lemma cs el1 n m phi psi points1 P1) as L1. rewrite G1 in L1. destruct (L1 H Q1) as (t1' & E1 & _ & H1).
    pose proof (normal_3d_lemma cs el2 n m phi psi points2 P2) as L2. rewrite G2 in L2. destruct (L2 H Q2) as (t2' & E2 & _ & H2).
    assert (t1' = t1). { destruct V1 as (m1 & V1 & V1'), E1 as (m2 & E1 & E1'). congruence. }
    assert (t2' = t2). { destruct V2 as (m1 & V2 & V2'), E2 as (m2 & E2 & E2'). congruence. }
    subst t1' t2'. destruct (H1 k1 p1 i1 f l A1 B1 C1 D1 F1) as [N1 _]. destruct (H2 k2 p2 i2 f l A2 B2 C2 D2 F2) as [N2 _].
    cbv zeta. rewrite N1, N2, Fl by auto. split; intros ->; ring.
  Qed.
  (** ... and with a common edge *)
  Lemma shared_tangent_lemma cs el1 el2 g n m mf phi psi points1 points2 t1 t2 :
    el_generator el1 = g -> el_generator el2 = g -> placed qr X cs el1 pos 3 -> placed qr X cs el2 pos 3 -> hcurl_3d g n m mf phi psi ->
    points_of 3 points1 -> points_of 3 points2 -> evaluated qr inv X cs el1 points1 t1 -> evaluated qr inv X cs el2 points2 t2 ->
    forall k1 k2 p1 p2 i1 i2 l r, nth_error points1 k1 = Some p1 -> nth_error points2 k2 = Some p2 -> (i1 < 6)%nat -> (i2 < 6)%nat ->
      on_edge 3 i1 p1 -> on_edge 3 i2 p2 -> barycentric (c_nodes (el_cell el1)) p1 l -> barycentric (c_nodes (el_cell el2)) p2 l ->
      Permutation (tetra_edge_of (c_nodes (el_cell el1)) i1) (tetra_edge_of (c_nodes (el_cell el2)) i2) -> (r < m)%nat ->
      let e := tetra_edge_of (c_nodes (el_cell el1)) i1 in
      dot (value_at t1 k1 (nth r (dofs g 1 i1) 0%nat)) (along pos e) = dot (value_at t2 k2 (nth r (dofs g 1 i2) 0%nat)) (along pos e).
  Proof.
    intros G1 G2 P1 P2 H Q1 Q2 V1 V2 k1 k2 p1 p2 i1 i2 l r A1 A2 B1 B2 C1 C2 D1 D2 Pm Hr.
    pose proof (tangent_3d_lemma cs el1 n m mf phi psi points1 P1) as L1. rewrite G1 in L1. destruct (L1 H Q1) as (t1' & E1 & _ & H1).
    pose proof (tangent_3d_lemma cs el2 n m mf phi psi points2 P2) as L2. rewrite G2 in L2. destruct (L2 H Q2) as (t2' & E2 & _ & H2).
    assert (t1' = t1). { destruct V1 as (m1 & V1 & V1'), E1 as (m2 & E1 & E1'). congruence. }
    assert (t2' = t2). { destruct V2 as (m1 & V2 & V2'), E2 as (m2 & E2 & E2'). congruence. }
    subst t1' t2'. destruct P1 as [[(_ & Ln & N & _) _] _]. destruct (list4 _ Ln) as (n0 & n1 & n2 & n3 & En). rewrite En in *.
    destruct (tetra_edge_distinct n0 n1 n2 n3 i1 N B1) as [L3 N3]. set (e := tetra_edge_of [n0; n1; n2; n3] i1) in *.
    destruct (list2 e L3) as (x & y & Ee). rewrite Ee in *.
    assert (Hxy : x <> y) by (apply NoDup_cons_iff in N3 as [N3 _]; simpl in N3; intros ->; tauto).
    cbv zeta. destruct (Nat.lt_ge_cases x y) as [Lt|Ge].
    - assert (I : increasing [x; y]) by (repeat constructor; auto).
      destruct (H1 k1 p1 i1 [x; y] l A1 B1 C1 D1 I) as [N1 _]; [unfold e in Ee; rewrite Ee; auto|].
      destruct (H2 k2 p2 i2 [x; y] l A2 B2 C2 D2 I Pm) as [N2 _]. rewrite N1, N2 by auto. reflexivity.
    - assert (I : increasing [y; x]) by (repeat constructor; lia).
      destruct (H1 k1 p1 i1 [y; x] l A1 B1 C1 D1 I) as [N1 _]; [unfold e in Ee; rewrite Ee; apply perm_swap|].
      destruct (H2 k2 p2 i2 [y; x] l A2 B2 C2 D2 I) as [N2 _]; [eapply Permutation_trans; [apply perm_swap|exact Pm]|].
      assert (Fl : along pos [x; y] = vscale (-1) (along pos [y; x])) by (apply vec_ext; simpl; ring).
      rewrite Fl, !dot_scale_r, N1, N2 by auto. reflexivity.
  Qed.
  (** Two triangles with a common stored edge, in a plane with unit normal nu *)
  Lemma shared_edge_lemma cs el1 el2 g n m phi psi points1 points2 t1 t2 nu :
    el_generator el1 = g -> el_generator el2 = g -> placed qr X cs el1 pos 2 -> placed qr X cs el2 pos 2 -> hdiv_2d g n m phi psi ->
    points_of 2 points1 -> points_of 2 points2 -> evaluated qr inv X cs el1 points1 t1 -> evaluated qr inv X cs el2 points2 t2 ->
    forall k1 k2 p1 p2 i1 i2 e l r, nth_error points1 k1 = Some p1 -> nth_error points2 k2 = Some p2 -> (i1 < 3)%nat -> (i2 < 3)%nat ->
      nth i1 (linear_shapes p1) 0 = 0 -> nth i2 (linear_shapes p2) 0 = 0 ->
      barycentric (c_nodes (el_cell el1)) p1 l -> barycentric (c_nodes (el_cell el2)) p2 l ->
      stored_edge cs (el_cell el1) i1 e -> stored_edge cs (el_cell el2) i2 e -> (r < m)%nat ->
      let flux1 := dot (value_at t1 k1 (nth r (dofs g 1 i1) 0%nat)) (cross (along pos e) nu) in
      let flux2 := dot (value_at t2 k2 (nth r (dofs g 1 i2) 0%nat)) (cross (along pos e) nu) in
      (facing nu pos (c_nodes (el_cell el1)) = facing nu pos (c_nodes (el_cell el2)) -> flux1 = flux2) /\
      (facing nu pos (c_nodes (el_cell el1)) = - facing nu pos (c_nodes (el_cell el2)) -> flux1 = - flux2).
  Proof.
    intros G1 G2 P1 P2 H Q1 Q2 V1 V2 k1 k2 p1 p2 i1 i2 e l r A1 A2 B1 B2 C1 C2 D1 D2 F1 F2 Hr.
    pose proof (normal_2d_lemma cs el1 n m phi psi points1 P1) as L1. rewrite G1 in L1. destruct (L1 H Q1) as (t1' & E1 & _ & H1).
    pose proof (normal_2d_lemma cs el2 n m phi psi points2 P2) as L2. rewrite G2 in L2. destruct (L2 H Q2) as (t2' & E2 & _ & H2).
    assert (t1' = t1). { destruct V1 as (m1 & V1 & V1'), E1 as (m2 & E1 & E1'). congruence. }
    assert (t2' = t2). { destruct V2 as (m1 & V2 & V2'), E2 as (m2 & E2 & E2'). congruence. }
    subst t1' t2'. destruct (H1 k1 p1 i1 e l nu A1 B1 C1 D1 F1) as [N1 _]. destruct (H2 k2 p2 i2 e l nu A2 B2 C2 D2 F2) as [N2 _].
    cbv zeta. rewrite N1, N2 by auto. split; intros ->; ring.
  Qed.
End Families.

Lemma values_3d_lemma cs el mp n me mf phi psi_e psi_f points :
  tetrahedron cs (el_cell el) -> length (el_bc_entities el) = 4%nat -> h1_3d (el_generator el) n me mf phi psi_e psi_f ->
  Forall (fun p => length p = 3%nat) points ->
  exists t, evaluate_basis cs el points mp = Ok t /\ shape t 4 (length points) n 1 /\
    forall k p l, nth_error points k = Some p -> barycentric (c_nodes (el_cell el)) p l ->
      (forall i e r, (i < 6)%nat -> on_edge 3 i p -> increasing e -> Permutation e (tetra_edge_of (c_nodes (el_cell el)) i) -> (r < me)%nat ->
         tb_val t 0 k (nth r (dofs (el_generator el) 1 i) 0%nat) 0 = psi_e r (map l e)) /\
      (forall i f r, (i < 4)%nat -> nth i (linear_shapes p) 0 = 0 -> sorted_face el i f -> (r < mf)%nat ->
         tb_val t 0 k (nth r (dofs (el_generator el) 2 i) 0%nat) 0 = psi_f r (map l (if flipped el i then reflected f else f))) /\
      (forall d i, (d = 1 /\ i < 6 \/ d = 2 /\ i < 4)%nat -> (forall a, In a (dofs (el_generator el) d i) -> phi 0%nat a 0%nat p = 0) ->
         forall a, In a (dofs (el_generator el) d i) -> tb_val t 0 k a 0 = 0) /\
      (forall a, (a < n)%nat -> (forall j, (j < 6)%nat -> ~ In a (dofs (el_generator el) 1 j)) -> (forall j, (j < 4)%nat -> ~ In a (dofs (el_generator el) 2 j)) ->
         forall q, (q <= 3)%nat -> tb_val t q k a 0 = phi q a 0%nat p).
Proof.
  intros T1 T2 (H1 & H2 & H3 & H4 & H5 & H6 & H7 & H8 & H9) Fp.
  destruct (values3_lemma cs el mp n me mf phi psi_e psi_f points T1 T2 H1 H2 H3 H4 H5 H6 H7 H8 H9 Fp) as (t & E & S1 & S2 & S3 & S4 & H).
  exists t. split; auto. split; [unfold shape; auto|]. intros k p l A B. destruct (H k p l A B) as (Q1 & Q2 & Q3 & Q4).
  split; auto. split; auto. intros i f r Hi Hz [S5 S6] Hr. apply Q2; auto.
Qed.
Lemma values_2d_lemma cs el mp n m phi psi points :
  triangle cs (el_cell el) -> h1_2d (el_generator el) n m phi psi -> Forall (fun p => length p = 2%nat) points ->
  exists t, evaluate_basis cs el points mp = Ok t /\ shape t 3 (length points) n 1 /\
    forall k p l, nth_error points k = Some p -> barycentric (c_nodes (el_cell el)) p l ->
      (forall i e r, (i < 3)%nat -> on_edge 2 i p -> stored_edge cs (el_cell el) i e -> (r < m)%nat ->
         tb_val t 0 k (nth r (dofs (el_generator el) 1 i) 0%nat) 0 = psi r (map l e)) /\
      (forall i, (i < 3)%nat -> (forall a, In a (dofs (el_generator el) 1 i) -> phi 0%nat a 0%nat p = 0) ->
         forall a, In a (dofs (el_generator el) 1 i) -> tb_val t 0 k a 0 = 0) /\
      (forall a, (a < n)%nat -> (forall j, (j < 3)%nat -> ~ In a (dofs (el_generator el) 1 j)) ->
         forall q, (q <= 2)%nat -> tb_val t q k a 0 = phi q a 0%nat p).
Proof.
  intros T1 (H1 & H2 & H3 & H4 & H5 & H6) Fp.
  destruct (values2_lemma cs el mp n m phi psi points T1 H1 H2 H3 H4 H5 H6 Fp) as (t & E & S1 & S2 & S3 & S4 & H).
  exists t. split; auto. split; [unfold shape; auto|]. exact H.
Qed.
