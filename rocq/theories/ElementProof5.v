(** * Lemmas: triangles, tangential components, values, lines *)
From Coq Require Import List Arith ZArith Bool Reals Lra Lia Permutation FunctionalExtensionality.
From Verif Require Import Base BaseProof MeshModel MeshSpec OrientModel OrientSpec OrientProof VecBase VecProof MapModel MapSpec MapProof JacProof ElementModel ElementSpec ElementProof ElementProof2 ElementProof3 ElementProof4.
Import ListNotations.
Local Open Scope R_scope.

Lemma along_perm pos e f : length f = 2%nat -> NoDup f -> Permutation e f ->
  vscale (osign e) (along pos e) = vscale (osign f) (along pos f) /\ osign e * osign e = 1.
Proof.
  intros L N P. destruct (list2 f L) as (a & b & ->). symmetry in P. assert (a <> b) by (apply NoDup_cons_iff in N as [N _]; simpl in N; intros ->; tauto).
  assert (S : sg a b * sg a b = 1) by (unfold sg; destruct (Nat.ltb_spec a b), (Nat.ltb_spec b a); try lia; lra).
  apply Permutation_length_2_inv in P as [->| ->]; unfold osign; [split; auto|]. rewrite (sg_flip a b). split; [apply vec_ext; simpl; ring|lra].
Qed.
Lemma canon_twice (s : R) v : s * s = 1 -> vscale s (vscale s v) = v.
Proof. intros H. destruct v. unfold vscale. simpl. rewrite <- !Rmult_assoc, H, !Rmult_1_l. auto. Qed.
Lemma edge2_distinct n0 n1 n2 i : NoDup [n0; n1; n2] -> (i < 3)%nat -> length (edge_of [n0; n1; n2] i) = 2%nat /\ NoDup (edge_of [n0; n1; n2] i).
Proof.
  intros N Hi. apply NoDup_cons_iff in N as [N1 N]. apply NoDup_cons_iff in N as [N2 N]. simpl in *.
  destruct i as [|[|[|i]]]; try lia; (split; [reflexivity|]); repeat constructor; simpl; tauto.
Qed.

Lemma piola_edge pos n0 n1 n2 i (f : nat -> R) nu : (i < 3)%nat ->
  let V r := rsum 2 (fun c => of_columns (frame pos [n0; n1; n2]) r c * f c) in
  dot (mk_vec (V 0%nat) (V 1%nat) (V 2%nat)) (cross (along pos (edge_of [n0; n1; n2] i)) nu) =
  dot nu (cross (vsub (pos n1) (pos n0)) (vsub (pos n2) (pos n0))) *
  dot (mk_vec (f 0%nat) (f 1%nat) 0) (cross (along ref_vertex (edge_of [0; 1; 2]%nat i)) (mk_vec 0 0 1)).
Proof.
  intros Hi V. unfold V. destruct i as [|[|[|i]]]; try lia; unfold of_columns, frame, along, edge_of, dot, cross, vsub, coordinate, ref_vertex, vzero; cbn; ring.
Qed.
Lemma tangent_edge2 pos n0 n1 n2 i (f : nat -> R) (K : matrix) : (i < 3)%nat ->
  (forall a b, (a < 2)%nat -> (b < 2)%nat -> mmul 3 K (of_columns (frame pos [n0; n1; n2])) a b = if (a =? b)%nat then 1 else 0) ->
  let V r := rsum 2 (fun c => K c r * f c) in
  dot (mk_vec (V 0%nat) (V 1%nat) (V 2%nat)) (along pos (edge_of [n0; n1; n2] i)) =
  dot (mk_vec (f 0%nat) (f 1%nat) 0) (along ref_vertex (edge_of [0; 1; 2]%nat i)).
Proof.
  intros Hi H V.
  pose proof (H 0 0 ltac:(lia) ltac:(lia))%nat as H00. pose proof (H 0 1 ltac:(lia) ltac:(lia))%nat as H01.
  pose proof (H 1 0 ltac:(lia) ltac:(lia))%nat as H10. pose proof (H 1 1 ltac:(lia) ltac:(lia))%nat as H11. cbn in H00, H01, H10, H11.
  unfold V. clear V H.
  set (t := along ref_vertex (edge_of [0; 1; 2]%nat i)).
  transitivity (f 0%nat * (vx t * (mmul 3 K (of_columns (frame pos [n0; n1; n2])) 0 0)%nat + vy t * (mmul 3 K (of_columns (frame pos [n0; n1; n2])) 0 1)%nat) +
                f 1%nat * (vx t * (mmul 3 K (of_columns (frame pos [n0; n1; n2])) 1 0)%nat + vy t * (mmul 3 K (of_columns (frame pos [n0; n1; n2])) 1 1)%nat)).
  - unfold t. destruct i as [|[|[|i]]]; try lia; unfold mmul, of_columns, frame, along, edge_of, dot, vsub, coordinate, ref_vertex, vzero; cbn; ring.
  - cbn. rewrite H00, H01, H10, H11. unfold dot. cbn [vx vy vz]. ring.
Qed.
Lemma tangent_edge3 pos n0 n1 n2 n3 i (f : nat -> R) (K : matrix) : (i < 6)%nat ->
  (forall a b, (a < 3)%nat -> (b < 3)%nat -> mmul 3 K (of_columns (frame pos [n0; n1; n2; n3])) a b = if (a =? b)%nat then 1 else 0) ->
  let V r := rsum 3 (fun c => K c r * f c) in
  dot (mk_vec (V 0%nat) (V 1%nat) (V 2%nat)) (along pos (tetra_edge_of [n0; n1; n2; n3] i)) =
  dot (mk_vec (f 0%nat) (f 1%nat) (f 2%nat)) (along ref_vertex (tetra_edge_of [0; 1; 2; 3]%nat i)).
Proof.
  intros Hi H V. set (M := mmul 3 K (of_columns (frame pos [n0; n1; n2; n3]))) in *.
  set (t := along ref_vertex (tetra_edge_of [0; 1; 2; 3]%nat i)).
  transitivity (f 0%nat * (vx t * M 0%nat 0%nat + vy t * M 0%nat 1%nat + vz t * M 0%nat 2%nat) +
                f 1%nat * (vx t * M 1%nat 0%nat + vy t * M 1%nat 1%nat + vz t * M 1%nat 2%nat) +
                f 2%nat * (vx t * M 2%nat 0%nat + vy t * M 2%nat 1%nat + vz t * M 2%nat 2%nat)).
  - unfold t, M, V. destruct i as [|[|[|[|[|[|i]]]]]]; try lia; unfold mmul, of_columns, frame, along, tetra_edge_of, dot, vsub, coordinate, ref_vertex, vzero; cbn; ring.
  - rewrite !H by lia. cbn [Nat.eqb]. unfold dot. cbn [vx vy vz]. ring.
Qed.

(** One linear functional on the edges of a triangle, before and after the permutation *)
Lemma triangle_functional cs c g n m phi0 bc signed s0 psi t : triangle cs c -> owned_once g -> laid_out g n 1 3 m ->
  edge_change g m (if signed : bool then -1 else 1) psi -> tb_dof t = n ->
  exists t', permute_table cs c g bc t = Ok t' /\ shaped t t' /\
    (forall i e l w k, (i < 3)%nat -> stored_edge cs c i e ->
       (forall r, (r < m)%nat -> row w t k phi0 (dofs g 1 i) r = trace_basis m psi l s0 signed (edge_of (c_nodes c) i) r) ->
       forall r, (r < m)%nat -> row w t' k phi0 (dofs g 1 i) r = trace_basis m psi l s0 signed e r) /\
    (forall i w k, (i < 3)%nat -> (forall r, row w t k phi0 (dofs g 1 i) r = 0) -> forall r, row w t' k phi0 (dofs g 1 i) r = 0) /\
    (forall a, (forall j, (j < 3)%nat -> ~ In a (dofs g 1 j)) -> forall k p v, tb_val t' k p a v = tb_val t k p a v).
Proof.
  intros Tr On L1 Ec Hn. pose proof Ec as (Sm & Ho & _).
  destruct (permute_triangle g n m On L1 Sm Ho cs c bc t Tr Hn) as (t' & Et & Sh & Pe & Pz & Pu). exists t'. split; auto. split; auto. split; [|split; auto].
  intros i e l w k Hi Se H r Hr.
  assert (HB : edge_bases matrix (nat -> R) (act m) (snd (gen_interval g)) (trace_basis m psi l s0 signed)).
  { destruct signed; [apply (edge_bases_signed g m psi l s0); auto|apply (edge_bases_plain g m psi l s0); auto]. }
  rewrite (Pe i e _ w k phi0 Hi HB Se); auto. apply functional_extensionality. intros s. destruct (Nat.lt_ge_cases s m) as [Hs|Hs]; [auto|].
  destruct L1 as [_ L1]. destruct (L1 i Hi) as (Ll & _). unfold row, trace_basis.
  destruct (Nat.ltb_spec s (length (dofs g 1 i))), (Nat.ltb_spec s m); auto; lia.
Qed.

Section Cells.
  Variable qr : nat -> matrix -> matrix * matrix.
  Variable inv : nat -> matrix -> matrix.
  Hypothesis Hinv : is_inverse inv.

  (** a vector functional on a triangle with zero trace of the other functions *)
  Lemma edge_vector_lemma cs el n m psi t k (u : list nat -> vec) l s0 i e :
    triangle cs (el_cell el) -> owned_once (el_generator el) -> laid_out (el_generator el) n 1 3 m -> edge_change (el_generator el) m (-1) psi ->
    tb_dof t = n -> tb_vs t = 3%nat -> (i < 3)%nat -> stored_edge cs (el_cell el) i e ->
    (forall f, Permutation f (edge_of (c_nodes (el_cell el)) i) -> vscale (osign f) (u f) = vscale (osign (edge_of (c_nodes (el_cell el)) i)) (u (edge_of (c_nodes (el_cell el)) i))) ->
    (forall r, (r < m)%nat -> dot (value_at t k (nth r (dofs (el_generator el) 1 i) 0%nat)) (u (edge_of (c_nodes (el_cell el)) i)) = s0 * psi r (map l (edge_of (c_nodes (el_cell el)) i))) ->
    (forall a, (a < n)%nat -> ~ In a (dofs (el_generator el) 1 i) -> dot (value_at t k a) (u (edge_of (c_nodes (el_cell el)) i)) = 0) ->
    forall t', permute_table cs (el_cell el) (el_generator el) (el_bc_entities el) t = Ok t' ->
    (forall r, (r < m)%nat -> dot (value_at t' k (nth r (dofs (el_generator el) 1 i) 0%nat)) (u e) = s0 * psi r (map l e)) /\
    (forall a, (a < n)%nat -> ~ In a (dofs (el_generator el) 1 i) -> dot (value_at t' k a) (u e) = 0).
  Proof.
    intros Tr On L1 Ec Hn Hv Hi Se Uc V1 V2 t' Et. set (c := el_cell el) in *. set (g := el_generator el) in *.
    pose proof Tr as (Hd & Ln & N & St).
    destruct (triangle_functional cs c g n m k (el_bc_entities el) true s0 psi t Tr On L1 Ec Hn) as (t'' & Et' & Sh & Pe & Pz & Pu).
    assert (t'' = t') by congruence. subst t''. destruct Sh as (_ & _ & _ & Sv). rewrite Hv in Sv.
    set (f := edge_of (c_nodes c) i) in *.
    assert (Df : length f = 2%nat /\ NoDup f) by (unfold f; destruct (list3 _ Ln) as (n0 & n1 & n2 & En); rewrite En in *; apply edge2_distinct; auto).
    assert (Pf : Permutation e f).
    { destruct (St i Hi) as (e' & Se' & Pe'). apply sub_edge in Se, Se'. assert (e' = e) by congruence. subst. auto. }
    destruct (along_perm (fun _ => vzero) e f (proj1 Df) (proj2 Df) Pf) as [_ Oe].
    destruct (along_perm (fun _ => vzero) f f (proj1 Df) (proj2 Df) (Permutation_refl f)) as [_ Of].
    set (w := vscale (osign f) (u f)).
    assert (We : u e = vscale (osign e) w). { unfold w. rewrite <- (Uc e Pf). rewrite canon_twice; auto. }
    destruct L1 as [L1' L1]. destruct (L1 i Hi) as (Ld & Nd & Ind).
    split.
    - intros r Hr. rewrite We, dot_scale_r. rewrite <- (row_dot w t' k (dofs g 1 i) r) by (auto; lia).
      rewrite (Pe i e l (coordinate w) 0%nat Hi Se); auto.
      + unfold trace_basis. destruct (Nat.ltb_spec r m); [|lia]. transitivity (osign e * osign e * (s0 * psi r (map l e))); [ring|]. rewrite Oe. ring.
      + intros s Hs. rewrite row_dot by (auto; lia). unfold w. rewrite dot_scale_r, V1 by auto. unfold trace_basis. destruct (Nat.ltb_spec s m); [|lia]. fold f. ring.
    - intros a Ha Hna. rewrite We, dot_scale_r. destruct (owner_dec a (dofs g 1) 3) as [(j & Hj & Hin)|Hno].
      + destruct (in_nth_dof _ _ Hin) as (r & Hr & Er). rewrite <- Er. rewrite <- (row_dot w t' k (dofs g 1 j) r) by auto. rewrite Pz; auto; [ring|].
        intros s. unfold row. destruct (Nat.ltb_spec s (length (dofs g 1 j))) as [Hs|Hs]; auto. rewrite Hv.
        transitivity (dot (value_at t k (nth s (dofs g 1 j) 0%nat)) w); [unfold dot, value_at; simpl; ring|]. unfold w. rewrite dot_scale_r.
        destruct (L1 j Hj) as (_ & _ & Inj). rewrite V2; [ring|apply Inj, nth_In; auto|]. intros Q.
        assert (Qj : In (nth s (dofs g 1 j) 0%nat) (dofs g 1 j)) by (apply nth_In; auto). destruct (On _ _ _ _ _ Q Qj) as [_ ->]. auto.
      + replace (value_at t' k a) with (value_at t k a) by (unfold value_at; rewrite !Pu; auto). unfold w. rewrite dot_scale_r, V2 by auto. ring.
  Qed.

  Lemma edge_flux_lemma X cs el pos n m phi psi points :
    triangle cs (el_cell el) -> located X (el_cell el) pos -> nondegenerate qr pos 2 (c_nodes (el_cell el)) ->
    gen_map (el_generator el) = MContravariant -> tabulates (el_generator el) 2 n 2 phi -> owned_once (el_generator el) ->
    laid_out (el_generator el) n 1 3 m -> edge_change (el_generator el) m (-1) psi -> normal_traces_2d (el_generator el) n m phi psi ->
    points <> [] -> Forall (fun p => length p = 2%nat) points ->
    exists mp t, element_mapping qr inv X (el_cell el) points = Ok mp /\ evaluate_basis cs el points mp = Ok t /\
      tb_der t = 3%nat /\ tb_pts t = length points /\ tb_dof t = n /\ tb_vs t = 3%nat /\
      forall k p i e l nu, nth_error points k = Some p -> (i < 3)%nat -> nth i (linear_shapes p) 0 = 0 -> barycentric (c_nodes (el_cell el)) p l ->
        stored_edge cs (el_cell el) i e ->
        (forall r, (r < m)%nat -> dot (value_at t k (nth r (dofs (el_generator el) 1 i) 0%nat)) (cross (along pos e) nu) =
           facing nu pos (c_nodes (el_cell el)) * psi r (map l e)) /\
        (forall a, (a < n)%nat -> ~ In a (dofs (el_generator el) 1 i) -> dot (value_at t k a) (cross (along pos e) nu) = 0).
  Proof.
    intros Tr Loc Nd Gm Tb On L1 Ec Nt Ne Fp. pose proof Tr as (Hd & Ln & N & _).
    destruct (mapping_lemma qr inv X (el_cell el) pos 2 points Hinv Loc Hd ltac:(lia) ltac:(lia) Nd Ne Fp) as (mp & Em & Ld & Lj & Mp).
    destruct (stage_vector cs el points mp 2 n phi Hd ltac:(lia) ltac:(rewrite Gm; discriminate) Tb Fp) as (t & St & T1 & T2 & T3 & T4 & Tv & _).
    unfold staged in St. rewrite Gm in Tv.
    destruct (permute_triangle (el_generator el) n m On L1 (proj1 Ec) (proj1 (proj2 Ec)) cs (el_cell el) (el_bc_entities el) t Tr T3) as (t' & Et & Sh & _).
    destruct Sh as (Sh1 & Sh2 & Sh3 & Sh4).
    exists mp, t'. split; auto. split; [congruence|]. split; [lia|]. split; [lia|]. split; [lia|]. split; [lia|].
    intros k p i e l nu Hp Hi Hz Bl Se. destruct (Mp k p Hp) as (_ & Mj & Md & _).
    destruct (list3 _ Ln) as (n0 & n1 & n2 & En).
    assert (Lp : length p = 2%nat) by (rewrite Forall_forall in Fp; apply Fp; eapply nth_error_In; eauto).
    set (cr := cross (vsub (pos n1) (pos n0)) (vsub (pos n2) (pos n0))).
    assert (Me : measure (frame pos (c_nodes (el_cell el))) = norm cr) by (rewrite En; reflexivity).
    assert (Fa : facing nu pos (c_nodes (el_cell el)) = dot nu cr / norm cr) by (rewrite En; reflexivity).
    assert (V0 : forall a, (a < n)%nat -> dot (value_at t k a) (cross (along pos (edge_of (c_nodes (el_cell el)) i)) nu) =
      facing nu pos (c_nodes (el_cell el)) * dot (ref_value 2 phi a p) (cross (along ref_vertex (edge_of [0; 1; 2]%nat i)) (mk_vec 0 0 1))).
    { intros a Ha. unfold value_at. rewrite !(Tv k p a) by (auto; lia). rewrite (nth_of_error _ _ _ _ Mj), (nth_of_error _ _ _ _ Md), Me, Fa.
      pose proof (piola_edge pos n0 n1 n2 i (fun c => phi 0%nat a c p) nu Hi) as PF. cbv zeta in PF. rewrite <- En in PF. fold cr in PF.
      unfold ref_value. unfold Rdiv. rewrite (Rmult_comm (dot nu cr)), Rmult_assoc, <- PF. unfold dot. cbn [vx vy vz]. ring. }
    destruct (Nt i p Hi Lp Hz) as [Q1 Q2].
    apply (edge_vector_lemma cs el n m psi t k (fun f => cross (along pos f) nu) l (facing nu pos (c_nodes (el_cell el))) i e Tr On L1 Ec T3 T4 Hi Se); auto.
    - intros f Pf. assert (D2 : length (edge_of (c_nodes (el_cell el)) i) = 2%nat /\ NoDup (edge_of (c_nodes (el_cell el)) i)) by (rewrite En in *; apply edge2_distinct; auto).
      destruct (along_perm pos f _ (proj1 D2) (proj2 D2) Pf) as [A _].
      transitivity (cross (vscale (osign f) (along pos f)) nu); [apply vec_ext; simpl; ring|]. rewrite A. apply vec_ext; simpl; ring.
    - intros r Hr. destruct L1 as [_ L1]. destruct (L1 i Hi) as (Ld1 & _ & Ind). rewrite V0 by (apply Ind, nth_In; lia). rewrite Q1 by auto. f_equal. f_equal.
      rewrite En in *. symmetry. apply bary_edge2; auto.
    - intros a Ha Hn. rewrite V0, Q2 by auto. ring.
  Qed.

  Lemma edge_tangent2_lemma X cs el pos n m phi psi points :
    triangle cs (el_cell el) -> located X (el_cell el) pos -> nondegenerate qr pos 2 (c_nodes (el_cell el)) ->
    gen_map (el_generator el) = MCovariant -> tabulates (el_generator el) 2 n 2 phi -> owned_once (el_generator el) ->
    laid_out (el_generator el) n 1 3 m -> edge_change (el_generator el) m (-1) psi -> tangential_traces (el_generator el) 2 n m phi psi ->
    points <> [] -> Forall (fun p => length p = 2%nat) points ->
    exists mp t, element_mapping qr inv X (el_cell el) points = Ok mp /\ evaluate_basis cs el points mp = Ok t /\
      tb_der t = 3%nat /\ tb_pts t = length points /\ tb_dof t = n /\ tb_vs t = 3%nat /\
      forall k p i e l, nth_error points k = Some p -> (i < 3)%nat -> on_edge 2 i p -> barycentric (c_nodes (el_cell el)) p l ->
        stored_edge cs (el_cell el) i e ->
        (forall r, (r < m)%nat -> dot (value_at t k (nth r (dofs (el_generator el) 1 i) 0%nat)) (along pos e) = psi r (map l e)) /\
        (forall a, (a < n)%nat -> ~ In a (dofs (el_generator el) 1 i) -> dot (value_at t k a) (along pos e) = 0).
  Proof.
    intros Tr Loc Nd Gm Tb On L1 Ec Nt Ne Fp. pose proof Tr as (Hd & Ln & N & _).
    destruct (mapping_lemma qr inv X (el_cell el) pos 2 points Hinv Loc Hd ltac:(lia) ltac:(lia) Nd Ne Fp) as (mp & Em & Ld & Lj & Mp).
    destruct (stage_vector cs el points mp 2 n phi Hd ltac:(lia) ltac:(rewrite Gm; discriminate) Tb Fp) as (t & St & T1 & T2 & T3 & T4 & Tv & _).
    unfold staged in St. rewrite Gm in Tv.
    destruct (permute_triangle (el_generator el) n m On L1 (proj1 Ec) (proj1 (proj2 Ec)) cs (el_cell el) (el_bc_entities el) t Tr T3) as (t' & Et & Sh & _).
    destruct Sh as (Sh1 & Sh2 & Sh3 & Sh4).
    exists mp, t'. split; auto. split; [congruence|]. split; [lia|]. split; [lia|]. split; [lia|]. split; [lia|].
    intros k p i e l Hp Hi Hz Bl Se. destruct (Mp k p Hp) as (_ & _ & _ & K & MK & KJ).
    destruct (list3 _ Ln) as (n0 & n1 & n2 & En).
    assert (V0 : forall a, (a < n)%nat -> dot (value_at t k a) (along pos (edge_of (c_nodes (el_cell el)) i)) =
      dot (ref_value 2 phi a p) (along ref_vertex (edge_of [0; 1; 2]%nat i))).
    { intros a Ha. unfold value_at. rewrite !(Tv k p a) by (auto; lia). rewrite (nth_of_error _ _ _ _ MK). rewrite En in *.
      apply (tangent_edge2 pos n0 n1 n2 i (fun c => phi 0%nat a c p) K Hi KJ). }
    destruct (Nt i p Hi Hz) as [Q1 Q2]. cbn [local_edge] in Q1, Q2.
    destruct (edge_vector_lemma cs el n m psi t k (along pos) l 1 i e Tr On L1 Ec T3 T4 Hi Se) with (t' := t') as [R1 R2]; auto.
    - intros f Pf. assert (D2 : length (edge_of (c_nodes (el_cell el)) i) = 2%nat /\ NoDup (edge_of (c_nodes (el_cell el)) i)) by (rewrite En in *; apply edge2_distinct; auto).
      destruct (along_perm pos f _ (proj1 D2) (proj2 D2) Pf) as [A _]. auto.
    - intros r Hr. destruct L1 as [_ L1]. destruct (L1 i Hi) as (Ld1 & _ & Ind). rewrite V0 by (apply Ind, nth_In; lia). rewrite Q1 by auto. rewrite Rmult_1_l. f_equal.
      rewrite En in *. symmetry. apply bary_edge2; auto.
    - intros a Ha Hn. rewrite V0, Q2 by auto. ring.
    - split; auto. intros r Hr. rewrite R1 by auto. ring.
  Qed.

  Lemma edge_tangent3_lemma X cs el pos n m mf phi psi points :
    tetrahedron cs (el_cell el) -> length (el_bc_entities el) = 4%nat -> located X (el_cell el) pos -> nondegenerate qr pos 3 (c_nodes (el_cell el)) ->
    gen_map (el_generator el) = MCovariant -> tabulates (el_generator el) 3 n 3 phi -> owned_once (el_generator el) ->
    laid_out (el_generator el) n 1 6 m -> laid_out (el_generator el) n 2 4 mf -> edge_change (el_generator el) m (-1) psi -> face_matrices (el_generator el) mf ->
    tangential_traces (el_generator el) 3 n m phi psi ->
    points <> [] -> Forall (fun p => length p = 3%nat) points ->
    exists mp t, element_mapping qr inv X (el_cell el) points = Ok mp /\ evaluate_basis cs el points mp = Ok t /\
      tb_der t = 4%nat /\ tb_pts t = length points /\ tb_dof t = n /\ tb_vs t = 3%nat /\
      forall k p i e l, nth_error points k = Some p -> (i < 6)%nat -> on_edge 3 i p -> barycentric (c_nodes (el_cell el)) p l ->
        increasing e -> Permutation e (tetra_edge_of (c_nodes (el_cell el)) i) ->
        (forall r, (r < m)%nat -> dot (value_at t k (nth r (dofs (el_generator el) 1 i) 0%nat)) (along pos e) = psi r (map l e)) /\
        (forall a, (a < n)%nat -> ~ In a (dofs (el_generator el) 1 i) -> dot (value_at t k a) (along pos e) = 0).
  Proof.
    intros Tet Lb Loc Nd Gm Tb On L1 L2 Ec Fm Nt Ne Fp. pose proof Tet as (Hd & Ln & N & _).
    destruct (mapping_lemma qr inv X (el_cell el) pos 3 points Hinv Loc Hd ltac:(lia) ltac:(lia) Nd Ne Fp) as (mp & Em & Ld & Lj & Mp).
    destruct (stage_vector cs el points mp 3 n phi Hd ltac:(lia) ltac:(rewrite Gm; discriminate) Tb Fp) as (t & St & T1 & T2 & T3 & T4 & Tv & _).
    unfold staged in St. rewrite Gm in Tv. set (c := el_cell el) in *. set (g := el_generator el) in *.
    destruct Fm as (Sm & H1 & H2). pose proof Ec as (Se & H3 & _).
    destruct (permute_tetra g n m mf On L1 L2 Se Sm H3 H1 H2 cs c (el_bc_entities el) t Tet Lb T3) as (t' & Et & Sh & _ & Pe & Pz & Pu).
    destruct Sh as (Sh1 & Sh2 & Sh3 & Sh4).
    exists mp, t'. split; auto. split; [congruence|]. split; [lia|]. split; [lia|]. split; [lia|]. split; [lia|].
    intros k p i e l Hp Hi Hz Bl I P. destruct (Mp k p Hp) as (_ & _ & _ & K & MK & KJ).
    destruct (list4 _ Ln) as (n0 & n1 & n2 & n3 & En).
    assert (D2 : length (tetra_edge_of (c_nodes c) i) = 2%nat /\ NoDup (tetra_edge_of (c_nodes c) i)) by (rewrite En in *; apply tetra_edge_distinct; auto).
    destruct (along_perm pos e _ (proj1 D2) (proj2 D2) P) as [Al Oe].
    assert (O1 : osign e = 1).
    { assert (Le : length e = 2%nat) by (apply Permutation_length in P; rewrite P; apply D2). destruct (list2 e Le) as (x & y & ->). inversion I; subst. simpl. apply sg_lt. auto. }
    assert (Ae : along pos e = vscale (osign (tetra_edge_of (c_nodes c) i)) (along pos (tetra_edge_of (c_nodes c) i))).
    { rewrite <- Al, O1. apply vec_ext; simpl; ring. }
    assert (V0 : forall a, (a < n)%nat -> dot (value_at t k a) (along pos e) = osign (tetra_edge_of (c_nodes c) i) *
      dot (ref_value 3 phi a p) (along ref_vertex (tetra_edge_of [0; 1; 2; 3]%nat i))).
    { intros a Ha. rewrite Ae, dot_scale_r. f_equal. unfold value_at. rewrite !(Tv k p a) by (auto; lia). rewrite (nth_of_error _ _ _ _ MK). rewrite En in *.
      apply (tangent_edge3 pos n0 n1 n2 n3 i (fun c => phi 0%nat a c p) K Hi KJ). }
    destruct (Nt i p Hi Hz) as [Q1 Q2]. cbn [local_edge] in Q1, Q2.
    assert (Z0 : forall a, (a < n)%nat -> ~ In a (dofs g 1 i) -> dot (value_at t k a) (along pos e) = 0).
    { intros a Ha Hn. rewrite V0, Q2 by auto. ring. }
    destruct L1 as [L1' L1]. destruct (L1 i Hi) as (Ld1 & _ & Ind).
    split.
    - intros r Hr. rewrite <- (row_dot (along pos e) t' k (dofs g 1 i) r) by (auto; lia).
      rewrite (Pe i e (trace_basis m psi l 1 true) (coordinate (along pos e)) 0%nat k Hi (edge_bases_signed g m psi l 1 Ec) I P).
      + unfold trace_basis. destruct (Nat.ltb_spec r m); [|lia]. rewrite O1. ring.
      + apply functional_extensionality. intros s. unfold trace_basis. destruct (Nat.ltb_spec s m) as [Hs|Hs].
        * rewrite row_dot by (auto; lia). rewrite V0 by (apply Ind, nth_In; lia). rewrite Q1 by auto. rewrite En in Bl |- *. rewrite (bary_edge3 _ _ _ _ _ _ _ Bl Hi). ring.
        * unfold row. destruct (Nat.ltb_spec s (length (dofs g 1 i))); auto. lia.
    - intros a Ha Hn.
      assert (Zr : forall d j, (d = 1 /\ j < 6 \/ d = 2 /\ j < 4)%nat -> ~ (d = 1%nat /\ j = i) -> forall r, row (coordinate (along pos e)) t 0 k (dofs g d j) r = 0).
      { intros d j Hdj Hne r. unfold row. destruct (Nat.ltb_spec r (length (dofs g d j))) as [Hr|Hr]; auto. rewrite T4.
        transitivity (dot (value_at t k (nth r (dofs g d j) 0%nat)) (along pos e)); [unfold dot, value_at; simpl; ring|].
        assert (Qj : In (nth r (dofs g d j) 0%nat) (dofs g d j)) by (apply nth_In; auto).
        apply Z0.
        - destruct Hdj as [[-> Hj]|[-> Hj]]; [apply (L1 j Hj); auto|]. destruct L2 as [_ L2]. apply (L2 j Hj). auto.
        - intros Q. destruct (On _ _ _ _ _ Q Qj). apply Hne. auto. }
      destruct (owner_dec a (dofs g 1) 6) as [(j & Hj & Hin)|Hno1].
      + destruct (in_nth_dof _ _ Hin) as (r & Hr & Er). rewrite <- Er. rewrite <- (row_dot (along pos e) t' k (dofs g 1 j) r) by (auto; lia).
        apply Pz; [auto|]. apply Zr; [auto|]. intros [_ ->]. auto.
      + destruct (owner_dec a (dofs g 2) 4) as [(j & Hj & Hin)|Hno2].
        * destruct (in_nth_dof _ _ Hin) as (r & Hr & Er). rewrite <- Er. rewrite <- (row_dot (along pos e) t' k (dofs g 2 j) r) by (auto; lia).
          apply Pz; [auto|]. apply Zr; [auto|]. intros [Q _]. discriminate.
        * rewrite <- (Z0 a Ha Hn). unfold value_at. rewrite !Pu; auto.
  Qed.
End Cells.
