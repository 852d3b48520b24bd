(** * Concrete elements: fluxes through a common face, lines, construction *)
From Coq Require Import String List Arith ZArith Bool Reals Lra Lia Permutation.
From Verif Require Import Base MeshModel MeshSpec GraphModel OrientModel OrientSpec VecBase VecProof MapModel MapSpec JacProof SpaceModel ElementModel ElementSpec ElementProof3 ElementProof6 ElementProof7 OrientExamples ElementExamples.
Import ListNotations.
Local Open Scope R_scope.

(** Two tetrahedra of opposite handedness: opposite fluxes through the common face *)
Lemma conforming_refuted_lemma : ~ (forall qr inv X pos cs el1 el2 g n m phi psi points1 points2 t1 t2 k1 k2 p1 p2 i1 i2 f l r,
  is_inverse inv -> el_generator el1 = g -> el_generator el2 = g -> placed qr X cs el1 pos 3 -> placed qr X cs el2 pos 3 -> hdiv_3d g n m phi psi ->
  points_of 3 points1 -> points_of 3 points2 -> evaluated qr inv X cs el1 points1 t1 -> evaluated qr inv X cs el2 points2 t2 ->
  nth_error points1 k1 = Some p1 -> nth_error points2 k2 = Some p2 -> (i1 < 4)%nat -> (i2 < 4)%nat ->
  nth i1 (linear_shapes p1) 0 = 0 -> nth i2 (linear_shapes p2) 0 = 0 ->
  barycentric (c_nodes (el_cell el1)) p1 l -> barycentric (c_nodes (el_cell el2)) p2 l ->
  sorted_face el1 i1 f -> sorted_face el2 i2 f -> (forall i, nth i (el_bc_entities el1) false = false /\ nth i (el_bc_entities el2) false = false) -> (r < m)%nat ->
  dot (value_at t1 k1 (nth r (dofs g 2 i1) 0%nat)) (area pos f) = dot (value_at t2 k2 (nth r (dofs g 2 i2) 0%nat)) (area pos f)).
Proof.
  intros H. set (el1 := element_of upper_cell FRT rt3 no_bc). set (el2 := element_of lower_cell FRT rt3 no_bc).
  assert (P1 : placed trivial_qr ex_points ex_cells el1 ex_pos 3) by (apply ex_placed3; auto).
  assert (P2 : placed trivial_qr ex_points ex_cells el2 ex_pos 3) by (apply ex_placed3; auto).
  destruct (ex_face upper_cell FRT rt3 no_bc ltac:(auto)) as (Q & Z & B1 & S1). destruct (ex_face lower_cell FRT rt3 no_bc ltac:(auto)) as (_ & _ & B2 & S2).
  fold el1 in S1. fold el2 in S2. destruct ex_hands as (H1 & H2 & _).
  destruct (normal_3d_lemma trivial_qr cofactor_inverse cofactor_inverse_ok ex_points ex_pos ex_cells el1 4 1 rt3_phi two face_point P1 rt3_is_hdiv Q) as (t1 & E1 & _ & N1).
  destruct (normal_3d_lemma trivial_qr cofactor_inverse cofactor_inverse_ok ex_points ex_pos ex_cells el2 4 1 rt3_phi two face_point P2 rt3_is_hdiv Q) as (t2 & E2 & _ & N2).
  destruct (N1 0%nat _ 3%nat [0; 1; 2]%nat third eq_refl ltac:(lia) Z B1 S1) as [V1 _]. destruct (N2 0%nat _ 3%nat [0; 1; 2]%nat third eq_refl ltac:(lia) Z B2 S2) as [V2 _].
  specialize (V1 0%nat ltac:(lia)). specialize (V2 0%nat ltac:(lia)).
  assert (W : forall i, nth i no_bc false = false) by (intros [|[|[|[|[|i]]]]]; reflexivity).
  specialize (H trivial_qr cofactor_inverse ex_points ex_pos ex_cells el1 el2 rt3 4%nat 1%nat rt3_phi two face_point face_point t1 t2 0%nat 0%nat _ _ 3%nat 3%nat [0; 1; 2]%nat third 0%nat
    cofactor_inverse_ok eq_refl eq_refl P1 P2 rt3_is_hdiv Q Q E1 E2 eq_refl eq_refl ltac:(lia) ltac:(lia) Z Z B1 B2 S1 S2 ltac:(intros i; split; apply W) ltac:(lia)).
  change (el_generator el1) with rt3 in V1. change (el_generator el2) with rt3 in V2. rewrite V1, V2 in H.
  change (c_nodes (el_cell el1)) with (c_nodes upper_cell) in H. change (c_nodes (el_cell el2)) with (c_nodes lower_cell) in H. rewrite H1, H2 in H.
  unfold flipped, overridden, two in H. simpl in H. lra.
Qed.

Lemma ex_shared : 
  let el1 := element_of upper_cell FRT rt3 no_bc in let el2 := element_of turned_cell FRT rt3 no_bc in
  placed trivial_qr ex_points ex_cells el1 ex_pos 3 /\ placed trivial_qr ex_points ex_cells el2 ex_pos 3 /\ points_of 3 face_point /\
  (exists t1, evaluated trivial_qr cofactor_inverse ex_points ex_cells el1 face_point t1) /\
  (exists t2, evaluated trivial_qr cofactor_inverse ex_points ex_cells el2 face_point t2) /\
  barycentric (c_nodes upper_cell) [1 / 3; 1 / 3; 0] third /\ barycentric (c_nodes turned_cell) [1 / 3; 1 / 3; 0] third /\
  sorted_face el1 3 [0; 1; 2]%nat /\ sorted_face el2 3 [0; 1; 2]%nat /\ flipped el1 3 = flipped el2 3 /\
  handedness ex_pos (c_nodes upper_cell) = handedness ex_pos (c_nodes turned_cell).
Proof.
  intros el1 el2.
  assert (P1 : placed trivial_qr ex_points ex_cells el1 ex_pos 3) by (apply ex_placed3; auto).
  assert (P2 : placed trivial_qr ex_points ex_cells el2 ex_pos 3) by (apply ex_placed3; auto).
  destruct (ex_face upper_cell FRT rt3 no_bc ltac:(auto)) as (Q & Z & B1 & S1). destruct (ex_face turned_cell FRT rt3 no_bc ltac:(auto)) as (_ & _ & B2 & S2).
  split; auto. split; auto. split; auto.
  split. { destruct (normal_3d_lemma trivial_qr cofactor_inverse cofactor_inverse_ok ex_points ex_pos ex_cells el1 4 1 rt3_phi two face_point P1 rt3_is_hdiv Q) as (t1 & E1 & _). eauto. }
  split. { destruct (normal_3d_lemma trivial_qr cofactor_inverse cofactor_inverse_ok ex_points ex_pos ex_cells el2 4 1 rt3_phi two face_point P2 rt3_is_hdiv Q) as (t1 & E1 & _). eauto. }
  split; auto. split; auto. split; auto. split; auto. split; [reflexivity|]. destruct ex_hands as (-> & _ & ->). reflexivity.
Qed.
Lemma ex_tangent :
  let el1 := element_of upper_cell FN1E ned3 no_bc in let el2 := element_of turned_cell FN1E ned3 no_bc in
  placed trivial_qr ex_points ex_cells el1 ex_pos 3 /\ placed trivial_qr ex_points ex_cells el2 ex_pos 3 /\ hcurl_3d ned3 6 1 0 (whitney 3) one /\
  on_edge 3 4 [0; 1 / 4; 0] /\ on_edge 3 2 [3 / 4; 1 / 4; 0] /\
  barycentric (c_nodes upper_cell) [0; 1 / 4; 0] (fun k => nth k [3 / 4; 0; 1 / 4] 0) /\ barycentric (c_nodes turned_cell) [3 / 4; 1 / 4; 0] (fun k => nth k [3 / 4; 0; 1 / 4] 0) /\
  Permutation (tetra_edge_of (c_nodes upper_cell) 4) (tetra_edge_of (c_nodes turned_cell) 2).
Proof.
  intros el1 el2. split; [apply ex_placed3; auto|]. split; [apply ex_placed3; auto|]. split; [apply ned3_is_hcurl|].
  split. { split; auto. intros [|[|[|[|k]]]] Hk Hn; try lia; simpl in *; tauto || lra. }
  split. { split; auto. intros [|[|[|[|k]]]] Hk Hn; try lia; simpl in *; tauto || lra. }
  split. { intros [|[|[|[|j]]]] Hj; simpl in Hj; try lia; simpl; lra. }
  split. { intros [|[|[|[|j]]]] Hj; simpl in Hj; try lia; simpl; lra. }
  apply Permutation_refl.
Qed.
Lemma ex_edges :
  let el1 := element_of tri_a FRT rt2 [] in let el2 := element_of tri_b FRT rt2 [] in let nu := mk_vec 0 0 1 in
  placed trivial_qr ex_points ex_cells el1 ex_pos 2 /\ placed trivial_qr ex_points ex_cells el2 ex_pos 2 /\ hdiv_2d rt2 3 1 rt3_phi two /\
  points_of 2 [[1 / 4; 0]] /\ points_of 2 [[3 / 4; 0]] /\
  barycentric (c_nodes tri_a) [1 / 4; 0] (fun k => nth k [3 / 4; 1 / 4] 0) /\ barycentric (c_nodes tri_b) [3 / 4; 0] (fun k => nth k [3 / 4; 1 / 4] 0) /\
  stored_edge ex_cells tri_a 2 [1; 0]%nat /\ stored_edge ex_cells tri_b 2 [1; 0]%nat /\ facing nu ex_pos (c_nodes tri_a) = 1 /\ facing nu ex_pos (c_nodes tri_b) = 1.
Proof.
  intros el1 el2 nu. split; [apply ex_placed2; auto|]. split; [apply ex_placed2; auto|]. split; [apply rt2_is_hdiv|].
  split. { split; [discriminate|repeat constructor]. } split. { split; [discriminate|repeat constructor]. }
  split. { intros [|[|[|j]]] Hj; simpl in Hj; try lia; simpl; lra. }
  split. { intros [|[|[|j]]] Hj; simpl in Hj; try lia; simpl; lra. }
  split. { do 3 eexists. repeat split. } split. { do 3 eexists. repeat split. }
  assert (N1 : forall u v, cross u v = mk_vec 0 0 1 -> dot nu (cross u v) / norm (cross u v) = 1).
  { intros u v ->. unfold norm, dot, nu. simpl. replace (0 * 0 + 0 * 0 + 1 * 1) with 1 by ring. rewrite sqrt_1. lra. }
  split; unfold facing, frame; cbn [c_nodes tri_a tri_b map]; apply N1; apply vec_ext; unfold ex_pos, ex_points; simpl; ring.
Qed.

(** A line from node 1 to node 0: against the x axis *)
Lemma ex_line : let el := element_of line_c FRT line1 [] in
  c_nodes (el_cell el) = [1; 0]%nat /\ el_generator_family el <> FP /\ located ex_points (el_cell el) ex_pos /\ nondegenerate trivial_qr ex_pos 1 (c_nodes (el_cell el)) /\
  gen_map line1 = MIdentity /\ tabulates line1 1 2 1 line_phi /\ points_of 1 [[1 / 4]; [3 / 4]] /\
  vx (vsub (ex_pos 0) (ex_pos 1)) / norm (vsub (ex_pos 0) (ex_pos 1)) = -1.
Proof.
  intros el. split; [reflexivity|]. split; [discriminate|]. split. { intros x Hx. simpl in Hx. intuition (subst; reflexivity). }
  split. { split.
    - unfold measure, frame. simpl. intros Q. apply norm_zero in Q. apply (f_equal vx) in Q. unfold vsub, ex_pos in Q. simpl in Q. lra.
    - apply trivial_factorises; [lia|]. intros i j Hj Hi Hj'. assert (j = 0)%nat by lia. subst j.
      destruct i as [|[|[|i]]]; try lia; unfold of_columns, frame, ex_pos, ex_points, vsub; simpl; ring. }
  split; [reflexivity|]. split; [apply tabulator_ok|]. split; [split; [discriminate|repeat constructor]|].
  unfold norm, dot, vsub, ex_pos. simpl. replace ((0 - 1) * (0 - 1) + (0 - 0) * (0 - 0) + (0 - 0) * (0 - 0)) with 1 by ring. rewrite sqrt_1. lra.
Qed.
Lemma ex_line_fails : let el := element_of line_c FRT line1 [] in exists mp,
  element_mapping trivial_qr cofactor_inverse ex_points line_c [[1 / 4]; [1 / 2]; [3 / 4]] = Ok mp /\
  evaluate_basis ex_cells el [[1 / 4]; [1 / 2]; [3 / 4]] mp = Err ValueError.
Proof.
  intros el. destruct ex_line as (L1 & L2 & L3 & L4 & L5 & L6 & _ & _).
  destruct (line_vector_lemma trivial_qr cofactor_inverse ex_points ex_cells el ex_pos 2 line_phi [[1 / 4]; [1 / 2]; [3 / 4]] 1 0 cofactor_inverse_ok eq_refl L1 L2 L3 L4 L5 L6
    ltac:(discriminate) ltac:(repeat constructor)) as (mp & E & _ & F).
  exists mp. split; auto. apply F; discriminate.
Qed.

(** basix offers exactly one of these for lowest order *)
Definition ex_create (f : family) (ct : cell_type) (k : Z) (disc : bool) : res generator :=
  match f, ct with FRT, CTetrahedron => Ok rt3 | FRT, CTriangle => Ok rt2 | FN1E, CTetrahedron => Ok ned3 | FN1E, CTriangle => Ok ned2
                 | FP, CInterval => Ok line1 | _, _ => Err ValueError end.
Definition ex_mesh : cells :=
  ex_cells ++ [Some (mk_cell 2 11 [1; 2; 3]%nat (Some 4%Z) []); Some (mk_cell 2 12 [0; 2; 3]%nat None []); Some (mk_cell 2 13 [0; 1; 3]%nat None []); Some (mk_cell 2 14 [0; 1; 2]%nat (Some 5%Z) []);
               Some (mk_cell 3 15 [0; 1; 2; 3]%nat (Some 1%Z) [[]; [0; 1; 2; 3; 4; 5]; [11; 12; 13; 14]; []]%nat);
               Some (mk_cell 1 16 [0; 1]%nat None [[0; 2]]%nat)].
Lemma ex_new : exists e1 e2, new_element ex_create ex_mesh 15 FRT 1 false 0 = Ok e1 /\ el_integration_order e1 = 3%Z /\ el_n_dof e1 = 4%nat /\
    el_bc_entities e1 = [true; false; false; true] /\ el_generator e1 = rt3 /\
    new_element ex_create ex_mesh 16 FN1E 1 true 5 = Ok e2 /\ el_generator e2 = line1 /\ el_integration_order e2 = 5%Z.
Proof. do 2 eexists. split; [reflexivity|]. do 4 (split; [reflexivity|]). split; [reflexivity|]. split; reflexivity. Qed.
Lemma ex_one_matrix : tabulates rt2 2 3 2 rt3_phi /\ gen_map rt2 <> MIdentity.
Proof. split; [apply rt2_is_hdiv|]. change (gen_map rt2) with MContravariant. discriminate. Qed.
