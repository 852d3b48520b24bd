(** * Concrete elements: tangential components on faces *)
From Coq Require Import List Arith ZArith Bool Reals Lra Lia Permutation.
From Verif Require Import Base MeshModel MeshSpec OrientModel OrientSpec VecBase VecProof MapModel MapSpec JacProof SpaceModel ElementModel ElementSpec ElementProof3 TraceModel TraceSpec TraceExamples OrientExamples ElementExamples FaceTangentSpec FaceTangentProof FaceTangentProof2.
Import ListNotations.
Local Open Scope R_scope.

(** Nedelec functions of degree 2: shape_w (shape_x grad shape_y - shape_y grad shape_x) and derivatives *)
Definition weighted (w x y k c : nat) (p : list R) : R :=
  let l j := nth j (linear_shapes p) 0 in
  match k with
  | 0%nat => l w * (l x * grad y c - l y * grad x c)
  | S j => grad w j * (l x * grad y c - l y * grad x c) + l w * (grad x j * grad y c - grad y j * grad x c)
  end.
(** functions 0-11 of the edges, 12-19 of the faces *)
Definition curl2_phi (k a c : nat) (p : list R) : R :=
  if (a <? 12)%nat then
    match local_edge 3 (a / 2) with [x; y] => weighted (if (a mod 2 =? 0)%nat then x else y) x y k c p | _ => 0 end
  else match face_of [0; 1; 2; 3]%nat ((a - 12) / 2) with
       | [x; y; z] => if (a mod 2 =? 0)%nat then weighted z x y k c p else weighted y x z k c p
       | _ => 0
       end.
Definition curl2_edge (r : nat) (l : list (R * R)) : R :=
  match l with [(u, du); (v, dv)] => (if (r =? 0)%nat then u else v) * (u * dv - v * du) | _ => 0 end.
Definition curl2_face (r : nat) (l : list (R * R)) : R :=
  match l with [(u, du); (v, dv); (w, dw)] => if (r =? 0)%nat then w * (u * dv - v * du) else v * (u * dw - w * du) | _ => 0 end.
Definition of_rows (rows : list (list R)) : matrix := fun r s => nth s (nth r rows []) 0.
Definition curl2 : generator :=
  mk_generator [[[]; []; []; []]; [[0; 1]; [2; 3]; [4; 5]; [6; 7]; [8; 9]; [10; 11]]; [[12; 13]; [14; 15]; [16; 17]; [18; 19]]; [[]]]%nat
    [[0; 0; 0; 0]; [2; 2; 2; 2; 2; 2]; [2; 2; 2; 2]; [0]]%nat
    false (2%nat, of_rows [[0; -1]; [-1; 0]]) (2%nat, (of_rows [[0; -1]; [1; -1]], of_rows [[0; 1]; [1; 0]])) MCovariant (tabulator 3 20 3 curl2_phi).
Lemma twenty_split (a : nat) : (a < 20)%nat -> In a [0; 1; 2; 3; 4; 5; 6; 7; 8; 9; 10; 11; 12; 13; 14; 15; 16; 17; 18; 19]%nat.
Proof. intros H. change (In a (seq 0 20)). apply in_seq. lia. Qed.
(** Products of a function with a direction of the cell *)
Lemma weighted_along w x y p c : (x < 4)%nat -> (y < 4)%nat -> rsum_on c [0; 1; 2; 3]%nat = 0 ->
  let l j := nth j (linear_shapes p) 0 in
  dot (mk_vec (weighted w x y 0 0 p) (weighted w x y 0 1 p) (weighted w x y 0 2 p)) (along_nodes ref_vertex c [0; 1; 2; 3]%nat) = l w * (l x * c y - l y * c x).
Proof.
  intros Hx Hy Z l. assert (Q : forall j, (j < 4)%nat -> dot (mk_vec (grad j 0) (grad j 1) (grad j 2)) (along_nodes ref_vertex c [0; 1; 2; 3]%nat) = c j).
  { intros j Hj. unfold rsum_on in Z. cbn in Z.
    destruct j as [|[|[|[|j]]]]; try lia; unfold along_nodes, vsum, dot, vadd, vscale, ref_vertex, vzero, grad; cbn; lra. }
  rewrite <- (Q x Hx), <- (Q y Hy). unfold weighted, l, dot. cbn [vx vy vz]. ring.
Qed.
Lemma curl2_is_hcurl : hcurl_faces curl2 20 2 2 curl2_phi curl2_edge curl2_face.
Proof.
  split; [reflexivity|]. split; [apply tabulator_ok|]. split; [apply once_by_lists; nodup|].
  split. { split; [eexists; split; reflexivity|]. intros i Hi. destruct i as [|[|[|[|[|[|i]]]]]]; try lia; (split; [reflexivity|]; split; [nodup|simpl; intuition lia]). }
  split. { split; [eexists; split; reflexivity|]. intros i Hi. destruct i as [|[|[|[|i]]]]; try lia; (split; [reflexivity|]; split; [nodup|simpl; intuition lia]). }
  split. { split; [reflexivity|]. split; [intros H; discriminate|]. intros r [u du] [v dv] Hr. destruct r as [|[|r]]; [| |lia]; simpl; unfold of_rows; simpl; ring. }
  split. { split; [reflexivity|]. split; [intros H; discriminate|]. split; [intros H; discriminate|].
    intros r [u du] [v dv] [w dw] Hr. destruct r as [|[|r]]; [| |lia]; simpl; unfold of_rows; simpl; split; ring. }
  intros i p c Hi Lp Hz Cz Cs l component.
  assert (W : forall w x y, (x < 4)%nat -> (y < 4)%nat -> dot (mk_vec (weighted w x y 0 0 p) (weighted w x y 0 1 p) (weighted w x y 0 2 p)) (along_nodes ref_vertex c [0; 1; 2; 3]%nat) = l w * (l x * c y - l y * c x))
    by (intros w x y Hx Hy; apply (weighted_along w x y p c Hx Hy Cs)).
  change (nth i (linear_shapes p) 0) with (l i) in Hz. clearbody l.
  assert (V : forall a, (a < 20)%nat -> component a = if (a <? 12)%nat then
      match local_edge 3 (a / 2) with [x; y] => l (if (a mod 2 =? 0)%nat then x else y) * (l x * c y - l y * c x) | _ => 0 end
    else match face_of [0; 1; 2; 3]%nat ((a - 12) / 2) with
         | [x; y; z] => if (a mod 2 =? 0)%nat then l z * (l x * c y - l y * c x) else l y * (l x * c z - l z * c x) | _ => 0 end).
  { intros a Ha. unfold component. apply twenty_split in Ha. simpl in Ha. repeat (destruct Ha as [<-|Ha]; [match goal with |- ?L = ?R => let R' := eval cbn in R in change (L = R') end; rewrite <- W by lia; reflexivity|]). destruct Ha. }
  clearbody component. clear W Lp Cs. split; [|split].
  - intros r Hr. destruct i as [|[|[|[|i]]]]; try lia; (destruct r as [|[|r]]; [| |lia]); cbn [dofs curl2 gen_entity_dofs nth]; rewrite V by lia; reflexivity.
  - intros j r [Hj Hn] Hr. destruct j as [|[|[|[|[|[|j]]]]]]; try lia; (destruct r as [|[|r]]; [| |lia]); cbn [dofs curl2 gen_entity_dofs nth]; rewrite V by lia; reflexivity.
  - intros a Ha Hf He. rewrite V by auto. apply twenty_split in Ha.
    assert (J : forall j, (j < 6)%nat -> ~ In i (tetra_edge_of [0; 1; 2; 3]%nat j) -> ~ In a (dofs curl2 1 j)) by (intros j Hj Hn; apply He; split; auto). clear He V.
    pose proof (J 0%nat) as J0. pose proof (J 1%nat) as J1. pose proof (J 2%nat) as J2. pose proof (J 3%nat) as J3. pose proof (J 4%nat) as J4. pose proof (J 5%nat) as J5. clear J.
    destruct i as [|[|[|[|i]]]]; try lia; cbn in Hf, J0, J1, J2, J3, J4, J5;
      repeat match goal with H : (_ < 6)%nat -> _ |- _ => specialize (H ltac:(lia)) end;
      repeat match goal with H : ~ _ -> _ |- _ => first [specialize (H ltac:(intuition discriminate))|clear H] end;
      simpl in Ha; repeat (destruct Ha as [<-|Ha]; [first [exfalso; clear - Hf J0; tauto | exfalso; tauto | cbn; rewrite ?Hz, ?Cz; ring]|]); destruct Ha.
Qed.

(** ** Cells *)
Definition tagged_bc : list bool := [false; false; false; true].
Lemma ex_edges_of_faces : edge_of_face 3 4 /\ edge_of_face 3 2 /\ Permutation (tetra_edge_of (c_nodes upper_cell) 4) (tetra_edge_of (c_nodes turned_cell) 2).
Proof.
  split; [|split]; [split; [lia|simpl; intuition discriminate]..|]. simpl. apply Permutation_refl.
Qed.
Lemma ex_face_tangent :
  let el1 := element_of upper_cell FN1E curl2 no_bc in let el2 := element_of turned_cell FN1E curl2 no_bc in
  placed trivial_qr ex_points ex_cells el1 ex_pos 3 /\ placed trivial_qr ex_points ex_cells el2 ex_pos 3 /\ points_of 3 face_point /\
  (exists t1, evaluated trivial_qr cofactor_inverse ex_points ex_cells el1 face_point t1) /\
  (exists t2, evaluated trivial_qr cofactor_inverse ex_points ex_cells el2 face_point t2) /\
  barycentric (c_nodes upper_cell) [1 / 3; 1 / 3; 0] third /\ barycentric (c_nodes turned_cell) [1 / 3; 1 / 3; 0] third /\
  sorted_face el1 3 [0; 1; 2]%nat /\ sorted_face el2 3 [0; 1; 2]%nat /\ flipped el1 3 = flipped el2 3 /\
  dot (mk_vec 1 2 0) (area ex_pos [0; 1; 2]%nat) = 0 /\
  edge_of_face 3 4 /\ edge_of_face 3 2 /\ Permutation (tetra_edge_of (c_nodes upper_cell) 4) (tetra_edge_of (c_nodes turned_cell) 2).
Proof.
  intros el1 el2.
  assert (P1 : placed trivial_qr ex_points ex_cells el1 ex_pos 3) by (apply ex_placed3; auto).
  assert (P2 : placed trivial_qr ex_points ex_cells el2 ex_pos 3) by (apply ex_placed3; auto).
  destruct (ex_face upper_cell FN1E curl2 no_bc ltac:(auto)) as (Q & Z & B1 & S1). destruct (ex_face turned_cell FN1E curl2 no_bc ltac:(auto)) as (_ & _ & B2 & S2).
  split; auto. split; auto. split; auto.
  split. { destruct (face_tangent_lemma trivial_qr cofactor_inverse cofactor_inverse_ok ex_points ex_pos ex_cells el1 20 2 2 curl2_phi curl2_edge curl2_face face_point P1 curl2_is_hcurl Q) as (t1 & E1 & _). eauto. }
  split. { destruct (face_tangent_lemma trivial_qr cofactor_inverse cofactor_inverse_ok ex_points ex_pos ex_cells el2 20 2 2 curl2_phi curl2_edge curl2_face face_point P2 curl2_is_hcurl Q) as (t1 & E1 & _). eauto. }
  split; auto. split; auto. split; auto. split; auto. split; [reflexivity|]. split; [|apply ex_edges_of_faces].
  unfold dot, area, cross, vsub, ex_pos. simpl. ring.
Qed.
(** A direction of the common face, by nodes *)
Definition step (k : nat) : R := nth k [-1; 1; 0] 0.
(** A tagged common face, stored in an even order in one cell and in an odd order in the other *)
Lemma tagged_face_lemma : ~ (forall qr inv X pos cs el1 el2 g n me mf phi psi_e psi_f points1 points2 t1 t2 k1 k2 p1 p2 i1 i2 f l v r,
  is_inverse inv -> el_generator el1 = g -> el_generator el2 = g -> placed qr X cs el1 pos 3 -> placed qr X cs el2 pos 3 -> hcurl_faces g n me mf phi psi_e psi_f ->
  points_of 3 points1 -> points_of 3 points2 -> evaluated qr inv X cs el1 points1 t1 -> evaluated qr inv X cs el2 points2 t2 ->
  nth_error points1 k1 = Some p1 -> nth_error points2 k2 = Some p2 -> (i1 < 4)%nat -> (i2 < 4)%nat ->
  nth i1 (linear_shapes p1) 0 = 0 -> nth i2 (linear_shapes p2) 0 = 0 ->
  barycentric (c_nodes (el_cell el1)) p1 l -> barycentric (c_nodes (el_cell el2)) p2 l ->
  sorted_face el1 i1 f -> sorted_face el2 i2 f -> nth i1 (el_bc_entities el1) false = nth i2 (el_bc_entities el2) false -> dot v (area pos f) = 0 -> (r < mf)%nat ->
  dot (value_at t1 k1 (nth r (dofs g 2 i1) 0%nat)) v = dot (value_at t2 k2 (nth r (dofs g 2 i2) 0%nat)) v).
Proof.
  intros H. set (el1 := element_of upper_cell FN1E curl2 tagged_bc). set (el2 := element_of turned_cell FN1E curl2 tagged_bc).
  assert (P1 : placed trivial_qr ex_points ex_cells el1 ex_pos 3) by (apply ex_placed3; auto).
  assert (P2 : placed trivial_qr ex_points ex_cells el2 ex_pos 3) by (apply ex_placed3; auto).
  destruct (ex_face upper_cell FN1E curl2 tagged_bc ltac:(auto)) as (Q & Z & B1 & S1). destruct (ex_face turned_cell FN1E curl2 tagged_bc ltac:(auto)) as (_ & _ & B2 & S2).
  fold el1 in S1. fold el2 in S2.
  destruct (face_tangent_lemma trivial_qr cofactor_inverse cofactor_inverse_ok ex_points ex_pos ex_cells el1 20 2 2 curl2_phi curl2_edge curl2_face face_point P1 curl2_is_hcurl Q) as (t1 & E1 & _ & N1).
  destruct (face_tangent_lemma trivial_qr cofactor_inverse cofactor_inverse_ok ex_points ex_pos ex_cells el2 20 2 2 curl2_phi curl2_edge curl2_face face_point P2 curl2_is_hcurl Q) as (t2 & E2 & _ & N2).
  destruct (N1 0%nat _ 3%nat third step eq_refl ltac:(lia) Z B1) as (V1 & _ & _); [unfold in_face, rsum_on, step; cbn; split; ring|].
  destruct (N2 0%nat _ 3%nat third step eq_refl ltac:(lia) Z B2) as (V2 & _ & _); [unfold in_face, rsum_on, step; cbn; split; ring|].
  specialize (V1 [0; 1; 2]%nat 0%nat S1 ltac:(lia)). specialize (V2 [0; 1; 2]%nat 0%nat S2 ltac:(lia)).
  assert (D1 : along_nodes ex_pos step (c_nodes (el_cell el1)) = mk_vec 1 0 0) by (apply vec_ext; unfold along_nodes, vsum, step, ex_pos, vadd, vscale, vzero; cbn; ring).
  assert (D2 : along_nodes ex_pos step (c_nodes (el_cell el2)) = mk_vec 1 0 0) by (apply vec_ext; unfold along_nodes, vsum, step, ex_pos, vadd, vscale, vzero; cbn; ring).
  cbv beta in V1, V2. rewrite D1 in V1. rewrite D2 in V2.
  specialize (H trivial_qr cofactor_inverse ex_points ex_pos ex_cells el1 el2 curl2 20%nat 2%nat 2%nat curl2_phi curl2_edge curl2_face face_point face_point t1 t2 0%nat 0%nat _ _ 3%nat 3%nat [0; 1; 2]%nat third (mk_vec 1 0 0) 0%nat
    cofactor_inverse_ok eq_refl eq_refl P1 P2 curl2_is_hcurl Q Q E1 E2 eq_refl eq_refl ltac:(lia) ltac:(lia) Z Z B1 B2 S1 S2 eq_refl ltac:(unfold dot, area, cross, vsub, ex_pos; simpl; ring) ltac:(lia)).
  change (el_generator el1) with curl2 in V1. change (el_generator el2) with curl2 in V2. rewrite V1, V2 in H.
  assert (F1 : flipped el1 3 = true) by reflexivity. assert (F2 : flipped el2 3 = false) by reflexivity. rewrite F1, F2 in H.
  unfold both, third, step in H. cbn in H. lra.
Qed.
Lemma ex_face_trace : let el := element_of tr_cell FN1E curl2 no_bc in
  placed trivial_qr ex_points ex_cells el ex_pos 3 /\ hcurl_faces (el_generator el) 20 2 2 curl2_phi curl2_edge curl2_face /\ facet_of tr_face el 3 /\ facet_points tr_face tr_points /\
  rsum_on step (c_nodes tr_face) = 0.
Proof.
  split; [apply tr_placed|]. split; [exact curl2_is_hcurl|]. split; [apply tr_face_of|]. split; [apply tr_face_points|]. unfold rsum_on, step. cbn. ring.
Qed.
Lemma ex_in_face : in_face step (c_nodes upper_cell) 3.
Proof. unfold in_face, rsum_on, step. cbn. split; ring. Qed.
