(** * Property theorems C87: finite elements *)
From Coq Require Import String List Arith ZArith Bool Reals Lra Lia Permutation.
From Verif Require Import Base MeshModel MeshSpec OrientModel OrientSpec VecBase VecProof MapModel MapSpec JacProof SpaceModel ElementModel ElementSpec ElementProof6 ElementProof7 ElementProof8 OrientExamples ElementExamples ElementExamples2.
Import ListNotations.
Local Open Scope R_scope.

(** The names of families: N2E means N1E, other names raise KeyError. *)
Theorem C87_names : (forall name f, family_by_name name = Ok f <->
    (name = "Lagrange" /\ f = FP \/ name = "BDM" /\ f = FBDM \/ name = "RT" /\ f = FRT \/ (name = "N1E" \/ name = "N2E") /\ f = FN1E)%string) /\
  (forall name e, family_by_name name = Err e -> e = KeyError).
Proof. exact names_lemma. Qed.
Print Assumptions C87_names.
Example C87_names_example : family_by_name "N2E" = Ok FN1E /\ family_by_name "CR" = Err KeyError.
Proof. exact (conj eq_refl eq_refl). Qed.

(** Construction succeeds exactly when the cell and its facets exist, its dimension is at most
    3 and basix accepts the request; the request is for Lagrange on points and lines. *)
Theorem C87_construction : forall create cs id fam k disc order el,
  new_element create cs id fam k disc order = Ok el <->
  exists c ct g ids bc, nth_error cs id = Some (Some c) /\ type_of (c_dim c) ct /\ create (asked (c_dim c) fam) ct k disc = Ok g /\
    facets c ids /\ Forall2 (fun f b => exists x, nth_error cs f = Some (Some x) /\ (b = true <-> tagged cs f)) ids bc /\
    el = mk_element c fam k disc (if (order =? 0)%Z then (2 * k + 1)%Z else order) g (total (gen_num_entity_dofs g)) bc.
Proof. exact element_lemma. Qed.
Print Assumptions C87_construction.
Example C87_construction_example : exists e1 e2, new_element ex_create ex_mesh 15 FRT 1 false 0 = Ok e1 /\ el_integration_order e1 = 3%Z /\ el_n_dof e1 = 4%nat /\
    el_bc_entities e1 = [true; false; false; true] /\ el_generator e1 = rt3 /\
    new_element ex_create ex_mesh 16 FN1E 1 true 5 = Ok e2 /\ el_generator e2 = line1 /\ el_integration_order e2 = 5%Z.
Proof. exact ex_new. Qed.

(** H(div), tetrahedra: the flux of the functions of a face through the face, oriented by
    increasing nodes, is the reference trace in that order (in the reflected order and with the
    other sign for the tagged faces 1 and 3 stored in an even order), times the handedness of
    the cell; the other functions have no flux. *)
Theorem C87_normal_3d : forall (qr : nat -> matrix -> matrix * matrix) (inv : nat -> matrix -> matrix), is_inverse inv ->
  forall (X : list vec) (pos : nat -> vec) (cs : cells) (el : element) (n m : nat) phi psi points,
  placed qr X cs el pos 3 -> hdiv_3d (el_generator el) n m phi psi -> points_of 3 points ->
  exists t, evaluated qr inv X cs el points t /\ shape t 4 (length points) n 3 /\
    forall k p i f l, nth_error points k = Some p -> (i < 4)%nat -> nth i (linear_shapes p) 0 = 0 -> barycentric (c_nodes (el_cell el)) p l ->
      sorted_face el i f ->
      (forall r, (r < m)%nat -> dot (value_at t k (nth r (dofs (el_generator el) 2 i) 0%nat)) (area pos f) =
         handedness pos (c_nodes (el_cell el)) * if flipped el i then - psi r (map l (reflected f)) else psi r (map l f)) /\
      (forall a, (a < n)%nat -> ~ In a (dofs (el_generator el) 2 i) -> dot (value_at t k a) (area pos f) = 0).
Proof. exact normal_3d_lemma. Qed.
Print Assumptions C87_normal_3d.

(** Two tetrahedra of the same handedness: equal fluxes through the common face at the same
    point; of opposite handedness: opposite fluxes. *)
Theorem C87_shared_face : forall (qr : nat -> matrix -> matrix * matrix) (inv : nat -> matrix -> matrix), is_inverse inv ->
  forall (X : list vec) (pos : nat -> vec) (cs : cells) (el1 el2 : element) (g : generator) (n m : nat) phi psi points1 points2 t1 t2,
  el_generator el1 = g -> el_generator el2 = g -> placed qr X cs el1 pos 3 -> placed qr X cs el2 pos 3 -> hdiv_3d g n m phi psi ->
  points_of 3 points1 -> points_of 3 points2 -> evaluated qr inv X cs el1 points1 t1 -> evaluated qr inv X cs el2 points2 t2 ->
  forall k1 k2 p1 p2 i1 i2 f l r, nth_error points1 k1 = Some p1 -> nth_error points2 k2 = Some p2 -> (i1 < 4)%nat -> (i2 < 4)%nat ->
    nth i1 (linear_shapes p1) 0 = 0 -> nth i2 (linear_shapes p2) 0 = 0 ->
    barycentric (c_nodes (el_cell el1)) p1 l -> barycentric (c_nodes (el_cell el2)) p2 l ->
    sorted_face el1 i1 f -> sorted_face el2 i2 f -> flipped el1 i1 = flipped el2 i2 -> (r < m)%nat ->
    let flux1 := dot (value_at t1 k1 (nth r (dofs g 2 i1) 0%nat)) (area pos f) in
    let flux2 := dot (value_at t2 k2 (nth r (dofs g 2 i2) 0%nat)) (area pos f) in
    (handedness pos (c_nodes (el_cell el1)) = handedness pos (c_nodes (el_cell el2)) -> flux1 = flux2) /\
    (handedness pos (c_nodes (el_cell el1)) = - handedness pos (c_nodes (el_cell el2)) -> flux1 = - flux2).
Proof. exact shared_face_lemma. Qed.
Print Assumptions C87_shared_face.
Example C87_shared_face_example :
  let el1 := element_of upper_cell FRT rt3 no_bc in let el2 := element_of turned_cell FRT rt3 no_bc in
  placed trivial_qr ex_points ex_cells el1 ex_pos 3 /\ placed trivial_qr ex_points ex_cells el2 ex_pos 3 /\ points_of 3 face_point /\
  (exists t1, evaluated trivial_qr cofactor_inverse ex_points ex_cells el1 face_point t1) /\
  (exists t2, evaluated trivial_qr cofactor_inverse ex_points ex_cells el2 face_point t2) /\
  barycentric (c_nodes upper_cell) [1 / 3; 1 / 3; 0] third /\ barycentric (c_nodes turned_cell) [1 / 3; 1 / 3; 0] third /\
  sorted_face el1 3 [0; 1; 2]%nat /\ sorted_face el2 3 [0; 1; 2]%nat /\ flipped el1 3 = flipped el2 3 /\
  handedness ex_pos (c_nodes upper_cell) = handedness ex_pos (c_nodes turned_cell).
Proof. exact ex_shared. Qed.
Example C87_hdiv_example : hdiv_3d rt3 4 1 rt3_phi two /\ is_inverse cofactor_inverse.
Proof. exact (conj rt3_is_hdiv cofactor_inverse_ok). Qed.

(** Without the assumption on handedness the fluxes need not agree, even on untagged faces. *)
Theorem C87_conforming_refuted : ~ (forall qr inv X pos cs el1 el2 g n m phi psi points1 points2 t1 t2 k1 k2 p1 p2 i1 i2 f l r,
  is_inverse inv -> el_generator el1 = g -> el_generator el2 = g -> placed qr X cs el1 pos 3 -> placed qr X cs el2 pos 3 -> hdiv_3d g n m phi psi ->
  points_of 3 points1 -> points_of 3 points2 -> evaluated qr inv X cs el1 points1 t1 -> evaluated qr inv X cs el2 points2 t2 ->
  nth_error points1 k1 = Some p1 -> nth_error points2 k2 = Some p2 -> (i1 < 4)%nat -> (i2 < 4)%nat ->
  nth i1 (linear_shapes p1) 0 = 0 -> nth i2 (linear_shapes p2) 0 = 0 ->
  barycentric (c_nodes (el_cell el1)) p1 l -> barycentric (c_nodes (el_cell el2)) p2 l ->
  sorted_face el1 i1 f -> sorted_face el2 i2 f -> (forall i, nth i (el_bc_entities el1) false = false /\ nth i (el_bc_entities el2) false = false) -> (r < m)%nat ->
  dot (value_at t1 k1 (nth r (dofs g 2 i1) 0%nat)) (area pos f) = dot (value_at t2 k2 (nth r (dofs g 2 i2) 0%nat)) (area pos f)).
Proof. exact conforming_refuted_lemma. Qed.
Print Assumptions C87_conforming_refuted.

(** H(div), triangles in space: the flux across an edge, in the order in which the edge is
    stored, with respect to any direction [nu] in place of the normal. *)
Theorem C87_normal_2d : forall (qr : nat -> matrix -> matrix * matrix) (inv : nat -> matrix -> matrix), is_inverse inv ->
  forall (X : list vec) (pos : nat -> vec) (cs : cells) (el : element) (n m : nat) phi psi points,
  placed qr X cs el pos 2 -> hdiv_2d (el_generator el) n m phi psi -> points_of 2 points ->
  exists t, evaluated qr inv X cs el points t /\ shape t 3 (length points) n 3 /\
    forall k p i e l nu, nth_error points k = Some p -> (i < 3)%nat -> nth i (linear_shapes p) 0 = 0 -> barycentric (c_nodes (el_cell el)) p l ->
      stored_edge cs (el_cell el) i e ->
      (forall r, (r < m)%nat -> dot (value_at t k (nth r (dofs (el_generator el) 1 i) 0%nat)) (cross (along pos e) nu) =
         facing nu pos (c_nodes (el_cell el)) * psi r (map l e)) /\
      (forall a, (a < n)%nat -> ~ In a (dofs (el_generator el) 1 i) -> dot (value_at t k a) (cross (along pos e) nu) = 0).
Proof. exact normal_2d_lemma. Qed.
Print Assumptions C87_normal_2d.
Theorem C87_shared_edge : forall (qr : nat -> matrix -> matrix * matrix) (inv : nat -> matrix -> matrix), is_inverse inv ->
  forall (X : list vec) (pos : nat -> vec) (cs : cells) (el1 el2 : element) (g : generator) (n m : nat) phi psi points1 points2 t1 t2 nu,
  el_generator el1 = g -> el_generator el2 = g -> placed qr X cs el1 pos 2 -> placed qr X cs el2 pos 2 -> hdiv_2d g n m phi psi ->
  points_of 2 points1 -> points_of 2 points2 -> evaluated qr inv X cs el1 points1 t1 -> evaluated qr inv X cs el2 points2 t2 ->
  forall k1 k2 p1 p2 i1 i2 e l r, nth_error points1 k1 = Some p1 -> nth_error points2 k2 = Some p2 -> (i1 < 3)%nat -> (i2 < 3)%nat ->
    nth i1 (linear_shapes p1) 0 = 0 -> nth i2 (linear_shapes p2) 0 = 0 ->
    barycentric (c_nodes (el_cell el1)) p1 l -> barycentric (c_nodes (el_cell el2)) p2 l ->
    stored_edge cs (el_cell el1) i1 e -> stored_edge cs (el_cell el2) i2 e -> (r < m)%nat ->
    let flux1 := dot (value_at t1 k1 (nth r (dofs g 1 i1) 0%nat)) (cross (along pos e) nu) in
    let flux2 := dot (value_at t2 k2 (nth r (dofs g 1 i2) 0%nat)) (cross (along pos e) nu) in
    (facing nu pos (c_nodes (el_cell el1)) = facing nu pos (c_nodes (el_cell el2)) -> flux1 = flux2) /\
    (facing nu pos (c_nodes (el_cell el1)) = - facing nu pos (c_nodes (el_cell el2)) -> flux1 = - flux2).
Proof. exact shared_edge_lemma. Qed.
Print Assumptions C87_shared_edge.
Example C87_shared_edge_example :
  let el1 := element_of tri_a FRT rt2 [] in let el2 := element_of tri_b FRT rt2 [] in let nu := mk_vec 0 0 1 in
  placed trivial_qr ex_points ex_cells el1 ex_pos 2 /\ placed trivial_qr ex_points ex_cells el2 ex_pos 2 /\ hdiv_2d rt2 3 1 rt3_phi two /\
  points_of 2 [[1 / 4; 0]] /\ points_of 2 [[3 / 4; 0]] /\
  barycentric (c_nodes tri_a) [1 / 4; 0] (fun k => nth k [3 / 4; 1 / 4] 0) /\ barycentric (c_nodes tri_b) [3 / 4; 0] (fun k => nth k [3 / 4; 1 / 4] 0) /\
  stored_edge ex_cells tri_a 2 [1; 0]%nat /\ stored_edge ex_cells tri_b 2 [1; 0]%nat /\ facing nu ex_pos (c_nodes tri_a) = 1 /\ facing nu ex_pos (c_nodes tri_b) = 1.
Proof. exact ex_edges. Qed.

(** H(curl): tangential components along edges; no orientation of the cell enters. *)
Theorem C87_tangential_3d : forall (qr : nat -> matrix -> matrix * matrix) (inv : nat -> matrix -> matrix), is_inverse inv ->
  forall (X : list vec) (pos : nat -> vec) (cs : cells) (el : element) (n m mf : nat) phi psi points,
  placed qr X cs el pos 3 -> hcurl_3d (el_generator el) n m mf phi psi -> points_of 3 points ->
  exists t, evaluated qr inv X cs el points t /\ shape t 4 (length points) n 3 /\
    forall k p i e l, nth_error points k = Some p -> (i < 6)%nat -> on_edge 3 i p -> barycentric (c_nodes (el_cell el)) p l ->
      increasing e -> Permutation e (tetra_edge_of (c_nodes (el_cell el)) i) ->
      (forall r, (r < m)%nat -> dot (value_at t k (nth r (dofs (el_generator el) 1 i) 0%nat)) (along pos e) = psi r (map l e)) /\
      (forall a, (a < n)%nat -> ~ In a (dofs (el_generator el) 1 i) -> dot (value_at t k a) (along pos e) = 0).
Proof. exact tangent_3d_lemma. Qed.
Print Assumptions C87_tangential_3d.
Theorem C87_shared_tangential : forall (qr : nat -> matrix -> matrix * matrix) (inv : nat -> matrix -> matrix), is_inverse inv ->
  forall (X : list vec) (pos : nat -> vec) (cs : cells) (el1 el2 : element) (g : generator) (n m mf : nat) phi psi points1 points2 t1 t2,
  el_generator el1 = g -> el_generator el2 = g -> placed qr X cs el1 pos 3 -> placed qr X cs el2 pos 3 -> hcurl_3d g n m mf phi psi ->
  points_of 3 points1 -> points_of 3 points2 -> evaluated qr inv X cs el1 points1 t1 -> evaluated qr inv X cs el2 points2 t2 ->
  forall k1 k2 p1 p2 i1 i2 l r, nth_error points1 k1 = Some p1 -> nth_error points2 k2 = Some p2 -> (i1 < 6)%nat -> (i2 < 6)%nat ->
    on_edge 3 i1 p1 -> on_edge 3 i2 p2 -> barycentric (c_nodes (el_cell el1)) p1 l -> barycentric (c_nodes (el_cell el2)) p2 l ->
    Permutation (tetra_edge_of (c_nodes (el_cell el1)) i1) (tetra_edge_of (c_nodes (el_cell el2)) i2) -> (r < m)%nat ->
    let e := tetra_edge_of (c_nodes (el_cell el1)) i1 in
    dot (value_at t1 k1 (nth r (dofs g 1 i1) 0%nat)) (along pos e) = dot (value_at t2 k2 (nth r (dofs g 1 i2) 0%nat)) (along pos e).
Proof. exact shared_tangent_lemma. Qed.
Print Assumptions C87_shared_tangential.
Example C87_tangential_example :
  let el1 := element_of upper_cell FN1E ned3 no_bc in let el2 := element_of turned_cell FN1E ned3 no_bc in
  placed trivial_qr ex_points ex_cells el1 ex_pos 3 /\ placed trivial_qr ex_points ex_cells el2 ex_pos 3 /\ hcurl_3d ned3 6 1 0 (whitney 3) one /\
  on_edge 3 4 [0; 1 / 4; 0] /\ on_edge 3 2 [3 / 4; 1 / 4; 0] /\
  barycentric (c_nodes upper_cell) [0; 1 / 4; 0] (fun k => nth k [3 / 4; 0; 1 / 4] 0) /\ barycentric (c_nodes turned_cell) [3 / 4; 1 / 4; 0] (fun k => nth k [3 / 4; 0; 1 / 4] 0) /\
  Permutation (tetra_edge_of (c_nodes upper_cell) 4) (tetra_edge_of (c_nodes turned_cell) 2).
Proof. exact ex_tangent. Qed.
Theorem C87_tangential_2d : forall (qr : nat -> matrix -> matrix * matrix) (inv : nat -> matrix -> matrix), is_inverse inv ->
  forall (X : list vec) (pos : nat -> vec) (cs : cells) (el : element) (n m : nat) phi psi points,
  placed qr X cs el pos 2 -> hcurl_2d (el_generator el) n m phi psi -> points_of 2 points ->
  exists t, evaluated qr inv X cs el points t /\ shape t 3 (length points) n 3 /\
    forall k p i e l, nth_error points k = Some p -> (i < 3)%nat -> on_edge 2 i p -> barycentric (c_nodes (el_cell el)) p l ->
      stored_edge cs (el_cell el) i e ->
      (forall r, (r < m)%nat -> dot (value_at t k (nth r (dofs (el_generator el) 1 i) 0%nat)) (along pos e) = psi r (map l e)) /\
      (forall a, (a < n)%nat -> ~ In a (dofs (el_generator el) 1 i) -> dot (value_at t k a) (along pos e) = 0).
Proof. exact tangent_2d_lemma. Qed.
Print Assumptions C87_tangential_2d.
Example C87_tangential_2d_example : hcurl_2d ned2 3 1 (whitney 2) one /\ placed trivial_qr ex_points ex_cells (element_of tri_a FN1E ned2 []) ex_pos 2.
Proof. exact (conj ned2_is_hcurl (ex_placed2 tri_a FN1E ned2 [] (or_introl eq_refl))). Qed.

(** Scalar functions: on an edge or face the functions of that edge or face take the values of
    the reference functions in the order common to all cells (with the exception of the tagged
    faces); functions of no edge or face are those of the reference cell, with derivatives. *)
Theorem C87_values_3d : forall cs el mp n me mf phi psi_e psi_f points,
  tetrahedron cs (el_cell el) -> length (el_bc_entities el) = 4%nat -> h1_3d (el_generator el) n me mf phi psi_e psi_f ->
  Forall (fun p => length p = 3%nat) points ->
  exists t, evaluate_basis cs el points mp = Ok t /\ shape t 4 (length points) n 1 /\
    forall k p l, nth_error points k = Some p -> barycentric (c_nodes (el_cell el)) p l ->
      (forall i e r, (i < 6)%nat -> on_edge 3 i p -> increasing e -> Permutation e (tetra_edge_of (c_nodes (el_cell el)) i) -> (r < me)%nat ->
         tb_val t 0 k (nth r (dofs (el_generator el) 1 i) 0%nat) 0 = psi_e r (map l e)) /\
      (forall i f r, (i < 4)%nat -> nth i (linear_shapes p) 0 = 0 -> sorted_face el i f -> (r < mf)%nat ->
         tb_val t 0 k (nth r (dofs (el_generator el) 2 i) 0%nat) 0 = psi_f r (map l (if flipped el i then reflected f else f))) /\
      (forall d i, (d = 1 /\ i < 6 \/ d = 2 /\ i < 4)%nat -> (forall a, In a (dofs (el_generator el) d i) -> phi 0%nat a 0%nat p = 0) ->
         forall a, In a (dofs (el_generator el) d i) -> tb_val t 0 k a 0 = 0) /\
      (forall a, (a < n)%nat -> (forall j, (j < 6)%nat -> ~ In a (dofs (el_generator el) 1 j)) -> (forall j, (j < 4)%nat -> ~ In a (dofs (el_generator el) 2 j)) ->
         forall q, (q <= 3)%nat -> tb_val t q k a 0 = phi q a 0%nat p).
Proof. exact values_3d_lemma. Qed.
Print Assumptions C87_values_3d.
Example C87_values_3d_example : h1_3d cubic3 16 2 1 cubic3_phi edge_pair face_one /\ tetrahedron ex_cells turned_cell.
Proof. exact (conj cubic3_is_h1 (ex_tetra_edges turned_cell (or_intror (or_intror eq_refl)))). Qed.
Theorem C87_values_2d : forall cs el mp n m phi psi points,
  triangle cs (el_cell el) -> h1_2d (el_generator el) n m phi psi -> Forall (fun p => length p = 2%nat) points ->
  exists t, evaluate_basis cs el points mp = Ok t /\ shape t 3 (length points) n 1 /\
    forall k p l, nth_error points k = Some p -> barycentric (c_nodes (el_cell el)) p l ->
      (forall i e r, (i < 3)%nat -> on_edge 2 i p -> stored_edge cs (el_cell el) i e -> (r < m)%nat ->
         tb_val t 0 k (nth r (dofs (el_generator el) 1 i) 0%nat) 0 = psi r (map l e)) /\
      (forall i, (i < 3)%nat -> (forall a, In a (dofs (el_generator el) 1 i) -> phi 0%nat a 0%nat p = 0) ->
         forall a, In a (dofs (el_generator el) 1 i) -> tb_val t 0 k a 0 = 0) /\
      (forall a, (a < n)%nat -> (forall j, (j < 3)%nat -> ~ In a (dofs (el_generator el) 1 j)) ->
         forall q, (q <= 2)%nat -> tb_val t q k a 0 = phi q a 0%nat p).
Proof. exact values_2d_lemma. Qed.
Print Assumptions C87_values_2d.
Example C87_values_2d_example : h1_2d cubic2 6 2 cubic2_phi edge_pair /\ triangle ex_cells tri_b.
Proof. exact (conj cubic2_is_h1 (proj1 (ex_placed2 tri_b FP cubic2 [] (or_intror eq_refl)))). Qed.

(** Values and derivatives: one matrix, the same for all points, combines the functions in
    every block.  Only the values are moved to the cell; derivatives stay those on the
    reference cell, with a zero third component on triangles. *)
Theorem C87_one_matrix : forall cs el d n vs phi, c_dim (el_cell el) = d -> (2 <= d <= 3)%nat -> tabulates (el_generator el) d n vs phi ->
  (gen_map (el_generator el) = MIdentity -> vs = 1%nat) -> (gen_map (el_generator el) <> MIdentity -> vs = d) ->
  exists T : matrix, forall points mp t, Forall (fun p => length p = d) points -> evaluate_basis cs el points mp = Ok t ->
    forall k p a, nth_error points k = Some p -> (a < n)%nat ->
      (forall r, (r < tb_vs t)%nat -> tb_val t 0 k a r =
         rsum n (fun b => T a b * moved_value (gen_map (el_generator el)) d (nth k (mp_jac mp) no_matrix) (nth k (mp_inv mp) no_matrix) (nth k (mp_det mp) 0) phi b p r)) /\
      (forall q r, (1 <= q <= d)%nat -> (r < vs)%nat -> tb_val t q k a r = rsum n (fun b => T a b * phi q b r p)) /\
      (forall q r, (1 <= q <= d)%nat -> (vs <= r < tb_vs t)%nat -> tb_val t q k a r = 0).
Proof. exact one_matrix_lemma. Qed.
Print Assumptions C87_one_matrix.
Example C87_one_matrix_example : tabulates rt2 2 3 2 rt3_phi /\ gen_map rt2 <> MIdentity.
Proof. exact ex_one_matrix. Qed.

(** Lines.  Scalar families are left alone; the vector families are Lagrange times the x
    component of the unit tangent, and are computed only at one point or at as many points as
    there are functions. *)
Theorem C87_line_scalar : forall cs el mp n phi points, c_dim (el_cell el) = 1%nat -> el_generator_family el = FP ->
  gen_map (el_generator el) = MIdentity -> tabulates (el_generator el) 1 n 1 phi -> Forall (fun p => length p = 1%nat) points ->
  exists t, evaluate_basis cs el points mp = Ok t /\ tb_der t = 2%nat /\ tb_pts t = length points /\ tb_dof t = n /\ tb_vs t = 1%nat /\
    forall k i p a, (k <= 1)%nat -> nth_error points i = Some p -> (a < n)%nat -> tb_val t k i a 0 = phi k a 0%nat p.
Proof. exact line_scalar_lemma. Qed.
Print Assumptions C87_line_scalar.
Theorem C87_line_vector : forall qr inv X cs el pos n phi points x0 x1, is_inverse inv ->
  c_dim (el_cell el) = 1%nat -> c_nodes (el_cell el) = [x0; x1] -> el_generator_family el <> FP ->
  located X (el_cell el) pos -> nondegenerate qr pos 1 (c_nodes (el_cell el)) ->
  gen_map (el_generator el) = MIdentity -> tabulates (el_generator el) 1 n 1 phi -> points <> [] -> Forall (fun p => length p = 1%nat) points ->
  exists mp, element_mapping qr inv X (el_cell el) points = Ok mp /\
    (length points = n \/ length points = 1%nat ->
     exists t, evaluate_basis cs el points mp = Ok t /\ tb_der t = 2%nat /\ tb_pts t = length points /\ tb_dof t = n /\ tb_vs t = 1%nat /\
       forall i p a, nth_error points i = Some p -> (a < n)%nat ->
         tb_val t 0 i a 0 = phi 0%nat a 0%nat p * (vx (vsub (pos x1) (pos x0)) / norm (vsub (pos x1) (pos x0))) /\
         tb_val t 1 i a 0 = phi 1%nat a 0%nat p) /\
    (length points <> n -> length points <> 1%nat -> evaluate_basis cs el points mp = Err ValueError).
Proof. exact line_vector_lemma. Qed.
Print Assumptions C87_line_vector.
Example C87_line_example : let el := element_of line_c FRT line1 [] in
  c_nodes (el_cell el) = [1; 0]%nat /\ el_generator_family el <> FP /\ located ex_points (el_cell el) ex_pos /\ nondegenerate trivial_qr ex_pos 1 (c_nodes (el_cell el)) /\
  gen_map line1 = MIdentity /\ tabulates line1 1 2 1 line_phi /\ points_of 1 [[1 / 4]; [3 / 4]] /\
  vx (vsub (ex_pos 0) (ex_pos 1)) / norm (vsub (ex_pos 0) (ex_pos 1)) = -1.
Proof. exact ex_line. Qed.
(** A line element of two functions cannot be evaluated at three points. *)
Example C87_line_fails : let el := element_of line_c FRT line1 [] in exists mp,
  element_mapping trivial_qr cofactor_inverse ex_points line_c [[1 / 4]; [1 / 2]; [3 / 4]] = Ok mp /\
  evaluate_basis ex_cells el [[1 / 4]; [1 / 2]; [3 / 4]] mp = Err ValueError.
Proof. exact ex_line_fails. Qed.
