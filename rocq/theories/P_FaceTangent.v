(** * Property theorems C87, C88: tangential components on the faces of tetrahedra *)
From Coq Require Import List Arith ZArith Bool Reals Permutation.
From Verif Require Import Base MeshModel MeshSpec OrientModel OrientSpec VecBase MapModel MapSpec JacProof SpaceModel ElementModel ElementSpec TraceModel TraceSpec FaceTangentSpec FaceTangentProof FaceTangentProof2 OrientExamples ElementExamples TraceExamples FaceTangentExamples.
Import ListNotations.
Local Open Scope R_scope.

(** H(curl) of any degree, tetrahedra: on a face, in every direction of the face, the components of
    the functions of the face and of its edges are the reference traces in the order of increasing
    nodes (in the reflected order for the tagged faces 1 and 3 stored in an even order); the other
    functions have none. *)
Theorem C87_face_tangential : forall (qr : nat -> matrix -> matrix * matrix) (inv : nat -> matrix -> matrix), is_inverse inv ->
  forall (X : list vec) (pos : nat -> vec) (cs : cells) (el : element) (n me mf : nat) phi psi_e psi_f points,
  placed qr X cs el pos 3 -> hcurl_faces (el_generator el) n me mf phi psi_e psi_f -> points_of 3 points ->
  exists t, evaluated qr inv X cs el points t /\ shape t 4 (length points) n 3 /\
    forall k p i l c, nth_error points k = Some p -> (i < 4)%nat -> nth i (linear_shapes p) 0 = 0 -> barycentric (c_nodes (el_cell el)) p l ->
      in_face c (c_nodes (el_cell el)) i ->
      let component := fun a => dot (value_at t k a) (along_nodes pos c (c_nodes (el_cell el))) in
      (forall f r, sorted_face el i f -> (r < mf)%nat ->
         component (nth r (dofs (el_generator el) 2 i) 0%nat) = psi_f r (map (both l c) (if flipped el i then reflected f else f))) /\
      (forall j e r, edge_of_face i j -> increasing e -> Permutation e (tetra_edge_of (c_nodes (el_cell el)) j) -> (r < me)%nat ->
         component (nth r (dofs (el_generator el) 1 j) 0%nat) = psi_e r (map (both l c) e)) /\
      (forall a, (a < n)%nat -> ~ In a (dofs (el_generator el) 2 i) -> (forall j, edge_of_face i j -> ~ In a (dofs (el_generator el) 1 j)) -> component a = 0).
Proof. exact face_tangent_lemma. Qed.
Print Assumptions C87_face_tangential.
(** The Nedelec functions of degree 2 are such an element. *)
Example C87_face_tangential_example : hcurl_faces curl2 20 2 2 curl2_phi curl2_edge curl2_face /\ is_inverse cofactor_inverse /\ in_face step (c_nodes upper_cell) 3.
Proof. exact (conj curl2_is_hcurl (conj cofactor_inverse_ok ex_in_face)). Qed.

(** Two tetrahedra with a common face: whatever their handedness, the functions of the face and of
    its edges have equal components along every vector of the plane of the face, at the same point;
    the other functions have none. *)
Theorem C87_shared_face_tangential : forall (qr : nat -> matrix -> matrix * matrix) (inv : nat -> matrix -> matrix), is_inverse inv ->
  forall (X : list vec) (pos : nat -> vec) (cs : cells) (el1 el2 : element) (g : generator) (n me mf : nat) phi psi_e psi_f points1 points2 t1 t2,
  el_generator el1 = g -> el_generator el2 = g -> placed qr X cs el1 pos 3 -> placed qr X cs el2 pos 3 -> hcurl_faces g n me mf phi psi_e psi_f ->
  points_of 3 points1 -> points_of 3 points2 -> evaluated qr inv X cs el1 points1 t1 -> evaluated qr inv X cs el2 points2 t2 ->
  forall k1 k2 p1 p2 i1 i2 f l v, nth_error points1 k1 = Some p1 -> nth_error points2 k2 = Some p2 -> (i1 < 4)%nat -> (i2 < 4)%nat ->
    nth i1 (linear_shapes p1) 0 = 0 -> nth i2 (linear_shapes p2) 0 = 0 ->
    barycentric (c_nodes (el_cell el1)) p1 l -> barycentric (c_nodes (el_cell el2)) p2 l ->
    sorted_face el1 i1 f -> sorted_face el2 i2 f -> dot v (area pos f) = 0 ->
    (flipped el1 i1 = flipped el2 i2 -> forall r, (r < mf)%nat ->
       dot (value_at t1 k1 (nth r (dofs g 2 i1) 0%nat)) v = dot (value_at t2 k2 (nth r (dofs g 2 i2) 0%nat)) v) /\
    (forall j1 j2 r, edge_of_face i1 j1 -> edge_of_face i2 j2 ->
       Permutation (tetra_edge_of (c_nodes (el_cell el1)) j1) (tetra_edge_of (c_nodes (el_cell el2)) j2) -> (r < me)%nat ->
       dot (value_at t1 k1 (nth r (dofs g 1 j1) 0%nat)) v = dot (value_at t2 k2 (nth r (dofs g 1 j2) 0%nat)) v) /\
    (forall a, (a < n)%nat -> ~ In a (dofs g 2 i1) -> (forall j, edge_of_face i1 j -> ~ In a (dofs g 1 j)) -> dot (value_at t1 k1 a) v = 0).
Proof. exact shared_face_tangent_lemma. Qed.
Print Assumptions C87_shared_face_tangential.
Example C87_shared_face_tangential_example :
  let el1 := element_of upper_cell FN1E curl2 no_bc in let el2 := element_of turned_cell FN1E curl2 no_bc in
  placed trivial_qr ex_points ex_cells el1 ex_pos 3 /\ placed trivial_qr ex_points ex_cells el2 ex_pos 3 /\ points_of 3 face_point /\
  (exists t1, evaluated trivial_qr cofactor_inverse ex_points ex_cells el1 face_point t1) /\
  (exists t2, evaluated trivial_qr cofactor_inverse ex_points ex_cells el2 face_point t2) /\
  barycentric (c_nodes upper_cell) [1 / 3; 1 / 3; 0] third /\ barycentric (c_nodes turned_cell) [1 / 3; 1 / 3; 0] third /\
  sorted_face el1 3 [0; 1; 2]%nat /\ sorted_face el2 3 [0; 1; 2]%nat /\ flipped el1 3 = flipped el2 3 /\
  dot (mk_vec 1 2 0) (area ex_pos [0; 1; 2]%nat) = 0 /\
  edge_of_face 3 4 /\ edge_of_face 3 2 /\ Permutation (tetra_edge_of (c_nodes upper_cell) 4) (tetra_edge_of (c_nodes turned_cell) 2).
Proof. exact ex_face_tangent. Qed.

(** On a tagged face the components need not agree, although both cells see the same tag. *)
Theorem C87_tagged_face_refuted : ~ (forall qr inv X pos cs el1 el2 g n me mf phi psi_e psi_f points1 points2 t1 t2 k1 k2 p1 p2 i1 i2 f l v r,
  is_inverse inv -> el_generator el1 = g -> el_generator el2 = g -> placed qr X cs el1 pos 3 -> placed qr X cs el2 pos 3 -> hcurl_faces g n me mf phi psi_e psi_f ->
  points_of 3 points1 -> points_of 3 points2 -> evaluated qr inv X cs el1 points1 t1 -> evaluated qr inv X cs el2 points2 t2 ->
  nth_error points1 k1 = Some p1 -> nth_error points2 k2 = Some p2 -> (i1 < 4)%nat -> (i2 < 4)%nat ->
  nth i1 (linear_shapes p1) 0 = 0 -> nth i2 (linear_shapes p2) 0 = 0 ->
  barycentric (c_nodes (el_cell el1)) p1 l -> barycentric (c_nodes (el_cell el2)) p2 l ->
  sorted_face el1 i1 f -> sorted_face el2 i2 f -> nth i1 (el_bc_entities el1) false = nth i2 (el_bc_entities el2) false -> dot v (area pos f) = 0 -> (r < mf)%nat ->
  dot (value_at t1 k1 (nth r (dofs g 2 i1) 0%nat)) v = dot (value_at t2 k2 (nth r (dofs g 2 i2) 0%nat)) v).
Proof. exact tagged_face_lemma. Qed.
Print Assumptions C87_tagged_face_refuted.

(** The trace on a face: tangential components at the face's own point, in every direction of the
    face.  Without return_all_dof_q the functions of the edges of the face are left out although
    they have tangential components on it. *)
Theorem C88_face_tangential : forall qr inv, is_inverse inv -> forall X pos cs el n me mf phi psi_e psi_f points c1 i,
  placed qr X cs el pos 3 -> hcurl_faces (el_generator el) n me mf phi psi_e psi_f -> facet_of c1 el i -> facet_points c1 points ->
  exists t all, trace qr inv X cs points c1 el false = Ok t /\ trace qr inv X cs points c1 el true = Ok all /\
    shape t 4 (length points) mf 3 /\ shape all 4 (length points) n 3 /\
    forall k p, nth_error points k = Some p ->
      (forall r, (r < mf)%nat -> value_at t k r = value_at all k (nth r (dofs (el_generator el) 2 i) 0%nat)) /\
      forall f l c, increasing f -> Permutation f (c_nodes c1) -> barycentric (c_nodes c1) p l -> rsum_on c (c_nodes c1) = 0 ->
        let v := along_nodes pos c (c_nodes c1) in
        (forall r, (r < mf)%nat -> dot (value_at t k r) v = psi_f r (map (both l c) (if flipped el i then reflected f else f))) /\
        (forall j e r, edge_of_face i j -> increasing e -> Permutation e (tetra_edge_of (c_nodes (el_cell el)) j) -> (r < me)%nat ->
           dot (value_at all k (nth r (dofs (el_generator el) 1 j) 0%nat)) v = psi_e r (map (both l c) e)) /\
        (forall a, (a < n)%nat -> ~ In a (dofs (el_generator el) 2 i) -> (forall j, edge_of_face i j -> ~ In a (dofs (el_generator el) 1 j)) -> dot (value_at all k a) v = 0).
Proof. exact face_tangent_trace_lemma. Qed.
Print Assumptions C88_face_tangential.
Example C88_face_tangential_example : let el := element_of tr_cell FN1E curl2 no_bc in
  placed trivial_qr ex_points ex_cells el ex_pos 3 /\ hcurl_faces (el_generator el) 20 2 2 curl2_phi curl2_edge curl2_face /\ facet_of tr_face el 3 /\ facet_points tr_face tr_points /\
  rsum_on step (c_nodes tr_face) = 0.
Proof. exact ex_face_trace. Qed.
