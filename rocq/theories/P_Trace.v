(** * C88: traces of the basis on facets, and the elements on the boundary *)
From Coq Require Import List Arith ZArith Bool Reals Permutation.
From Verif Require Import Base MeshModel MeshSpec GraphModel DofModel DofSpec OrientModel OrientSpec VecBase MapModel MapSpec JacProof SpaceModel ShapeModel ElementModel ElementSpec TraceModel TraceSpec TraceProof3 TraceProof4 DofExamples MeshExamples MapExamples OrientExamples ElementExamples ElementExamples2 TraceExamples.
Import ListNotations.
Local Open Scope R_scope.

(** ** _trace *)
(** For every element: the trace is the table of the cell at the same points, given in the cell;
    without return_all_dof_q it is reduced to the functions of the facet itself. *)
Theorem C88_trace : forall qr inv X cs el points c1 i, facet_of c1 el i -> facet_points c1 points ->
  exists mapped, points_of (c_dim (el_cell el)) mapped /\
    Forall2 (fun p q => same_point (c_nodes (el_cell el)) q (c_dim c1) (c_nodes c1) p) points mapped /\
    forall t, evaluated qr inv X cs el mapped t ->
      trace qr inv X cs points c1 el true = Ok t /\
      forall l, nth_error (gen_entity_dofs (el_generator el)) (c_dim c1) = Some l -> (i < length l)%nat ->
        let own := nth i l [] in
        (forall a, In a own -> (a < tb_dof t)%nat) ->
        exists u, trace qr inv X cs points c1 el false = Ok u /\ shape u (tb_der t) (tb_pts t) (length own) (tb_vs t) /\
          forall q k r b, (r < length own)%nat -> tb_val u q k r b = tb_val t q k (nth r own 0%nat) b.
Proof. exact trace_table_lemma. Qed.
Print Assumptions C88_trace.

(** H(div): the normal components on the facet are those of the reference facet at the facet's own
    point, times the handedness of the cell; the functions left out have none. *)
Theorem C88_flux_3d : forall qr inv, is_inverse inv -> forall X pos cs el n m phi psi points c1 i, placed qr X cs el pos 3 -> hdiv_3d (el_generator el) n m phi psi ->
  facet_of c1 el i -> facet_points c1 points ->
  exists t all, trace qr inv X cs points c1 el false = Ok t /\ trace qr inv X cs points c1 el true = Ok all /\
    shape t 4 (length points) m 3 /\ shape all 4 (length points) n 3 /\
    forall k p, nth_error points k = Some p ->
      (forall r, (r < m)%nat -> value_at t k r = value_at all k (nth r (dofs (el_generator el) 2 i) 0%nat)) /\
      forall f l, increasing f -> Permutation f (c_nodes c1) -> barycentric (c_nodes c1) p l ->
        (forall r, (r < m)%nat -> dot (value_at t k r) (area pos f) =
           handedness pos (c_nodes (el_cell el)) * if flipped el i then - psi r (map l (reflected f)) else psi r (map l f)) /\
        (forall a, (a < n)%nat -> ~ In a (dofs (el_generator el) 2 i) -> dot (value_at all k a) (area pos f) = 0).
Proof. exact flux_3d_lemma. Qed.
Print Assumptions C88_flux_3d.
Example C88_flux_3d_example : let el := element_of tr_cell FRT rt3 no_bc in
  placed trivial_qr ex_points ex_cells el ex_pos 3 /\ hdiv_3d (el_generator el) 4 1 rt3_phi two /\ facet_of tr_face el 3 /\ facet_points tr_face tr_points /\
  handedness ex_pos (c_nodes (el_cell el)) = 1.
Proof. exact tr_flux_3d. Qed.
Theorem C88_flux_2d : forall qr inv, is_inverse inv -> forall X pos cs el n m phi psi points c1 i nu, placed qr X cs el pos 2 -> hdiv_2d (el_generator el) n m phi psi ->
  facet_of c1 el i -> cell_of cs (c_id c1) = Ok c1 -> facet_points c1 points ->
  exists t all, trace qr inv X cs points c1 el false = Ok t /\ trace qr inv X cs points c1 el true = Ok all /\
    shape t 3 (length points) m 3 /\ shape all 3 (length points) n 3 /\
    forall k p, nth_error points k = Some p ->
      (forall r, (r < m)%nat -> value_at t k r = value_at all k (nth r (dofs (el_generator el) 1 i) 0%nat)) /\
      (forall r, (r < m)%nat -> dot (value_at t k r) (cross (along pos (c_nodes c1)) nu) =
         facing nu pos (c_nodes (el_cell el)) * psi r (linear_shapes p)) /\
      (forall a, (a < n)%nat -> ~ In a (dofs (el_generator el) 1 i) -> dot (value_at all k a) (cross (along pos (c_nodes c1)) nu) = 0).
Proof. exact flux_2d_lemma. Qed.
Print Assumptions C88_flux_2d.
Example C88_flux_2d_example : let el := element_of tri_a FRT rt2 [] in
  placed trivial_qr ex_points ex_cells el ex_pos 2 /\ hdiv_2d (el_generator el) 3 1 rt3_phi two /\ facet_of tr_edge el 0 /\
  cell_of ex_cells (c_id tr_edge) = Ok tr_edge /\ facet_points tr_edge tr_line_points.
Proof. exact tr_flux_2d. Qed.
(** H(curl) on triangles: the tangential components *)
Theorem C88_tangential_2d : forall qr inv, is_inverse inv -> forall X pos cs el n m phi psi points c1 i, placed qr X cs el pos 2 -> hcurl_2d (el_generator el) n m phi psi ->
  facet_of c1 el i -> cell_of cs (c_id c1) = Ok c1 -> facet_points c1 points ->
  exists t all, trace qr inv X cs points c1 el false = Ok t /\ trace qr inv X cs points c1 el true = Ok all /\
    shape t 3 (length points) m 3 /\ shape all 3 (length points) n 3 /\
    forall k p, nth_error points k = Some p ->
      (forall r, (r < m)%nat -> value_at t k r = value_at all k (nth r (dofs (el_generator el) 1 i) 0%nat)) /\
      (forall r, (r < m)%nat -> dot (value_at t k r) (along pos (c_nodes c1)) = psi r (linear_shapes p)) /\
      (forall a, (a < n)%nat -> ~ In a (dofs (el_generator el) 1 i) -> dot (value_at all k a) (along pos (c_nodes c1)) = 0).
Proof. exact tangential_2d_lemma. Qed.
Print Assumptions C88_tangential_2d.
Example C88_tangential_2d_example : let el := element_of tri_a FN1E ned2 [] in
  placed trivial_qr ex_points ex_cells el ex_pos 2 /\ hcurl_2d (el_generator el) 3 1 (whitney 2) one /\ facet_of tr_edge el 0 /\ facet_points tr_edge tr_line_points.
Proof. exact tr_tangential. Qed.
(** Scalar functions *)
Theorem C88_values_3d : forall qr inv X pos cs el n me mf phi psi_e psi_f points c1 i, tetrahedron cs (el_cell el) -> length (el_bc_entities el) = 4%nat ->
  located X (el_cell el) pos -> h1_3d (el_generator el) n me mf phi psi_e psi_f -> facet_of c1 el i -> facet_points c1 points ->
  exists t all, trace qr inv X cs points c1 el false = Ok t /\ trace qr inv X cs points c1 el true = Ok all /\
    shape t 4 (length points) mf 1 /\ shape all 4 (length points) n 1 /\
    forall k p, nth_error points k = Some p ->
      (forall r, (r < mf)%nat -> tb_val t 0 k r 0 = tb_val all 0 k (nth r (dofs (el_generator el) 2 i) 0%nat) 0) /\
      forall f l r, increasing f -> Permutation f (c_nodes c1) -> barycentric (c_nodes c1) p l -> (r < mf)%nat ->
        tb_val t 0 k r 0 = psi_f r (map l (if flipped el i then reflected f else f)).
Proof. exact values_3d_trace_lemma. Qed.
Print Assumptions C88_values_3d.
Theorem C88_values_2d : forall qr inv X pos cs el n m phi psi points c1 i, triangle cs (el_cell el) ->
  located X (el_cell el) pos -> h1_2d (el_generator el) n m phi psi -> facet_of c1 el i -> cell_of cs (c_id c1) = Ok c1 -> facet_points c1 points ->
  exists t all, trace qr inv X cs points c1 el false = Ok t /\ trace qr inv X cs points c1 el true = Ok all /\
    shape t 3 (length points) m 1 /\ shape all 3 (length points) n 1 /\
    forall k p, nth_error points k = Some p ->
      (forall r, (r < m)%nat -> tb_val t 0 k r 0 = tb_val all 0 k (nth r (dofs (el_generator el) 1 i) 0%nat) 0) /\
      (forall r, (r < m)%nat -> tb_val t 0 k r 0 = psi r (linear_shapes p)).
Proof. exact values_2d_trace_lemma. Qed.
Print Assumptions C88_values_2d.
Example C88_values_example :
  (let el := element_of tr_cell FP cubic3 no_bc in tetrahedron ex_cells (el_cell el) /\ located ex_points (el_cell el) ex_pos /\
     h1_3d (el_generator el) 16 2 1 cubic3_phi edge_pair face_one /\ facet_of tr_face el 3) /\
  (let el := element_of tri_a FP cubic2 [] in triangle ex_cells (el_cell el) /\ located ex_points (el_cell el) ex_pos /\
     h1_2d (el_generator el) 6 2 cubic2_phi edge_pair /\ facet_of tr_edge el 0).
Proof. exact tr_values. Qed.
(** Without return_all_dof_q the functions of the vertices are lost although they do not vanish on
    the edge: of the linear functions nothing remains. *)
Theorem C88_vertex_functions_refuted : ~ (forall qr inv X pos cs el n m phi psi points c1 i t all, is_inverse inv -> triangle cs (el_cell el) -> located X (el_cell el) pos ->
  h1_2d (el_generator el) n m phi psi -> facet_of c1 el i -> cell_of cs (c_id c1) = Ok c1 -> facet_points c1 points ->
  trace qr inv X cs points c1 el false = Ok t -> trace qr inv X cs points c1 el true = Ok all ->
  forall k a, (k < length points)%nat -> (a < n)%nat -> tb_val all 0 k a 0 <> 0 -> exists r, (r < tb_dof t)%nat /\ tb_val t 0 k r 0 = tb_val all 0 k a 0).
Proof. exact vertex_functions_lemma. Qed.
Print Assumptions C88_vertex_functions_refuted.

(** ** trace_discrete_space and trace_product_space never return a trace: the neighbour is a pair
    (dimension, id), the keys of id_to_element are ids. *)
Theorem C88_space_trace_fails : forall qr inv X cs s points c1 q idx,
  (forall t, trace_discrete_space qr inv X cs s points c1 q idx <> Ok t) /\
  (forall neighs, find_higher_dimension_neighs c1 (ts_topology s) = Ok neighs ->
     (neighs = [] -> trace_discrete_space qr inv X cs s points c1 q idx = Err AssertionError) /\
     (neighs <> [] -> (- Z.of_nat (length neighs) <= idx < Z.of_nat (length neighs))%Z -> trace_discrete_space qr inv X cs s points c1 q idx = Err KeyError)).
Proof. exact space_trace_lemma. Qed.
Print Assumptions C88_space_trace_fails.
Theorem C88_product_trace_fails : forall qr inv X cs fields spaces points c1 q idx,
  (fields = [] -> trace_product_space qr inv X cs fields spaces points c1 q idx = Ok []) /\
  (fields <> [] -> forall r, trace_product_space qr inv X cs fields spaces points c1 q idx <> Ok r).
Proof. exact product_trace_lemma. Qed.
Print Assumptions C88_product_trace_fails.
(** An inner edge with two neighbours, both with elements *)
Example C88_space_trace_example : find_higher_dimension_neighs ex2_edge (ts_topology tr_space) = Ok [(2, 9); (2, 10)]%nat /\ dget (ts_ids tr_space) 9%nat = Some 0%nat /\
  trace_discrete_space trivial_qr cofactor_inverse ex_points ex_cells tr_space tr_line_points ex2_edge true 0 = Err KeyError.
Proof. exact tr_space_fails. Qed.

(** ** The elements on the boundary *)
(** What is asked of basix exists: the family is meant for the dimension of the facet, degree 0 only
    for discontinuous elements and points; normal components of H(div) functions are discontinuous. *)
Theorem C88_boundary_request : forall dim f k d f' k' d', (1 <= dim <= 3)%nat -> (1 <= k)%Z -> bc_request dim f k d = Ok (f', k', d') ->
  effective_family (dim - 1) f' = Ok f' /\ (f' = FP -> (0 <= k')%Z) /\ (f' <> FP -> (1 <= k')%Z) /\ (dim = 1%nat -> k' = 0%Z) /\
  (k' = 0%Z -> dim <> 1%nat -> d' = true) /\ (d = true -> d' = true) /\
  ((2 <= dim)%nat -> (f = FRT \/ f = FBDM -> f' = FP /\ d' = true) /\ (f = FP \/ f = FN1E -> d' = d)).
Proof. exact bc_family_lemma. Qed.
Print Assumptions C88_boundary_request.
(** The boundary element has as many functions as the facet has degrees of freedom in the space -
    except for the edge functions on triangles, where it has one more. *)
Theorem C88_boundary_functions_partial : forall cs dim tags dofs comps shift m b cb i c l f k f' k' d', numbered_space cs dim tags dofs comps shift m ->
  (1 <= dim <= 3)%nat -> (1 <= k)%Z -> documented dofs f dim k ->
  cell_at cs b cb -> (c_dim cb + 1 = dim)%nat -> space_cell cs dim tags i c -> In b (nth (c_dim cb) (c_sub c) []) ->
  bc_destination_indices m i b = Ok l -> bc_request dim f k false = Ok (f', k', d') ->
  (~ (dim = 2%nat /\ f = FN1E) -> Z.of_nat (length l) = functions_on f' (dim - 1) k' * Z.of_nat comps)%Z /\
  (dim = 2%nat -> f = FN1E -> Z.of_nat (length l) = k * Z.of_nat comps /\ functions_on f' (dim - 1) k' = k + 1)%Z.
Proof. exact bc_count_lemma. Qed.
Print Assumptions C88_boundary_functions_partial.
Example C88_boundary_functions_example : numbered_space ex2 2 tags12 [1; 1; 0]%nat 2 100 ex2_dofs /\
  documented [1; 1; 0]%nat FP 2 2 /\ bc_request 2 FP 2 false = Ok (FP, 2%Z, false) /\ functions_on FP 1 2 = 3%Z /\
  exists l, bc_destination_indices ex2_dofs 9 4 = Ok l /\ length l = 6%nat.
Proof. exact (conj ex2_numbered tr_quadratic). Qed.
Theorem C88_boundary_functions_refuted : ~ (forall cs dim tags dofs comps shift m b cb i c l f k f' k' d', numbered_space cs dim tags dofs comps shift m ->
  (1 <= dim <= 3)%nat -> (1 <= k)%Z -> documented dofs f dim k ->
  cell_at cs b cb -> (c_dim cb + 1 = dim)%nat -> space_cell cs dim tags i c -> In b (nth (c_dim cb) (c_sub c) []) ->
  bc_destination_indices m i b = Ok l -> bc_request dim f k false = Ok (f', k', d') -> (Z.of_nat (length l) = functions_on f' (dim - 1) k' * Z.of_nat comps)%Z).
Proof. exact bc_refuted_lemma. Qed.
Print Assumptions C88_boundary_functions_refuted.
