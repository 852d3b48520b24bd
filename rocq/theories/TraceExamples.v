(** * Concrete facets, spaces and boundary elements *)
From Coq Require Import String List Arith ZArith Bool Reals Lra Lia Permutation.
From Verif Require Import Base MeshModel MeshSpec MeshExamples GraphModel DofModel DofSpec DofExamples OrientModel OrientSpec VecBase VecProof MapModel MapSpec MapExamples JacProof SpaceModel ShapeModel ElementModel ElementSpec ElementProof3 ElementProof7 OrientExamples ElementExamples ElementExamples2 TraceModel TraceSpec TraceProof3.
Import ListNotations.
Local Open Scope R_scope.

(** The tetrahedron with nodes 1, 0, 2, 4 and its face 0, 1, 2, stored as 2, 0, 1 *)
Definition tr_cell : cell := mk_cell 3 22 [1; 0; 2; 4]%nat None [[]; [6; 8; 4; 7; 2; 5]; [31; 32; 33; 34]; [22]]%nat.
Definition tr_face : cell := mk_cell 2 34 [2; 0; 1]%nat None [[]; [5; 2; 4]; [34]]%nat.
Definition tr_points : list (list R) := [[1 / 4; 1 / 2]].
Definition tr_edge : cell := mk_cell 1 2 [2; 1]%nat None [[]; []].
Definition tr_line_points : list (list R) := [[1 / 4]; [1 / 2]].
Lemma tr_placed f g : placed trivial_qr ex_points ex_cells (element_of tr_cell f g no_bc) ex_pos 3.
Proof.
  destruct (ex_placed3 turned_cell f g no_bc (or_intror (or_intror eq_refl)) eq_refl) as [[(A & B & C & D) E] [F G]].
  split; [split; [split; [exact A|split; [exact B|split; [exact C|exact D]]]|exact E]|]. split; [exact F|exact G].
Qed.
Lemma tr_face_of f g : facet_of tr_face (element_of tr_cell f g no_bc) 3.
Proof.
  split.
  - split; [reflexivity|]. split; [simpl; lia|]. split; [reflexivity|]. split; [nodup|]. split; [simpl; lia|].
    eexists. split; [reflexivity|]. split; [reflexivity|]. intros [|[|[|k]]] Hk; simpl; try lia; discriminate.
  - simpl. eapply Permutation_trans; [apply perm_swap|]. eapply Permutation_trans; [apply perm_skip, perm_swap|]. apply perm_swap.
Qed.
Lemma tr_edge_of f g bc : facet_of tr_edge (element_of tri_a f g bc) 0 /\ cell_of ex_cells (c_id tr_edge) = Ok tr_edge.
Proof.
  split; [|reflexivity]. split.
  - split; [reflexivity|]. split; [simpl; lia|]. split; [reflexivity|]. split; [nodup|]. split; [simpl; lia|].
    eexists. split; [reflexivity|]. split; [reflexivity|]. intros k Hk. lia.
  - apply perm_swap.
Qed.
Lemma tr_face_points : facet_points tr_face tr_points /\ facet_points tr_edge tr_line_points.
Proof. split; (split; [discriminate|repeat constructor]). Qed.
Lemma tr_flux_3d : let el := element_of tr_cell FRT rt3 no_bc in
  placed trivial_qr ex_points ex_cells el ex_pos 3 /\ hdiv_3d (el_generator el) 4 1 rt3_phi two /\ facet_of tr_face el 3 /\ facet_points tr_face tr_points /\
  handedness ex_pos (c_nodes (el_cell el)) = 1.
Proof.
  split; [apply tr_placed|]. split; [exact rt3_is_hdiv|]. split; [apply tr_face_of|]. split; [apply tr_face_points|]. exact (proj2 (proj2 ex_hands)).
Qed.
Lemma tr_flux_2d : let el := element_of tri_a FRT rt2 [] in
  placed trivial_qr ex_points ex_cells el ex_pos 2 /\ hdiv_2d (el_generator el) 3 1 rt3_phi two /\ facet_of tr_edge el 0 /\
  cell_of ex_cells (c_id tr_edge) = Ok tr_edge /\ facet_points tr_edge tr_line_points.
Proof. split; [apply ex_placed2; auto|]. split; [exact rt2_is_hdiv|]. split; [apply tr_edge_of|]. split; [reflexivity|]. apply tr_face_points. Qed.
Lemma tr_tangential : let el := element_of tri_a FN1E ned2 [] in
  placed trivial_qr ex_points ex_cells el ex_pos 2 /\ hcurl_2d (el_generator el) 3 1 (whitney 2) one /\ facet_of tr_edge el 0 /\ facet_points tr_edge tr_line_points.
Proof. split; [apply ex_placed2; auto|]. split; [exact ned2_is_hcurl|]. split; [apply tr_edge_of|]. apply tr_face_points. Qed.
Lemma tr_values : 
  (let el := element_of tr_cell FP cubic3 no_bc in tetrahedron ex_cells (el_cell el) /\ located ex_points (el_cell el) ex_pos /\
     h1_3d (el_generator el) 16 2 1 cubic3_phi edge_pair face_one /\ facet_of tr_face el 3) /\
  (let el := element_of tri_a FP cubic2 [] in triangle ex_cells (el_cell el) /\ located ex_points (el_cell el) ex_pos /\
     h1_2d (el_generator el) 6 2 cubic2_phi edge_pair /\ facet_of tr_edge el 0).
Proof.
  split.
  - destruct (tr_placed FP cubic3) as [[A _] [B _]]. split; [exact A|]. split; [exact B|]. split; [exact cubic3_is_h1|apply tr_face_of].
  - destruct (ex_placed2 tri_a FP cubic2 [] (or_introl eq_refl)) as [A [B _]]. split; [exact A|]. split; [exact B|]. split; [exact cubic2_is_h1|apply tr_edge_of].
Qed.

(** The linear functions on the triangle: the edges own none of them *)
Definition linear2_phi (k a c : nat) (p : list R) : R := match k with 0%nat => nth a (linear_shapes p) 0 | S j => grad a j end.
Definition linear2 : generator :=
  mk_generator [[[0]; [1]; [2]]; [[]; []; []]; [[]]]%nat [[1; 1; 1]; [0; 0; 0]; [0]]%nat
    true (0%nat, fun _ _ => 0) (0%nat, (fun _ _ => 0, fun _ _ => 0)) MIdentity (tabulator 2 3 1 linear2_phi).
Lemma linear2_is_h1 : h1_2d linear2 3 0 linear2_phi (fun _ _ => 0).
Proof.
  split; [reflexivity|]. split; [apply tabulator_ok|]. split; [apply once_by_lists; nodup|].
  split. { split; [eexists; split; reflexivity|]. intros i Hi. destruct i as [|[|[|i]]]; try lia; (split; [reflexivity|]; split; [constructor|intros a []]). }
  split. { split; [reflexivity|]. split; [intros _ r s Hr; lia|]. intros r u v Hr. lia. }
  intros i p r Hi _ Hr. lia.
Qed.
Lemma vertex_functions_lemma : ~ (forall qr inv X pos cs el n m phi psi points c1 i t all, is_inverse inv -> triangle cs (el_cell el) -> located X (el_cell el) pos ->
  h1_2d (el_generator el) n m phi psi -> facet_of c1 el i -> cell_of cs (c_id c1) = Ok c1 -> facet_points c1 points ->
  trace qr inv X cs points c1 el false = Ok t -> trace qr inv X cs points c1 el true = Ok all ->
  forall k a, (k < length points)%nat -> (a < n)%nat -> tb_val all 0 k a 0 <> 0 -> exists r, (r < tb_dof t)%nat /\ tb_val t 0 k r 0 = tb_val all 0 k a 0).
Proof.
  intros H. set (el := element_of tri_a FP linear2 []).
  destruct (ex_placed2 tri_a FP linear2 [] (or_introl eq_refl)) as [A [B _]]. destruct (tr_edge_of FP linear2 []) as [F E].
  destruct (values_2d_trace_lemma trivial_qr cofactor_inverse ex_points ex_pos ex_cells el 3 0 linear2_phi (fun _ _ => 0) tr_line_points tr_edge 0 A B linear2_is_h1 F E (proj2 tr_face_points))
    as (t & all & T1 & T2 & S1 & S2 & _).
  specialize (H trivial_qr cofactor_inverse ex_points ex_pos ex_cells el 3%nat 0%nat linear2_phi (fun _ _ => 0) tr_line_points tr_edge 0%nat t all
    cofactor_inverse_ok A B linear2_is_h1 F E (proj2 tr_face_points) T1 T2 0%nat 1%nat ltac:(simpl; lia) ltac:(lia)).
  assert (V : tb_val all 0 0 1 0 = 1 / 4).
  { clear - T2. unfold trace in T2. cbn in T2. injection T2 as <-. cbn. unfold linear2_phi, lscale, ladd. cbn. field. }
  rewrite V in H. destruct H as (r & Hr & _); [lra|]. destruct S1 as (_ & _ & Sd & _). rewrite Sd in Hr. lia.
Qed.

(** The inner edge 4 of two triangles: it has neighbours, and both have elements *)
Definition ex2_edge : cell := match cell_of ex2 4 with Ok c => c | Err _ => mk_cell 0 0 [] None [] end.
Definition tr_space : trace_space := mk_trace_space ex2_topo [(9, 0); (10, 1)]%nat [element_of tri_a FP linear2 []; element_of tri_b FP linear2 []].
Lemma tr_space_fails : find_higher_dimension_neighs ex2_edge (ts_topology tr_space) = Ok [(2, 9); (2, 10)]%nat /\ dget (ts_ids tr_space) 9%nat = Some 0%nat /\
  trace_discrete_space trivial_qr cofactor_inverse ex_points ex_cells tr_space tr_line_points ex2_edge true 0 = Err KeyError.
Proof. split; [vm_compute; reflexivity|]. split; [reflexivity|]. reflexivity. Qed.

(** Boundary elements *)
Definition edge_layout : list (list nat) := [[0; 0; 0]; [1; 1; 1]; [0]]%nat.
Definition ex2_edges : dofmap :=
  Eval vm_compute in match build_entity_maps ex2_topo edge_layout 2 1 0 with Ok m => m | Err _ => mk_dofmap ex2_topo [] 0 [] 0 end.
Lemma ex2_edges_numbered : numbered_space ex2 2 tags12 [0; 1; 0]%nat 1 0 ex2_edges.
Proof.
  exists 0%nat, 2%nat, ex2_topo, edge_layout. split; [exact ex2_good|].
  split; [vm_compute; reflexivity|]. split; [reflexivity|]. split; [|vm_compute; reflexivity].
  repeat constructor; try discriminate; intros; lists.
Qed.
Lemma tr_quadratic : documented [1; 1; 0]%nat FP 2 2 /\ bc_request 2 FP 2 false = Ok (FP, 2%Z, false) /\ functions_on FP 1 2 = 3%Z /\
  exists l, bc_destination_indices ex2_dofs 9 4 = Ok l /\ length l = 6%nat.
Proof.
  split; [intros [|[|d]] H; [reflexivity|reflexivity|lia]|]. split; [reflexivity|]. split; [reflexivity|]. eexists. split; [vm_compute; reflexivity|reflexivity].
Qed.
Lemma tr_nedelec : documented [0; 1; 0]%nat FN1E 2 1 /\ documented [0; 1; 0]%nat FRT 2 1 /\
  bc_request 2 FN1E 1 false = Ok (FP, 1%Z, false) /\ bc_request 2 FRT 1 false = Ok (FP, 0%Z, true) /\
  functions_on FP 1 1 = 2%Z /\ functions_on FP 1 0 = 1%Z /\ exists l, bc_destination_indices ex2_edges 9 4 = Ok l /\ length l = 1%nat.
Proof.
  split; [intros [|[|d]] H; [reflexivity|reflexivity|lia]|]. split; [intros [|[|d]] H; [reflexivity|reflexivity|lia]|].
  split; [reflexivity|]. split; [reflexivity|]. split; [reflexivity|]. split; [reflexivity|]. eexists. split; [vm_compute; reflexivity|reflexivity].
Qed.
Lemma ex2_b4 : exists c cb, cell_at ex2 4 cb /\ (c_dim cb + 1 = 2)%nat /\ space_cell ex2 2 tags12 9 c /\ In 4%nat (nth (c_dim cb) (c_sub c) []).
Proof. do 2 eexists. split; [reflexivity|]. split; [reflexivity|]. split; [split; [reflexivity|split; [reflexivity|simpl; auto]]|simpl; auto]. Qed.
Lemma bc_refuted_lemma : ~ (forall cs dim tags dofs comps shift m b cb i c l f k f' k' d', numbered_space cs dim tags dofs comps shift m ->
  (1 <= dim <= 3)%nat -> (1 <= k)%Z -> documented dofs f dim k ->
  cell_at cs b cb -> (c_dim cb + 1 = dim)%nat -> space_cell cs dim tags i c -> In b (nth (c_dim cb) (c_sub c) []) ->
  bc_destination_indices m i b = Ok l -> bc_request dim f k false = Ok (f', k', d') -> (Z.of_nat (length l) = functions_on f' (dim - 1) k' * Z.of_nat comps)%Z).
Proof.
  intros H. destruct ex2_b4 as (c & cb & A & B & C & D). destruct tr_nedelec as (T1 & _ & T2 & _ & T3 & _ & l & T4 & T5).
  specialize (H ex2 2%nat tags12 _ _ _ _ _ cb _ c l FN1E 1%Z _ _ _ ex2_edges_numbered ltac:(lia) ltac:(lia) T1 A B C D T4 T2). rewrite T5 in H. simpl in H. lia.
Qed.
