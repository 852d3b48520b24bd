{
 "claims": [
  {
   "property": "C01",
   "status": "proved",
   "theorems": [
    "C01_id_is_index"
   ],
   "note": ""
  },
  {
   "property": "C02",
   "status": "proved",
   "theorems": [
    "C02_no_duplicate_entity"
   ],
   "note": ""
  },
  {
   "property": "C03",
   "status": "proved",
   "theorems": [
    "C03_conformity"
   ],
   "note": ""
  },
  {
   "property": "C04",
   "status": "proved",
   "theorems": [
    "C04_incidence_lists"
   ],
   "note": ""
  },
  {
   "property": "C05",
   "status": "proved",
   "theorems": [
    "C05_last_tag_wins"
   ],
   "note": ""
  },
  {
   "property": "C06",
   "status": "partial",
   "theorems": [
    "C06_every_slot_filled_refuted",
    "C06_empty_slots_are_unused_points",
    "C06_built_mesh_is_good"
   ],
   "note": "Refuted as stated: an unused point leaves an empty slot and every graph query then raises AttributeError. Proved: the empty slots are exactly the unused points, and inputs without them give a mesh with all the structure used later."
  },
  {
   "property": "C07",
   "status": "partial",
   "theorems": [
    "C07_registry_refuted",
    "C07_registry_partial"
   ],
   "note": "Refuted as stated (decimal keys collide). Proved for histories in which integers at the same place have the same printed width."
  },
  {
   "property": "C08",
   "status": "partial",
   "theorems": [
    "C08_append_cells",
    "C08_append_cells_refuted"
   ],
   "note": "Refuted as stated: gaps and repetitions among the new ids are accepted. Proved: exact condition under which the invariant survives, and the rejection of used ids."
  },
  {
   "property": "C09",
   "status": "proved",
   "theorems": [
    "C09_graph_is_incidence"
   ],
   "note": ""
  },
  {
   "property": "C10",
   "status": "proved",
   "theorems": [
    "C10_tagged_graph_is_restriction"
   ],
   "note": ""
  },
  {
   "property": "C11",
   "status": "proved",
   "theorems": [
    "C11_entity_lists",
    "C11_topology_can_be_built"
   ],
   "note": ""
  },
  {
   "property": "C12",
   "status": "partial",
   "theorems": [
    "C12_higher_neighbours",
    "C12_lower_neighbours_refuted",
    "C12_lower_neighbours_are_never_lower"
   ],
   "note": "Higher neighbours proved. The claim about lower neighbours is refuted: the query never returns an entity of lower dimension."
  },
  {
   "property": "C13",
   "status": "proved",
   "theorems": [
    "C13_numbering_is_bijective",
    "C13_numbering_can_be_built"
   ],
   "note": ""
  },
  {
   "property": "C14",
   "status": "proved",
   "theorems": [
    "C14_shared_entities_share_dofs"
   ],
   "note": ""
  },
  {
   "property": "C15",
   "status": "proved",
   "theorems": [
    "C15_destinations"
   ],
   "note": ""
  },
  {
   "property": "C16",
   "status": "proved",
   "theorems": [
    "C16_boundary_dofs",
    "C16_boundary_dofs_independent"
   ],
   "note": ""
  },
  {
   "property": "C17",
   "status": "proved",
   "theorems": [
    "C17_discontinuous"
   ],
   "note": ""
  },
  {
   "property": "C18",
   "status": "proved",
   "theorems": [
    "C18_shift_translates"
   ],
   "note": ""
  },
  {
   "property": "C19",
   "status": "proved",
   "theorems": [
    "C19_fields_own_disjoint_blocks",
    "C19_destinations_exist"
   ],
   "note": ""
  },
  {
   "property": "C20",
   "status": "proved",
   "theorems": [
    "C20_concatenation",
    "C20_concatenation_exists",
    "C20_bc_concatenation",
    "C20_bc_concatenation_exists"
   ],
   "note": ""
  },
  {
   "property": "C21",
   "status": "proved",
   "theorems": [
    "C21_setter",
    "C21_last_accepted"
   ],
   "note": "A Python bool is an int and is accepted as 0 or 1."
  },
  {
   "property": "C22",
   "status": "partial",
   "theorems": [
    "C22_dimension_zero_refuted",
    "C22_quadratures",
    "C22_product_can_be_built"
   ],
   "note": "Refuted as stated: any field of dimension 0 makes the construction raise KeyError (type_by_dimension(-1)). Proved for dimensions 1 to 3."
  },
  {
   "property": "C23",
   "status": "partial",
   "theorems": [
    "C23_element_ids",
    "C23_structures_can_be_built",
    "C23_boundary_elements",
    "C23_rebuild_without_tags_refuted"
   ],
   "note": "Proved whenever boundary tags are requested; refuted for a rebuild with an empty list of boundary tags, which keeps the boundary elements of the previous build."
  },
  {
   "property": "C24",
   "status": "proved",
   "theorems": [
    "C24_residual"
   ],
   "note": ""
  },
  {
   "property": "C25",
   "status": "proved",
   "theorems": [
    "C25_jacobian"
   ],
   "note": ""
  },
  {
   "property": "C26",
   "status": "proved",
   "theorems": [
    "C26_order_independent"
   ],
   "note": "Exact arithmetic; floating-point sums are not modelled."
  },
  {
   "property": "C27",
   "status": "proved",
   "theorems": [
    "C27_frame"
   ],
   "note": "Holds for every outcome, including exceptions raised midway."
  },
  {
   "property": "C28",
   "status": "partial",
   "theorems": [
    "C28_local_states_partial",
    "C28_time_dependent_bc_refuted"
   ],
   "note": "Proved for five form types; refuted for time_dependent_bc_form, whose evaluation receives the restriction of the previous solution alpha_n instead of the current one."
  },
  {
   "property": "C29",
   "status": "proved",
   "theorems": [
    "C29_rejects",
    "C29_dispatch"
   ],
   "note": "The dispatch to the six routines is visible in C24, C25 and C28, whose specification lists each type with its arguments."
  },
  {
   "property": "C30",
   "status": "partial",
   "theorems": [
    "C30_projection_system_partial",
    "C30_small_entries_refuted"
   ],
   "note": "Proved when no nonzero entry is close to 1e-16 in the sense of np.isclose; refuted in general: entries of magnitude up to about 1e-8 are dropped, so the mass matrix of small elements is lost."
  },
  {
   "property": "C31",
   "status": "proved",
   "theorems": [
    "C31_one_interface",
    "C31_all_interfaces",
    "C31_counts",
    "C31_succeeds",
    "C31_built_mesh_ready",
    "C31_other_dimensions"
   ],
   "note": "The effect of each step is stated in full by CutSpec.cut_effect. Termination without error is proved for one interface at a time."
  },
  {
   "property": "C32",
   "status": "proved",
   "theorems": [
    "C32_sides_separated"
   ],
   "note": ""
  },
  {
   "property": "C33",
   "status": "partial",
   "theorems": [
    "C33_own_id_refuted",
    "C33_own_id_partial"
   ],
   "note": "Refuted: copies of vertices store the new node tag in the sub-cell list of dimension 0. The partial theorem states exactly what is stored."
  },
  {
   "property": "C34",
   "status": "proved",
   "theorems": [
    "C34_update_entity",
    "C34_update_nodes"
   ],
   "note": ""
  },
  {
   "property": "C35",
   "status": "partial",
   "theorems": [
    "C35_replace_node",
    "C35_replace_nodes",
    "C35_replace_node_by_itself_refuted"
   ],
   "note": "Proved for replacements by a different node; replacing a node by itself deletes it, and arrows leaving the replaced node are lost."
  },
  {
   "property": "C36",
   "status": "partial",
   "theorems": [
    "C36_one_line",
    "C36_copies",
    "C36_old_cells_keep_identity",
    "C36_sides_apart",
    "C36_succeeds_iff",
    "C36_all_lines",
    "C36_other_dimensions",
    "C36_built_mesh_ready",
    "C36_id_index_refuted"
   ],
   "note": "Proved for meshes of the kind the constructor builds (id = index, nodes listed in the order of the vertices, no repeated sub-cell, the tag of the lines on edges only), for every line, classification and sequence of lines; also exactly when a cut succeeds. id = index alone is not enough: C36_id_index_refuted."
  },
  {
   "property": "C37",
   "status": "proved",
   "theorems": [
    "C37_immersed",
    "C37_boundary"
   ],
   "note": "All kinds of shapes and all lists of shapes; np.argsort is any function returning positions in sorted order. On an inadmissible dimension the setter raises before assigning."
  },
  {
   "property": "C38",
   "status": "partial",
   "theorems": [
    "C38_equality_partial",
    "C38_same_equal",
    "C38_equivalence_partial",
    "C38_boundary_refuted",
    "C38_symmetry_refuted"
   ],
   "note": "Proved for shapes whose parts carry no immersed shapes, and in one direction (same implies equal) for all shapes. The full statement is false of the code: line 146 of shape.py drops the comparison of boundaries when there are immersed shapes (C38_boundary_refuted), and np.isclose is not symmetric (C38_symmetry_refuted)."
  },
  {
   "property": "C39",
   "status": "proved",
   "theorems": [
    "C39_wire"
   ],
   "note": "Paths of any length; the recursion limit is at least 1."
  },
  {
   "property": "C40",
   "status": "partial",
   "theorems": [
    "C40_retag_partial",
    "C40_refuted"
   ],
   "note": "Proved when immersed shapes have the dimension of their host. False in general: line 57 of domain.py tests the dimension of the host, so an immersed shape of lower dimension is renumbered by the counter of the host's dimension."
  },
  {
   "property": "C41",
   "status": "partial",
   "theorems": [
    "C41_create_domain_partial",
    "C41_refuted"
   ],
   "note": "Proved when the hash separates the tags of one dimension that occur. False in general: CPython's hash(-1) equals hash(-2), so the dictionary keyed by shape.hash() loses one of two shapes with these tags, whatever the tuple hash."
  },
  {
   "property": "C42",
   "status": "partial",
   "theorems": [
    "C42_difference_is_a_chain_partial",
    "C42_difference_is_a_chain_refuted",
    "C42_inner_vertices_are_doubled",
    "C42_several_edges"
   ],
   "note": "Chain from end to end through the touching points ordered by distance, inherited physical tags, tags exactly tag .. tag+3n. Conditions: inner points are not at an end up to the point tolerance. False in general: one point within the default np.isclose tolerance of both ends raises IndexError (edge from 100 to 100.0005 cut in the middle). Consecutive sub-edges do not share vertex objects."
  },
  {
   "property": "C43",
   "status": "partial",
   "theorems": [
    "C43_one_edge_partial",
    "C43_several_edges_refuted"
   ],
   "note": "Tags differ within one edge. For several edges the claim is false: the next edge starts at the largest tag of the previous one, so on every successful run without reused end vertices two vertices of consecutive edges have the same tag."
  },
  {
   "property": "C44",
   "status": "partial",
   "theorems": [
    "C44_stride_partial",
    "C44_stride_refuted",
    "C44_conformal",
    "C44_conformal_total"
   ],
   "note": "ConformalMesher: proved. DiscreteDomain: numbers of one dimension differ; numbers of different dimensions can coincide because the strides are inclusive sums (C44_stride_refuted); the bound under which they differ is proved. gmsh keeps tags of different dimensions apart."
  },
  {
   "property": "C45",
   "status": "proved",
   "theorems": [
    "C45_box_1D",
    "C45_box_2D",
    "C45_box_3D"
   ],
   "note": "Any number n >= 2 of points, any physical tags; also the arrows of the graph. build_box_3D for 8 or more points: 26 consecutive tags, every wire a closed path of four edges, every edge in exactly two wires, every vertex in exactly three edges."
  },
  {
   "property": "C46",
   "status": "partial",
   "theorems": [
    "C46_trace_position",
    "C46_affine_map"
   ],
   "note": "Facets of dimension 1 and 2: proved for every node order. Facets of dimension 0: proved for the reference point 1 used by the code; _R0_to_R1 multiplies the vertex by the coordinate, so other coordinates would be mapped elsewhere. basix's vertices and connectivities are taken as documented data."
  },
  {
   "property": "C47",
   "status": "proved",
   "theorems": [
    "C47_face_orientation"
   ],
   "note": ""
  },
  {
   "property": "C48",
   "status": "partial",
   "theorems": [
    "C48_rows_after_transformation",
    "C48_shared_face",
    "C48_tagged_face_refuted",
    "C48_tagged_facets"
   ],
   "note": "Proved for faces that are untagged or have local index 0 or 2; refuted for tagged faces with local index 1 or 3, whose reflection is overridden."
  },
  {
   "property": "C49",
   "status": "proved",
   "theorems": [
    "C49_point_on_segment"
   ],
   "note": "Exact real arithmetic; both tolerances arbitrary."
  },
  {
   "property": "C50",
   "status": "proved",
   "theorems": [
    "C50_inside",
    "C50_answered",
    "C50_outside",
    "C50_off_plane"
   ],
   "note": "Exact real arithmetic; both tolerances arbitrary."
  },
  {
   "property": "C51",
   "status": "proved",
   "theorems": [
    "C51_line_line",
    "C51_inside_missed"
   ],
   "note": "Exact arithmetic, numpy.linalg.lstsq is any least squares solver. For colinear segments nothing is guaranteed: C51_inside_missed shows a segment inside the other one is missed."
  },
  {
   "property": "C52",
   "status": "proved",
   "theorems": [
    "C52_triangulation"
   ],
   "note": "Exact real arithmetic."
  },
  {
   "property": "C53",
   "status": "proved",
   "theorems": [
    "C53_normal"
   ],
   "note": "Exact real arithmetic; non-degenerate simplices."
  },
  {
   "property": "C54",
   "status": "partial",
   "theorems": [
    "C54_pair_injective",
    "C54_pair_onto",
    "C54_unpair_only_first_zero"
   ],
   "note": "The pairing is a bijection. Unpairing is refuted: it recovers the pair exactly when the first entry is 0, because the square root is not rounded down."
  },
  {
   "property": "C55",
   "status": "partial",
   "theorems": [
    "C55_rotation_products",
    "C55_rotation",
    "C55_embedded_normal"
   ],
   "note": "Rotations as claimed. The normal of an embedded shape is orthogonal to it exactly when both ends have equal z coordinate; for a line that is not in a plane z = const the claim is false."
  },
  {
   "property": "C56",
   "status": "proved",
   "theorems": [
    "C56_jacobian",
    "C56_columns"
   ],
   "note": "Exact real arithmetic; numpy's qr is any QR factorisation, inv any inverse."
  },
  {
   "property": "C57",
   "status": "proved",
   "theorems": [
    "C57_circulates",
    "C57_true_or_error",
    "C57_ends",
    "C57_from_domain"
   ],
   "note": "On a closed skin the walk is a loop through the seed, every edge and vertex once, and succeeds exactly when Python's recursion limit is at least its length (RecursionError otherwise). On any mesh the recursion ends and the value, if any, is true."
  },
  {
   "property": "C58",
   "status": "partial",
   "theorems": [
    "C58_maps_partial",
    "C58_returns_refuted",
    "C58_never_returns"
   ],
   "note": "The colour maps built from a colouring are inverse to each other, but the routine compares graph nodes (dim, id) with integer ids, so the filtered list is always empty and np.vstack raises ValueError: it never returns."
  },
  {
   "property": "C59",
   "status": "partial",
   "theorems": [
    "C59_fracture_chain",
    "C59_aligned_fractures_refuted"
   ],
   "note": "Proved for all networks and intersection tests; that the chain starts and ends at the end vertices needs the other vertices to be farther or nearer, which fails for disjoint fractures on one line (refuted)."
  },
  {
   "property": "C60",
   "status": "proved",
   "theorems": [
    "C60_graph_on_materials",
    "C60_graph_from_cell_ids",
    "C60_unknown_cell_id",
    "C60_topology_of_all_cells",
    "C60_topology_can_be_built"
   ],
   "note": ""
  },
  {
   "property": "C61",
   "status": "proved",
   "theorems": [
    "C61_options_of_fields"
   ],
   "note": "For fields on good meshes with a regular DoF layout."
  },
  {
   "property": "C62",
   "status": "proved",
   "theorems": [
    "C62_construction_succeeds_iff"
   ],
   "note": "For blocks whose rows have the width of their type."
  },
  {
   "property": "C63",
   "status": "proved",
   "theorems": [
    "C63_segment_test",
    "C63_aligned_segments",
    "C63_aligned_segments_refuted",
    "C63_aligned_overlap"
   ],
   "note": "That True means a common point is refuted for aligned disjoint segments."
  },
  {
   "property": "C64",
   "status": "proved",
   "theorems": [
    "C64_triangle_edges"
   ],
   "note": ""
  },
  {
   "property": "C65",
   "status": "proved",
   "theorems": [
    "C65_graph"
   ],
   "note": "Recursion limit at least the nesting depth."
  },
  {
   "property": "C66",
   "status": "proved",
   "theorems": [
    "C66_assignment",
    "C66_assignment_same"
   ],
   "note": "The shape assigned from is as the setters leave it (settled): boundary sorted with different tags for different shapes."
  },
  {
   "property": "C67",
   "status": "proved",
   "theorems": [
    "C67_cells",
    "C67_graph"
   ],
   "note": "Recursion limit at least 2. The comparison of points calls a point near itself and argsort returns a permutation."
  },
  {
   "property": "C68",
   "status": "partial",
   "theorems": [
    "C68_member_partial",
    "C68_counts",
    "C68_closed_refuted",
    "C68_mixed_refuted"
   ],
   "note": "True for shapes whose boundary shapes (and immersed shapes) have pairwise different tags and, when some have the dimension of the candidate, all have it; parts have no immersed shapes themselves. In general the test counts: a shape occurring twice (the end of a closed wire) is not found, and mixed dimensions raise AttributeError when a vertex is compared with another shape."
  },
  {
   "property": "C69",
   "status": "proved",
   "theorems": [
    "C69_where"
   ],
   "note": "Exact real arithmetic; near_segment is the tolerance region of point_line_intersection."
  },
  {
   "property": "C70",
   "status": "proved",
   "theorems": [
    "C70_entries",
    "C70_all_numbers",
    "C70_succeeds_iff",
    "C70_symmetric",
    "C70_norm",
    "C70_reproduces"
   ],
   "note": "Exact arithmetic over any commutative ring. Values of basis functions, Jacobians and user functions at the points are arbitrary data; a user function that is too short in a vector-valued component is not modelled."
  },
  {
   "property": "C71",
   "status": "partial",
   "theorems": [
    "C71_system_partial",
    "C71_matrix",
    "C71_energy",
    "C71_state_refuted"
   ],
   "note": "The matrix and the residual at the state zero are proved. The residual ignores the state handed over (line 46 replaces it by zeros): C71_state_refuted."
  },
  {
   "property": "C72",
   "status": "proved",
   "theorems": [
    "C72_system",
    "C72_exact_jacobian",
    "C72_matrix",
    "C72_symmetric",
    "C72_rigid",
    "C72_translation"
   ],
   "note": "Exact arithmetic over any field where 2 is not 0; dimension two or three, one component per direction. The library auto_diff is taken to be forward differentiation."
  },
  {
   "property": "C73",
   "status": "partial",
   "theorems": [
    "C73_dirichlet_partial",
    "C73_cosserat_partial",
    "C73_neumann",
    "C73_normal_computed",
    "C73_normal_partial",
    "C73_potential",
    "C73_unscaled_potential",
    "C73_degenerate_potential",
    "C73_dirichlet_state_refuted",
    "C73_normal_slanted_refuted"
   ],
   "note": "All matrices and loads are proved at the state zero. Residuals of the penalty forms ignore the state (refuted), and the form for the normal displacement omits the products of different normal components, so it is right only for normals along an axis (refuted otherwise). The traces of the neighbour (basis at mapped points, normal, facet DoFs) are data."
  },
  {
   "property": "C74",
   "status": "proved",
   "theorems": [
    "C74_degenerate_system",
    "C74_degenerate_jacobian",
    "C74_degenerate_energy",
    "C74_unscaled_system",
    "C74_unscaled_jacobian",
    "C74_scaling",
    "C74_physical_system",
    "C74_physical_jacobian",
    "C74_physical_solved"
   ],
   "note": "Exact arithmetic. The square root and the tests phi > 0 and isclose(x, 0) or x < 0 are parameters; the library auto_diff is taken to be forward differentiation."
  },
  {
   "property": "C75",
   "status": "proved",
   "theorems": [
    "C75_stress_system",
    "C75_stress_jacobian",
    "C75_stress_met",
    "C75_taylor_hood_system",
    "C75_taylor_hood_jacobian",
    "C75_taylor_hood_symmetric",
    "C75_taylor_hood_consistent",
    "C75_cosserat_system",
    "C75_cosserat_jacobian",
    "C75_cosserat_symmetric",
    "C75_cosserat_matrix",
    "C75_cosserat_rigid",
    "C75_cosserat_classical"
   ],
   "note": "Exact arithmetic over any field where 2 is not 0. The target stress is a parameter of the model (the code reads functions[\"s_target\"]); the library auto_diff is taken to be forward differentiation."
  },
  {
   "property": "C76",
   "status": "partial",
   "theorems": [
    "C76_system",
    "C76_jacobian",
    "C76_saddle",
    "C76_compliance",
    "C76_vectorized_partial",
    "C76_agree",
    "C76_vectorized_state_refuted",
    "C76_elastic_partial",
    "C76_elastic_saddle",
    "C76_elastic_state_refuted"
   ],
   "note": "evaluate_form is proved in full. The vectorized forms return the right matrix and the residual of the zero state whatever the state: the claim on the given state is refuted. They divide by the determinant where evaluate_form does not, hence the hypothesis that determinants do not vanish. LEDualWeakForm.evaluate_form never succeeds (C79)."
  },
  {
   "property": "C77",
   "status": "partial",
   "theorems": [
    "C77_system",
    "C77_jacobian",
    "C77_saddle",
    "C77_vectorized_partial",
    "C77_agree",
    "C77_vectorized_state_refuted",
    "C77_change"
   ],
   "note": "evaluate_form is proved in full; the residual of the vectorized form ignores the state (refuted). The change of unknowns is stated for a constant length."
  },
  {
   "property": "C78",
   "status": "partial",
   "theorems": [
    "C78_system",
    "C78_jacobian",
    "C78_norm",
    "C78_vectorized_partial",
    "C78_vectorized_state_refuted",
    "C78_scaled_system",
    "C78_scaled_vectorized_partial",
    "C78_scaled_norm",
    "C78_scaled_agree",
    "C78_elastic_partial",
    "C78_elastic_norm"
   ],
   "note": "The matrices are proved in full. The vectorized forms return a zero residual whatever the state (refuted at the given state)."
  },
  {
   "property": "C79",
   "status": "partial",
   "theorems": [
    "C79_displacement",
    "C79_cosserat",
    "C79_scaled",
    "C79_traction_partial",
    "C79_traction_state_refuted",
    "C79_old_traction_never",
    "C79_four_rules",
    "C79_laplace_primal_never",
    "C79_laplace_primal_bc_never",
    "C79_elastic_never"
   ],
   "note": "The given displacements and rotations are proved in full. The traction penalty is proved at the state zero; at the given state it is refuted. Two classes LCEDualWeakFormBCNeumann, LaplacePrimalWeakForm, its boundary form, LEDualWeakForm.evaluate_form and LERieszMapWeakForm.evaluate_form are proved never to return."
  },
  {
   "property": "C80",
   "status": "partial",
   "theorems": [
    "C80_l2_error_partial",
    "C80_projected_partial",
    "C80_l2_norm_partial",
    "C80_div_error",
    "C80_div_scaled",
    "C80_div_norm",
    "C80_error_of_zero",
    "C80_error_to_zero",
    "C80_zero_error",
    "C80_triangle",
    "C80_components_refuted",
    "C80_points",
    "C80_columns_refuted",
    "C80_div_norm_refuted",
    "C80_uneven_never",
    "C80_div_needs",
    "C80_div_scaled_nothing",
    "C80_grad_never",
    "C80_devia_never"
   ],
   "note": "Lagrange fields with more components than the dimension are compared in the first dim components only (refuted); l2_norm does not cut columns where l2_error does (refuted); in one dimension div_norm reports no field (refuted). grad_error, devia_l2_error and devia_l2_norm are proved never to return."
  },
  {
   "property": "C81",
   "status": "proved",
   "theorems": [
    "C81_diameter",
    "C81_no_diameter",
    "C81_centroid",
    "C81_mesh_size",
    "C81_order",
    "C81_tag",
    "C81_stretched",
    "C81_points_never"
   ],
   "note": "Exact real arithmetic; cells without vertices (mean of an empty array) are excluded for the centroid."
  },
  {
   "property": "C82",
   "status": "partial",
   "theorems": [
    "C82_write",
    "C82_continuous",
    "C82_conformal",
    "C82_with_exact",
    "C82_last_field_refuted",
    "C82_spaces",
    "C82_error_partial",
    "C82_error_pairs",
    "C82_error_refuted",
    "C82_exact_only",
    "C82_components_never",
    "C82_components_refuted",
    "C82_cell_needs",
    "C82_tag_needs",
    "C82_function_needs"
   ],
   "note": "write_vtk_file, write_fe_spaces_on_vtk_file_with_exact_solution and write_vtk_file_exact_solution are proved. Refuted: write_vtk_file_with_exact_solution writes the cells with a tag of the last field (of any dimension) in place of those of the mesh dimension; write_vtk_file_pointwise_l2_error broadcasts one-axis exact values of Lagrange fields with several components to all pairs of components; on a one-dimensional mesh the first component of a field is written for all."
  },
  {
   "property": "C83",
   "status": "partial",
   "theorems": [
    "C83_write",
    "C83_three",
    "C83_aligned_refuted",
    "C83_built",
    "C83_colored_never",
    "C83_colored_vertices",
    "C83_empty_slot"
   ],
   "note": "Files without coloring are proved for all closed meshes, except that in dimension 3 the tags of all cells are written: they fit iff every tetrahedron has a tag (refuted otherwise; always so for meshes whose file gives every cell a tag). The coloring part is refuted: the call ends in an error as soon as a line, triangle or tetrahedron has a tag."
  },
  {
   "property": "C84",
   "status": "partial",
   "theorems": [
    "C84_intersection_one_edge",
    "C84_intersection_every_edge",
    "C84_intersection_refuted",
    "C84_union",
    "C84_union_refuted",
    "C84_shared_vertex_is_lost",
    "C84_difference_then_union"
   ],
   "note": "Difference followed by union is proved for cuts whose tools are apart and at most at one end. Intersection is proved for one edge and refuted for two or more (a found vertex is always missing); an edge that no tool touches ends in ValueError. Union is proved if each vertex that gives way belongs to one edge, and refuted otherwise: the second edge loses its end."
  },
  {
   "property": "C85",
   "status": "partial",
   "theorems": [
    "C85_accepted",
    "C85_points_lines",
    "C85_cells",
    "C85_groups",
    "C85_groups_once",
    "C85_groups_once_refuted",
    "C85_curves_lost",
    "C85_curves_refuted",
    "C85_embedded",
    "C85_embedded_refuted",
    "C85_boxes",
    "C85_loop_refuted",
    "C85_shell_refuted",
    "C85_no_graph"
   ],
   "note": "Acceptance and content of the description are proved for all complete domains, and the boxes are complete. Refuted: in three dimensions the tags of undivided curves are dropped, two shapes with the same tag make two groups of the same dimension and tag, and an immersed face with immersed curves is not embedded. gmsh itself is not modelled: acceptance is a specification of its calls."
  },
  {
   "property": "C86",
   "status": "partial",
   "theorems": [
    "C86_accepted",
    "C86_complete",
    "C86_vertices_refuted",
    "C86_points_lines",
    "C86_faces",
    "C86_groups",
    "C86_groups_once",
    "C86_embedded",
    "C86_crossed_refuted",
    "C86_embedded_refuted",
    "C86_refinement",
    "C86_solids_never",
    "C86_solids_name",
    "C86_boxes"
   ],
   "note": "Acceptance and content are proved for all domains of dimension at most two whose references are drawn (an edge immersed in a face has edges immersed in it or nothing). Refuted beyond: a vertex immersed in such an edge is taken for a curve, and a tagged vertex standing for another makes a group of a point that does not exist. Every domain with vertices, curves, faces and a level for solids ends in NameError. gmsh itself is not modelled."
  },
  {
   "property": "C87",
   "status": "partial",
   "theorems": [
    "C87_names",
    "C87_construction",
    "C87_normal_3d",
    "C87_shared_face",
    "C87_conforming_refuted",
    "C87_normal_2d",
    "C87_shared_edge",
    "C87_tangential_3d",
    "C87_shared_tangential",
    "C87_tangential_2d",
    "C87_values_3d",
    "C87_values_2d",
    "C87_one_matrix",
    "C87_line_scalar",
    "C87_line_vector",
    "C87_face_tangential",
    "C87_shared_face_tangential",
    "C87_tagged_face_refuted"
   ],
   "note": "Proved for all cells and all basix elements with the documented traces. Agreement of fluxes of neighbours needs equal orientation: refuted for two tetrahedra of opposite handedness, where the fluxes are opposite (|det J| is used in the Piola map). Tagged faces 1 and 3 are taken in the reflected order. Tangential components on faces of tetrahedra are proved for every degree and agree for neighbours of any handedness, except on tagged faces seen in an even order by one cell and in an odd order by the other (refuted). Vector families on lines are computed only at one point or at as many points as functions."
  },
  {
   "property": "C88",
   "status": "partial",
   "theorems": [
    "C88_trace",
    "C88_flux_3d",
    "C88_flux_2d",
    "C88_tangential_2d",
    "C88_values_3d",
    "C88_values_2d",
    "C88_vertex_functions_refuted",
    "C88_space_trace_fails",
    "C88_product_trace_fails",
    "C88_boundary_request",
    "C88_boundary_functions_partial",
    "C88_boundary_functions_refuted",
    "C88_face_tangential"
   ],
   "note": "The trace on a facet is proved for all facets and elements, with fluxes, values and tangential components. trace_discrete_space and trace_product_space never return a trace: the neighbour (a pair) is looked up among ids (proved for all inputs). Without return_all_dof_q, functions of vertices which do not vanish on the facet are left out (refuted). The count of boundary functions is proved for all dimensions, families and degrees except N1E on triangles, where it is one too many (refuted)."
  },
  {
   "property": "C89",
   "status": "partial",
   "theorems": [
    "C89_exact",
    "C89_total",
    "C89_in_plane",
    "C89_coplanar_branches_unreachable",
    "C89_coplanar_missed",
    "C89_orientation_refuted",
    "C89_outside_refuted",
    "C89_vertex_refuted",
    "C89_translation_refuted"
   ],
   "note": "Exactness is proved for all triangles in general position (no vertex in the plane of the other, the common line clear of the vertices by the tolerance, crossings different from (1,1,1)); totality and position in the plane for all triangles. Refuted outside general position: coplanar triangles never meet, the branches for them are unreachable, the answer depends on the order of the vertices, can stick out of the second triangle, and misses segments through a vertex or starting at (1,1,1)."
  },
  {
   "property": "C90",
   "status": "partial",
   "theorems": [
    "C90_exact",
    "C90_too_few",
    "C90_coplanar_missed",
    "C90_pentagon_refuted",
    "C90_total_refuted"
   ],
   "note": "Exactness is proved for plane convex quadrilaterals whose halves are in general position. Refuted beyond: a fifth corner is ignored, quadrilaterals of one plane never meet, and a common line very near an edge raises ValueError."
  },
  {
   "property": "C91",
   "status": "partial",
   "theorems": [
    "C91_true_means",
    "C91_equidistant",
    "C91_convex_turns",
    "C91_star_refuted",
    "C91_parallelogram_refuted",
    "C91_parallelogram_fails",
    "C91_inside",
    "C91_outside",
    "C91_off_plane",
    "C91_points"
   ],
   "note": "Points are proved for every plane convex polygon that convex_q recognises; polygons with corners equally far from their mean are recognised. Refuted as written: self-crossing stars count as convex, and no parallelogram with different diagonals (ratio below 3) does, after which every point test fails in planes z = constant. Points close to an edge of the fan around the mean are excluded from the outside statement."
  },
  {
   "property": "C92",
   "status": "proved",
   "theorems": [
    "C92_turns",
    "C92_inside",
    "C92_outside",
    "C92_projection",
    "C92_triangulation"
   ],
   "note": "scipy's Delaunay is a parameter. The projection is proved when the computed normal is not zero. That the kept triangles cover a non-convex polygon is not claimed: Delaunay is not constrained to the edges."
  },
  {
   "property": "C93",
   "status": "partial",
   "theorems": [
    "C93_lines_line",
    "C93_lines_lines",
    "C93_unique",
    "C93_overlap_fails"
   ],
   "note": "Proved for segments that cross in one point, or end on each other, or stay apart beyond the tolerance, or are equal. A segment contained in another one raises ValueError (proved). Nearly touching and partly overlapping segments are not covered. numpy's least squares is a parameter."
  },
  {
   "property": "C94",
   "status": "partial",
   "theorems": [
    "C94_incidence",
    "C94_triangle",
    "C94_across",
    "C94_beside",
    "C94_within",
    "C94_inner_end_refuted",
    "C94_diagonal_fails",
    "C94_lines",
    "C94_sizes",
    "C94_false_refuted"
   ],
   "note": "Lines across the plane, beside it, and in it with both ends outside are proved. Refuted: a line in the plane with an end inside loses this end; a line containing an edge of the triangles around the mean (a diagonal of a rectangle) raises an error; False may be returned instead of None; answers with different numbers of points raise ValueError together."
  },
  {
   "property": "C95",
   "status": "partial",
   "theorems": [
    "C95_network",
    "C95_uncrossed_fails",
    "C95_point_ids_refuted",
    "C95_triple_point_refuted"
   ],
   "note": "Proved for all lists of fractures: the layout of cells and points, ids, the lines and their immersion, whenever in each fracture the lines shared with later fractures cross each other (or there is one only); otherwise the run ends with IndexError (proved). How the lines are split is C59 applied to the network of each fracture. Refuted: point ids of corners of later fractures, splitting of later lines at triple points. The tests of polygons and lines are parameters, instantiated with the models of the code (C89, C63) in the examples."
  },
  {
   "property": "C96",
   "status": "proved",
   "theorems": [
    "C96_fractured_polygon",
    "C96_untagged",
    "C96_default_tags_refuted",
    "C96_crossing_group_refuted",
    "C96_default_graph_refuted",
    "C96_set_points_twice_refuted",
    "C96_written"
   ],
   "note": "Recursion limit at least 2. The comparison of points calls a point near itself and argsort returns a permutation. What gmsh accepts is MesherSpec.accepted. Outside the conditions the distinctness of groups, the ends in the group of a fracture, the default graph and repeated set_points fail (the theorems ending in _refuted)."
  },
  {
   "property": "C97",
   "status": "proved",
   "theorems": [
    "C97_polygon",
    "C97_segment",
    "C97_hexahedron"
   ],
   "note": "Recursion limit at least 1, 2 or 3 for the three dimensions. A new builder. What gmsh accepts is MesherSpec.accepted."
  },
  {
   "property": "C98",
   "status": "proved",
   "theorems": [
    "C98_edge",
    "C98_vertex",
    "C98_reversed_refuted",
    "C98_immersed_refuted"
   ],
   "note": "Recursion limit at least 2 (edges) and 1 (vertices). Tool settled as constructors leave it, without immersed shapes for edges: with them the full statement is false (C98_immersed_refuted). Ends are compared in the order of their tags, so the claim for edges as sets of points is false (C98_reversed_refuted). Exact real arithmetic."
  },
  {
   "property": "C99",
   "status": "partial",
   "theorems": [
    "C99_boundary",
    "C99_intersection",
    "C99_crossing",
    "C99_disjoint",
    "C99_tolerance_refuted",
    "C99_tag_refuted",
    "C99_overlap_refuted"
   ],
   "note": "Exact real arithmetic; lstsq is any function solving least squares problems (for the overlap, the solution of minimal norm). The part of the statement on p_eps, on the tag of vertices at ends of the tool, on the order of the edges and on overlaps is false and refuted."
  },
  {
   "property": "C100",
   "status": "partial",
   "theorems": [
    "C100_total",
    "C100_embed",
    "C100_line",
    "C100_off_line_refuted",
    "C100_behind_refuted"
   ],
   "note": "All claims proved for vertices on the ray from the first end through the second (C100_line), the rest for all vertices; a vertex off the line or behind the first end whose distance to the first end is less than the length is embedded too, so the last sentence is refuted. C100_embed assumes that at most one vertex is near each end."
  },
  {
   "property": "C101",
   "status": "partial",
   "theorems": [
    "C101_network",
    "C101_wire",
    "C101_wire_refuted"
   ],
   "note": "C101_network holds for all clear networks. The closed walk is proved when no fracture meets the last side and the physical tags of the sides differ from each other and from that of the fractures; when a fracture crosses the last side the edges of the wire are no walk (C101_wire_refuted), so that the property as stated is false there. Fractures that cross each other on a side are excluded. No collisions of hash(tag) for the tags used."
  },
  {
   "property": "C102",
   "status": "partial",
   "theorems": [
    "C102_test",
    "C102_intersect",
    "C102_pairs_refuted",
    "C102_pairs_partial",
    "C102_tools_refuted",
    "C102_collinear_refuted"
   ],
   "note": "All claims but the last sentence proved for clear networks (C102_intersect): edges definitely not parallel or parallel and definitely not collinear, no points nearly coinciding. The last sentence is refuted: only pairs in which the position of the tool is the higher are looked at (C102_pairs_refuted); vertices are created exactly for these (C102_pairs_partial, which says nothing about how edges are cut then), and they are put into the wrong edges: positions of tools are taken for positions of objects (C102_tools_refuted). For collinear edges without a common point the property fails (C102_collinear_refuted)."
  },
  {
   "property": "C103",
   "status": "partial",
   "theorems": [
    "C103_max_tag",
    "C103_max_physical_tag",
    "C103_shapes_with_physical_tag",
    "C103_lookup_vertex",
    "C103_remove_vertex",
    "C103_remove_early",
    "C103_remove_refuted",
    "C103_refresh_wires"
   ],
   "note": "remove_vertex compares tags, so that a vertex which only shares the tag of a vertex of such a shape remains (C103_remove_refuted); it is proved that exactly the vertices with the tag of a vertex of a shape of the top dimension remain, for dimension 1 and more. refresh_wires for wires whose edges form a path with the first edge stored towards the higher tag (the case of C39)."
  },
  {
   "property": "C104",
   "status": "partial",
   "theorems": [
    "C104_lines",
    "C104_wire",
    "C104_wire_refuted",
    "C104_tags_refuted",
    "C104_untagged"
   ],
   "note": "All but the last two claims proved for clear networks (C104_lines, C104_untagged). The orientation leads round when no line touches the first corner and none crosses the last side away from its ends (C104_wire); when one crosses it, the pieces are in the order from the first corner and no signs lead round (C104_wire_refuted). Tags of sides, wire and pieces differ, and those of the lines are 1, 2, ...; a line can have the tag of a side (C104_tags_refuted)."
  },
  {
   "property": "C105",
   "status": "partial",
   "theorems": [
    "C105_planes",
    "C105_box_refuted",
    "C105_box_fails",
    "C105_untagged"
   ],
   "note": "build_disjoint_planes proved in full (C105_planes). The last claim is false: build_box_3D_with_planes reads the name intersect_faces, which is not imported, and raises NameError for every box with a physical tag (C105_box_refuted), ValueError for one without (C105_untagged), and never returns (C105_box_fails)."
  },
  {
   "property": "C106",
   "status": "partial",
   "theorems": [
    "C106_line_test",
    "C106_line_found",
    "C106_line_partial",
    "C106_line_refuted",
    "C106_collapse",
    "C106_vertices",
    "C106_edge_ends",
    "C106_edge_refuted",
    "C106_face"
   ],
   "note": "Points of the line are found (C106_line_found); the converse holds when A and B differ in every coordinate (C106_line_partial) and is false otherwise, since equal coordinates are not compared (C106_line_refuted; C106_line_test is the exact outcome). vertex_edge_intersection finds the ends (C106_edge_ends) and no vertex inside the edge (C106_edge_refuted). The other claims are proved in full."
  },
  {
   "property": "C107",
   "status": "partial",
   "theorems": [
    "C107_constructor",
    "C107_quadrature",
    "C107_dimension_zero_refuted",
    "C107_spaces_refuted",
    "C107_never"
   ],
   "note": "The constructor is proved in full (C107_constructor), the quadrature for fields of dimensions 1 to 3 (C107_quadrature); with a field of dimension 0 the method raises KeyError (C107_dimension_zero_refuted). The last claim is false: the module does not import DiscreteSpace, so that defining spaces raises NameError (C107_spaces_refuted), and after any sequence of calls destination_indexes raises AttributeError or ValueError (C107_never)."
  },
  {
   "property": "C108",
   "status": "partial",
   "theorems": [
    "C108_found_partial",
    "C108_edges",
    "C108_recurs_refuted",
    "C108_pairs_refuted",
    "C108_axis_partial",
    "C108_axis_refuted"
   ],
   "note": "The pairs of faces and their segments are found if the position of the tool is the higher and no segment comes twice (C108_found_partial); what follows is a parameter. The edges are created from the segments as stated (C108_edges). The intersections within the faces, lines 384-425, are not modelled but for the axis. Refuted: a segment in which two pairs meet makes the call raise TypeError (C108_recurs_refuted); tools at the same or a lower position are skipped (C108_pairs_refuted); a face with a diagonal along an axis can be projected to a line (C108_axis_refuted; C108_axis_partial has a sufficient condition)."
  },
  {
   "property": "C109",
   "status": "partial",
   "theorems": [
    "C109_new",
    "C109_element",
    "C109_mapping_refuted",
    "C109_copy_refuted",
    "C109_store_refuted"
   ],
   "note": "Constructors proved but for MappingData, which assigns local variables and keeps nothing (C109_mapping_refuted). copy is a classmethod that reads instance attributes: it raises AttributeError for four classes and returns empty data for the other two (C109_copy_refuted). store_mapping reads mapping.cell_points, which is never assigned (C109_store_refuted). That default arguments are shared between objects is not modelled."
  },
  {
   "property": "C110",
   "status": "partial",
   "theorems": [
    "C110_report",
    "C110_faithful",
    "C110_untagged_refuted",
    "C110_unused_refuted"
   ],
   "note": "Proved for all meshes without empty slots and with a tagged cell; reports determine points and cells. False for meshes without physical tags (ValueError after three lines) and for meshes with a point in no element (AttributeError, the file is left empty). Lines are the arguments of print: the spelling of numbers is not modelled."
  },
  {
   "property": "C111",
   "status": "partial",
   "theorems": [
    "C111_one_fracture",
    "C111_all_fractures",
    "C111_succeeds",
    "C111_sides_separated",
    "C111_network_partial",
    "C111_tags_refuted",
    "C111_other_dimensions"
   ],
   "note": "Proved for one fracture and, as a chain of such cuts, for all; the map returned is right for a whole network if no tag is the tag of copies of an earlier fracture (C111_network_partial). The part about the map returned is false if 10 t + 1 is the tag of a later fracture: the copies are copied again (C111_tags_refuted; a network with 11 fractures and the default shift has the tags 1 and 11). compute_fracture_normals is represented by the tags and an arbitrary classification."
  }
 ]
}