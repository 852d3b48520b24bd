# Formal model of nfempy in Rocq

Coq 8.16.1, standard library only.  `MANIFEST.json` gives the machine-readable state of every
property of `properties.jsonl`, `seeded/LOG.jsonl` the faults that were put into the model to
test the theorems.

## Trusted base

* Coq's kernel (8.16.1), with all its checks on.  No axiom, parameter, `Admitted`, functor,
  module type or plugin of our own.
* What `Print Assumptions` prints under every theorem in the `P_*.v` files: "Closed under the
  global context" for everything about meshes, graphs, DoFs, spaces, assembly, cutting,
  shapes, tags, fracture networks, colouring and loops.  The theorems about real geometry
  (P_Geometry, P_Map, P_Metric, part of P_Shape, P_Vertex and P_Post) depend on the axioms of the
  standard library's real numbers:
  `ClassicalDedekindReals.sig_forall_dec`, `ClassicalDedekindReals.sig_not_dec`,
  `FunctionalExtensionality.functional_extensionality_dep` and in places
  `Classical_Prop.classic`.  The opaque real operations of `Rdefinitions` (`R`, `R0`, `Rplus`,
  ...) and the opaque constants of `ssr.ssrunder` are listed by `coqchk` because loaded library
  files contain them as sealed modules; no theorem here uses the latter.
* The modelling itself: that the Gallina definitions say what the Python lines they cite do.
  Every definition in a `*Model.v` file cites file and lines of /repo.  The assumptions that
  are not visible in a definition are the conventions below.

## Conventions of the model

* Python values become small Gallina data: ids and node tags `nat`, physical tags `option Z`
  (`None` = no tag), DoF numbers `nat` (`Z` for shifts that may be negative), coordinates real
  or rational numbers or elements of an arbitrary type.
* Exceptions are values: `res A := Ok a | Err e`, `e` naming the Python exception class.  A
  function that can raise returns `res`.  Where the state after an exception matters (C27, C30)
  it is part of the value; elsewhere it is not modelled.
* `dict` is an association list in insertion order: an old key keeps its place, the last write
  wins.  `networkx.DiGraph` is a list of nodes and a duplicate-free list of arrows, both in
  insertion order.
* Objects that are changed in place are positions in a list (heap); objects that are only read
  are values.
* numpy integer arrays are lists.  Floating point is NOT modelled: arithmetic is exact (`nat`,
  `Z`, `Q`, `R` or an abstract structure with an addition).  The tolerances of `np.isclose` and of
  `globals.py` are modelled with exact arithmetic.
* Calls into libraries (basix, `np.argsort`, `np.linalg.lstsq/qr/inv`, `np.unique` of floats,
  `nx.coloring.equitable_color`) and user callables (weak forms, side classifiers, intersection
  tests) are parameters of the model functions, universally quantified in the theorems, with
  hypotheses stating the documented behaviour where needed.  Each has a concrete instance in an
  example.
* Local systems of weak forms: numbers are elements of an arbitrary type with the laws of a ring
  or a field (exact arithmetic); numpy float arrays are functions of their indices; values of
  basis functions, Jacobian determinants, inverse Jacobians and values of user functions at the
  quadrature points are arbitrary data.
* The library auto_diff is assumed to be forward differentiation (dual numbers over the entries of
  the state, handled as one row).  The penalties 1.0e12 and 1.0e6 are parameters.  What boundary
  forms read from the neighbouring element (basis at mapped points, unit normal, DoFs of the facet)
  is data.
* Python's recursion limit is the parameter `fuel`; `Err RecursionError` is its exhaustion.
* Loops are `fold`/`foldM`/`mapM` over the sequence Python iterates over.

## Layout of `rocq/theories`

* `*Model.v` - definitions only
* `*Spec.v` - vocabulary of the statements, independent of the model's helpers
* `*Proof*.v` and others - lemmas
* `*Examples.v` - concrete data used by the examples
* `P_*.v` - the property theorems, each closed by `exact`, with `Print Assumptions` and a
  concrete `Example`

Names: `Cnn_..._partial` proves part of property Cnn (what is missing is said beside it and in
MANIFEST.json); `Cnn_..._refuted` shows that the property as written is false of the code.

## What is modelled

| source | model | theorems |
|---|---|---|
| src/mesh/mesh.py (construction from gmsh blocks, registry, append_cells) and mesh_cell.py | MeshModel, RegistryModel | P_Mesh |
| src/mesh/mesh.py graphs, mesh_topology.py, topological_queries.py | GraphModel | P_Graph |
| src/mesh/mesh.py:737-923, 1414-1426 (cutting along embedded shapes) | CutModel | P_Cut |
| src/mesh/mesh.py:1442-1561 (circulation of internal boundaries) | LoopModel | P_Loop |
| src/mesh/mesh_operations.py:206-227 (node replacement) | GraphOpsModel | P_Ops |
| src/mesh/mesh_operations.py:159-191, 230-411 (cutting along lines) | LineCutModel | P_LineCut |
| src/mesh/mesh_coloring.py | ColorModel | P_Color |
| src/mesh/discrete_domain.py:18-29, 94-101, conformal_mesher.py:38-94, topology/domain.py:51-65 (numbering) | TagModel | P_Tags |
| src/spaces/dof_map.py | DofModel | P_Dof |
| src/spaces/discrete_space.py, product_space.py, basis/element_type.py | SpaceModel | P_Space |
| src/assembly/ScatterFormData.py, SequentialAssembler.py | AssemblyModel | P_Assembly |
| src/postprocess/projectors.py (assembly part) | ProjectorModel | P_Assembly |
| src/basis/permute_and_transform.py, finite_element.py:111-118 | OrientModel | P_Orient |
| src/basis/parametric_transformation.py, geometry/mapping.py | MapModel | P_Map |
| src/geometry: compute_normal.py, point/line/polygon operations (the lines cited in GeoModel), mesh_cell.py:5-49, mesh.py:721-735 | GeoModel | P_Geometry |
| src/geometry/fracture_network.py (1-D networks), geometry_cell.py | FracModel | P_Fracture |
| src/geometry/operations/triangle_triangle_intersection_test.py (segments) | SegModel | P_Fracture |
| src/topology: shape.py, vertex.py, edge.py, wire.py, face.py, shell.py, solid.py, domain.py:8-20, 84-125, domain_operations.py:31-44, domain_market.py:38-169 | ShapeModel | P_Shape |
| src/topology/operations/vertex_operations.py (without lines 37-61) | VertexModel | P_Vertex |
| src/topology/operations/edge_operations.py, vertex_operations.py:21-46 | EdgeOpsModel | P_EdgeOps |
| src/topology/shape_manipulation.py:115-122, 137-194 (embed_vertex_in_edge, with the vertices as objects) | EmbedModel | P_Embed |
| src/weak_forms/l2_projector_weak_form.py | FormModel | P_Forms |
| src/weak_forms: laplace_dual_weak_form.py, le_primal_weak_form.py (dimension 2 and 3) | AdModel, AdModel2 | P_Laplace, P_Elastic, P_Boundary |
| src/weak_forms: lce_primal_weak_form.py, le_taylor_hood_weak_form.py, degenerate_elliptic_weak_form.py, unscaled_elliptic_weak_form.py, scaled_to_physical_l2_projection.py, le_primal_stress_constraint_weak_form.py | AdModel2 | P_Boundary (boundary forms), P_Mixed, P_Solid |
| src/weak_forms: le_dual_weak_form.py:354-510, lce_dual_weak_form.py, lce_scaled_dual_weak_form.py, le_riesz_map_weak_form.py:258-370, lce_riesz_map_weak_form.py, lce_scaled_riesz_map_weak_form.py (volume forms) | DualModel | P_Dual, P_ScaledDual, P_Riesz |
| src/weak_forms: boundary forms of le_dual, lce_dual, lce_scaled_dual; laplace_primal_weak_form.py up to the unpacking of the quadrature | DualBcModel | P_DualBoundary |
| src/postprocess/l2_error_post_processor.py, solution_norms_post_processor.py (devia_* up to the unpacking of the quadrature, grad_error up to its first element) | PostModel | P_Post |
| src/mesh/mesh_metrics.py | MetricModel | P_Metric |
| src/postprocess/solution_post_processor.py (arguments of meshio.Mesh) | ExportModel | P_Export |
| src/mesh/mesh.py:427-637 (write_vtk, arguments of meshio.Mesh) | MeshFileModel | P_MeshFile |
| src/topology/operations/domain_operations.py:31-218 (domains of vertices and edges; hash of tags a parameter) | DomainModel | P_Domain |
| src/topology/domain_market.py:172-301 (create_md_box_2D; least squares, sorting, Delaunay triangulation and hash of tags parameters) | MdBoxModel | P_MdBox |
| src/topology/shape_manipulation.py:197-289 (intersect_edges without rendering; the edges of an array are distinct objects), src/geometry/operations/triangle_triangle_intersection_test.py:11-12, 21-30, 72-130 (its first point) | IntersectModel | P_Intersect |
| src/mesh/conformal_mesher.py:124-331 (transfer_domain_occ_descritpion; the result is the list of calls to gmsh) | MesherModel | P_Mesher |
| src/topology/domain.py:22-49, 67-83 (queries) | QueryModel | P_Query |
| src/topology/domain_market.py:305-373, src/topology/shape_manipulation.py:292-293 (boxes with lines; rows of the file as argument) | LinesModel | P_BoxLines |
| src/topology/domain_market.py:375-486 (planes; rows of the file as argument; names of the module) | PlanesModel | P_Planes |
| src/topology/shape_manipulation.py:17-112, 125-134, src/topology/operations/vertex_operations.py:49-61 (points on vertices, lines, edges, faces) | SnapModel | P_Snap |
| src/spaces/md_product_space.py (attributes are assigned by the methods only) | MdSpaceModel | P_MdSpace |
| src/topology/shape_manipulation.py:125-134, 319-382, 393-398 (polygon test and edge equality parameters; 384-392, 400-425 not modelled) | FaceCutModel, FaceEdgeModel | P_FaceCut |
| src/basis/element_data.py, src/geometry/mapping.py:58-65 (sharing of default arguments left out) | DataModel | P_Data |
| src/mesh/mesh.py:377-425 (write_data; lines as the arguments of print), mesh_cell.py:118-121 | ReportModel | P_Report |
| src/mesh/mesh.py:998-1168 (cutting along fractures; normals as an arbitrary classification) | FracCutModel (on CutModel) | P_FracCut |
| src/mesh/discrete_domain.py:31-92, 103-321 (convert_domain_to_occ_description; the result is the list of calls to gmsh, mesh type and coefficient of transfinite curves left out) | MesherModel | P_Discrete |
| src/basis/finite_element.py, src/basis/element_family.py:4-12 (basix a parameter; attributes data.mapping left out) | ElementModel | P_Element, P_FaceTangent |
| src/basis/basis_trace.py:9-69, src/spaces/discrete_space.py:163-211 (family, degree and flag of boundary elements) | TraceModel | P_Trace, P_FaceTangent |
| src/geometry/operations/triangle_triangle_intersection_test.py:14-60, 132-443, polygon_polygon_intersection_test.py:10-15, 44-112 (rational coordinates; plotting left out) | TriModel | P_Triangles |
| src/geometry/operations/polygon_geometry_operations.py:6-100, 128-149, point_geometry_operations.py:164-238 (scipy's Delaunay a parameter) | PolyModel | P_Polygon |
| src/geometry/operations/line_geometry_operations.py:57-105, 138-325, point_geometry_operations.py:85-93 (np.linalg.lstsq, np.argsort, Delaunay parameters) | LineModel | P_Lines |
| src/geometry/fracture_network.py:70-199 (polygon test, coordinates, sorting parameters) | SurfModel | P_Surfaces |
| src/geometry/geometry_builder.py:7-234 (without set_boundary, build_internal_bc, drawing), src/mesh/conformal_mesher.py:27-36, 333-499, 518-546, src/geometry/fracture_network.py:304-311 (mesh sizes and the meshing calls left out) | BuilderModel | P_Builder |

## What is not modelled

* Floating-point rounding, overflow, nan; timing and printing.
* gmsh, meshio and vtk (reading and writing files, the mesher itself): their data enter as
  arguments.
* basix tabulation (values of basis functions, transformation matrices): arbitrary rows and
  matrices, in C87 with the documented traces; quadrature points and weights.
* PETSc solvers and linear solves; in the export of solutions what meshio does with its arguments,
  ragged arrays of node tags, and spaces of dimension 0.
* The weak forms not listed above, except through the interface the assembler uses.
* domain_operations.py:47-218 and shape_manipulation.py, unless listed above.
* State of an object after an exception, except where the theorem says so.

## Properties

| id | property | status | theorems |
|---|---|---|---|
| C01 | Conformal numbering: a cell's id is its index | proved | `C01_id_is_index` |
| C02 | No duplicated entity | proved | `C02_no_duplicate_entity` |
| C03 | Conformity: shared nodes mean a shared sub-cell id | proved | `C03_conformity` |
| C04 | Incidence lists are closed and in reference order | proved | `C04_incidence_lists` |
| C05 | Physical tags: the last tag given wins, nothing else is tagged | proved | `C05_last_tag_wins` |
| C06 | Every slot of the cell array holds a cell | partial | `C06_every_slot_filled_refuted`, `C06_empty_slots_are_unused_points`, `C06_built_mesh_is_good` |
| C07 | Legacy cell registry distinguishes different cells | partial | `C07_registry_refuted`, `C07_registry_partial` |
| C08 | append_cells keeps the id = index invariant | partial | `C08_append_cells`, `C08_append_cells_refuted` |
| C09 | Incidence graph is exactly the incidence relation | proved | `C09_graph_is_incidence` |
| C10 | Tag-restricted graph is the restriction to the tagged cells | proved | `C10_tagged_graph_is_restriction` |
| C100 | Vertices embedded in an edge | partial | `C100_total`, `C100_embed`, `C100_line`, `C100_off_line_refuted`, `C100_behind_refuted` |
| C101 | Boxes with fractures | partial | `C101_network`, `C101_wire`, `C101_wire_refuted` |
| C102 | Edges intersected with each other | partial | `C102_test`, `C102_intersect`, `C102_pairs_refuted`, `C102_pairs_partial`, `C102_tools_refuted`, `C102_collinear_refuted` |
| C103 | Queries of a domain | partial | `C103_max_tag`, `C103_max_physical_tag`, `C103_shapes_with_physical_tag`, `C103_lookup_vertex`, `C103_remove_vertex`, `C103_remove_early`, `C103_remove_refuted`, `C103_refresh_wires` |
| C104 | Boxes with lines | partial | `C104_lines`, `C104_wire`, `C104_wire_refuted`, `C104_tags_refuted`, `C104_untagged` |
| C105 | Planes in a box | partial | `C105_planes`, `C105_box_refuted`, `C105_box_fails`, `C105_untagged` |
| C106 | Points on vertices, lines, edges and faces | partial | `C106_line_test`, `C106_line_found`, `C106_line_partial`, `C106_line_refuted`, `C106_collapse`, `C106_vertices`, `C106_edge_ends`, `C106_edge_refuted`, `C106_face` |
| C107 | Mixed-dimensional product spaces | partial | `C107_constructor`, `C107_quadrature`, `C107_dimension_zero_refuted`, `C107_spaces_refuted`, `C107_never` |
| C108 | Faces intersected with each other | partial | `C108_found_partial`, `C108_edges`, `C108_recurs_refuted`, `C108_pairs_refuted`, `C108_axis_partial`, `C108_axis_refuted` |
| C109 | Data of elements | partial | `C109_new`, `C109_element`, `C109_mapping_refuted`, `C109_copy_refuted`, `C109_store_refuted` |
| C11 | Topology entity lists are duplicate free and complete | proved | `C11_entity_lists`, `C11_topology_can_be_built` |
| C110 | Report of a mesh | partial | `C110_report`, `C110_faithful`, `C110_untagged_refuted`, `C110_unused_refuted` |
| C111 | Cutting along the fractures of a network | partial | `C111_one_fracture`, `C111_all_fractures`, `C111_succeeds`, `C111_sides_separated`, `C111_network_partial`, `C111_tags_refuted`, `C111_other_dimensions` |
| C12 | Neighbour queries agree with incidence | partial | `C12_higher_neighbours`, `C12_lower_neighbours_refuted`, `C12_lower_neighbours_are_never_lower` |
| C13 | DoF numbering is a bijection | proved | `C13_numbering_is_bijective`, `C13_numbering_can_be_built` |
| C14 | Shared entities share DoFs | proved | `C14_shared_entities_share_dofs` |
| C15 | Destination lists are injective, in range and of the right length | proved | `C15_destinations` |
| C16 | Boundary DoFs are the facet's DoFs | proved | `C16_boundary_dofs`, `C16_boundary_dofs_independent` |
| C17 | Discontinuous spaces do not couple cells | proved | `C17_discontinuous` |
| C18 | DoF shift only translates | proved | `C18_shift_translates` |
| C19 | Fields of a product space own disjoint blocks | proved | `C19_fields_own_disjoint_blocks`, `C19_destinations_exist` |
| C20 | Product destinations are the concatenation in declaration order | proved | `C20_concatenation`, `C20_concatenation_exists`, `C20_bc_concatenation`, `C20_bc_concatenation_exists` |
| C21 | dof_shift setter | proved | `C21_setter`, `C21_last_accepted` |
| C22 | A product space can be built for every dimension 0 to 3 | partial | `C22_dimension_zero_refuted`, `C22_quadratures`, `C22_product_can_be_built` |
| C23 | Element index and cell id are mutually inverse | partial | `C23_element_ids`, `C23_structures_can_be_built`, `C23_boundary_elements`, `C23_rebuild_without_tags_refuted` |
| C24 | Assembled residual is the sum of local contributions | proved | `C24_residual` |
| C25 | Assembled Jacobian is the sum of local contributions | proved | `C25_jacobian` |
| C26 | Assembly is independent of traversal order | proved | `C26_order_independent` |
| C27 | Assembly touches only destinations | proved | `C27_frame` |
| C28 | Local evaluations receive the current state on their own DoFs | partial | `C28_local_states_partial`, `C28_time_dependent_bc_refuted` |
| C29 | Form dispatch is total on the documented types and rejects others | proved | `C29_rejects`, `C29_dispatch` |
| C30 | L2 projection matrix equals the sum of the local mass matrices | partial | `C30_projection_system_partial`, `C30_small_entries_refuted` |
| C31 | Cutting along embedded shapes keeps id = index and the old cells' identity | proved | `C31_one_interface`, `C31_all_interfaces`, `C31_counts`, `C31_succeeds`, `C31_built_mesh_ready`, `C31_other_dimensions` |
| C32 | Cutting separates the two sides | proved | `C32_sides_separated` |
| C33 | Duplicated vertices are incident to themselves | partial | `C33_own_id_refuted`, `C33_own_id_partial` |
| C34 | Relabelling a cell changes exactly the mapped entries | proved | `C34_update_entity`, `C34_update_nodes` |
| C35 | Replacing a graph node keeps its predecessors | partial | `C35_replace_node`, `C35_replace_nodes`, `C35_replace_node_by_itself_refuted` |
| C36 | Cutting along lines keeps id = index | partial | `C36_one_line`, `C36_copies`, `C36_old_cells_keep_identity`, `C36_sides_apart`, `C36_succeeds_iff`, `C36_all_lines`, `C36_other_dimensions`, `C36_built_mesh_ready`, `C36_id_index_refuted` |
| C37 | Boundary of a shape is sorted by tag and of admissible dimension | proved | `C37_immersed`, `C37_boundary` |
| C38 | Equality of shapes is an equivalence that sees the whole boundary representation | partial | `C38_equality_partial`, `C38_same_equal`, `C38_equivalence_partial`, `C38_boundary_refuted`, `C38_symmetry_refuted` |
| C39 | Wire orientation walks along the edges | proved | `C39_wire` |
| C40 | Retagging gives distinct consecutive tags | partial | `C40_retag_partial`, `C40_refuted` |
| C41 | create_domain keeps exactly one representative per (dimension, tag) | partial | `C41_create_domain_partial`, `C41_refuted` |
| C42 | Difference of an edge by points is a chain from end to end | partial | `C42_difference_is_a_chain_partial`, `C42_difference_is_a_chain_refuted`, `C42_inner_vertices_are_doubled`, `C42_several_edges` |
| C43 | Intersections with several edges get different tags | partial | `C43_one_edge_partial`, `C43_several_edges_refuted` |
| C44 | Mesher tags are unique | partial | `C44_stride_partial`, `C44_stride_refuted`, `C44_conformal`, `C44_conformal_total` |
| C45 | Box domains are well formed | proved | `C45_box_1D`, `C45_box_2D`, `C45_box_3D` |
| C46 | Trace map agrees with the geometry | partial | `C46_trace_position`, `C46_affine_map` |
| C47 | Face orientation data reproduce the node order | proved | `C47_face_orientation` |
| C48 | Two tetrahedra agree on a shared face | partial | `C48_rows_after_transformation`, `C48_shared_face`, `C48_tagged_face_refuted`, `C48_tagged_facets` |
| C49 | Point on segment test | proved | `C49_point_on_segment` |
| C50 | Point in triangle test | proved | `C50_inside`, `C50_answered`, `C50_outside`, `C50_off_plane` |
| C51 | Line-line intersection point lies on both segments | proved | `C51_line_line`, `C51_inside_missed` |
| C52 | Triangulation of a convex polygon preserves the area vector | proved | `C52_triangulation` |
| C53 | Normals are unit, orthogonal and outward | proved | `C53_normal` |
| C54 | Interface tags from pairing are unique | partial | `C54_pair_injective`, `C54_pair_onto`, `C54_unpair_only_first_zero` |
| C55 | Rotation of vectors | partial | `C55_rotation_products`, `C55_rotation`, `C55_embedded_normal` |
| C56 | Jacobian determinant and pseudo-inverse | proved | `C56_jacobian`, `C56_columns` |
| C57 | Circulating an internal boundary terminates or fails loudly | proved | `C57_circulates`, `C57_true_or_error`, `C57_ends`, `C57_from_domain` |
| C58 | Mesh colouring | partial | `C58_maps_partial`, `C58_returns_refuted`, `C58_never_returns` |
| C59 | Splitting a fracture line at its intersections gives a chain | partial | `C59_fracture_chain`, `C59_aligned_fractures_refuted` |
| C60 | Restricted graphs and the full topology select the right cells | proved | `C60_graph_on_materials`, `C60_graph_from_cell_ids`, `C60_unknown_cell_id`, `C60_topology_of_all_cells`, `C60_topology_can_be_built` |
| C61 | Options of a product space reach exactly the named fields | proved | `C61_options_of_fields` |
| C62 | Which inputs the mesh construction accepts | proved | `C62_construction_succeeds_iff` |
| C63 | The segment test of fracture networks is exact for crossing segments | proved | `C63_segment_test`, `C63_aligned_segments`, `C63_aligned_segments_refuted`, `C63_aligned_overlap` |
| C64 | All triangles at an edge use the orientation of the edge cell | proved | `C64_triangle_edges` |
| C65 | The graph of a domain shows exactly who bounds or is immersed in whom | proved | `C65_graph` |
| C66 | Assigning a shape makes an equal shape | proved | `C66_assignment`, `C66_assignment_same` |
| C67 | Cells and graph of a fracture network | proved | `C67_cells`, `C67_graph` |
| C68 | Membership in a shape | partial | `C68_member_partial`, `C68_counts`, `C68_closed_refuted`, `C68_mixed_refuted` |
| C69 | Vertices touch an edge where they lie | proved | `C69_where` |
| C70 | The local system of the L2 projection | proved | `C70_entries`, `C70_all_numbers`, `C70_succeeds_iff`, `C70_symmetric`, `C70_norm`, `C70_reproduces` |
| C71 | The local system of the mixed Laplace form | partial | `C71_system_partial`, `C71_matrix`, `C71_energy`, `C71_state_refuted` |
| C72 | The local system of linear elasticity | proved | `C72_system`, `C72_exact_jacobian`, `C72_matrix`, `C72_symmetric`, `C72_rigid`, `C72_translation` |
| C73 | The local systems of the boundary forms | partial | `C73_dirichlet_partial`, `C73_cosserat_partial`, `C73_neumann`, `C73_normal_computed`, `C73_normal_partial`, `C73_potential`, `C73_unscaled_potential`, `C73_degenerate_potential`, `C73_dirichlet_state_refuted`, `C73_normal_slanted_refuted` |
| C74 | The local systems of the elliptic forms with porosity | proved | `C74_degenerate_system`, `C74_degenerate_jacobian`, `C74_degenerate_energy`, `C74_unscaled_system`, `C74_unscaled_jacobian`, `C74_scaling`, `C74_physical_system`, `C74_physical_jacobian`, `C74_physical_solved` |
| C75 | The local systems of the solids with a stress constraint, a pressure or micro-rotations | proved | `C75_stress_system`, `C75_stress_jacobian`, `C75_stress_met`, `C75_taylor_hood_system`, `C75_taylor_hood_jacobian`, `C75_taylor_hood_symmetric`, `C75_taylor_hood_consistent`, `C75_cosserat_system`, `C75_cosserat_jacobian`, `C75_cosserat_symmetric`, `C75_cosserat_matrix`, `C75_cosserat_rigid`, `C75_cosserat_classical` |
| C76 | The local systems of the dual forms of linear and Cosserat elasticity | partial | `C76_system`, `C76_jacobian`, `C76_saddle`, `C76_compliance`, `C76_vectorized_partial`, `C76_agree`, `C76_vectorized_state_refuted`, `C76_elastic_partial`, `C76_elastic_saddle`, `C76_elastic_state_refuted` |
| C77 | The local system of the dual Cosserat form with a scaled couple stress | partial | `C77_system`, `C77_jacobian`, `C77_saddle`, `C77_vectorized_partial`, `C77_agree`, `C77_vectorized_state_refuted`, `C77_change` |
| C78 | The Riesz maps of the dual problems | partial | `C78_system`, `C78_jacobian`, `C78_norm`, `C78_vectorized_partial`, `C78_vectorized_state_refuted`, `C78_scaled_system`, `C78_scaled_vectorized_partial`, `C78_scaled_norm`, `C78_scaled_agree`, `C78_elastic_partial`, `C78_elastic_norm` |
| C79 | The boundary forms of the dual problems, and the forms that cannot be evaluated | partial | `C79_displacement`, `C79_cosserat`, `C79_scaled`, `C79_traction_partial`, `C79_traction_state_refuted`, `C79_old_traction_never`, `C79_four_rules`, `C79_laplace_primal_never`, `C79_laplace_primal_bc_never`, `C79_elastic_never` |
| C80 | Errors and norms of solutions | partial | `C80_l2_error_partial`, `C80_projected_partial`, `C80_l2_norm_partial`, `C80_div_error`, `C80_div_scaled`, `C80_div_norm`, `C80_error_of_zero`, `C80_error_to_zero`, `C80_zero_error`, `C80_triangle`, `C80_components_refuted`, `C80_points`, `C80_columns_refuted`, `C80_div_norm_refuted`, `C80_uneven_never`, `C80_div_needs`, `C80_div_scaled_nothing`, `C80_grad_never`, `C80_devia_never` |
| C81 | Sizes of cells and meshes | proved | `C81_diameter`, `C81_no_diameter`, `C81_centroid`, `C81_mesh_size`, `C81_order`, `C81_tag`, `C81_stretched`, `C81_points_never` |
| C82 | Export of solutions | partial | `C82_write`, `C82_continuous`, `C82_conformal`, `C82_with_exact`, `C82_last_field_refuted`, `C82_spaces`, `C82_error_partial`, `C82_error_pairs`, `C82_error_refuted`, `C82_exact_only`, `C82_components_never`, `C82_components_refuted`, `C82_cell_needs`, `C82_tag_needs`, `C82_function_needs` |
| C83 | Export of meshes | partial | `C83_write`, `C83_three`, `C83_aligned_refuted`, `C83_built`, `C83_colored_never`, `C83_colored_vertices`, `C83_empty_slot` |
| C84 | Operations with domains | partial | `C84_intersection_one_edge`, `C84_intersection_every_edge`, `C84_intersection_refuted`, `C84_union`, `C84_union_refuted`, `C84_shared_vertex_is_lost`, `C84_difference_then_union` |
| C85 | The description of a domain for gmsh | partial | `C85_accepted`, `C85_points_lines`, `C85_cells`, `C85_groups`, `C85_groups_once`, `C85_groups_once_refuted`, `C85_curves_lost`, `C85_curves_refuted`, `C85_embedded`, `C85_embedded_refuted`, `C85_boxes`, `C85_loop_refuted`, `C85_shell_refuted`, `C85_no_graph` |
| C86 | The description of a domain by DiscreteDomain | partial | `C86_accepted`, `C86_complete`, `C86_vertices_refuted`, `C86_points_lines`, `C86_faces`, `C86_groups`, `C86_groups_once`, `C86_embedded`, `C86_crossed_refuted`, `C86_embedded_refuted`, `C86_refinement`, `C86_solids_never`, `C86_solids_name`, `C86_boxes` |
| C87 | Finite elements: which one is created and what its functions are on the cell | partial | `C87_names`, `C87_construction`, `C87_normal_3d`, `C87_shared_face`, `C87_conforming_refuted`, `C87_normal_2d`, `C87_shared_edge`, `C87_tangential_3d`, `C87_shared_tangential`, `C87_tangential_2d`, `C87_values_3d`, `C87_values_2d`, `C87_one_matrix`, `C87_line_scalar`, `C87_line_vector`, `C87_face_tangential`, `C87_shared_face_tangential`, `C87_tagged_face_refuted` |
| C88 | Traces of the basis on facets and the elements on the boundary | partial | `C88_trace`, `C88_flux_3d`, `C88_flux_2d`, `C88_tangential_2d`, `C88_values_3d`, `C88_values_2d`, `C88_vertex_functions_refuted`, `C88_space_trace_fails`, `C88_product_trace_fails`, `C88_boundary_request`, `C88_boundary_functions_partial`, `C88_boundary_functions_refuted`, `C88_face_tangential` |
| C89 | Intersection of two triangles in space | partial | `C89_exact`, `C89_total`, `C89_in_plane`, `C89_coplanar_branches_unreachable`, `C89_coplanar_missed`, `C89_orientation_refuted`, `C89_outside_refuted`, `C89_vertex_refuted`, `C89_translation_refuted` |
| C90 | Intersection of two polygons in space | partial | `C90_exact`, `C90_too_few`, `C90_coplanar_missed`, `C90_pentagon_refuted`, `C90_total_refuted` |
| C91 | Convexity test and points in polygons | partial | `C91_true_means`, `C91_equidistant`, `C91_convex_turns`, `C91_star_refuted`, `C91_parallelogram_refuted`, `C91_parallelogram_fails`, `C91_inside`, `C91_outside`, `C91_off_plane`, `C91_points` |
| C92 | Turns of a polygon around a point and triangles of non-convex polygons | proved | `C92_turns`, `C92_inside`, `C92_outside`, `C92_projection`, `C92_triangulation` |
| C93 | Lines against lines | partial | `C93_lines_line`, `C93_lines_lines`, `C93_unique`, `C93_overlap_fails` |
| C94 | Lines against triangles and polygons | partial | `C94_incidence`, `C94_triangle`, `C94_across`, `C94_beside`, `C94_within`, `C94_inner_end_refuted`, `C94_diagonal_fails`, `C94_lines`, `C94_sizes`, `C94_false_refuted` |
| C95 | Networks of fractures in space | partial | `C95_network`, `C95_uncrossed_fails`, `C95_point_ids_refuted`, `C95_triple_point_refuted` |
| C96 | Meshing a polygon with fractures | proved | `C96_fractured_polygon`, `C96_untagged`, `C96_default_tags_refuted`, `C96_crossing_group_refuted`, `C96_default_graph_refuted`, `C96_set_points_twice_refuted`, `C96_written` |
| C97 | Boxes handed to gmsh | proved | `C97_polygon`, `C97_segment`, `C97_hexahedron` |
| C98 | Collapsing an edge onto an equal one | proved | `C98_edge`, `C98_vertex`, `C98_reversed_refuted`, `C98_immersed_refuted` |
| C99 | Intersection of two edges | partial | `C99_boundary`, `C99_intersection`, `C99_crossing`, `C99_disjoint`, `C99_tolerance_refuted`, `C99_tag_refuted`, `C99_overlap_refuted` |

## Findings: where the code does not do what the property says

Each is a theorem (named in the table) unless marked "by reading".

* C06: a point used by no cell leaves an empty slot, and every graph query then raises.
* C07: the decimal string key of the registry collides (1,11 and 11,1).
* C08: `append_cells` accepts gaps and repetitions among new ids.
* C12: `find_lower_dimension_neighs` never returns an entity of lower dimension.
* C22: a field of dimension 0 raises KeyError in ProductSpace.
* C23: rebuilding with an empty list of boundary tags keeps the old boundary elements.
* C28: the time-dependent boundary form gets the previous solution instead of the current one.
* C30: `np.isclose(data, 1e-16)` drops matrix entries of magnitude up to about 1e-8; an exception
  leaves `fe_space.dof_shift` at 0; `rg[dest] += ...` loses repeated destinations.
* C33: copies of vertices made by a cut store the new node tag where a cell id belongs.
* C35: replacing a node by itself deletes it; arrows leaving a replaced node are lost.
* C38: shape.py line 146 overwrites the comparison of boundaries; `np.isclose` is not symmetric.
* C40: domain.py line 57 tests the dimension of the host instead of the immersed shape.
* C36: a second cut along the same line, a line on the boundary of the domain, or an interface edge
  whose ends are both internal boundary points raises an error (ValueError or NetworkXError) after
  the mesh has already been extended.  The side of the other edges is decided by comparing with an
  exact 0, so with round-off an original interface edge can be attached to the copies of one side.
* C41: `hash(-1) == hash(-2)`, so one of two shapes with these tags is lost.
* C42: a point within np.isclose's default tolerance of both ends raises IndexError; inner
  vertices are duplicated with different tags.
* C43: the next edge starts with the largest used tag (`np.max` without `+ 1`).
* C44: inclusive strides make numbers of different dimensions collide.
* C46: `_R0_to_R1` multiplies the vertex by the coordinate (correct only at 1).
* C48: on tagged faces with local index 1 or 3 the reflection is overridden.
* C51: a colinear segment inside the first one is missed; it is found with the arguments swapped.
* C54: `unpair` takes the square root without rounding, so it recovers only pairs (0, y).
* C55: the normal of an embedded line is orthogonal to it only if both ends have equal z.
* C57: loops longer than Python's recursion limit raise RecursionError.
* C58: `mesh_coloring` compares pairs with integers and therefore always raises ValueError.
* C59, C63: the segment test answers True for colinear disjoint segments, which makes the chain of
  a fracture leave it.
* C68: a shape occurring twice in a boundary (the end of a closed wire) is not `in` the wire;
  with a vertex and an edge immersed in a face, `edge in face` raises AttributeError.
* C71: the mixed Laplace form replaces the state by zeros (laplace_dual_weak_form.py:46), so its
  residual does not depend on the state; only the first Newton step from zero is right.
* C73: residuals of the penalty conditions do not contain the state; the normal condition lacks the
  products of different components of the normal, so it is right only for normals along an axis.
  The degenerate boundary form uses the unscaled value where the porosity vanishes, the volume form
  zero.
* C79: LaplacePrimalWeakForm (26, 87), LEDualWeakForm.evaluate_form (34) and LERieszMapWeakForm (30)
  unpack space.quadrature, a list of four rules, into two names: always ValueError.
* C80: devia_l2_norm (87) and devia_l2_error (314) unpack space.quadrature, a list of four rules,
  into two names: always ValueError.
* C74, by reading: the source term of the unscaled form uses sqrt(porosity) without the threshold
  that its matrix uses, so a negative porosity gives nan in the load and a regularised matrix;
  grad_d_phi must be given though it is not used.
* C76, C77, C78: the vectorized dual forms and Riesz maps never read the state: their residual is that
  of the zero state, so only the first Newton step from zero is right; evaluate_form uses the state.
  LCEScaledRieszMapWeakForm.evaluate_form needs functions["rhs"] without using it, the vectorized one
  does not need it.
* C79: the traction penalty of LCEDualWeakFormBCNeumann never reads the state. The two other classes of
  that name (le_dual_weak_form.py:580, lce_scaled_dual_weak_form.py:814) read s_data.mapping.x, which
  MappingData never sets: always AttributeError. The scaled boundary form uses l + 1e-16 where the
  volume form uses l.
* C80: l2_error and l2_error_projected cut Lagrange fields to the first dim components, so a vector field
  on edges or points is not measured (on points the error is always 0). l2_norm does not cut the columns
  l2_error cuts; div_norm knows no one-dimensional case while div_error does. An element index is looked
  up in every field, also skipped ones. grad_error calls evaluate_basis with one argument: TypeError.
* C82: write_vtk_file_with_exact_solution selects the written cells by the tags of the field that the loop
  left in `name`, whatever their dimension, and names them by the largest field dimension: with a last
  field on lines a file of "triangles" with two nodes is written, and cell data do not match the cells.
  write_vtk_file_pointwise_l2_error subtracts a column from the one-axis array the exact functions of the
  examples return, so for vector Lagrange fields the error is summed over all pairs of components and does
  not vanish for the exact solution. Values are cut to dim components: on lines the first one is broadcast
  over the row, in higher dimensions ValueError. A cell centred field must exist on the whole mesh.
- Export of meshes (C83): the physical tags of the 3-D file are taken from all tetrahedra, nodes and entity
  ids only from those with a tag; with one untagged tetrahedron the arrays differ in length. With coloring
  requested write_vtk always ends in an error once a line, triangle or tetrahedron has a tag (the coloring
  itself never returns, C58). A point that no cell uses is an AttributeError.
* C84: domain_union redirects only the first predecessor of a vertex that gives way to a tool; every other
  edge at this vertex keeps no end there. It drops vertices which no edge uses, tools included, and raises
  NetworkXError for an isolated vertex at a tool. domain_intersection with two edges or more always loses a
  vertex (consecutive edges share a tag, C43, and create_domain keeps one shape for each hash), and raises
  ValueError as soon as no tool is on some edge. It returns None only for a domain without edges;
  domain_difference and domain_union never return None.
* C85: in three dimensions transfer_domain_occ_descritpion drops the physical tags of curves that are not
  divided. Two vertices or curves with the same tag ask twice for the same group. Each tagged curve in two
  dimensions also makes a group of dimension 0 from its ends without tag, which may be empty. A face
  immersed in a solid that itself has immersed curves is not embedded. A wire whose first edge runs from
  the larger to the smaller tag gives signed curves which do not follow each other. A physical tag on a
  shell makes a group of a surface that does not exist. In one dimension a tagged curve needs the graph
  (AttributeError before build_grahp).
* C86: DiscreteDomain cannot hand over any domain with vertices, curves, faces and a level for solids,
  even an empty one: line 248 reads `surface_stride`, which is not defined (NameError). In an edge immersed
  in a face, an immersed vertex is taken for a curve with the same tag: gmsh is asked to embed another curve
  or one that does not exist. The physical tag of a divided curve gives an empty group, not the group of its
  parts. A tagged vertex with immersed shapes is listed in a group though it was never added.
* C87: "N2E" silently means N1E. The contravariant map divides by |det J|, so the flux through a common
  face changes sign between two tetrahedra of opposite handedness; gmsh meshes are consistently oriented,
  other meshes would not be conforming. On a tagged face seen as face 1 or 3 in an even order by one cell and
  otherwise by its neighbour, the tangential components of N1E of degree 2 and higher differ. RT, BDM and N1E on lines: the values are multiplied by the x component of
  the unit tangent, so they vanish on lines orthogonal to the x axis and change sign with the direction;
  the broadcast runs along the functions, so that evaluation at p points needs p = number of functions (true
  by coincidence for 2k+1 and Gauss-Jacobi quadrature) or p = 1, otherwise ValueError. Derivatives of vector
  functions stay those on the reference cell. By reading: storage_basis always raises TypeError (arguments
  missing); the copy class methods of element_data.py read instance attributes (AttributeError);
  _fill_element_bc_entity_data indexes a vertex by -1.
* Traces (C88): trace_discrete_space (basis_trace.py lines 45-46) uses the neighbour, a pair (dimension, id), as
  key of id_to_element, whose keys are ids: KeyError whenever there is a neighbour, and with it
  trace_product_space for any field (used in examples/geothermal_flow). Without return_all_dof_q the trace keeps
  only the functions of the facet itself: of linear Lagrange functions nothing is left, and on faces the N1E
  functions of the edges are lost. The boundary element of
  N1E on triangles is Lagrange of degree k with k + 1 functions, the edge has k degrees of freedom.
* Intersecting triangles and polygons (C89, C90): the signs of triangle_triangle_intersection come from copysign and
  are never 0, so the branches for coplanar edges and vertices (triangle_triangle_intersection_test.py lines 395-443)
  are never reached: zero counts as positive. Hence triangles of one plane never meet, and whether touching
  triangles meet depends on the order of their vertices. point_in_triangle accepts every point of the line of an
  edge, so ends outside the second triangle are returned. A segment through a vertex and the opposite edge has three
  crossings and is missed. Line 282 subtracts [1] and not the point: a segment whose first crossing is (1, 1, 1) is
  missed. A nearly colinear segment returns a placeholder array, on which reduce_poly_line raises ValueError. Only
  the first four corners of a polygon are used, with three corners IndexError, and quadrilaterals of one plane
  never meet.
* Polygons (C91, C92): convex_q only checks that all turns go to the same side, so self-crossing stars count as
  convex. polygon_normal uses the furthest corner, the furthest and the nearest of the others and their mean; for
  every parallelogram with different diagonals (ratio below 3) these lie on one line, the normal is zero, the
  parallelogram does not count as convex, __projection_directions then drops x, and in a plane z = constant
  Delaunay receives points of one line (QhullError). So no point of a rhombus can be tested. winding_number leaves
  out the closing edge, but rounding makes the result right (proved).
* Lines (C93, C94): line_line_intersection answers a pair when both ends of a line lie on the other; among other
  results this makes np.array ragged (ValueError), so a reversed or contained line cannot be given to
  lines_lines_intersection, and a line in the plane of a polygon that contains an edge of the triangles around the
  mean (the diagonal of a rectangle) cannot be intersected with it. A line in the plane with an end inside returns
  only the crossings of the boundary. line_triangle_intersection answers False instead of None when an end is just
  off the plane, and this False is kept among the results of lines_triangle_intersection. Lines with answers of
  different sizes raise ValueError together. The else-branch in lines_lines_intersection is never taken.
* intersect_2D_fractures (C95): the corners get as point id their cell id, which for the second and later fractures is
  not the place of their point. With two or more lines in a fracture only lines with pieces count, so a line that
  meets no other line of the same fracture raises IndexError (a square crossed by two parallel squares). The line of
  fractures i < j lives in the network of i only, so lines of later fractures are not split at points common to three
  fractures. Tags of lines restart at 1 for each fracture; corners and surfaces have no tag.
* Boxes with fractures (C96): the default tags of a box (sides 2 to 5) and of the fractures (from 1 on) clash from two
  fractures on. The number of an intersection (pair of tags) may equal the tag of a later fracture (with shift 1: five
  fractures), the intersection is then in the group of that fracture and has none of its own. build_grahp must be called
  with all_fixed_d_cells_q=True before meshing, else the pieces repeat dimension and tag. set_points twice shifts the
  network twice; write_mesh shifts back the point ids but not the cell ids. Polygons with more than four corners need
  explicit tags (TypeError from gmsh otherwise). In a box the loops of the faces are not all oriented outwards.
* Edge operations (C98, C99): edge_edge_intersection passes p_eps as the tag of edge_edge_boundary_intersection, so
  vertices at an end of the tool have the tag 1e-10 and the tolerance given is ignored; a vertex at a crossing has a
  point of shape (1, 3). An edge inside another is found with one end only, or not at all in the other order.
  collapse_edge does not collapse edges whose ends are numbered the other way round, and with an immersed vertex
  Shape.__eq__ forgets the ends, so an object with other end vertices is returned unchanged.
* Vertices embedded in an edge (C100): embed_vertex_in_edge compares only the distance to the first end with the length of
  the edge. A vertex off the line or behind the first end is embedded, and the new edges then leave the line.
* Boxes with fractures (C101): create_md_box_2D sorts the pieces of the last side from the first corner, because that
  side is the edge from the first to the last corner. If a fracture crosses it, the edges of the wire are
  not a walk (`C101_wire_refuted`). Pieces are found by physical tag: two sides with one tag, or a
  side with the tag of the fractures, repeat edges in the wire (excluded in `C101_wire`). The face
  has the edges of the boundary among its immersed shapes (`assembled`). By reading: the tag of the wire is the first one which
  domain_difference used.
* Intersected edges (C102): intersect_edges skips pairs with `i >= j` even when the two arrays differ, so that a crossing of
  an edge with a tool of the same or a lower position is not found (C102_pairs_refuted), and a point
  found for tool j goes into object j, which it need not be on (C102_tools_refuted; the callers pass one array twice). The segment test answers True for collinear segments whether they overlap or not; then the first point of the
  second edge becomes a vertex which can be immersed in the first edge though it is off it (C102_collinear_refuted).
* Queries of a domain (C103): remove_vertex looks vertices up in the graph by dimension and tag, so that a vertex that is in
  no shape remains when it has the tag of one that is (C103_remove_refuted).
* Boxes with lines (C104): the last side is the edge from the first to the last corner, so that its pieces are listed
  from the first corner. If a line crosses it, the edges of the wire do not lead round (C104_wire_refuted); the file
  single_shape_bc_intersection.csv of the tests is such a case. retag_shapes numbers what is immersed in the face a second time (domain.py:57
  tests the dimension of the host), so that the lines get the tags 1, 2, ... whatever tags the sides have (C104_tags_refuted).
  A line through the first corner leaves two vertices at this point, because the boundary of the wire is not replaced (`kept` in C104_lines).
* Intersected faces (C108): in intersect_faces `np.append((point_pairs, point_pairs[v_index]), axis=0)` lacks an argument, so
  that the call raises TypeError when two pairs of faces meet in the same segment (C108_recurs_refuted). Pairs with
  `i >= j` are skipped as in intersect_edges (C108_pairs_refuted). The axis of the projection is taken from a diagonal
  and not from the normal: a square whose diagonal is along an axis is projected to a line (C108_axis_refuted).
* Planes in a box (C105): domain_market.py imports embed_edge_in_face and intersect_edges from shape_manipulation, but not
  intersect_faces, so that build_box_3D_with_planes always raises NameError (C105_box_refuted).
* Points on lines (C106): point_line_intersection of shape_manipulation.py does not compare coordinates in which the two points
  agree, so that for a line along an axis points far away pass (C106_line_refuted). vertex_edge_intersection there finds
  the ends of an edge only (C106_edge_refuted).
* Mixed-dimensional product spaces (C107): md_product_space.py does not import DiscreteSpace, and the constructor does not define
  the spaces; no sequence of calls makes destination_indexes return (C107_never). Fields of dimension 0 raise KeyError, as in C22.
* Data of elements (C109): MappingData.__init__ assigns local variables instead of attributes (C109_mapping_refuted). copy is a
  classmethod in all classes of element_data.py, so that it looks for the data in the class: it raises AttributeError or
  returns empty data (C109_copy_refuted). store_mapping reads mapping.cell_points, which nothing assigns
  (C109_store_refuted). None of them is called in the library.
* C110: write_data takes the minimum of the dimensions of tagged cells, so it raises ValueError
  for a mesh without physical tags, with three lines written (`C110_untagged_refuted`).  With a
  point in no element it raises AttributeError after the file has been emptied
  (`C110_unused_refuted`).
* C111: cut_conformity_on_fractures_mds_ec gives the copies on the positive side the tag 10 t + 1.
  The tags of a network are consecutive, so from the eleventh fracture on they are tags of
  copies: these are cut again and map_fracs_edge refers to edges of no triangle
  (`C111_tags_refuted`).
* By reading: element_family.py line 10 maps "N2E" to N1E; dof_map.py lines 33-36 format a string
  without placeholder; discrete_space passes physical_tags as timing_q; a bool is accepted as
  dof_shift (C21); `point_in_triangle` of the triangle test answers True on the infinite line of an
  edge; `update_nodes_ids` does not update
  `perm`.

## How the theorems were tested

Realistic faults were put into the model definitions one at a time (off-by-one, exchanged
arguments, missing update, wrong sign, lost condition), the development was rebuilt, and the
theorems that still proved were compared with the English claim.  Every attempt is a line of
`seeded/LOG.jsonl`; `tightened` names the theorems that were added or strengthened because a
fault had survived.  `failed` lists the theorems whose proofs no longer went through: a proof that
follows the definition can fail although the claim is still true, and a lemma shared by several
theorems fails for all of them.  Attempts with `claim_broken` "none: ..." were judged equivalent
for the claim, by hand; those marked inconclusive stopped before the theorems were tried.
