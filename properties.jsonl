{"id": "C01", "title": "Conformal numbering: a cell's id is its index", "statement": "After Mesh.build_conformal_mesh succeeds, every cell stored at position i of mesh.cells carries id i; vertices occupy the ids of the input points, and edges, faces and volumes follow in three consecutive blocks of ids with no gap or overlap, each block as long as the number of distinct node pairs/triples/quadruples found in the input.", "quantifier": "for every input mesh (any number of points, any lists of vertex/line/triangle/tetra blocks with any node numbering and any physical tags) for which the call returns", "why_tests_cant": "The numbering depends on the global pattern of shared edges and faces; every new mesh is a new case and a test fixes one.", "anchors": ["src/mesh/mesh.py:Mesh.build_conformal_mesh", "src/mesh/mesh.py:Mesh.insert_vertex", "src/mesh/mesh.py:Mesh.insert_edge", "src/mesh/mesh.py:Mesh.insert_polygon", "src/mesh/mesh.py:Mesh.insert_polyhedron"]}
{"id": "C02", "title": "No duplicated entity", "statement": "After Mesh.build_conformal_mesh, two different stored cells of the same dimension never have the same set of nodes.", "quantifier": "for every input mesh for which the call returns, and every pair of stored cells", "why_tests_cant": "A duplicated edge or face arises only for particular orders of insertion and orientations of shared sub-entities.", "anchors": ["src/mesh/mesh.py:Mesh.build_conformal_mesh"]}
{"id": "C03", "title": "Conformity: shared nodes mean a shared sub-cell id", "statement": "After Mesh.build_conformal_mesh, if two cells both contain the nodes of a common edge or face as local sub-entities, both list the same sub-cell id for it, whatever the orientation in which each cell lists those nodes.", "quantifier": "for every input mesh and every pair of stored cells", "why_tests_cant": "It is a statement about all pairs of neighbours in all meshes, including all relative orientations.", "anchors": ["src/mesh/mesh.py:Mesh.build_conformal_mesh", "src/mesh/mesh.py:Mesh.insert_polygon", "src/mesh/mesh.py:Mesh.insert_polyhedron"]}
{"id": "C04", "title": "Incidence lists are closed and in reference order", "statement": "After Mesh.build_conformal_mesh, the sub-cell list of dimension d of a k-cell has C(k+1,d+1) entries; each entry is the id of a stored d-cell; and the i-th entry has exactly the nodes that the i-th sub-entity of the reference simplex selects from the cell's node list (the facet opposite to local vertex i for facets; last entry is the cell itself).", "quantifier": "for every input mesh, every stored cell, every dimension and every local index", "why_tests_cant": "The local numbering must be right for every cell of every dimension whichever block created its sub-cells.", "anchors": ["src/mesh/mesh.py:Mesh.insert_polygon", "src/mesh/mesh.py:Mesh.insert_polyhedron", "src/mesh/mesh.py:Mesh.insert_edge"]}
{"id": "C05", "title": "Physical tags: the last tag given wins, nothing else is tagged", "statement": "After Mesh.build_conformal_mesh the material id of a cell is the last physical tag that the input blocks attach to its node set, in file order, and None if no block row has that node set.", "quantifier": "for every input mesh, every order of blocks and every stored cell", "why_tests_cant": "Entities are created lazily from several block kinds and re-tagged later, so the outcome depends on the whole history of insertions.", "anchors": ["src/mesh/mesh.py:Mesh.insert_simplex_cell_from_block", "src/mesh/mesh.py:Mesh.insert_vertex", "src/mesh/mesh.py:Mesh.insert_edge", "src/mesh/mesh.py:Mesh.insert_polygon", "src/mesh/mesh.py:Mesh.insert_polyhedron"]}
{"id": "C06", "title": "Every slot of the cell array holds a cell", "statement": "After Mesh.build_conformal_mesh every entry of mesh.cells is a cell object, so that the graph queries (which read cell.dimension of every entry) cannot fail.", "quantifier": "for every input mesh for which the call returns", "why_tests_cant": "It fails only for inputs with points that no cell refers to, which small generated meshes never contain.", "anchors": ["src/mesh/mesh.py:Mesh.build_conformal_mesh", "src/mesh/mesh.py:Mesh.build_graph"]}
{"id": "C07", "title": "Legacy cell registry distinguishes different cells", "statement": "Mesh.insert_cell_data returns an already registered cell only when type, sign and node tags coincide: two cells with different node tags are never identified with each other.", "quantifier": "for every sequence of insertions and every pair of tag lists", "why_tests_cant": "The lookup key is a string built from integers; collisions need particular pairs of numbers that a test would not guess.", "anchors": ["src/mesh/mesh.py:Mesh.insert_cell_data", "src/mesh/mesh.py:Mesh.duplicate_entity"]}
{"id": "C08", "title": "append_cells keeps the id = index invariant", "statement": "If every cell of the mesh has its position as id, a successful Mesh.append_cells leaves all previous cells unchanged, and afterwards again every cell has its position as id; calls that would reuse an id are rejected and change nothing.", "quantifier": "for every mesh and every non-empty list of cells with arbitrary ids", "why_tests_cant": "The guard inspects only the smallest new id; which lists slip through is a question about all id lists.", "anchors": ["src/mesh/mesh.py:Mesh.append_cells", "src/mesh/mesh.py:Mesh.max_cell_id"]}
{"id": "C09", "title": "Incidence graph is exactly the incidence relation", "statement": "On a mesh whose sub-cell lists are closed, Mesh.build_graph(d, c) has an arrow from (d, x) to (d-c, y) exactly when x is a cell of dimension d and y is one of its sub-cells of dimension d-c; it has no other arrows or nodes, and the successors of x appear in the order of its sub-cell list.", "quantifier": "for every mesh with closed incidence lists, every d and every c with 0 <= c <= d", "why_tests_cant": "Graph contents are quantified over all cells of all meshes; tests check counts on one mesh.", "anchors": ["src/mesh/mesh.py:Mesh.build_graph", "src/mesh/mesh.py:Mesh.gather_graph_edges"]}
{"id": "C10", "title": "Tag-restricted graph is the restriction to the tagged cells", "statement": "Mesh.build_graph_on_physical_tags(tags, d, c) has exactly those arrows of build_graph(d, c) whose source has its material id in tags.", "quantifier": "for every closed mesh, every tag list, every d and c", "why_tests_cant": "Depends on every combination of tags and incidences.", "anchors": ["src/mesh/mesh.py:Mesh.build_graph_on_physical_tags"]}
{"id": "C11", "title": "Topology entity lists are duplicate free and complete", "statement": "After MeshTopology.build_data_on_pysical_tags(tags), entities_by_dimension(k) lists, without repetition, exactly the ids of the k-dimensional sub-cells of the cells of the topology's dimension whose material id is in tags.", "quantifier": "for every closed mesh, every dimension of the topology, every k not above it and every tag list", "why_tests_cant": "Completeness and absence of repetition over all meshes and tag selections.", "anchors": ["src/mesh/mesh_topology.py:MeshTopology.build_data_on_pysical_tags", "src/mesh/mesh_topology.py:MeshTopology.entities_by_dimension"]}
{"id": "C12", "title": "Neighbour queries agree with incidence", "statement": "find_higher_dimension_neighs(cell) returns exactly the top-dimensional cells having the cell among their sub-cells, and find_lower_dimension_neighs(cell) returns cells of lower dimension incident to the cell.", "quantifier": "for every closed mesh, every cell of every dimension up to the topology's dimension", "why_tests_cant": "Requires all cells of all meshes.", "anchors": ["src/mesh/topological_queries.py:find_higher_dimension_neighs", "src/mesh/topological_queries.py:find_lower_dimension_neighs"]}
{"id": "C13", "title": "DoF numbering is a bijection", "statement": "After DoFMap.build_entity_maps(n_components, shift), every integer of [shift, shift + dof_number()) belongs to the DoF list of exactly one mesh entity at exactly one position, no other integer occurs, and each entity of dimension d receives exactly (DoFs per d-entity of the reference element) * n_components consecutive integers.", "quantifier": "for every topology, every reference element layout, every number of components and every shift", "why_tests_cant": "Global uniqueness and coverage over all meshes and element layouts.", "anchors": ["src/spaces/dof_map.py:DoFMap.build_entity_maps", "src/spaces/dof_map.py:DoFMap.dof_number"]}
{"id": "C14", "title": "Shared entities share DoFs", "statement": "destination_indices(cell) contains, for every sub-entity of the cell, the DoF list of this entity, at the place determined by the entity's position in the cell's sub-cell list; hence two cells sharing a sub-entity refer to the same global DoFs for it, and two cells sharing none have disjoint destinations.", "quantifier": "for every closed mesh, every element layout and every pair of cells", "why_tests_cant": "Continuity of the discrete functions relies on it for each pair of neighbours in each mesh.", "anchors": ["src/spaces/dof_map.py:DoFMap.destination_indices"]}
{"id": "C15", "title": "Destination lists are injective, in range and of the right length", "statement": "destination_indices(cell) has no repeated entry, all entries lie in [shift, shift + n_dof), and its length is the sum over dimensions of (number of distinct sub-cells) * (DoFs per entity) * components, i.e. the local number of DoFs of the reference element times the number of components.", "quantifier": "for every closed mesh with simplices having distinct nodes, every layout, every cell", "why_tests_cant": "All cells of all meshes.", "anchors": ["src/spaces/dof_map.py:DoFMap.destination_indices"]}
{"id": "C16", "title": "Boundary DoFs are the facet's DoFs", "statement": "bc_destination_indices(cell, facet), when the facet is a facet of the cell, is exactly the concatenation over dimensions of the DoF lists of the facet's sub-cells; it is contained in destination_indices(cell) and does not depend on which of the neighbouring cells is used.", "quantifier": "for every closed mesh, every facet, every neighbour of it, every layout", "why_tests_cant": "The neighbour is chosen as the first predecessor in an insertion-ordered graph; independence needs all meshes and orders.", "anchors": ["src/spaces/dof_map.py:DoFMap.bc_destination_indices", "src/spaces/product_space.py:ProductSpace._retrieve_space_bc_destination_indexes"]}
{"id": "C17", "title": "Discontinuous spaces do not couple cells", "statement": "If the reference element attaches all its DoFs to the cell interior (discontinuous variant), the destination lists of two different cells are disjoint and bc_destination_indices is empty.", "quantifier": "for every closed mesh and every pair of different cells", "why_tests_cant": "All pairs of cells.", "anchors": ["src/spaces/dof_map.py:DoFMap.destination_indices", "src/spaces/dof_map.py:DoFMap.bc_destination_indices", "src/spaces/discrete_space.py:DiscreteSpace.make_discontinuous"]}
{"id": "C18", "title": "DoF shift only translates", "statement": "Building the entity maps with shift s gives the maps built with shift 0 with s added to each entry, and the same number of DoFs.", "quantifier": "for every topology, layout, component number and every integer shift", "why_tests_cant": "All shifts and layouts.", "anchors": ["src/spaces/dof_map.py:DoFMap.build_entity_maps"]}
{"id": "C19", "title": "Fields of a product space own disjoint blocks", "statement": "For a product space, the destination indices of field i of any cell lie in [dof_shift + N_i, dof_shift + N_i + n_i), where n_i is the DoF number of field i and N_i the sum over the fields declared before; hence different fields never share an index, and all indices lie in [dof_shift, dof_shift + n_dof).", "quantifier": "for every list of fields, every cell, every shift", "why_tests_cant": "Any number of fields and any meshes.", "anchors": ["src/spaces/product_space.py:ProductSpace.discrete_spaces_destination_indexes", "src/spaces/product_space.py:ProductSpace._define_n_dof"]}
{"id": "C20", "title": "Product destinations are the concatenation in declaration order", "statement": "destination_indexes(i) is the concatenation, in field declaration order, of destination_indexes(i, name) and has no repeated entry; the same holds for bc_destination_indexes, where fields without boundary elements are left out but still occupy their block of the numbering.", "quantifier": "for every product space, every element index, every subset of fields having boundary elements", "why_tests_cant": "Depends on the combination of fields with and without boundary elements.", "anchors": ["src/spaces/product_space.py:ProductSpace.destination_indexes", "src/spaces/product_space.py:ProductSpace.bc_destination_indexes", "src/spaces/product_space.py:ProductSpace.discrete_spaces_bc_destination_indexes"]}
{"id": "C21", "title": "dof_shift setter", "statement": "Assigning dof_shift stores a non-negative integer unchanged, raises TypeError for a non-integer and ValueError for a negative integer, and a rejected assignment leaves the previous shift in force; after any sequence of assignments the shift is the last accepted one.", "quantifier": "for every sequence of assignments of values of any kind", "why_tests_cant": "Arbitrary histories of accepted and rejected assignments.", "anchors": ["src/spaces/product_space.py:ProductSpace.dof_shift"]}
{"id": "C22", "title": "A product space can be built for every dimension 0 to 3", "statement": "Constructing a product space from fields of dimensions between 0 and 3 succeeds and provides a quadrature for every dimension up to the maximum and a boundary quadrature for every facet dimension.", "quantifier": "for every non-empty list of fields with dimensions in 0..3", "why_tests_cant": "A property over all combinations of field dimensions.", "anchors": ["src/spaces/product_space.py:ProductSpace._define_integration_order_and_quadrature", "src/basis/element_type.py:type_by_dimension"]}
{"id": "C23", "title": "Element index and cell id are mutually inverse", "statement": "After build_structures, id_to_element maps the id of the i-th element's cell to i, for elements and for boundary elements, and contains nothing else; boundary elements are exactly the facets whose material id was requested.", "quantifier": "for every mesh, tag list and element index", "why_tests_cant": "All meshes and tag selections.", "anchors": ["src/spaces/discrete_space.py:DiscreteSpace._build_elements", "src/spaces/discrete_space.py:DiscreteSpace._build_bc_elements"]}
{"id": "C24", "title": "Assembled residual is the sum of local contributions", "statement": "After scatter_forms, entry g of the residual equals its initial value plus the sum, over all forms, all items of their sequences and all local positions k whose destination is g, of the k-th local residual entry (also when a destination list repeats an index).", "quantifier": "for every list of forms, every sequence, every destination map, every local evaluation (exact arithmetic)", "why_tests_cant": "All meshes, forms and index patterns including repeated indices.", "anchors": ["src/assembly/ScatterFormData.py:__scatter_generic_rhs_data", "src/assembly/SequentialAssembler.py:SequentialAssembler.scatter_forms"]}
{"id": "C25", "title": "Assembled Jacobian is the sum of local contributions", "statement": "After scatter_forms, entry (g,h) of the Jacobian equals its initial value plus the sum over all items and all local pairs (k,l) with destinations g and h of the local matrix entry (k,l): the row/column index expansion matches the row-major flattening of the local matrix.", "quantifier": "for every list of forms, every sequence, every destination map, every square local matrix (exact arithmetic)", "why_tests_cant": "A transposition or stride error is invisible on symmetric or constant local matrices.", "anchors": ["src/assembly/ScatterFormData.py:__scatter_generic_lhs_data"]}
{"id": "C26", "title": "Assembly is independent of traversal order", "statement": "Permuting the sequence of elements of a form, or the forms themselves, does not change the assembled residual and Jacobian.", "quantifier": "for every permutation of every sequence (exact arithmetic)", "why_tests_cant": "All permutations.", "anchors": ["src/assembly/SequentialAssembler.py:SequentialAssembler.scatter_forms"]}
{"id": "C27", "title": "Assembly touches only destinations", "statement": "Entries of the residual and of the Jacobian that are no destination of any processed item keep their values, and the solution vectors alpha and alpha_n are never modified.", "quantifier": "for every list of forms, sequences and destination maps", "why_tests_cant": "Absence of side effects for all inputs.", "anchors": ["src/assembly/ScatterFormData.py:scatter_form_data", "src/assembly/SequentialAssembler.py:SequentialAssembler.scatter_forms"]}
{"id": "C28", "title": "Local evaluations receive the current state on their own DoFs", "statement": "Each weak form evaluated by the assembler receives the restriction of the current solution vector to its destination indices (and, for time-dependent forms, additionally the restriction of the previous one).", "quantifier": "for every form type, every item and all solution vectors", "why_tests_cant": "All form types and all vectors; a test with equal vectors cannot tell.", "anchors": ["src/assembly/ScatterFormData.py:scatter_time_dependent_bc_form_data", "src/assembly/ScatterFormData.py:scatter_time_dependent_form_data", "src/assembly/ScatterFormData.py:scatter_bc_form_data", "src/assembly/ScatterFormData.py:scatter_interface_form_data"]}
{"id": "C29", "title": "Form dispatch is total on the documented types and rejects others", "statement": "scatter_forms calls, for each of the six form types, the scatter routine of that type with the arguments in the slots that routine expects; an unknown type raises KeyError, or ValueError if the number of inputs does not match, and forms before it have been assembled exactly once, forms after it not at all.", "quantifier": "for every list of forms of any types", "why_tests_cant": "All lists and positions of the failing form.", "anchors": ["src/assembly/SequentialAssembler.py:SequentialAssembler.scatter_forms", "src/assembly/SequentialAssembler.py:SequentialAssembler.form_type_to_callable_map"]}
{"id": "C30", "title": "L2 projection matrix equals the sum of the local mass matrices", "statement": "The matrix assembled by l2_projector represents exactly the sum of the local matrices: with the symmetric option the stored upper triangle determines it, and no entry is lost.", "quantifier": "for every mesh, every set of symmetric local matrices and both solver options (exact arithmetic)", "why_tests_cant": "Loss of entries depends on their magnitude, i.e. on the mesh size, which a test fixes.", "anchors": ["src/postprocess/projectors.py:l2_projector"]}
{"id": "C31", "title": "Cutting along embedded shapes keeps id = index and the old cells' identity", "statement": "Mesh.cut_conformity_on_embed_shapes keeps every cell's id equal to its position, never removes or renumbers a cell, appends exactly two copies of each interface edge and two of each duplicated interface vertex, and appends two copies of the coordinates of each duplicated node.", "quantifier": "for every mesh with id = index and every list of embedded interfaces, with any classification of neighbours into sides", "why_tests_cant": "Each interface is processed on the mesh left by the previous ones; the invariant must survive arbitrary sequences.", "anchors": ["src/mesh/mesh.py:Mesh.cut_conformity_on_embed_shapes"]}
{"id": "C32", "title": "Cutting separates the two sides", "statement": "After cutting along one interface no cell on one side of it lists an edge copy made for the other side, no neighbouring cell lists an original interface edge any more, and the original interface cells are unchanged.", "quantifier": "for every closed 2-d mesh, every interface and every classification of the neighbours", "why_tests_cant": "All meshes and all positions of the interface.", "anchors": ["src/mesh/mesh.py:Mesh.cut_conformity_on_embed_shapes", "src/mesh/mesh.py:Mesh.update_entity_with_dimension"]}
{"id": "C33", "title": "Duplicated vertices are incident to themselves", "statement": "After Mesh.cut_conformity_on_embed_shapes, the sub-cell list of dimension 0 of every vertex cell contains its own id, as for all other cells.", "quantifier": "for every mesh and every interface", "why_tests_cant": "Holds or fails depending on whether the number of points equals the number of cells, over all histories.", "anchors": ["src/mesh/mesh.py:Mesh.cut_conformity_on_embed_shapes"]}
{"id": "C34", "title": "Relabelling a cell changes exactly the mapped entries", "statement": "update_entity_with_dimension(d, id, map) replaces, in the d-list of the cell id, each entry that is a key of the map by its image (once, without chaining), and changes nothing else in the mesh; update_nodes_ids does the same for node tags.", "quantifier": "for every mesh, cell, dimension and map, including maps whose images are again keys", "why_tests_cant": "Chained replacement occurs only for particular maps.", "anchors": ["src/mesh/mesh.py:Mesh.update_entity_with_dimension", "src/mesh/mesh.py:Mesh.update_nodes_ids"]}
{"id": "C35", "title": "Replacing a graph node keeps its predecessors", "statement": "replace_node_in_grahp((old,new), g): if old is a node, afterwards old is absent, every predecessor of old (other than itself) is a predecessor of new, and the arrows between other nodes are unchanged; if old is no node nothing changes.", "quantifier": "for every graph and every pair of nodes", "why_tests_cant": "All graphs, including self-loops and new nodes already present.", "anchors": ["src/mesh/mesh_operations.py:replace_node_in_grahp"]}
{"id": "C36", "title": "Cutting along lines keeps id = index", "statement": "cut_conformity_along_c1_line(s) appends copies with consecutive ids, node tags of the copied vertices refer to the appended points in the same order, and the internal consistency assertions of the routine never fail on a mesh with id = index.", "quantifier": "for every mesh with id = index, every line, every sequence of lines, every classification", "why_tests_cant": "Arbitrary sequences of cuts.", "anchors": ["src/mesh/mesh_operations.py:cut_conformity_along_c1_line", "src/mesh/mesh_operations.py:duplicate_mesh_points_from_0d_cells"]}
{"id": "C37", "title": "Boundary of a shape is sorted by tag and of admissible dimension", "statement": "Assigning boundary shapes stores a permutation of the given shapes sorted by tag; if any of them has an inadmissible dimension the assignment raises and the previous boundary is kept.", "quantifier": "for every shape kind and every list of shapes", "why_tests_cant": "All lists and orders.", "anchors": ["src/topology/shape.py:Shape.boundary_shapes"]}
{"id": "C38", "title": "Equality of shapes is an equivalence that sees the whole boundary representation", "statement": "Two shapes compare equal exactly when dimension, tag, boundary and immersed shapes (recursively) are equal.", "quantifier": "for every pair of shapes of arbitrary nesting", "why_tests_cant": "Nested structures of any depth.", "anchors": ["src/topology/shape.py:Shape.__eq__"]}
{"id": "C39", "title": "Wire orientation walks along the edges", "statement": "For a wire whose consecutive edges form a path starting at the smaller-tag end of its first edge, the orientation signs are such that the oriented edges form that path: the end of each oriented edge is the start of the next one; orient_immersed_vertices lists the starts.", "quantifier": "for every path of any length with edges stored in any orientation", "why_tests_cant": "All lengths and all orientation patterns.", "anchors": ["src/topology/wire.py:Wire.orient_immersed_edges", "src/topology/wire.py:Wire.orient_immersed_vertices"]}
{"id": "C40", "title": "Retagging gives distinct consecutive tags", "statement": "Domain.retag_shapes gives shapes of one dimension pairwise different tags.", "quantifier": "for every domain", "why_tests_cant": "Sharing of immersed shapes between shapes and dimensions varies over all domains.", "anchors": ["src/topology/domain.py:Domain.retag_shapes", "src/topology/domain.py:Domain.retag_shapes_with_dimension"]}
{"id": "C41", "title": "create_domain keeps exactly one representative per (dimension, tag)", "statement": "create_domain(d, shapes) contains, for each (dimension, tag) occurring in the list, exactly one shape, namely the last one given, and nothing else.", "quantifier": "for every list of shapes with integer tags", "why_tests_cant": "The dictionary key is a hash value; collisions need particular tags.", "anchors": ["src/topology/operations/domain_operations.py:create_domain", "src/topology/shape.py:Shape.hash"]}
{"id": "C42", "title": "Difference of an edge by points is a chain from end to end", "statement": "vertices_edge_difference returns sub-edges which, taken in order, connect the edge's first end point to its last one through the intersection points ordered by distance, inherit the physical tag of the edge, and use fresh pairwise different tags starting at the given tag.", "quantifier": "for every edge and every list of points on it", "why_tests_cant": "Any number of points in any order, with or without points on the end points.", "anchors": ["src/topology/operations/vertex_operations.py:vertices_edge_difference"]}
{"id": "C43", "title": "Intersections with several edges get different tags", "statement": "vertices_edges_intersection gives pairwise different tags to all vertices it creates for the given edges.", "quantifier": "for every list of vertices and edges and every starting tag", "why_tests_cant": "Only visible with several edges and particular numbers of intersections.", "anchors": ["src/topology/operations/vertex_operations.py:vertices_edges_intersection"]}
{"id": "C44", "title": "Mesher tags are unique", "statement": "DiscreteDomain.stride_tag gives different numbers to different shapes of one dimension, and to shapes of different dimensions provided tags of dimension d are below the number of shapes of that dimension; ConformalMesher's tags likewise.", "quantifier": "for every domain and every pair of shapes", "why_tests_cant": "All domains.", "anchors": ["src/mesh/discrete_domain.py:DiscreteDomain.stride_tag", "src/mesh/conformal_mesher.py:ConformalMesher"]}
{"id": "C45", "title": "Box domains are well formed", "statement": "build_box_2D on n corner points yields n vertices, n edges forming the closed loop of the corners in order, one wire containing these edges whose orientation closes up, and one face; tags of edges and wire are pairwise different.", "quantifier": "for every number n >= 2 of corner points and all physical tag dictionaries", "why_tests_cant": "All n.", "anchors": ["src/topology/domain_market.py:build_box_2D", "src/topology/domain_market.py:build_box_3D"]}
{"id": "C46", "title": "Trace map agrees with the geometry", "statement": "For a facet of a simplex, the physical point that the facet's own affine map assigns to a reference point equals the physical point that the cell's affine map assigns to the image of this reference point under transform_lower_to_higher, for every order in which the facet and the cell list their nodes.", "quantifier": "for all node coordinates, all node numberings, all facets, all reference points", "why_tests_cant": "All relative orientations and coordinates.", "anchors": ["src/basis/parametric_transformation.py:transform_lower_to_higher", "src/basis/parametric_transformation.py:_R1_to_R2", "src/basis/parametric_transformation.py:_R2_to_R3"]}
{"id": "C47", "title": "Face orientation data reproduce the node order", "statement": "For each face of a tetrahedron that carries no physical tag, the number of rotations and reflections computed from the node numbers is the unique pair (r < 3, s < 2) such that reflecting s times and rotating r times the sorted face gives the face as listed by the cell; the face counts as oriented exactly for (0,0). For tagged faces the data are overridden.", "quantifier": "for every tetrahedron with distinct node numbers and every face", "why_tests_cant": "All 24 numberings for all node values.", "anchors": ["src/basis/permute_and_transform.py:_validate_face_orientation_3d"]}
{"id": "C48", "title": "Two tetrahedra agree on a shared face", "statement": "The face transformations that two tetrahedra apply on a common face refer to the same reference order of its nodes, so the combined change of basis depends on the node order only.", "quantifier": "for every pair of tetrahedra with a common face, any local face indices, tagged or not", "why_tests_cant": "All pairs of local indices and numberings, with the tagged-face override.", "anchors": ["src/basis/permute_and_transform.py:_validate_face_orientation_3d", "src/basis/permute_and_transform.py:_permute_and_transform_3d"]}
{"id": "C49", "title": "Point on segment test", "statement": "point_line_intersection(p, a, b) returns a point whenever p lies on the closed segment ab, and whenever it returns a point, p is within tolerance of the line through a and b and not farther from either end point than the segment length (up to tolerance).", "quantifier": "for all points of R^3 (exact real arithmetic)", "why_tests_cant": "Continuum of configurations.", "anchors": ["src/geometry/operations/point_geometry_operations.py:point_line_intersection"]}
{"id": "C50", "title": "Point in triangle test", "statement": "point_triangle_intersection(p, a, b, c) returns a point for every p in the closed non-degenerate triangle, and for no p that is coplanar, away from the boundary tolerance, and outside.", "quantifier": "for all points of R^3 (exact real arithmetic)", "why_tests_cant": "Continuum of configurations.", "anchors": ["src/geometry/operations/point_geometry_operations.py:point_triangle_intersection"]}
{"id": "C51", "title": "Line-line intersection point lies on both segments", "statement": "When line_line_intersection returns a single computed point, this point lies on both segments up to tolerance; when the segments cross properly a point is returned.", "quantifier": "for all pairs of segments in R^3 (exact real arithmetic, exact least squares)", "why_tests_cant": "Continuum of configurations.", "anchors": ["src/geometry/operations/line_geometry_operations.py:line_line_intersection"]}
{"id": "C52", "title": "Triangulation of a convex polygon preserves the area vector", "statement": "triangulate_convex_polygon returns one triangle per edge, each having the centroid and the two ends of that edge as vertices; the vector areas of the triangles add up to that of the polygon; fewer than three points are rejected.", "quantifier": "for every polygon with any number of vertices", "why_tests_cant": "All numbers of vertices and coordinates.", "anchors": ["src/geometry/operations/polygon_geometry_operations.py:triangulate_convex_polygon"]}
{"id": "C53", "title": "Normals are unit, orthogonal and outward", "statement": "normal(mesh, cell, facet) is a unit vector with non-negative component along the direction from the cell's to the facet's centroid, and is orthogonal to the facet for facets of dimension 1 and 2 (and in the plane of the triangle for dimension 1).", "quantifier": "for all non-degenerate cells and facets in R^3", "why_tests_cant": "Continuum of configurations.", "anchors": ["src/geometry/compute_normal.py:normal"]}
{"id": "C54", "title": "Interface tags from pairing are unique", "statement": "FractureNetwork.pair_intergers gives different numbers to different pairs of non-negative integers, and unpair_intergers recovers the pair.", "quantifier": "for all pairs of non-negative integers", "why_tests_cant": "All pairs.", "anchors": ["src/geometry/fracture_network.py:FractureNetwork.pair_intergers", "src/geometry/fracture_network.py:FractureNetwork.unpair_intergers"]}
{"id": "C55", "title": "Rotation of vectors", "statement": "rotate_vector preserves lengths and inner products and leaves the component along the axis unchanged, for each of the three axes; the normal computed for an embedded shape is orthogonal to it.", "quantifier": "for all vectors and angles", "why_tests_cant": "Continuum.", "anchors": ["src/mesh/mesh_cell.py:rotate_vector", "src/mesh/mesh.py:Mesh.compute_normals_on_embed_shapes"]}
{"id": "C56", "title": "Jacobian determinant and pseudo-inverse", "statement": "For a cell with linearly independent edge vectors, the returned determinant is the positive square root of the Gram determinant (length/area/volume ratio), the returned inverse is a left inverse of the Jacobian, independent of the sign choices of the QR factorisation.", "quantifier": "for all Jacobians of full rank and every QR factorisation", "why_tests_cant": "Continuum and unspecified factorisation.", "anchors": ["src/geometry/mapping.py:_compute_det_and_pseudo_inverse", "src/geometry/mapping.py:evaluate_mapping"]}
{"id": "C57", "title": "Circulating an internal boundary terminates or fails loudly", "statement": "circulate_internal_bc, on a skin graph where each vertex has two non-fracture neighbours and each edge two vertices, follows the boundary and ends at the seed after visiting each edge of its closed component at most once.", "quantifier": "for every finite skin graph", "why_tests_cant": "Termination for all graphs.", "anchors": ["src/mesh/mesh.py:Mesh.circulate_internal_bc", "src/mesh/mesh.py:Mesh.next_d_m_1"]}
{"id": "C58", "title": "Mesh colouring", "statement": "coloring_mesh_by_co_dimension returns a colouring whose two maps are inverse to each other: an entity is in the list of a colour exactly when that is its colour.", "quantifier": "for every closed mesh and number of colours", "why_tests_cant": "All meshes.", "anchors": ["src/mesh/mesh_coloring.py:coloring_mesh_by_co_dimension"]}
{"id": "C59", "title": "Splitting a fracture line at its intersections gives a chain", "statement": "After FractureNetwork.intersect_1D_fractures the pieces of a fracture are edges joining consecutive vertices of the fracture ordered by distance from its first end, starting at its first and ending at its second end vertex, with ids equal to their positions in the cell array and the physical tag of the fracture.", "quantifier": "for every set of fractures and intersection pattern", "why_tests_cant": "Any number and order of intersections.", "anchors": ["src/geometry/fracture_network.py:FractureNetwork.intersect_1D_fractures"]}
{"id": "C60", "title": "Restricted graphs and the full topology select the right cells", "statement": "Mesh.build_graph_on_materials(d, c) has exactly the arrows of build_graph(d, c) whose source carries some material id; Mesh.build_graph_from_cell_ids(ids, d, c) has exactly those whose source id is in ids, whatever other cells ids lists, and raises IndexError for an id that is no cell; MeshTopology.build_data lists for each dimension, without repetition, the sub-cells of all cells of the topology's dimension, and neighbour queries on it see all these cells.", "quantifier": "for every closed mesh, every id array, every dimension and codimension", "why_tests_cant": "Holds for every mesh and every selection of cells; a test fixes one mesh and one selection.", "anchors": ["src/mesh/mesh.py:Mesh.build_graph_on_materials", "src/mesh/mesh.py:Mesh.build_graph_from_cell_ids", "src/mesh/mesh_topology.py:MeshTopology.build_data"]}
{"id": "C61", "title": "Options of a product space reach exactly the named fields", "statement": "After make_subspaces_discontinuous(disc) and build_structures(tags, btags), exactly the fields with disc[name] True use the discontinuous reference element, the others keep theirs; field names, their order and the DoF shift are unchanged; the elements of a field are the cells of its dimension whose material id is in tags[name], or the untagged ones when the field is not in tags.", "quantifier": "for every product space over good meshes, every dict of options and tags", "why_tests_cant": "Every combination of fields and options is a separate case.", "anchors": ["src/spaces/product_space.py:ProductSpace.make_subspaces_discontinuous", "src/spaces/product_space.py:ProductSpace.build_structures"]}
{"id": "C62", "title": "Which inputs the mesh construction accepts", "statement": "Mesh.build_conformal_mesh returns normally exactly when there is at least one point, at least one line, triangle or tetrahedron, and each tagged row of dimension at most 3 uses existing points only and, if it is no vertex, has the node set of a line, triangle or tetrahedron (or of one of their sub-entities) of the file; otherwise it raises.", "quantifier": "for every list of cell blocks whose rows have the width of their type, every list of physical tags and every number of points", "why_tests_cant": "Acceptance depends on the whole file: the key of each inserted entity must have been numbered by an earlier pass over other blocks.", "anchors": ["src/mesh/mesh.py:Mesh.build_conformal_mesh", "src/mesh/mesh.py:Mesh.insert_simplex_cell_from_block"]}
{"id": "C63", "title": "The segment test of fracture networks is exact for crossing segments", "statement": "TriangleTriangleIntersectionTest.line_line_intersection on two segments whose projections are not nearly parallel returns True exactly when the projected segments have a common point, and then the returned point is that common point; on nearly parallel segments with an end of the second near the line of the first it returns True, even if the segments are disjoint.", "quantifier": "for all end points with rational coordinates, every positive tolerance and every choice of projection axes", "why_tests_cant": "Infinitely many segment pairs, including touching ends.", "anchors": ["src/geometry/operations/triangle_triangle_intersection_test.py:line_line_intersection"]}
{"id": "C64", "title": "All triangles at an edge use the orientation of the edge cell", "statement": "permute_and_transform on a triangle leaves the rows of each edge in the form that belongs to the node order stored in the edge cell, whatever the node order of the triangle, so that all triangles sharing the edge agree; rows of other entities are unchanged.", "quantifier": "for every triangle with distinct nodes, every stored order of its edges, every family of bases on which the interval transformation undoes a swap", "why_tests_cant": "All numberings and all stored orders of the edges.", "anchors": ["src/basis/permute_and_transform.py:_validate_edge_orientation_2d", "src/basis/permute_and_transform.py:_permute_and_transform_2d"]}
{"id": "C65", "title": "The graph of a domain shows exactly who bounds or is immersed in whom", "statement": "Domain.build_grahp has an arrow from a shape to each shape of its boundary and each immersed shape, for exactly the shapes reached this way from the shapes of the chosen dimension (not passing below vertices), labelled (co-dimension, tag); every node is an end of an arrow, except at dimension 0 where all vertices are nodes.", "quantifier": "for every domain of any nesting and every dimension", "why_tests_cant": "Nested structures of any depth and sharing.", "anchors": ["src/topology/domain.py:Domain.build_grahp", "src/topology/domain.py:Domain.gather_graph_edges"]}
{"id": "C66", "title": "Assigning a shape makes an equal shape", "statement": "s.shape_assignment(other) raises ValueError unless both are of the same kind (dimension and composite flag); otherwise s takes over tag, physical tag, boundary, immersed shapes (and the point of a vertex) of other, and afterwards is the same shape as other.", "quantifier": "for every pair of shapes whose boundary is sorted as the setter leaves it", "why_tests_cant": "All kinds and nestings.", "anchors": ["src/topology/shape.py:Shape.shape_assignment", "src/topology/vertex.py:Vertex.shape_assignment"]}
{"id": "C67", "title": "Cells and graph of a fracture network", "statement": "After intersect_1D_fractures every cell of the network is an end vertex with the tag of its fracture, an intersection vertex whose tag is the number of the pair of the two fracture tags, a fracture, or a piece of a fracture; build_grahp has exactly the arrows from lines to their end vertices and immersed pieces (only from lines without immersed cells by default).", "quantifier": "for every non-empty list of segments, tag shift, intersection test and point comparison", "why_tests_cant": "All arrangements of segments, including coincident intersections.", "anchors": ["src/geometry/fracture_network.py:FractureNetwork.intersect_1D_fractures", "src/geometry/fracture_network.py:FractureNetwork.build_grahp", "src/geometry/fracture_network.py:FractureNetwork.gather_graph_edges"]}
{"id": "C68", "title": "Membership in a shape", "statement": "`other in shape` is true exactly when a boundary shape or an immersed shape of `shape` is the same shape as `other` (dimension, tag, recursively boundary and immersed shapes, close points).", "quantifier": "for every shape and every candidate of any nesting", "why_tests_cant": "All nestings; the failing cases need repeated or mixed shapes.", "anchors": ["src/topology/shape.py:Shape.__contains__"]}
{"id": "C69", "title": "Vertices touch an edge where they lie", "statement": "vertices_edge_intersection returns, in order, one vertex for each tool that is near an end of the edge or near its segment: the end itself when the tool is that end (same tag, close point), otherwise a new vertex at the end or at the tool's point; tools on the segment are always among them; no vertex is moved and no other vertex is renumbered.", "quantifier": "for all vertices, edges, tags and tolerances", "why_tests_cant": "All positions of points in exact arithmetic.", "anchors": ["src/topology/operations/vertex_operations.py:vertices_edge_intersection", "src/topology/operations/vertex_operations.py:vertex_edge_intersection"]}
{"id": "C70", "title": "The local system of the L2 projection", "statement": "L2ProjectorWeakForm.evaluate_form returns, for every element, a residual whose entry for component c of basis function k of a field is minus the quadrature of f_c phi_k, and a matrix whose entry for (field, function, component) pairs is the quadrature of phi_k phi_l when field and component agree and zero otherwise; it does not depend on the state; the matrix is symmetric and its quadratic form is the squared norm of the function with the given coefficients; the coefficients of a function of the space solve the system exactly. The call succeeds exactly when each field has a function with enough components, an element with that index and a quadrature rule for its dimension.", "quantifier": "for all product spaces (any fields, families, numbers of components), elements, quadrature rules, basis values, Jacobians, functions and states, in exact arithmetic", "why_tests_cant": "Offsets, strides and mixed families interact; a test fixes one space and one element.", "anchors": ["src/weak_forms/l2_projector_weak_form.py:L2ProjectorWeakForm.evaluate_form"]}
{"id": "C71", "title": "The local system of the mixed Laplace form", "statement": "LaplaceDualWeakForm.evaluate_form returns for every element the local system of (u/kappa, v) - (p, div v) + (div u, q) - (f, q) = 0: the matrix entry for two basis functions is that form between them, the residual is the form at the given state; the coupling blocks cancel in the quadratic form, which is the quadrature of |u|^2/kappa.", "quantifier": "for all elements, bases (one vector valued flux field and one scalar field), Jacobians, quadrature rules, sources, coefficients kappa and states, in exact arithmetic", "why_tests_cant": "Every entry depends on element, basis and rule; a test looks at the error of one solution, where a wrong residual at a nonzero state is invisible.", "anchors": ["src/weak_forms/laplace_dual_weak_form.py:LaplaceDualWeakForm.evaluate_form"]}
{"id": "C72", "title": "The local system of linear elasticity", "statement": "LEPrimalWeakForm.evaluate_form returns for every element of dimension two or three the local system of (2 mu eps(u), eps(v)) + (lambda div u, div v) + (f, v) at the given state; the matrix is the exact derivative of the residual, symmetric, its quadratic form is the quadrature of 2 mu |eps|^2 + lambda (div u)^2, and it maps rigid motions (in particular translations) to zero.", "quantifier": "for all elements, scalar bases, Jacobians, quadrature rules, Lame functions, sources and states, in exact arithmetic", "why_tests_cant": "All bases and geometries; a test of convergence does not see a lost symmetry or a rigid motion with energy in every element.", "anchors": ["src/weak_forms/le_primal_weak_form.py:LEPrimalWeakForm.evaluate_form"]}
{"id": "C73", "title": "The local systems of the boundary forms", "statement": "The boundary forms return for every boundary element the local system of their term at the given state: beta (u - u_D, v) for a given displacement (also displacement and rotation of a Cosserat body), (t, v) for a given traction, beta ((u - u_D).n, v.n) for a given normal displacement, (p_D, v.n) for a given potential (times d_phi/sqrt(porosity) in the degenerate form).", "quantifier": "for all boundary elements, bases, numbers of components, normals, penalties, given functions and states, in exact arithmetic", "why_tests_cant": "Stride and block arithmetic for any number of components; slanted normals do not occur in the tests.", "anchors": ["src/weak_forms/le_primal_weak_form.py:LEPrimalWeakFormBCDirichlet.evaluate_form", "src/weak_forms/le_primal_weak_form.py:LEPrimalWeakFormBCNeumann.evaluate_form", "src/weak_forms/le_primal_weak_form.py:LEPrimalWeakFormBCNormalDirichlet.evaluate_form", "src/weak_forms/le_taylor_hood_weak_form.py:LETaylorHoodWeakFormBCDirichlet.evaluate_form", "src/weak_forms/lce_primal_weak_form.py:LCEPrimalWeakFormBCDirichlet.evaluate_form", "src/weak_forms/laplace_dual_weak_form.py:LaplaceDualWeakFormBCDirichlet.evaluate_form", "src/weak_forms/unscaled_elliptic_weak_form.py:UnscaledEllipticWeakFormBCDirichlet.evaluate_form", "src/weak_forms/degenerate_elliptic_weak_form.py:DegenerateEllipticWeakFormBCDirichlet.evaluate_form"]}
{"id": "C74", "title": "The local systems of the elliptic forms with porosity", "statement": "For elements of a triangle, quadrilateral or tetrahedron space with one flux and one scalar component, DegenerateEllipticWeakForm.evaluate_form returns the local system of (v, w) - (q, div(delta w)/sqrt(phi)) + (div(delta v)/sqrt(phi), r) + (q, r) - (f, r), UnscaledEllipticWeakForm that of (u/delta^2, w) - (p, div w) + (div u, r) + (phi p, r) - (sqrt(phi) f, r) with small values replaced by the threshold, and ScaledToPhysicalL2Projection that of the projection of (delta v, q/sqrt(phi)), each at the given state with the exact Jacobian. Where porosity and delta are constant the first two agree after the change of unknowns u = delta v, p = q/sqrt(phi), and the projection recovers the changed coefficients.", "quantifier": "for all bases, Jacobians, weights, porosities, sources and states, in exact arithmetic over any commutative ring (any field for the change of unknowns)", "why_tests_cant": "Tests compare norms of one manufactured solution; a wrong coefficient in one coupling block changes the rate only slightly, and the relation between the two formulations is not tested.", "anchors": ["src/weak_forms/degenerate_elliptic_weak_form.py:DegenerateEllipticWeakForm.evaluate_form", "src/weak_forms/unscaled_elliptic_weak_form.py:UnscaledEllipticWeakForm.evaluate_form", "src/weak_forms/scaled_to_physical_l2_projection.py:ScaledToPhysicalL2Projection.evaluate_form"]}
{"id": "C75", "title": "The local systems of the solids with a stress constraint, a pressure or micro-rotations", "statement": "LEPrimalStressConstraintWeakForm.evaluate_form returns the system of beta (sigma(u) - sigma_target, grad v): no residual when the stress is met, and beta times the matrix of linear elasticity. LETaylorHoodWeakForm.evaluate_form returns in two dimensions the symmetric system of (2 mu dev eps(u), dev eps(v)) + (p, div v) + (div u, q) - (p/(lambda+mu), q) + (f, v); with p = (lambda+mu) div u at the points its displacement rows are those of the primal form and the pressure rows vanish. LCEPrimalWeakForm.evaluate_form returns in two and three dimensions the symmetric system of the Cosserat energy of e = grad u + t x and grad t, its matrix annihilates motions without strain and curvature, and with kappa = 0 its displacement rows are those of classical elasticity. In all three the matrix is the exact derivative of the residual.", "quantifier": "for all elements, scalar bases, Jacobians, quadrature rules, coefficient functions, sources, targets and states, in exact arithmetic over any field where 2 is not 0", "why_tests_cant": "The terms (skew stress, cross products, deviators) agree on many samples when an index or a sign is wrong; only all bases, states and components separate them.", "anchors": ["src/weak_forms/le_primal_stress_constraint_weak_form.py:LEPrimalStressConstraintWeakForm.evaluate_form", "src/weak_forms/le_taylor_hood_weak_form.py:LETaylorHoodWeakForm.evaluate_form", "src/weak_forms/lce_primal_weak_form.py:LCEPrimalWeakForm.evaluate_form"]}
{"id": "C76", "title": "The local systems of the dual forms of linear and Cosserat elasticity", "statement": "LCEDualWeakForm.evaluate_form and evaluate_form_vectorized, and LEDualWeakForm.evaluate_form_vectorized, return in two and three dimensions the system, at the given state, of (A s, tau) + (A_o m, v)/l + (u, div tau) + (div s, w) + (t, div v) + (div m, q) - (t x ., tau) - (s, q x .) - (f, w) - (g, q), for the DoFs of stress, couple stress (Cosserat only), displacement and rotation in this order. A is the inverse of E -> 2 mu sym E + 2 kappa skew E + lambda tr E (kappa = mu for linear elasticity). The matrix is the exact derivative of the residual, is symmetric, and tested with displacement and rotation negated gives the energy of the stresses. Both implementations return the same system.", "quantifier": "for all elements, bases, Jacobians, quadrature rules, moduli, lengths, loads and states, in exact arithmetic over any field where 2 is not 0", "why_tests_cant": "Strided blocks of four fields in two implementations: an index or sign error in one block is invisible on the meshes and fields of the tests; the agreement must hold for all states and bases.", "anchors": ["src/weak_forms/lce_dual_weak_form.py:LCEDualWeakForm", "src/weak_forms/le_dual_weak_form.py:LEDualWeakForm.evaluate_form_vectorized"]}
{"id": "C77", "title": "The local system of the dual Cosserat form with a scaled couple stress", "statement": "LCEScaledDualWeakForm.evaluate_form and evaluate_form_vectorized return the system, at the given state, of the dual form in which the compliance of the couple stress is not divided by the length and its divergence is div(l v) = l div v + grad l . v. The matrix is the exact derivative of the residual and symmetric, and gives the energy when tested with displacement and rotation negated. Both implementations return the same system. For a constant length l != 0 the scaled form is the dual form with length l*l applied to the couple stress l m.", "quantifier": "for all elements, bases, Jacobians, quadrature rules, moduli, lengths and their gradients, loads and states, in exact arithmetic over any field where 2 is not 0", "why_tests_cant": "The scaled form is only related to the plain one by a change of unknowns, which no sample of outputs shows.", "anchors": ["src/weak_forms/lce_scaled_dual_weak_form.py:LCEScaledDualWeakForm"]}
{"id": "C78", "title": "The Riesz maps of the dual problems", "statement": "LCERieszMapWeakForm and LCEScaledRieszMapWeakForm (evaluate_form and evaluate_form_vectorized) and LERieszMapWeakForm.evaluate_form_vectorized return at the given state the system of the inner product (A s, tau) + (A_o m, v)/l + (div s, div tau) + (div m, div v) + (u, w) + (t, q), with A_o m and div(l m) in the scaled case: the matrix is symmetric, x^T K x is the squared norm of x, the residual is K times the state, and both implementations agree.", "quantifier": "for all elements, bases, Jacobians, quadrature rules, moduli, lengths and their gradients and states, in exact arithmetic over any field where 2 is not 0", "why_tests_cant": "A preconditioner that is wrong in one block still converges; tests see only iteration counts.", "anchors": ["src/weak_forms/lce_riesz_map_weak_form.py:LCERieszMapWeakForm", "src/weak_forms/lce_scaled_riesz_map_weak_form.py:LCEScaledRieszMapWeakForm", "src/weak_forms/le_riesz_map_weak_form.py:LERieszMapWeakForm.evaluate_form_vectorized"]}
{"id": "C79", "title": "The boundary forms of the dual problems, and the forms that cannot be evaluated", "statement": "LEDualWeakFormBCDirichlet, LCEDualWeakFormBCDirichlet and LCEScaledDualWeakFormBCDirichlet return a zero matrix and the load - (u_D, tau n) - (t_D, v n) over the facet, the rotation being multiplied by l + 1e-16 in the scaled form. LCEDualWeakFormBCNeumann of lce_dual_weak_form.py returns the system of beta (s n - s_N, tau n) + beta (m n - m_N, v n). Every class of weak form can be evaluated on some space.", "quantifier": "for all facets, neighbours, bases, normals, quadrature rules, boundary functions and states, in exact arithmetic", "why_tests_cant": "The traces are gathered through facet DoFs and strided blocks with an offset; the tests use one mesh family and states equal to zero.", "anchors": ["src/weak_forms/le_dual_weak_form.py:LEDualWeakFormBCDirichlet", "src/weak_forms/lce_dual_weak_form.py:LCEDualWeakFormBCDirichlet", "src/weak_forms/lce_dual_weak_form.py:LCEDualWeakFormBCNeumann", "src/weak_forms/lce_scaled_dual_weak_form.py:LCEScaledDualWeakFormBCDirichlet", "src/weak_forms/laplace_primal_weak_form.py:LaplacePrimalWeakForm"]}
{"id": "C80", "title": "Errors and norms of solutions", "statement": "l2_error(dim, space, functions, alpha, skip) returns, for every field that is not skipped and in the order of the fields, the root of the integral over the cells of dimension dim of the squared difference of the given and the discrete function; l2_error_projected the norm of the discrete function read at dof_shift; l2_norm and div_norm the norms of the given functions; div_error and div_scaled_error the error in the divergence of the discrete function and of l times it. Errors are non-negative, zero exactly when the functions agree at the quadrature points, and satisfy the triangle inequality; the error of the zero solution is the norm of the function.", "quantifier": "for all spaces, fields, families, component counts, coefficients, functions, skipped fields, shifts and dimensions, in exact arithmetic", "why_tests_cant": "Convergence tests look at rates on one problem family; a component that is cut off, a wrong stride of the coefficients or a wrong weight on one cell type does not show in them.", "anchors": ["src/postprocess/l2_error_post_processor.py:l2_error", "src/postprocess/l2_error_post_processor.py:l2_error_projected", "src/postprocess/l2_error_post_processor.py:grad_error", "src/postprocess/l2_error_post_processor.py:div_error", "src/postprocess/l2_error_post_processor.py:div_scaled_error", "src/postprocess/l2_error_post_processor.py:devia_l2_error", "src/postprocess/solution_norms_post_processor.py:l2_norm", "src/postprocess/solution_norms_post_processor.py:div_norm"]}
{"id": "C81", "title": "Sizes of cells and meshes", "statement": "cell_diam(cell, mesh) returns the diameter of the cell, the largest distance of two of its points, and fails for a cell with fewer than two vertices. cell_centroid returns the mean of the vertices, a point of the cell. mesh_size(mesh, dim, physical_tag) returns the smallest, the mean and the largest diameter of the cells of dimension dim (by default that of the mesh) and, if given, with that tag; it fails exactly if there is no such cell or one has no diameter. Sizes scale with the mesh and do not depend on its position.", "quantifier": "for all meshes, cells, points of space, dimensions and tags, in exact arithmetic", "why_tests_cant": "The longest vertex distance is the diameter of the whole cell by convexity; tests can only compare the number on a few cells.", "anchors": ["src/mesh/mesh_metrics.py:cell_diam", "src/mesh/mesh_metrics.py:cell_centroid", "src/mesh/mesh_metrics.py:mesh_size"]}
{"id": "C82", "title": "Export of solutions", "statement": "write_vtk_file hands meshio the cells of the mesh dimension with their nodes and one array per field: for fields in cell_centered the discrete function at the centre of each cell, otherwise, at each point, the mean of the discrete function over the cells of the field around it (its value where these agree), and zeros at points the field does not reach. write_vtk_file_with_exact_solution and write_fe_spaces_on_vtk_file_with_exact_solution add the exact functions at the same places, the latter with nan where a field is not present; write_vtk_file_pointwise_l2_error writes the distance of exact and discrete value; write_vtk_file_exact_solution writes exact functions on all points. No array overwrites another.", "quantifier": "for all conforming meshes, spaces, coefficients, exact functions and choices of cell centred fields", "why_tests_cant": "Wrong averages, rows in the wrong place or arrays that do not match the written cells only show in pictures; tests do not read the files back.", "anchors": ["src/postprocess/solution_post_processor.py:node_average_quatity", "src/postprocess/solution_post_processor.py:cell_centered_quatity", "src/postprocess/solution_post_processor.py:write_vtk_file", "src/postprocess/solution_post_processor.py:write_vtk_file_with_exact_solution", "src/postprocess/solution_post_processor.py:write_fe_spaces_on_vtk_file_with_exact_solution", "src/postprocess/solution_post_processor.py:write_vtk_file_pointwise_l2_error", "src/postprocess/solution_post_processor.py:write_vtk_file_exact_solution"]}
{"id": "C83", "title": "Export of meshes", "statement": "write_vtk writes one file for each dimension that has cells with a physical tag, from dimension 3 down; its connectivity, its entity ids and its physical tags belong, entry by entry, to the tagged cells of that dimension in the order of their ids. With coloring requested, a color array of the same length is added to each file.", "quantifier": "for all closed meshes, file names and graph colorings", "why_tests_cant": "A file with a tag array of another length, or shifted against the cells, is written without an error and shows wrong materials in the viewer only.", "anchors": ["src/mesh/mesh.py:write_vtk", "src/mesh/mesh_coloring.py:coloring_mesh_by_co_dimension"]}
{"id": "C84", "title": "Operations with domains", "statement": "For domains of vertices and edges: domain_intersection returns a domain that holds every vertex found on some edge; domain_union returns the edges of the first domain, with each end that is at a vertex of the second domain replaced by this vertex; domain_difference followed by domain_union with the same tools refines each edge into one edge for each step from end to end over the tools touching it, in the order of their distance, with ends and tools shared and not copied.", "quantifier": "for all vertices, edges, tools, tags, tolerances and hashes without collision", "why_tests_cant": "A lost end or a doubled vertex gives a domain that looks the same in a plot; it fails later in the mesher or gives a mesh with a gap.", "anchors": ["src/topology/operations/domain_operations.py:domain_intersection", "src/topology/operations/domain_operations.py:domain_difference", "src/topology/operations/domain_operations.py:domain_union", "src/topology/operations/domain_operations.py:create_domain"]}
{"id": "C85", "title": "The description of a domain for gmsh", "statement": "transfer_domain_occ_descritpion hands a complete domain to gmsh so that every call refers to entities that exist and uses a new number, with closed curve loops; the points, lines, surfaces and volumes are exactly those of the undivided vertices and edges, the faces and the solids; a shape with a physical tag has a group with the entities standing for it; curves and faces immersed in a face or a solid are embedded in it; the box domains can be handed over.", "quantifier": "for all domains of dimension 1 to 3 in which everything a shape refers to is present, all tags, points and immersed shapes", "why_tests_cant": "gmsh reports a dangling number only when it is used, and a lost group or embedding gives a mesh without the boundary or the fracture; tests mesh a few fixed domains.", "anchors": ["src/mesh/conformal_mesher.py:ConformalMesher.transfer_domain_occ_descritpion"]}
{"id": "C86", "title": "The description of a domain by DiscreteDomain", "statement": "convert_domain_to_occ_description hands every domain of dimension at most two whose references are all drawn to gmsh so that every call refers to entities that exist and uses a new number; points, lines and surfaces are exactly those of the vertices without immersed shapes, the edges without immersed edges and the faces; each dimension has exactly one group for each physical tag, with exactly the drawn shapes that carry it; vertices immersed in curves and curves immersed in faces are embedded; curves_refinement reaches exactly the drawn curves with a requested tag.", "quantifier": "for all domains of dimension at most 2 in which everything a shape refers to is drawn, all tags, points, immersed shapes and refinement arguments", "why_tests_cant": "a number that gmsh does not know, a wrong group or a missing embedding depends on which shapes are divided or share tags; tests mesh a few fixed fracture networks.", "anchors": ["src/mesh/discrete_domain.py:DiscreteDomain.convert_domain_to_occ_description"]}
{"id": "C87", "title": "Finite elements: which one is created and what its functions are on the cell", "statement": "FiniteElement asks basix for the given family (Lagrange on points and lines), cell type and degree, sets the integration order to 2k+1 unless given, counts the functions and flags exactly the tagged facets. Evaluated with the mapping of the cell, an H(div) function of a face or edge has, through that face or edge, the flux of the reference trace taken in an order of nodes that does not depend on the cell, times the orientation of the cell, and all other functions have none; likewise for tangential components of H(curl) functions (no orientation) and values of scalar functions. Hence neighbours of the same orientation agree. Values and derivatives are combined by one matrix which does not depend on the points. On lines the vector families are Lagrange functions times the x component of the unit tangent.", "quantifier": "for all non-degenerate tetrahedra, triangles in space and lines, all numberings, stored edges, tags and points, and all basix elements with the documented traces and entity transformations, of any degree", "why_tests_cant": "a wrong permutation, sign or Jacobian shows only for particular numberings of two neighbouring cells; tests check integrals on a few gmsh meshes, which are consistently oriented.", "anchors": ["src/basis/finite_element.py:FiniteElement", "src/basis/permute_and_transform.py:permute_and_transform", "src/basis/element_family.py:family_by_name", "src/geometry/mapping.py:evaluate_mapping"]}
{"id": "C88", "title": "Traces of the basis on facets and the elements on the boundary", "statement": "_trace gives the functions of a cell at points of one of its facets: the same points of space, in the facet's own coordinates and order of nodes. With return_all_dof_q all functions are returned, without it exactly the functions belonging to the facet. The normal components of H(div) functions, the tangential components of H(curl) functions and the values of scalar functions are those of the reference facet at the facet's own point (times the orientation of the cell for H(div)), and the H(div) functions left out have none, nor have the H(curl) functions left out on triangles; on tetrahedra only those of the edges of the facet have tangential components. trace_discrete_space and trace_product_space return the traces of the element of the selected neighbour. The element which DiscreteSpace puts on a boundary facet exists in basix and has as many functions as the facet has degrees of freedom.", "quantifier": "for all facets with any order of nodes, all points, all non-degenerate tetrahedra and triangles in space and all basix elements with the documented traces; all dimensions, families and degrees from 1", "why_tests_cant": "no test calls the trace functions, and a wrong order of the nodes of a facet shows only for facets whose order differs from the cell's; numbers of functions are tried for the lowest degrees of two families.", "anchors": ["src/basis/basis_trace.py:_trace", "src/basis/basis_trace.py:trace_discrete_space", "src/basis/basis_trace.py:trace_product_space", "src/spaces/discrete_space.py:DiscreteSpace._build_bc_elements"]}
{"id": "C89", "title": "Intersection of two triangles in space", "statement": "triangle_triangle_intersection returns (False, ...) exactly when the triangles have no common point, and otherwise the two ends of the segment of their common points, whatever the order of the vertices and wherever the triangles lie. It always returns, and every returned point lies in the plane of the second triangle. Triangles of one plane are handled by the branches written for coplanar edges and vertices.", "quantifier": "for all pairs of triangles with rational coordinates and all positive tolerances", "why_tests_cant": "tests try a handful of triangles with simple coordinates; positions where an end lies on an edge, passes a vertex, or equals (1,1,1) are not tried, and agreement with the set of common points cannot be seen by comparing two end points.", "anchors": ["src/geometry/operations/triangle_triangle_intersection_test.py:triangle_triangle_intersection", "src/geometry/operations/triangle_triangle_intersection_test.py:intersect_with_coplanar_segment", "src/geometry/operations/triangle_triangle_intersection_test.py:line_plane_intersection", "src/geometry/operations/triangle_triangle_intersection_test.py:point_in_triangle"]}
{"id": "C90", "title": "Intersection of two polygons in space", "statement": "polygon_polygon_intersection returns (False, ...) exactly when two plane convex polygons have no common point, and otherwise the two ends of the segment of their common points: the pieces found by cutting both polygons into triangles are joined without loss. Polygons with too few corners are refused.", "quantifier": "for all pairs of plane convex polygons with rational coordinates and all positive tolerances", "why_tests_cant": "fracture networks in the tests use a few rectangles; joining the pieces goes wrong only for positions of the diagonals that the tests do not visit, and polygons other than quadrilaterals are not tried.", "anchors": ["src/geometry/operations/polygon_polygon_intersection_test.py:polygon_polygon_intersection", "src/geometry/operations/polygon_polygon_intersection_test.py:reduce_poly_line"]}
{"id": "C91", "title": "Convexity test and points in polygons", "statement": "convex_q answers True exactly for convex polygons. point_polygon_intersection returns the point for every point of a plane convex polygon and None for every point of its plane outside it and for every point off its plane (beyond the tolerance); points_polygon_intersection returns the points found, in their order, and the mask.", "quantifier": "for all plane polygons of any number of corners, all points and all non-negative tolerances", "why_tests_cant": "tests use a few rectangles and simple points; the choice of the three points behind the normal goes wrong for a whole family of parallelograms, and stars pass the test of the turns.", "anchors": ["src/geometry/operations/polygon_geometry_operations.py:convex_q", "src/geometry/operations/polygon_geometry_operations.py:polygon_normal", "src/geometry/operations/polygon_geometry_operations.py:triangulate_polygon", "src/geometry/operations/point_geometry_operations.py:point_polygon_intersection", "src/geometry/operations/point_geometry_operations.py:points_polygon_intersection"]}
{"id": "C92", "title": "Turns of a polygon around a point and triangles of non-convex polygons", "statement": "winding_number returns the number of turns of the closed polygon around every point not on it: at least one where all edges turn left around the point, zero outside the convex hull. triangulate_polygon projects a polygon that is not recognised as convex along an axis such that points of its plane stay apart, and keeps of the triangles given by scipy's Delaunay exactly those around whose centre the projected polygon turns, as triangles of corners in space.", "quantifier": "for all polygons with any number of corners, all points off the polygon, all triangulations returned by scipy", "why_tests_cant": "the sum of angles leaves out the closing edge and is rounded; that this gives the number of turns for every polygon is not visible from the one or two polygons a test tries.", "anchors": ["src/geometry/operations/polygon_geometry_operations.py:winding_number", "src/geometry/operations/polygon_geometry_operations.py:triangulate_polygon", "src/geometry/operations/polygon_geometry_operations.py:__projection_directions"]}
{"id": "C93", "title": "Lines against lines", "statement": "lines_line_intersection returns the points where the lines meet the segment; lines_lines_intersection returns, for every object, its points on the tools other than itself, and with deduplicate_points_q the list of all these points without duplicates (points that agree after rounding to collapse_precision count as one).", "quantifier": "for all lists of segments in space of any length, all non-negative tolerances (collapse tolerance at most 1e-8), and every solver of least squares problems", "why_tests_cant": "the tests try a few crossing lines; a line lying in another one, or given in reverse, makes the array ragged and raises ValueError.", "anchors": ["src/geometry/operations/line_geometry_operations.py:lines_line_intersection", "src/geometry/operations/line_geometry_operations.py:lines_lines_intersection"]}
{"id": "C94", "title": "Lines against triangles and polygons", "statement": "line_triangle_incidence is False exactly if both ends are on one side of the plane, beyond the tolerance. line_triangle_intersection and line_polygon_intersection return the common point of a line that crosses the plane of the triangle or convex polygon, None if there is none, and for a line in the plane the ends of the common part, nearest to the start first; lines_polygon_intersection and lines_triangle_intersection return the answers of the lines that meet the object and the mask of these lines.", "quantifier": "for all proper triangles and plane convex polygons of any number of corners recognised as convex, all segments not within the tolerance of a special position, all tolerances, all numbers of lines", "why_tests_cant": "the tests try a handful of lines through one square; the triangles around the mean make interior edges special, ends inside are lost, and answers of different sizes cannot be returned together.", "anchors": ["src/geometry/operations/line_geometry_operations.py:line_triangle_incidence", "src/geometry/operations/line_geometry_operations.py:line_triangle_intersection", "src/geometry/operations/line_geometry_operations.py:lines_triangle_intersection", "src/geometry/operations/line_geometry_operations.py:line_polygon_intersection", "src/geometry/operations/line_geometry_operations.py:lines_polygon_intersection", "src/geometry/operations/point_geometry_operations.py:points_line_argsort"]}
{"id": "C95", "title": "Networks of fractures in space", "statement": "FractureNetwork(dimension=3).intersect_2D_fractures stores for each polygon its corners, the edges between consecutive corners and a surface bounded by the edges; for each pair of polygons that meet it stores the common line with a vertex at each of its two ends; the line is immersed in both surfaces and in no other one, split where lines meet; ids are positions in the list of cells and point ids are positions in the list of points.", "quantifier": "for all lists of polygons of any number of corners, every test of polygons and lines and every sorting by distance", "why_tests_cant": "the tests build a few fixed networks; with two or more lines in one fracture a line that meets no other one raises IndexError, corners of later fractures point to wrong points, and the lines of later fractures are not split at common points of three fractures.", "anchors": ["src/geometry/fracture_network.py:FractureNetwork.insert_fracture_cell", "src/geometry/fracture_network.py:FractureNetwork.intersect_2D_fractures", "src/geometry/geometry_cell.py:GeometryCell"]}
{"id": "C96", "title": "Meshing a polygon with fractures", "statement": "GeometryBuilder.build_box_2D, FractureNetwork.intersect_1D_fractures, build_grahp(all_fixed_d_cells_q=True), ConformalMesher.set_points and generate hand gmsh a consistent description whenever the area and all sides have tags: points numbered from one, the sides, the undivided lines of the network, one surface; every fracture has a group with exactly its pieces; every vertex is in the group of its tag; all vertices and lines are embedded in the surface. For tags that are not negative no two groups have the same dimension and tag iff the tags of the sides differ from each other and from those of the fractures; with at most (shift+1)^2 fractures the group of points of a fracture holds exactly its two ends. If a tag is missing the run ends with TypeError. write_mesh restores the point ids of the network but not the cell ids.", "quantifier": "for all polygons, lists of fractures, tags and shifts, every intersection test with a reflexive comparison of points and every sorting", "why_tests_cant": "the examples use one tag layout; the default tags of the box clash with the default fracture tags from two fractures on, the number of an intersection may equal the tag of a later fracture, and the default graph repeats groups.", "anchors": ["src/geometry/geometry_builder.py:GeometryBuilder.build_box_2D", "src/geometry/geometry_builder.py:GeometryBuilder.build_grahp", "src/mesh/conformal_mesher.py:ConformalMesher.set_points", "src/mesh/conformal_mesher.py:ConformalMesher.add_domain_2d_descritpion", "src/mesh/conformal_mesher.py:ConformalMesher.add_fracture_network_description", "src/mesh/conformal_mesher.py:ConformalMesher.generate", "src/mesh/conformal_mesher.py:ConformalMesher.write_mesh", "src/geometry/fracture_network.py:FractureNetwork.shift_point_ids"]}
{"id": "C97", "title": "Boxes handed to gmsh", "statement": "GeometryBuilder.build_box_1D, build_box_2D and build_box followed by ConformalMesher.generate hand gmsh a consistent description of a segment, of a polygon with any number of corners, and of a hexahedron (twelve lines, six faces whose loops go round their four corners, one volume bounded by all six), with a group for each boundary part and one for the interior carrying the tags given; if a tag is missing the run ends with TypeError.", "quantifier": "for all lists of points (at least two; at least one; exactly eight) and all tag dictionaries", "why_tests_cant": "all numbers of corners and all dictionaries, including incomplete ones.", "anchors": ["src/geometry/geometry_builder.py:GeometryBuilder.build_box_1D", "src/geometry/geometry_builder.py:GeometryBuilder.build_box_2D", "src/geometry/geometry_builder.py:GeometryBuilder.build_box", "src/mesh/conformal_mesher.py:ConformalMesher.add_domain_1d_descritpion", "src/mesh/conformal_mesher.py:ConformalMesher.add_domain_2d_descritpion", "src/mesh/conformal_mesher.py:ConformalMesher.add_domain_3d_descritpion", "src/mesh/conformal_mesher.py:ConformalMesher.generate"]}
{"id": "C98", "title": "Collapsing an edge onto an equal one", "statement": "collapse_edge(tool, object, eps) returns the object iff the ends of the two edges, paired in the order of their tags, are close up to eps, and None otherwise with the object unchanged. A returned object equals the tool: either it did before and is left as it is, or it takes over tag, physical tag, boundary and immersed shapes of the tool. The same holds for collapse_vertex.", "quantifier": "for all edges with two end vertices, tools without immersed shapes, tolerances not below geometry_collapse_tol, every argsort", "why_tests_cant": "the tests never call collapse_edge; edges numbered from the other end are not collapsed, and an immersed vertex makes the comparison of the ends disappear.", "anchors": ["src/topology/operations/edge_operations.py:collapse_edge", "src/topology/operations/edge_operations.py:edge_strong_equality_q", "src/topology/operations/edge_operations.py:edge_with_same_geometry_q", "src/topology/operations/vertex_operations.py:collapse_vertex", "src/topology/shape.py:Shape.shape_assignment"]}
{"id": "C99", "title": "Intersection of two edges", "statement": "edge_edge_intersection(tool, object, tag, p_eps, l_eps) raises no exception and returns: the end of the object which an end of the tool is (same tag and place); else a new vertex where an end of the tool touches the object, ends of the object before inner points and the first end of the tool before the second; else a new vertex with the given tag where the edges cross; else None, and then edges with a common point are parallel. The first two answers should respect the tolerance p_eps and the tag, the answer should not depend on the order of the edges, and edges that overlap should be found.", "quantifier": "for all edges in space, all tags and tolerances, every solver of least squares problems, in exact arithmetic", "why_tests_cant": "the tests pass one tag and never look at the tag of a vertex at the end of an edge: p_eps is passed as the tag and the tolerance is ignored, a crossing point is stored as an array of shape (1, 3), and an edge inside another is missed in one order.", "anchors": ["src/topology/operations/edge_operations.py:edge_edge_boundary_intersection", "src/topology/operations/edge_operations.py:edge_edge_intersection", "src/topology/operations/vertex_operations.py:vertex_edge_boundary_intersection", "src/topology/operations/vertex_operations.py:vertex_edge_intersection", "src/geometry/operations/line_geometry_operations.py:line_line_intersection"]}
{"id": "C100", "title": "Vertices embedded in an edge", "statement": "embed_vertex_in_edge(vertices, edge, tag_shift) raises no exception and leaves tags and points of all vertices as they are. Of vertices with the same point only the first counts. A vertex near an end of the edge takes the place of that end. Of the others it returns those inside the edge, in lexicographic order of their points, and appends to edge.immersed_shapes the edges joining the ends through these in order, tagged tag_shift, tag_shift + 1, ...; together these cover the edge. Vertices which are not on the edge are filtered.", "quantifier": "for all heaps of vertices, lists of vertices (with repetitions), edges with two ends, tag shifts, every argsort, in exact arithmetic", "why_tests_cant": "the one test has three vertices on the line, in order, beyond the first end: only the distance to the first end is compared, so that vertices off the line or behind the first end are embedded too.", "anchors": ["src/topology/shape_manipulation.py:embed_vertex_in_edge", "src/topology/shape_manipulation.py:embed_vertex_in_edge_boundary", "src/topology/shape_manipulation.py:point_on_edge_boundary", "src/topology/edge.py:Edge"]}
{"id": "C101", "title": "Boxes with fractures", "statement": "create_md_box_2D(box_points, domain_physical_tags, lines, fracture_physical_tags) raises no exception for a convex box and fractures placed clearly. Wherever a fracture crosses a side or another fracture there is one vertex, on a side with the physical tag of the first side it lies on. Each side and each fracture is replaced by edges joining its ends through the vertices on it, in order, sharing those vertices and carrying its physical tag. The domain holds the vertices and edges that lie in the box, the wire of the edges along the sides, in order side by side, and one face with the physical tag of the area. The edges of the wire make a closed walk around the box.", "quantifier": "for all convex boxes, all lists of fractures no two special points of which nearly coincide, all physical tags, every argsort and least squares solver, in exact arithmetic", "why_tests_cant": "no test calls it, only examples with a few given networks; a fracture that crosses the last side of the box gives a wire whose edges are in the wrong order, which shows only in what is meshed later.", "anchors": ["src/topology/domain_market.py:create_md_box_2D", "src/topology/operations/domain_operations.py:domain_difference", "src/topology/operations/domain_operations.py:domain_union", "src/geometry/operations/line_geometry_operations.py:lines_lines_intersection"]}
{"id": "C102", "title": "Edges intersected with each other", "statement": "intersect_edges(edges, edges, axis, e_tag_shift, v_tag_shift, p_tag_shift) for edges in a plane across the axis creates one vertex at every point where two of the edges cross, other than in a vertex that is an end of both, and no other vertex; tags count from v_tag_shift and physical tags from p_tag_shift + 1 in lexicographic order of the points. Each edge is cut there: an end at such a point becomes the new vertex, and the edges immersed in it join its ends through the new vertices inside it, in order, and together cover exactly the edge; an edge with no crossing inside gets none. Wires are skipped and old vertices are not changed. The edges returned are the immersed edges of all edges, their tags consecutive from e_tag_shift. With two different arrays every crossing of an edge of the first with an edge of the second is treated in the same way.", "quantifier": "for all arrays of edges and wires and all coordinates, no two special points of which nearly coincide, all shifts and axes, every argsort, in exact arithmetic", "why_tests_cant": "the tests reach intersect_edges only through build_box_2D_with_lines, with a few files of lines in one square, all in one array with distinct tags; crossings at ends, common ends, several edges through one point, collinear edges, other axes and different arrays for objects and tools are combinations that no fixed example covers.", "anchors": ["src/topology/shape_manipulation.py:intersect_edges", "src/topology/shape_manipulation.py:embed_vertex_in_edge", "src/topology/shape_manipulation.py:point_on_edge_boundary", "src/geometry/operations/triangle_triangle_intersection_test.py:TriangleTriangleIntersectionTest.line_line_intersection"]}
{"id": "C103", "title": "Queries of a domain", "statement": "max_tag and max_physical_tag return the largest tag and the largest physical tag that is not None, and raise ValueError exactly when there is none; shapes_with_physical_tag(t) returns exactly the shapes with that physical tag, in the order of the domain. lookup_vertex(x) returns the vertex close to x when there is exactly one, None when there is none, and raises AssertionError when there are two or more. After build_grahp(), remove_vertex() keeps exactly the vertices that are part of a shape of the top dimension, in order, and changes no other shape; a second call changes nothing. Without a graph it raises AttributeError when there is a vertex. refresh_wires() directs the edges of every wire of the domain along its path.", "quantifier": "for all domains and points, all nestings of shapes", "why_tests_cant": "tests look up vertices of a few small domains at exact points and take the largest tag of boxes; empty domains, missing physical tags, coinciding vertices, vertices with equal tags, shapes outside the graph and the order of the results are not checked, and no finite set of domains covers all nestings.", "anchors": ["src/topology/domain.py:Domain.max_tag", "src/topology/domain.py:Domain.max_physical_tag", "src/topology/domain.py:Domain.shapes_with_physical_tag", "src/topology/domain.py:Domain.lookup_vertex", "src/topology/domain.py:Domain.remove_vertex", "src/topology/domain.py:Domain.refresh_wires"]}
{"id": "C104", "title": "Boxes with lines", "statement": "build_box_2D_with_lines(box_points, lines_file) returns a domain with the sides of the box, its wire, the lines, the pieces and one face. New vertices are exactly the points where sides and lines cross, other than a common corner; every side and line that is crossed away from its ends has as immersed shapes the pieces that join its ends through these points in order and together cover it, and its ends are replaced by the new vertices at their points. The vertices kept are the first corner, the new ones, and the corners and ends which were not replaced; they get the tags 0, 1, ... in this order and are exactly the vertices of the graph. The lines get the physical tags after the largest of the box, the new vertices those after the lines, and all others keep theirs; without any physical tag ValueError is raised. The face has the wire as boundary and the lines immersed; the wire has the pieces of the sides, or the sides, in order as immersed edges, and its orientation leads round along them from the first corner. The entries of domain.shapes[1] have different tags.", "quantifier": "for all boxes with two or more corners, any number of lines, all positions in which no two points nearly coincide and no sides or lines are nearly parallel or collinear", "why_tests_cant": "tests build the unit square with a few files of lines and compare tags, predecessors and lengths; that the orientation leads round the box is not tested, and one of the files has a line that crosses the last side.", "anchors": ["src/topology/domain_market.py:build_box_2D_with_lines", "src/topology/domain_market.py:build_disjoint_lines", "src/topology/shape_manipulation.py:embed_edge_in_face"]}
{"id": "C105", "title": "Planes in a box", "statement": "build_disjoint_planes(file, max_f_tag, max_e_tag, max_v_tag, max_p_tag) returns a domain with, for every row of the file, four vertices at its corners, four edges and a wire around them, and a face bounded by the wire. Vertices, edges with wires, and faces have consecutive tags from the given ones, faces have consecutive physical tags and other shapes none. The wire leads round along the corners in order, in the directions of its orientation, from the first corner back to it. build_box_3D_with_planes(box_points, planes_file) returns a domain that contains the planes.", "quantifier": "for all files, tags, points and physical tags", "why_tests_cant": "no test calls either function, so that the missing import of intersect_faces is not noticed.", "anchors": ["src/topology/domain_market.py:build_disjoint_planes", "src/topology/domain_market.py:build_box_3D_with_planes"]}
{"id": "C106", "title": "Points on vertices, lines, edges and faces", "statement": "In shape_manipulation, point_line_intersection(A, B, P) is True iff P lies on the line through A and B (for A = B: iff P is A). collapse_vertex(tool, object, eps) returns the tool and leaves the object if both are equal in tag and point, otherwise the object, which is changed into the tool if the points are close up to eps and unchanged if not. vertex_edge_intersection(v, edge, eps) returns a vertex iff v is on the edge up to the tolerance. points_on_face_boundary(points, face) returns the first edge of the wires of the face that joins the two points, in either order, and None if there is none. In vertex_operations, vertex_vertex_intersection(tool, object, tag, eps) returns the object if both are equal, a new vertex with the given tag at the point of the tool if they are close up to eps, and None otherwise.", "quantifier": "for all points, tags, tolerances, edges and faces", "why_tests_cant": "no test calls these functions directly; lines along an axis and vertices inside an edge go wrong.", "anchors": ["src/topology/shape_manipulation.py:point_line_intersection", "src/topology/shape_manipulation.py:collapse_vertex", "src/topology/shape_manipulation.py:vertex_edge_boundary_intersection", "src/topology/shape_manipulation.py:vertex_edge_intersection", "src/topology/shape_manipulation.py:points_on_face_boundary", "src/topology/operations/vertex_operations.py:vertex_vertex_intersection"]}
{"id": "C107", "title": "Mixed-dimensional product spaces", "statement": "MDProductSpace(product_spaces) keeps the product spaces as product_spaces_by_dim if there are at most three, and raises ValueError if there are more. _define_integration_order_and_quadrature(data) sets integration_order to twice the largest order of the fields plus one, quadrature to the rules of this order for exactly the dimensions of the fields, and bc_quadrature to those for exactly the dimensions one less. After the spaces and their DoFs have been defined by the methods of the object, destination_indexes(cell) and bc_destination_indexes(cell) return the DoF numbers of the fields, those of each field shifted by the number of DoFs of the fields before it.", "quantifier": "for all sequences of product spaces, all fields and all sequences of calls of the methods of the object", "why_tests_cant": "no test makes an MDProductSpace, and the only example that imports it does not use it; that no order of calls leads to a destination is a statement about all histories.", "anchors": ["src/spaces/md_product_space.py:MDProductSpace"]}
{"id": "C108", "title": "Faces intersected with each other", "statement": "intersect_faces(faces, tools, ...) finds every pair of a face and a tool (other than shells) that meet in a segment, except when the segment is a common edge of both, and creates one edge, with two new vertices, for every segment found, also when several pairs of faces meet in the same segment. The edges of each face and the new edges in it are then intersected along an axis along which the face is not projected to a line.", "quantifier": "for all arrays of faces and shells, all coordinates and every outcome of the polygon test, in exact arithmetic", "why_tests_cant": "no test calls intersect_faces: its only caller, build_box_3D_with_planes, fails before it. Several fractures through one line, different arrays for faces and tools and faces with a diagonal along an axis are combinations that no fixed example covers.", "anchors": ["src/topology/shape_manipulation.py:intersect_faces", "src/topology/shape_manipulation.py:points_on_face_boundary"]}
{"id": "C109", "title": "Data of elements", "statement": "QuadratureData, MappingData, DoFData, BCEntities and BasisData keep the arguments of the constructor as attributes, with their defaults for missing ones, and raise TypeError for too many; ElementData(cell, mesh) has the cell, the mesh and new parts with their defaults. x.copy() returns an object with the attributes of x. store_mapping(data) stores the mapping of the element of which the shape functions have been evaluated.", "quantifier": "for all classes, arguments and histories of assignments to the attributes", "why_tests_cant": "no test copies element data or calls store_mapping; that they fail after every history of assignments is a statement about all histories.", "anchors": ["src/basis/element_data.py", "src/geometry/mapping.py:store_mapping"]}
{"id": "C110", "title": "Report of a mesh", "statement": "mesh.write_data(file) writes the least and the greatest dimension of the cells and of the cells with a physical tag, the number of points and every point with its index, the number of cells and, in their order, every cell with its type, dimension, id, physical tag, name, nodes and lists of sub-cells; from the report the points and the cells can be recovered. This holds of every mesh.", "quantifier": "for all meshes, in particular all built by build_conformal_mesh", "why_tests_cant": "no test reads a report; that different meshes have different reports is a statement about pairs of meshes, and the failing meshes (no physical tags, a point in no element) do not occur in the tests.", "anchors": ["src/mesh/mesh.py:Mesh.write_data", "src/mesh/mesh_cell.py:MeshCell"]}
{"id": "C111", "title": "Cutting along the fractures of a network", "statement": "mesh.cut_conformity_on_fractures_mds_ec() on a mesh of triangles duplicates the edges of every fracture and their vertices other than those with the tag of the fracture, once for each side, with the tags 10 t + 1 and 10 t - 1; the triangles of the two sides then share none of them, all other data stay, and the map returned gives for every edge of a fracture its copies on the positive and on the negative side, which are edges of the triangles there. In other dimensions it raises AssertionError.", "quantifier": "for all meshes whose cells are consistent, all lists of fractures and all classifications of cells by side", "why_tests_cant": "the tests cut small networks; that copies are never mistaken for edges of another fracture depends on all tags.", "anchors": ["src/mesh/mesh.py:Mesh.cut_conformity_on_fractures_mds_ec"]}
