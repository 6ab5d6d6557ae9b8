{
 "claims": [
  {
   "property": "C01",
   "status": "partial",
   "theorems": [
    "C01_reset_succeeds",
    "C01_bijection",
    "C01_repeated_unknown_refuted",
    "C01_self_neighbour_refuted"
   ],
   "note": "Bijection proved for all meshes, layouts and process counts under the stated well-formedness conditions; two conditions that the API does not check are shown to be necessary (refuted)."
  },
  {
   "property": "C02",
   "status": "proved",
   "theorems": [
    "C02_local_indices",
    "C02_not_owned",
    "C02_same_order"
   ],
   "note": ""
  },
  {
   "property": "C03",
   "status": "proved",
   "theorems": [
    "C03_element_indices",
    "C03_face_indices",
    "C03_one_process"
   ],
   "note": ""
  },
  {
   "property": "C04",
   "status": "proved",
   "theorems": [
    "C04_process_contiguous",
    "C04_blocked_global",
    "C04_blocked_processor",
    "C04_sequential_object"
   ],
   "note": ""
  },
  {
   "property": "C05",
   "status": "proved",
   "theorems": [
    "C05_no_error",
    "C05_no_deadlock",
    "C05_terminates",
    "C05_agree",
    "C05_informed",
    "C05_element_indices"
   ],
   "note": ""
  },
  {
   "property": "C06",
   "status": "partial",
   "theorems": [
    "C06_history_independent",
    "C06_ranges_tile",
    "C06_empty_unknown_list_with_asserts_refuted"
   ],
   "note": "History independence and tiling proved for all non-empty histories; an empty list of unknowns reads out of bounds in the duplicate check when assertions are on (refuted)."
  },
  {
   "property": "C07",
   "status": "partial",
   "theorems": [
    "C07_face_offsets",
    "C07_face_mapping_tiles",
    "C07_boundary_face_mapping",
    "C07_right_sentinel_refuted"
   ],
   "note": "Offsets and tiling proved; the sentinel for excluded unknowns is wrong on the right side of a face (refuted)."
  },
  {
   "property": "C08",
   "status": "partial",
   "theorems": [
    "C08_exact",
    "C08_element_based",
    "C08_no_error",
    "C08_checked",
    "C08_one_process",
    "C08_assembly",
    "C08_assembly_no_error",
    "C08_after_exchange",
    "C08_check_misses_refuted",
    "C08_spurious_error_refuted",
    "C08_node_contact_refuted"
   ],
   "note": "Each row of the estimate is the exact number of coupled owned and non-owned columns whenever the process sees the face neighbours of the support of its rows; this holds for element-based unknowns, on one process, and (all unknowns, contact along a face) whenever the built-in check passes. Assembly adds exactly to the coupled entries. Refuted in general: the check confuses positions with unknowns (misses and spurious errors) and ignores processes that meet in a node only."
  },
  {
   "property": "C09",
   "status": "partial",
   "theorems": [
    "C09_single_level_visit",
    "C09_levels",
    "C09_built_consistent",
    "C09_add_children_at_level_refuted",
    "C09_max_level_refuted"
   ],
   "note": "Proved for all forests that are built without giving a level to addChildren; refuted with such a call; maxLevel() is refuted."
  },
  {
   "property": "C10",
   "status": "partial",
   "theorems": [
    "C10_all_levels_visit_partial",
    "C10_all_levels_complete_partial",
    "C10_misses_entries_refuted"
   ],
   "note": "The visited list is characterised for all forests; it is complete exactly when the last entry is on the last level, otherwise refuted."
  },
  {
   "property": "C11",
   "status": "partial",
   "theorems": [
    "C11_preorder_visit",
    "C11_postorder_visit",
    "C11_decrement_undoes_increment",
    "C11_deep_entries_refuted"
   ],
   "note": "Proved for all forests whose entries occupy one level; refuted for an entry on two levels."
  },
  {
   "property": "C12",
   "status": "partial",
   "theorems": [
    "C12_recorded_position",
    "C12_sub_positions",
    "C12_recorded_position_refuted",
    "C12_second_refinement_refuted"
   ],
   "note": "Proved for additions at the traversal of all levels; refuted for another traversal level and for a second refinement."
  },
  {
   "property": "C13",
   "status": "proved",
   "theorems": [
    "C13_ids_consecutive",
    "C13_ids_unique"
   ],
   "note": ""
  },
  {
   "property": "C14",
   "status": "partial",
   "theorems": [
    "C14_symmetric",
    "C14_owner",
    "C14_requests",
    "C14_once_partial",
    "C14_twice_refuted"
   ],
   "note": "All mesh files, request histories and numbers of processes. The lists agree as lists, also in their order. Not twice: only if nobody requests what is received already (C14_once_partial, C14_twice_refuted)."
  },
  {
   "property": "C15",
   "status": "partial",
   "theorems": [
    "C15_readers_return_last_values",
    "C15_written_vectors_readable",
    "C15_other_calls_refused",
    "C15_index_bijection",
    "C15_element_matrix",
    "C15_element_vector",
    "C15_change_count_keeps_earlier_unknowns",
    "C15_change_count_refuted"
   ],
   "note": "All read/write laws proved; changing the number of basis functions keeps earlier unknowns only (refuted for later ones)."
  },
  {
   "property": "C16",
   "status": "partial",
   "theorems": [
    "C16_holds_a_matrix",
    "C16_new_matrix",
    "C16_read",
    "C16_read_side",
    "C16_write",
    "C16_write_side",
    "C16_set_element_matrix",
    "C16_set_then_get_entire",
    "C16_get_then_set_entire",
    "C16_entire_entries",
    "C16_sum",
    "C16_multiple",
    "C16_axpy",
    "C16_store_matrix",
    "C16_store_vector",
    "C16_store_dense_matrix",
    "C16_dense_blocks_refuted"
   ],
   "note": "All laws proved; the constructor from a dense matrix is refuted for elements of different size."
  },
  {
   "property": "C17",
   "status": "partial",
   "theorems": [
    "C17_internal_face_numbering",
    "C17_boundary_face_numbering",
    "C17_conforming_numbering_refuted"
   ],
   "note": "Bijection proved for discontinuous bases; refuted for conforming ones."
  },
  {
   "property": "C18",
   "status": "proved",
   "theorems": [
    "C18_number_designates_place_and_index",
    "C18_local_functions",
    "C18_other_places_unaffected",
    "C18_element_counts_current"
   ],
   "note": ""
  },
  {
   "property": "C19",
   "status": "proved",
   "theorems": [
    "C19_first_get_computes",
    "C19_later_gets_cached",
    "C19_value_is_current",
    "C19_single_first_get",
    "C19_single_later_gets"
   ],
   "note": ""
  },
  {
   "property": "C20",
   "status": "partial",
   "theorems": [
    "C20_read_back",
    "C20_readable_positions",
    "C20_no_write_outside",
    "C20_entries_determine_matrix",
    "C20_linear_index",
    "C20_transpose",
    "C20_constant",
    "C20_column",
    "C20_row",
    "C20_from_columns",
    "C20_concatenate",
    "C20_side_by_side",
    "C20_resize_same_rows",
    "C20_resize_keeps_array",
    "C20_entrywise",
    "C20_multiple",
    "C20_axpy",
    "C20_product",
    "C20_matrix_vector",
    "C20_vector_matrix",
    "C20_product_no_rows_refuted"
   ],
   "note": "All laws proved; products without rows are refuted."
  },
  {
   "property": "C21",
   "status": "proved",
   "theorems": [
    "C21_sum_ranges_over_permutations",
    "C21_determinant_is_leibniz",
    "C21_larger_refused",
    "C21_only_square",
    "C21_identity",
    "C21_multiplicative",
    "C21_transpose",
    "C21_equal_columns",
    "C21_swap_columns",
    "C21_linear_in_column"
   ],
   "note": ""
  },
  {
   "property": "C22",
   "status": "proved",
   "theorems": [
    "C22_entries",
    "C22_inner_product_is_determinant",
    "C22_orthogonal_to_columns",
    "C22_swapped_columns",
    "C22_linear_map",
    "C22_other_sizes_refused"
   ],
   "note": ""
  },
  {
   "property": "C23",
   "status": "partial",
   "theorems": [
    "C23_line",
    "C23_triangle",
    "C23_square_partial",
    "C23_square_rotation_refuted",
    "C23_cube_partial",
    "C23_cube_reflection_refuted",
    "C23_bijections",
    "C23_jacobians"
   ],
   "note": "Complete for lines and triangles; six of eight orientations of squares; identity of cubes. The remaining orientations are refuted."
  },
  {
   "property": "C24",
   "status": "proved",
   "theorems": [
    "C24_faces",
    "C24_nodes",
    "C24_into_boundary",
    "C24_into_hull",
    "C24_defined",
    "C24_cover_boundary",
    "C24_injective",
    "C24_jacobians",
    "C24_edges_on_two_faces",
    "C24_tetrahedron_edges"
   ],
   "note": ""
  },
  {
   "property": "C25",
   "status": "proved",
   "theorems": [
    "C25_outward",
    "C25_affine",
    "C25_length"
   ],
   "note": ""
  },
  {
   "property": "C26",
   "status": "partial",
   "theorems": [
    "C26_two_sides",
    "C26_square_partial",
    "C26_square_refuted",
    "C26_right_map"
   ],
   "note": "Complete for point, line and triangle faces (also quadratic ones and periodic shifts), and for six of eight orientations of squares; the rotations by a quarter are refuted. Hypercubes are excluded."
  },
  {
   "property": "C27",
   "status": "proved",
   "theorems": [
    "C27_nodes",
    "C27_affine",
    "C27_faces",
    "C27_quadratic_faces",
    "C27_hypercube_not_interpolated"
   ],
   "note": ""
  },
  {
   "property": "C28",
   "status": "partial",
   "theorems": [
    "C28_jacobians",
    "C28_pyramid_partial"
   ],
   "note": "Complete for all mappings but the pyramid; for the pyramid shown on the axis and away from the level of the apex."
  },
  {
   "property": "C29",
   "status": "partial",
   "theorems": [
    "C29_line",
    "C29_simplex",
    "C29_newton_partial",
    "C29_newton_nan_partial",
    "C29_newton_affine",
    "C29_quadratic_affine",
    "C29_newton_refuted",
    "C29_quadratic_refuted"
   ],
   "note": "Lines, simplices and affine images completely; Newton's iteration: what is known about the returned point, with refutations of the full claim."
  },
  {
   "property": "C30",
   "status": "partial",
   "theorems": [
    "C30_explicit_and_complete",
    "C30_order",
    "C30_order_is_exact",
    "C30_stage_times_partial",
    "C30_stage_times_refuted",
    "C30_error_estimate",
    "C30_tvd"
   ],
   "note": "Order conditions of all tableaux proved; stage times of three tableaux are refuted."
  },
  {
   "property": "C31",
   "status": "proved",
   "theorems": [
    "C31_one_step",
    "C31_adaptive_step",
    "C31_adaptive_completes"
   ],
   "note": ""
  },
  {
   "property": "C32",
   "status": "proved",
   "theorems": [
    "C32_getRule_sound",
    "C32_getRule_fails",
    "C32_every_rule_reachable"
   ],
   "note": ""
  },
  {
   "property": "C33",
   "status": "partial",
   "theorems": [
    "C33_legendre_derivative",
    "C33_legendre",
    "C33_legendre_orthogonal",
    "C33_legendre_equation",
    "C33_legendre_parity",
    "C33_lobatto_partial",
    "C33_lobatto_shape_partial",
    "C33_lobatto_refuted",
    "C33_lobatto_derivative"
   ],
   "note": "Legendre part for all degrees. The Lobatto part holds for degrees up to 9 other than 5 (C33_lobatto_partial) and, up to scaling, for all degrees other than 5; the full statement is false (C33_lobatto_refuted). The derivative of Lobatto polynomials exists up to degree 3 and is correct there; beyond it the program stops."
  },
  {
   "property": "C34",
   "status": "proved",
   "theorems": [
    "C34_all_calls_return",
    "C34_same_set_iff_connected",
    "C34_representative",
    "C34_iteration",
    "C34_find_keeps_items"
   ],
   "note": ""
  },
  {
   "property": "C35",
   "status": "proved",
   "theorems": [
    "C35_groups_are_components"
   ],
   "note": ""
  },
  {
   "property": "C36",
   "status": "partial",
   "theorems": [
    "C36_reorder_roundtrip",
    "C36_reorder_in_range",
    "C36_permutations_accepted",
    "C36_check_rejects_non_permutations_refuted",
    "C36_gmsh_orders_roundtrip",
    "C36_gmsh_linear_tetrahedron_refuted"
   ],
   "note": "Round trip and range safety proved for every registration history and every permutation. The registration check itself accepts non-permutations and the gmsh reader has no order for 4-node tetrahedra; both are refuted with witnesses."
  },
  {
   "property": "C37",
   "status": "proved",
   "theorems": [
    "C37_base64_roundtrip",
    "C37_base64_is_rfc4648"
   ],
   "note": ""
  },
  {
   "property": "C38",
   "status": "partial",
   "theorems": [
    "C38_average_is_mean",
    "C38_projection",
    "C38_positive_layer_mean",
    "C38_positive_layer_height_partial",
    "C38_positive_layer_total",
    "C38_positivity_refuted",
    "C38_squeeze",
    "C38_squeeze_refuted",
    "C38_minimum_point_refuted",
    "C38_average_limiter",
    "C38_bidispersed",
    "C38_bidispersed_outside",
    "C38_bidispersed_refuted",
    "C38_tvb",
    "C38_tvb_bounds",
    "C38_tvb_order",
    "C38_loop_mass"
   ],
   "note": "Partial: the layer limiter keeps the means and gives heights of at least minH for elements whose height is linear (the hypothesis of C38_positive_layer_height_partial says exactly when); C38_positivity_refuted shows an element of order 2 that it makes negative. C38_squeeze_refuted: NaN for a uniform negative discharge; C38_minimum_point_refuted: the squeeze limiter looks at the wrong node; C38_bidispersed_refuted: the small particles still stick out after limiting. Mass conservation (C38_loop_mass) holds for every combination of limiters, and the TVB limiter's bounds and independence of the element order are proved for all meshes."
  },
  {
   "property": "C39",
   "status": "partial",
   "theorems": [
    "C39_integral_unique",
    "C39_exact_partial",
    "C39_exact_one_less",
    "C39_refuted",
    "C39_points_inside",
    "C39_points_complete",
    "C39_getRule",
    "C39_available"
   ],
   "note": "All 47 registered rules, tabulated decimals as in the code, real arithmetic. C39_exact_partial: every rule other than T3_7_31 and T3_9_53 integrates all polynomials of its order up to 1e-13 (1e-9 for pyramids and prisms) times the sum of the coefficients. C39_refuted: these two tetrahedron rules declare degrees 7 and 9 and are exact only to 6 and 8 (C39_exact_one_less). Points inside the reference element, numbers of points, selection by getRule: proved in full."
  },
  {
   "property": "C40",
   "status": "partial",
   "theorems": [
    "C40_derivatives",
    "C40_defined_partial",
    "C40_defined_refuted"
   ],
   "note": "All scalar (H1-conforming, monomial, constant) basis functions: the derivatives that the program returns are the partial derivatives. They exist for Lobatto degrees up to 3; for larger degrees the program stops (C40_defined_refuted). Vector-valued functions (Nedelec, AinsworthCoyle) are not modelled."
  },
  {
   "property": "C41",
   "status": "partial",
   "theorems": [
    "C41_answers",
    "C41_solution_partial",
    "C41_history_independent",
    "C41_result_matrix",
    "C41_result_vector",
    "C41_changed_refuted",
    "C41_solution_refuted",
    "C41_uneven_refuted",
    "C41_result_refuted"
   ],
   "note": "All histories, including writing in the result matrix and changes of other elements. getSolution and getSolutionDeriv equal their definition when all unknowns use the same functions (C41_solution_partial); otherwise the program uses the functions of the first unknown (C41_solution_refuted). The overload without unknown needs equal numbers of functions. Not covered by coherence: the element itself changes (C41_changed_refuted) and non-finite numbers in the result matrix (C41_result_refuted)."
  },
  {
   "property": "C42",
   "status": "partial",
   "theorems": [
    "C42_plan",
    "C42_merged",
    "C42_built_ready",
    "C42_sound",
    "C42_refuted"
   ],
   "note": "Exact for injective pairings on every mesh that was built by adding fitting elements and merged before (C42_plan, C42_merged). For other pairings the plan is sound (C42_sound) but can miss entities (C42_refuted: findLeftCandidates keeps only one entity per image)."
  },
  {
   "property": "C43",
   "status": "proved",
   "theorems": [
    "C43_right_hand_side",
    "C43_right_hand_side_combination"
   ],
   "note": ""
  },
  {
   "property": "C44",
   "status": "proved",
   "theorems": [
    "C44_conservation"
   ],
   "note": ""
  },
  {
   "property": "C45",
   "status": "proved",
   "theorems": [
    "C45_number_of_nodes",
    "C45_distinct",
    "C45_internal",
    "C45_factory_sound",
    "C45_factory_complete",
    "C45_corners",
    "C45_sides",
    "C45_line_sides",
    "C45_line_orientation",
    "C45_triangle_orientation"
   ],
   "note": ""
  },
  {
   "property": "C46",
   "status": "proved",
   "theorems": [
    "C46_diameter",
    "C46_diameter_1d"
   ],
   "note": ""
  },
  {
   "property": "C47",
   "status": "partial",
   "theorems": [
    "C47_vanishes_partial",
    "C47_prism_refuted",
    "C47_nodal",
    "C47_partition_of_unity",
    "C47_defined"
   ],
   "note": "All shapes with H1 conforming basis functions; the quadrilateral faces of prisms of order 2 and more are excluded, since C47_prism_refuted shows that their functions do not vanish on other faces."
  },
  {
   "property": "C48",
   "status": "partial",
   "theorems": [
    "C48_conforming",
    "C48_conforming_defined",
    "C48_discontinuous_partial",
    "C48_discontinuous_defined",
    "C48_prism_refuted",
    "C48_monomials",
    "C48_degree_partial",
    "C48_monomials_degree"
   ],
   "note": "Conforming basis: every shape, order and orientation. Discontinuous basis: every order for lines, triangles, squares, tetrahedra and cubes, all supported orders for pyramids; prisms up to order 2, and C48_prism_refuted shows the count is wrong at order 3. Independence is C50. Degrees: every order, both bases and all orientations on lines, triangles, squares, tetrahedra and cubes; monomials in one to four coordinates."
  },
  {
   "property": "C49",
   "status": "partial",
   "theorems": [
    "C49_faces_partial",
    "C49_nodes",
    "C49_edges_partial",
    "C49_integration_points",
    "C49_faces_refuted",
    "C49_edges_refuted",
    "C49_periodic_refuted"
   ],
   "note": "Nodes: all shapes and orders. Faces and edges: all shapes, orders and orderings except the cases that the refuted theorems show to be wrong in the program: squares with interchanged directions from order 3 on (C49_faces_refuted) and quadrilateral faces of prisms from order 2 on (C47_prism_refuted), edges between a cube and another shape (C49_edges_refuted), edges on a periodic boundary (C49_periodic_refuted)."
  },
  {
   "property": "C50",
   "status": "partial",
   "theorems": [
    "C50_discontinuous_partial",
    "C50_refuted",
    "C50_conforming_partial",
    "C50_monomials"
   ],
   "note": "Orders up to 6: the discontinuous basis of every shape and the conforming basis of lines, triangles, squares, tetrahedra and cubes in every orientation. Monomials: every order. C50_refuted: from order 7 on the discontinuous basis is dependent, because LobattoPolynomial 5 lacks a factor."
  },
  {
   "property": "C51",
   "status": "proved",
   "theorems": [
    "C51_values_are_current"
   ],
   "note": "All histories; the face maps that are compared by address are the collapsed mappings of the reference geometries and concatenations of two of them."
  },
  {
   "property": "C52",
   "status": "partial",
   "theorems": [
    "C52_consistent",
    "C52_merge",
    "C52_execute",
    "C52_remove_unused",
    "C52_remove_unused_returns",
    "C52_remove_again_refuted"
   ],
   "note": "All call sequences. Removing unused entities succeeds as long as every coordinate has a node; it takes the node away from coordinates of unused nodes, and a later call then uses index -1 (C52_remove_again_refuted)."
  },
  {
   "property": "C53",
   "status": "proved",
   "theorems": [
    "C53_sharing",
    "C53_adding",
    "C53_whole"
   ],
   "note": "All meshes built by adding nodes, coordinates and fitting elements. Meshes changed by merging are covered by C42."
  },
  {
   "property": "C54",
   "status": "proved",
   "theorems": [
    "C54_synchronize"
   ],
   "note": "All schedules; MPI may copy the data of a send early or late. Vectors of an element have the same size on all processes (asserted by the code in debug mode)."
  },
  {
   "property": "C55",
   "status": "partial",
   "theorems": [
    "C55_curl",
    "C55_traces",
    "C55_sizes",
    "C55_degree",
    "C55_values_exist",
    "C55_curls_exist_partial",
    "C55_curls_missing_refuted",
    "C55_order_zero_refuted",
    "C55_independent_partial",
    "C55_independent_refuted"
   ],
   "note": "Curl, traces, degree, sizes and values for all orders; the existence of curls on triangles up to order 6 and independence on triangles up to order 7, beyond which both fail (refuted). Independence on tetrahedra for all orders."
  },
  {
   "property": "C56",
   "status": "proved",
   "theorems": [
    "C56_gradient",
    "C56_curl",
    "C56_divergence",
    "C56_tangential",
    "C56_flux"
   ],
   "note": "All element types; for pyramids all points but the tip and a neighbourhood of it of size 1e-14, where the code uses the Jacobian of another point. The fluxes are shown for elements of at most three dimensions."
  },
  {
   "property": "C57",
   "status": "partial",
   "theorems": [
    "C57_answers_partial",
    "C57_normal_unknown_refuted",
    "C57_sizes_refuted",
    "C57_rule_refuted",
    "C57_solution_refuted",
    "C57_point_first_refuted"
   ],
   "note": "All histories. The rule in use must have been set for the current face and the numbers of functions must be those of the first face (orderly); C57_rule_refuted and C57_sizes_refuted show that both are needed. basisFunctionNormal and basisFunctionUnitNormal with an unknown use the functions of unknown 0 (C57_normal_unknown_refuted), the solution on the right side is not rotated (C57_solution_refuted) and uses the functions of the first unknown (C41_solution_refuted). Result matrices and vectors are not modelled."
  },
  {
   "property": "C58",
   "status": "partial",
   "theorems": [
    "C58_rotation",
    "C58_congruent",
    "C58_translation",
    "C58_gradient",
    "C58_vector",
    "C58_curl",
    "C58_divergence",
    "C58_reflection_refuted"
   ],
   "note": "Exact arithmetic; two and three dimensions (no four dimensional faces). C58_reflection_refuted: sides that are glued by a reflection (a strip closed with a twist) pass the check against improper rotations, because the matrix that is computed always has a positive determinant, and derivatives get the wrong sign."
  },
  {
   "property": "C59",
   "status": "proved",
   "theorems": [
    "C59_curve",
    "C59_quadrilateral",
    "C59_hexahedron",
    "C59_triangle",
    "C59_tetrahedron",
    "C59_standard"
   ],
   "note": "Exact arithmetic. The numbering of VTK is written down from its published sources (hexahedra: the numbering of files before version 2.2, which is what the writer declares). Order 0 is refused."
  },
  {
   "property": "C60",
   "status": "partial",
   "theorems": [
    "C60_mapping",
    "C60_prisms_refuted",
    "C60_mesh",
    "C60_fields",
    "C60_tensors_refuted",
    "C60_master",
    "C60_names_refuted",
    "C60_binary",
    "C60_binary_refuted",
    "C60_pieces"
   ],
   "note": "Holds for the mesh, scalars and vectors with different names, below the limits of 32 bit counters. Refuted: tensors are announced with three components but have nine values for each point; prisms and pyramids have no cell from order 2 on; a name that is used for a scalar and for a vector spoils the array; a binary array of 2^32 bytes or more loses bytes. The text of the tags is not modelled; the order of the bytes of the header is that of a little endian machine."
  },
  {
   "property": "C61",
   "status": "partial",
   "theorems": [
    "C61_assembly",
    "C61_construct",
    "C61_construct_one",
    "C61_write",
    "C61_write_one",
    "C61_construct_then_write",
    "C61_write_then_construct",
    "C61_subset_refuted",
    "C61_different_numbers_refuted"
   ],
   "note": "C61_assembly is for any selection of unknowns; C61_construct, C61_write and the round trips for all unknowns, C61_subset_refuted shows that they fail otherwise (assertion or reading past the index list). C61_different_numbers_refuted: writing one unknown stops when unknowns have different numbers of basis functions. Any order of the insertions is covered."
  },
  {
   "property": "C62",
   "status": "proved",
   "theorems": [
    "C62_assembly",
    "C62_boundary",
    "C62_tables",
    "C62_edges_are_sides"
   ],
   "note": "MatSetValues and the assembly are PETSc's specification: values are added, in any order. That the reserved memory suffices is C08. The tables of nodes of faces and edges are those of the reference elements for C62_tables and C62_edges_are_sides."
  },
  {
   "property": "C63",
   "status": "partial",
   "theorems": [
    "C63_round_trip",
    "C63_face_types",
    "C63_shadow",
    "C63_header_space",
    "C63_shadow_face_types_refuted",
    "C63_repeated_node_refuted"
   ],
   "note": "C63_round_trip: for every consistent mesh of dimension 2 or 3 and every number of processes the writer and the reader succeed and each process has exactly its part (record copy in MeshFile_spec). C63_face_types: types of the faces next to own elements. C63_shadow: the exchange lists are those of C14/C54 for one valid list of lines. C63_header_space: the counts fit in the reserved space. C63_shadow_face_types_refuted: a face between two elements of another process gets a periodic type although it is not periodic. C63_repeated_node_refuted: an element with the same node twice is written with the same coordinates for both corners and cannot be read. Not covered: dimension 1 (the reader makes faces from nodes) and dimension 4, the text of the numbers."
  },
  {
   "property": "C64",
   "status": "proved",
   "theorems": [
    "C64_element",
    "C64_reference",
    "C64_face",
    "C64_exact"
   ],
   "note": "C64_element, C64_reference, C64_face: after any history, integrate returns the sum of the rule (element_integral, reference_integral, face_integral in Integral_spec) and, when the integrand asks for existing things, always returns it. C64_exact: with a polynomial integrand the sum is the exact integral over the reference element up to the tolerance of C39. Integrands are interaction programs that do not call setters. Faces in the history have the same numbers of functions (the assumption of C58). integratePair is the same loop with pairs as results."
  },
  {
   "property": "C65",
   "status": "partial",
   "theorems": [
    "C65_command_line",
    "C65_defined",
    "C65_numbers",
    "C65_no_numbers",
    "C65_point",
    "C65_bad_numbers_refuted"
   ],
   "note": "C65_command_line: parse_options succeeds exactly for the command lines of right_command (CommandLine_spec), with those options and library arguments. C65_defined: argv is never read out of bounds. C65_numbers, C65_no_numbers: arguments of integer options. C65_point: parsePoint. C65_bad_numbers_refuted: the empty text and a sign alone are accepted as 0, too large numbers are replaced by the largest one, -1 is accepted for unsigned options as the largest number, and an option of type char accepts no character, because only the end of the stream is checked and not its fail bit. The conversion of doubles is abstract."
  },
  {
   "property": "C66",
   "status": "partial",
   "theorems": [
    "C66_euler_consistent",
    "C66_euler_conservative",
    "C66_euler_upwind",
    "C66_waves",
    "C66_euler_wall",
    "C66_euler_wall_refuted",
    "C66_euler_element",
    "C66_euler_faces",
    "C66_inviscid",
    "C66_inviscid_sides",
    "C66_inviscid_pair_partial",
    "C66_inviscid_pair_refuted",
    "C66_shallow_line",
    "C66_shallow_channel",
    "C66_shallow_plane",
    "C66_shallow_waves",
    "C66_lax_friedrichs_partial",
    "C66_shallow_wall",
    "C66_shallow_faces",
    "C66_shallow_pair",
    "C66_shallow_line_conservative",
    "C66_shallow_line_faces_partial",
    "C66_shallow_line_faces_refuted",
    "C66_lax_friedrichs_refuted"
   ],
   "note": "C66_euler_consistent, _conservative, _upwind, C66_waves (the flux is the mean flux minus half of every wave times its smoothed speed), _wall, _element, _faces: Euler application. C66_inviscid, C66_inviscid_sides: compressible Navier-Stokes. C66_shallow_line, _channel, _plane, _wall, _faces, _pair, _line_conservative, C66_shallow_waves (two waves with a state between them): granular flow. Partial: C66_lax_friedrichs_partial uses the speeds along the axes instead of the normal (C66_lax_friedrichs_refuted: there are faster waves on faces that are not parallel to an axis); C66_inviscid_pair_partial (both sides at once) needs equal numbers of basis functions, and C66_shallow_line_faces_partial the normal +1. C66_inviscid_pair_refuted: with different numbers of functions the right integrand is undefined or misplaced. C66_shallow_line_faces_refuted: with normal -1 the normal is counted twice and the sign of the flux is wrong. C66_euler_wall_refuted: the arguments of the flux at a solid wall are exchanged, so gas that runs into the wall feels less than p + rho u^2 instead of more. doubles are real numbers; viscous terms, sources and the boundary conditions of the granular flow other than walls are not modelled."
  },
  {
   "property": "C67",
   "status": "partial",
   "theorems": [
    "C67_file",
    "C67_version",
    "C67_lower_names_refuted",
    "C67_no_tags_refuted",
    "C67_unclosed_refuted",
    "C67_reversed_refuted",
    "C67_node_order",
    "C67_orientation_partial",
    "C67_prism_mirrored_refuted"
   ],
   "note": "C67_file: every text that the grammar of Gmsh_spec derives for sensible contents gives the described mesh. C67_version: other versions and binary files are refused. C67_node_order: the registered order of every type is that of an invertible affine map between the reference elements; C67_orientation_partial: with positive determinant, except for prisms (C67_prism_mirrored_refuted). C67_lower_names_refuted: when only groups of a lower dimension have names, a vector is read out of range. C67_no_tags_refuted: elements without tags make the reader skip 2^64-1 numbers. C67_unclosed_refuted: a file that ends inside a section is accepted. C67_reversed_refuted: elements of reversed (negative) groups lose their name. Linear tetrahedra are refused: C36_gmsh_linear_tetrahedron_refuted. The conversion of doubles is abstract; a number is taken as a whole word."
  },
  {
   "property": "C68",
   "status": "partial",
   "theorems": [
    "C68_rectangular",
    "C68_triangular",
    "C68_periodic_odd_refuted",
    "C68_bindings",
    "C68_bindings_refuted",
    "C68_version",
    "C68_simplex_dimensions"
   ],
   "note": "Rectangular and triangular files in full. Two parts of the property do not hold of the code and are refuted: matching tetrahedra across a periodic direction with an odd number of cells, and one processor for every element of a triangular mesh. Files of the type mesh are not modelled."
  },
  {
   "property": "C69",
   "status": "partial",
   "theorems": [
    "C69_records",
    "C69_refuses",
    "C69_cut_refuted",
    "C69_release_refuted",
    "C69_group",
    "C69_skip",
    "C69_coordinates",
    "C69_elements",
    "C69_periodic",
    "C69_zones_partial",
    "C69_zones_refuted",
    "C69_default_zone_refuted"
   ],
   "note": "Records, groups, coordinates, elements and periodic connections in full, for a program with assertions. Zones are proved for the first type of elements that a file has. Refuted: zones of the other types, the default zone of a two-dimensional file, a program without assertions, and a last marker that is cut off. The header, the boundary groups and the higher order nodes are not modelled."
  },
  {
   "property": "C70",
   "status": "partial",
   "theorems": [
    "C70_pairs",
    "C70_memory",
    "C70_reserve_refuted"
   ],
   "note": "Proved for every history of calls in which space is only reserved for lists that are still empty. Refuted: reserving more space after loading destroys the vectors while the number of pairs and the values stay."
  },
  {
   "property": "C71",
   "status": "partial",
   "theorems": [
    "C71_small",
    "C71_middle",
    "C71_sizes_refuted",
    "C71_nan_refuted"
   ],
   "note": "Proved for vectors of one size without NaN, of both classes, with real and with complex entries. Refuted: MiddleSizeVectors of different sizes together, and vectors with NaN."
  },
  {
   "property": "C72",
   "status": "partial",
   "theorems": [
    "C72_walk",
    "C72_steps",
    "C72_driver",
    "C72_change_partial",
    "C72_cube",
    "C72_change_refuted",
    "C72_end_refuted",
    "C72_no_steps_refuted",
    "C72_single_refuted"
   ],
   "note": "The points, steps, corners and the order of the computation in full, in exact arithmetic. A change of the step that is not reported does not happen; refuted: reports without a change at a corner on a straight line, the refusal of the first point beyond the end, walks of no steps, and the origin in the walk of a single step."
  },
  {
   "property": "C73",
   "status": "partial",
   "theorems": [
    "C73_zones",
    "C73_lines",
    "C73_split",
    "C73_layer",
    "C73_empty_refuted",
    "C73_file_name_refuted"
   ],
   "note": "Proved for all texts, with the regular expressions and numbers of the C++ library left open. Refuted: the empty text, which is taken for vacuum, and files with a comma in their name."
  },
  {
   "property": "C74",
   "status": "partial",
   "theorems": [
    "C74_entries",
    "C74_history",
    "C74_zero",
    "C74_hermitian",
    "C74_processors",
    "C74_own_neighbour_refuted",
    "C74_two_faces_refuted"
   ],
   "note": "Proved for all lists of blocks of the right sizes, in exact arithmetic; Hermitian matrices for meshes on which no entry is shifted in two ways. Refuted: an element that is its own neighbour across the boundary, and two elements that also share an inner face. The builder for conforming basis functions (CGDGMatrixKPhaseShiftBuilder) is not modelled."
  },
  {
   "property": "C75",
   "status": "partial",
   "theorems": [
    "C75_boxes",
    "C75_layers",
    "C75_material_refuted",
    "C75_unknown_zone_refuted"
   ],
   "note": "C75_boxes is about the two arrays and the reduction over processors, C75_layers about the layers that the elements get. Refuted: the material of a layer is that of the first element of the zone, also for other elements; a description for an unknown zone is ignored without a message. The parameters of a layer (createPML) and NaN coordinates are not modelled."
  },
  {
   "property": "C76",
   "status": "partial",
   "theorems": [
    "C76_test",
    "C76_exact",
    "C76_nan_refuted"
   ],
   "note": "Over the real numbers with NaN, without rounding or overflow. The tolerance counts by its absolute value, since it is squared. Refuted: matrices of NaN are accepted for every tolerance."
  },
  {
   "property": "C77",
   "status": "partial",
   "theorems": [
    "C77_path",
    "C77_steps_refuted"
   ],
   "note": "On top of the model of parsePoint for C65. std::stod and std::stoul are parameters. Refuted: a number of steps that is no int is reduced modulo 2^32, so that 4294967295 steps are the same as none given."
  },
  {
   "property": "C78",
   "status": "partial",
   "theorems": [
    "C78_faces",
    "C78_one_facet",
    "C78_order",
    "C78_distribution",
    "C78_names_refuted",
    "C78_fluxes"
   ],
   "note": "The constructor of FluxFacets with its numbering, and computeFluxes over the reals with computeEnergyFlux as a parameter. The numbers of the zones must be below the number of zones. Refuted: facets between zones with different names can have the same name."
  },
  {
   "property": "C79",
   "status": "proved",
   "theorems": [
    "C79_entries",
    "C79_adjoint",
    "C79_inverse",
    "C79_scalar"
   ],
   "note": "Exact complex numbers. A tensor from the default constructor, whose kind is not set, is not modelled."
  }
 ]
}