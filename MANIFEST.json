{
 "claims": [
  {
   "property": "C01",
   "status": "proved",
   "theorems": [
    "C01_cells_1d",
    "C01_nodes_1d",
    "C01_cells_2d",
    "C01_nodes_2d",
    "C01_cells_3d",
    "C01_nodes_3d"
   ],
   "note": "all three dimensions, cells and nodes; unbounded integers"
  },
  {
   "property": "C02",
   "status": "proved",
   "theorems": [
    "C02_corners_1d",
    "C02_corners_2d",
    "C02_corners_3d"
   ],
   "note": "all three dimensions"
  },
  {
   "property": "C03",
   "status": "proved",
   "theorems": [
    "C03_conforming_1d",
    "C03_same_point_1d",
    "C03_conforming_2d",
    "C03_conforming_3d"
   ],
   "note": "all three dimensions"
  },
  {
   "property": "C04",
   "status": "proved",
   "theorems": [
    "C04_edges_2d",
    "C04_edges_3d"
   ],
   "note": "2D and 3D; edges are directed along the positive axis, so no edge appears twice in either direction"
  },
  {
   "property": "C05",
   "status": "proved",
   "theorems": [
    "C05_faces_3d"
   ],
   "note": "3D"
  },
  {
   "property": "C06",
   "status": "proved",
   "theorems": [
    "C06_node_positions",
    "C06_cell_nodes",
    "C06_tiling_cover",
    "C06_tiling_disjoint"
   ],
   "note": "all dimensions; element nodes equal node positions, closed cells cover exactly the grid box, open cells are disjoint"
  },
  {
   "property": "C07",
   "status": "proved",
   "theorems": [
    "C07_locate_closed_box",
    "C07_locate_default",
    "C07_locate_default_upper_boundary_refuted",
    "C07_outside_detected_refuted"
   ],
   "note": "closed box with test_for_boundary=true, half-open box by default; the two documented/undocumented failures of the default mode are proved as *_refuted"
  },
  {
   "property": "C08",
   "status": "partial",
   "theorems": [
    "C08_complete_partial",
    "C08_sound_partial",
    "C08_no_duplicates_partial",
    "C08_exact_partial",
    "C08_outside_refuted"
   ],
   "note": "exact for points of the closed grid box (up to the code's own 1e-19 tolerance); false for points outside of the grid (C08_outside_refuted)"
  },
  {
   "property": "C09",
   "status": "partial",
   "theorems": [
    "C09_covers_partial",
    "C09_valid",
    "C09_tight_partial",
    "C09_clipped_refuted"
   ],
   "note": "validity for all points; covering and tightness for points of the grid box; the documented clipping is false when a point is outside (C09_clipped_refuted)"
  },
  {
   "property": "C10",
   "status": "proved",
   "theorems": [
    "C10_hash_complete",
    "C10_hash_local"
   ],
   "note": "every history, every dimension"
  },
  {
   "property": "C11",
   "status": "proved",
   "theorems": [
    "C11_partition_of_unity",
    "C11_derivatives_sum_to_zero"
   ],
   "note": "All 14 element types, every local point."
  },
  {
   "property": "C12",
   "status": "proved",
   "theorems": [
    "C12_kronecker",
    "C12_world_coordinates_at_nodes"
   ],
   "note": "All 14 element types, every pair of nodes; world coordinates at canonical nodes are the nodes."
  },
  {
   "property": "C13",
   "status": "proved",
   "theorems": [
    "C13_shape_derivative",
    "C13_derivative_matrix_size"
   ],
   "note": "All 14 element types, Coquelicot is_derive."
  },
  {
   "property": "C14",
   "status": "proved",
   "theorems": [
    "C14_jacobian_is_derivative"
   ],
   "note": "Any node table, any world dimension."
  },
  {
   "property": "C15",
   "status": "proved",
   "theorems": [
    "C15_affine_reproduction"
   ],
   "note": "Any node table, any world dimension, any local point."
  },
  {
   "property": "C16",
   "status": "proved",
   "theorems": [
    "C16_quadratic_reproduction",
    "C16_bilinear_reproduction",
    "C16_trilinear_reproduction"
   ],
   "note": "Quadratic fields on all quadratic types; bilinear / trilinear fields on linear tensor product types."
  },
  {
   "property": "C17",
   "status": "partial",
   "theorems": [
    "C17_segment_linear",
    "C17_segment_quadratic",
    "C17_quads",
    "C17_hexahedra",
    "C17_triangle_linear",
    "C17_triangle_quadratic",
    "C17_tetrahedra_affine",
    "C17_tetrahedron_quadratic_error_partial",
    "C17_tetrahedron_quadratic_exact_refuted",
    "C17_weights",
    "C17_nodes_interior"
   ],
   "note": "Exact for the degree of each rule; the quadratic tetrahedron uses rounded decimals: exact for affine fields, error bound for quadratic ones, exactness refuted."
  },
  {
   "property": "C18",
   "status": "partial",
   "theorems": [
    "C18_gauss_count_partial",
    "C18_gauss_count_refuted"
   ],
   "note": "Holds for 12 types, refuted for the two quadratic rectangular types (defect of the code)."
  },
  {
   "property": "C19",
   "status": "partial",
   "theorems": [
    "C19_hexahedron_local_of_world",
    "C19_hexahedron_world_of_local",
    "C19_quad_local_of_world_partial",
    "C19_quad_near_centre_refuted"
   ],
   "note": "Rectangular hexahedra: full inverse both ways. Rectangular quads use the iterative local_coordinates: exact except for points within 1e-5 of the centre, which are mapped to the centre (C19_quad_near_centre_refuted)."
  },
  {
   "property": "C20",
   "status": "proved",
   "theorems": [
    "C20_hexahedron_nodal",
    "C20_quad_nodal",
    "C20_hexahedron_jacobian",
    "C20_hexahedron_jacobian_determinant",
    "C20_hexahedron_fit_round_trip"
   ],
   "note": "Nodal and frame descriptions agree for linear and quadratic rectangular quads (2D, 3D) and hexahedra; constant jacobian with determinant; fitting round trip."
  },
  {
   "property": "C21",
   "status": "partial",
   "theorems": [
    "C21_affine_exact",
    "C21_linear_simplices_affine",
    "C21_affine_closest_point",
    "C21_result_partial",
    "C21_far_point_mapped_to_centre_refuted"
   ],
   "note": "Affine elements: exact pre-image and closest point; all elements: exact description of the result of the loop. The claim that a far point is never mapped to the centre is false (absolute first tolerance): C21_far_point_mapped_to_centre_refuted."
  },
  {
   "property": "C22",
   "status": "partial",
   "theorems": [
    "C22_contains_tensor",
    "C22_contains_simplex_partial",
    "C22_contains_shape_functions",
    "C22_closed_domain_contained",
    "C22_closed_domain_at_zero_refuted"
   ],
   "note": "Closed box for tensor product types; open enlarged simplex for simplices, so closedness at eps = 0 is refuted; RectangularQuad has no contains_local."
  },
  {
   "property": "C23",
   "status": "proved",
   "theorems": [
    "C23_segment_box_exact",
    "C23_segment_box_no_miss"
   ],
   "note": "Exact with eps=0 for every well formed box; no missed intersection for every eps>=0."
  },
  {
   "property": "C24",
   "status": "proved",
   "theorems": [
    "C24_triangle_box_exact",
    "C24_box_is_contains_local"
   ],
   "note": "Exact with eps=0, degenerate triangles included."
  },
  {
   "property": "C25",
   "status": "proved",
   "theorems": [
    "C25_quadratic_of_linear"
   ],
   "note": "Triangle, quad, tetrahedron, hexahedron; any nodes and local point."
  },
  {
   "property": "C26",
   "status": "partial",
   "theorems": [
    "C26_face_count",
    "C26_faces_well_formed",
    "C26_sides_bound_the_domain",
    "C26_face_is_side_partial",
    "C26_faces_outward_partial",
    "C26_face_trace_partial",
    "C26_edge_trace",
    "C26_edges_are_face_intersections",
    "C26_face_intersections_are_edges",
    "C26_rectangular_hexahedron_quadratic_refuted"
   ],
   "note": "13 types; refuted for the quadratic rectangular hexahedron (defect of the code)."
  },
  {
   "property": "C27",
   "status": "partial",
   "theorems": [
    "C27_history",
    "C27_unique_names",
    "C27_used_name_rejected_partial",
    "C27_used_name_accepted_refuted"
   ],
   "note": "all histories of add/remove that return; the overload taking a domain accepts a used name (refuted form recorded)"
  },
  {
   "property": "C28",
   "status": "partial",
   "theorems": [
    "C28_returns_iff_first_partial",
    "C28_removes_exactly_partial",
    "C28_remove_pointer_exactly_partial",
    "C28_never_returns_refuted"
   ],
   "note": "the code's loop has an empty body: exact characterisation of when removal returns, exact effect then, and a universally quantified refutation otherwise"
  },
  {
   "property": "C29",
   "status": "partial",
   "theorems": [
    "C29_copy_same_content_partial",
    "C29_copy_mesh_pointer_refuted",
    "C29_copy_dangles_refuted",
    "C29_move_same_content_partial",
    "C29_move_mesh_pointer_refuted"
   ],
   "note": "contents are preserved by copy and move; references to the owning mesh and independence of the source are refuted"
  },
  {
   "property": "C30",
   "status": "proved",
   "theorems": [
    "C30_copied_table",
    "C30_external_strides",
    "C30_external_row_major",
    "C30_external_column_major",
    "C30_external_is_a_view"
   ],
   "note": ""
  },
  {
   "property": "C31",
   "status": "partial",
   "theorems": [
    "C31_sound_partial",
    "C31_outside_nodes",
    "C31_interpolate",
    "C31_interpolate_positions_partial",
    "C31_exact_position_refuted",
    "C31_surface_refuted"
   ],
   "note": "Every embedded point is given an element whose containment test accepts it, or -1 when no element contains it; the stored position is the point except within 1e-5 of the local origin, where it is the origin (refuted for exactness; surfaces in 3D project points instead of reporting them outside)."
  },
  {
   "property": "C32",
   "status": "proved",
   "theorems": [
    "C32_complete",
    "C32_built"
   ],
   "note": "Affine linear elements filling their space."
  },
  {
   "property": "C33",
   "status": "proved",
   "theorems": [
    "C33_weight_is_volume_ratio",
    "C33_weights_sum_to_one",
    "C33_cell_weight",
    "C33_quadrature_weights",
    "C33_validation_passes"
   ],
   "note": "any classification of the sub-cells, any number of levels, D = 2 and 3; exact arithmetic (the validation tolerance is then never reached)"
  },
  {
   "property": "C34",
   "status": "partial",
   "theorems": [
    "C34_points_in_their_cells_partial",
    "C34_second_level_positions",
    "C34_second_level_refuted",
    "C34_two_dimensions_cut_refuted"
   ],
   "note": "proved as long as no point comes from a sub-cell of the second level (3D: also when the tree is cut at level 0 or 1); refuted, for every cell whose first level is divided, from the second level on, and in 2D when the tree is cut"
  },
  {
   "property": "C35",
   "status": "proved",
   "theorems": [
    "C35_subdivision_is_valid",
    "C35_neighbours_exact",
    "C35_symmetric",
    "C35_none_iff_border",
    "C35_leaves_do_not_overlap"
   ],
   "note": "any forest of full trees (the subdivision only makes those), D = 2 and 3; also: no neighbour exactly on the border of the grid, leaves do not overlap"
  },
  {
   "property": "C36",
   "status": "proved",
   "theorems": [
    "C36_regions"
   ],
   "note": "any types of the leaves; the consistency error is never raised and no array is left (C33_validation_passes: neither is the error of validate_grid)"
  },
  {
   "property": "C37",
   "status": "partial",
   "theorems": [
    "C37_outside_iff_border_partial",
    "C37_two_dimensions_refuted",
    "C37_two_dimensions_reachable"
   ],
   "note": "proved in 3D for any types; in 2D every undefined leaf is tagged outside, which is refuted in general but agrees with the claim in the states the component reaches in 2D with an iso-surface"
  },
  {
   "property": "C38",
   "status": "proved",
   "theorems": [
    "C38_cells",
    "C38_nodes",
    "C38_elements",
    "C38_default_threshold",
    "C38_positive_threshold"
   ],
   "note": ""
  },
  {
   "property": "C39",
   "status": "partial",
   "theorems": [
    "C39_zero_corner_refuted",
    "C39_nonzero_corners_partial",
    "C39_subdivision"
   ],
   "note": "proved when no corner value is exactly 0; otherwise an out-of-bounds increment is proved; the classification of the sub-cells is proved without restriction"
  },
  {
   "property": "C40",
   "status": "partial",
   "theorems": [
    "C40_outside",
    "C40_type_partial",
    "C40_shared_face_refuted",
    "C40_tessellated_refuted"
   ],
   "note": "proved for points of a single cell and for points shared by cells when the code answers; refuted on faces shared by cells of equal type and after a tessellated surface"
  },
  {
   "property": "C41",
   "status": "partial",
   "theorems": [
    "C41_refines_partial",
    "C41_uncompressed_refuted"
   ],
   "note": "All histories of calls in range that, before clearing across the storage order, compress after the last new entry (writing again an entry written before is allowed in between); refuted otherwise (stale indices in the free room hide entries)."
  },
  {
   "property": "C42",
   "status": "partial",
   "theorems": [
    "C42_refuted"
   ],
   "note": "Refuted for every matrix: the first write forgets the content. Reading before any write is right."
  },
  {
   "property": "C43",
   "status": "proved",
   "theorems": [
    "C43_clear_compressed",
    "C43_symmetric_values",
    "C43_not_symmetric_refuted"
   ],
   "note": "For every compressed matrix, both storage orders; the shortcut under the condition that transposes of nonzero entries are stored, refuted without it."
  },
  {
   "property": "C44",
   "status": "proved",
   "theorems": [
    "C44_convergence_is_genuine",
    "C44_recorded_residuals",
    "C44_flag",
    "C44_matrix_free"
   ],
   "note": "exact arithmetic in any ordered field, arbitrary preconditioner; the method without assembled matrix is the same computation (C44_matrix_free)"
  },
  {
   "property": "C45",
   "status": "proved",
   "theorems": [
    "C45_no_breakdown",
    "C45_conjugate_increments",
    "C45_monotone",
    "C45_optimal",
    "C45_finite_termination",
    "C45_preconditioners",
    "C45_projected"
   ],
   "note": "symmetric positive definite matrix and preconditioner; identity and diagonal preconditioners and projected systems shown to meet the hypotheses; also optimality in the Krylov space"
  },
  {
   "property": "C46",
   "status": "partial",
   "theorems": [
    "C46_already_solved_refuted",
    "C46_zero_right_hand_side_refuted",
    "C46_small_right_hand_side_refuted",
    "C46_success_partial"
   ],
   "note": "refuted: a solve with nothing to do always reports failure; holds when there is something to do (C46_success_partial)"
  },
  {
   "property": "C47",
   "status": "partial",
   "theorems": [
    "C47_iterations",
    "C47_recorded_residuals_partial",
    "C47_flag",
    "C47_single_iteration_refuted",
    "C47_static_position"
   ],
   "note": "any system, any behaviour of the linear solver; with a single iteration the recorded residual is that of the initial state (see findings)"
  },
  {
   "property": "C48",
   "status": "partial",
   "theorems": [
    "C48_first_iteration_refuted",
    "C48_reported_refuted",
    "C48_not_reported_refuted"
   ],
   "note": "false in the code: the reference is the residual after the first iteration; refuted with witnesses and for every run"
  },
  {
   "property": "C49",
   "status": "proved",
   "theorems": [
    "C49_never_always_time_step",
    "C49_assemblies",
    "C49_simulation"
   ],
   "note": "any sequence of solves and resets, any answers of the linear solver"
  },
  {
   "property": "C50",
   "status": "proved",
   "theorems": [
    "C50_one_step",
    "C50_reported"
   ],
   "note": "one exact step reaches equilibrium on the free degrees of freedom, and is reported when more than one iteration is allowed"
  },
  {
   "property": "C51",
   "status": "proved",
   "theorems": [
    "C51_kinematics",
    "C51_matrix_is_derivative",
    "C51_equation_of_motion",
    "C51_two_iterations",
    "C51_single_iteration_refuted"
   ],
   "note": "kinematics for every run, derivative and equation of motion; the single-iteration default misses the equation by h K v_n (refuted)"
  },
  {
   "property": "C52",
   "status": "proved",
   "theorems": [
    "C52_stress_is_energy_derivative",
    "C52_first_piola_kirchhoff"
   ],
   "note": "both laws, in terms of the Cauchy-Green strain and of the deformation gradient"
  },
  {
   "property": "C53",
   "status": "proved",
   "theorems": [
    "C53_tangent_is_stress_derivative",
    "C53_deformation_gradient",
    "C53_tangent_symmetric"
   ],
   "note": "6x6 tangent equals the derivative of the stress, along strains and along deformation gradients; symmetric"
  },
  {
   "property": "C54",
   "status": "proved",
   "theorems": [
    "C54_rest_state",
    "C54_objectivity",
    "C54_rigid_motion",
    "C54_hooke"
   ],
   "note": "rest state, objectivity, rigid motions, Hooke's law at rest"
  },
  {
   "property": "C55",
   "status": "partial",
   "theorems": [
    "C55_forces_are_minus_energy_gradient_partial",
    "C55_energy_after_parameter_change_refuted"
   ],
   "note": "The unqualified claim fails after a change of the material parameters (refuted theorem): the energy is computed with the parameters of the last force or stiffness computation."
  },
  {
   "property": "C56",
   "status": "partial",
   "theorems": [
    "C56_force_increment_partial",
    "C56_matrix",
    "C56_force_increment_repeated_nodes",
    "C56_repeated_node_refuted"
   ],
   "note": "C56_force_increment_partial is for meshes whose elements do not repeat a node; C56_force_increment_repeated_nodes gives, for every mesh, the derivative plus the exact error due to the repeated nodes, and C56_repeated_node_refuted a mesh where it is not zero."
  },
  {
   "property": "C57",
   "status": "proved",
   "theorems": [
    "C57_self_balanced",
    "C57_any_point"
   ],
   "note": "Resultant and moment about the origin and about any point, for meshes of non degenerate elements."
  },
  {
   "property": "C58",
   "status": "proved",
   "theorems": [
    "C58_schedule_independent"
   ],
   "note": "Any interleaving of any distribution of the elements over threads; the critical section of the code is atomic in the model."
  },
  {
   "property": "C59",
   "status": "proved",
   "theorems": [
    "C59_rigid_motion",
    "C59_balanced"
   ],
   "note": "Rigid motions after any history that keeps the option on; balance after any history."
  },
  {
   "property": "C60",
   "status": "partial",
   "theorems": [
    "C60_matrix_and_increment_partial",
    "C60_K_refuted",
    "C60_K_outdated_refuted"
   ],
   "note": "The matrix added to the system is symmetric and agrees with the force increments. The claim about K() is refuted: wrong blocks, nothing below the diagonal, not recomputed when elements rotate."
  },
  {
   "property": "C61",
   "status": "proved",
   "theorems": [
    "C61_power",
    "C61_velocity_is_derivative",
    "C61_constraints",
    "C61_total_force",
    "C61_unusable",
    "C61_usable"
   ],
   "note": "Power identity for every velocity and force field, derivative of the position transfer, constraint rows, total force, usability."
  },
  {
   "property": "C62",
   "status": "proved",
   "theorems": [
    "C62_virtual_work",
    "C62_total",
    "C62_area_triangles",
    "C62_area_parallelograms"
   ],
   "note": "Virtual work and total for every mesh; the integrated area is the geometric one for linear triangles and parallelograms."
  },
  {
   "property": "C63",
   "status": "partial",
   "theorems": [
    "C63_history_partial",
    "C63_never_larger",
    "C63_reached",
    "C63_forces",
    "C63_constant",
    "C63_added",
    "C63_reset_force_refuted",
    "C63_reset_step_refuted",
    "C63_reset_constant_refuted"
   ],
   "note": "Closed form of the applied traction for every history of steps; the reset clause is refuted: the nodal forces are emptied."
  },
  {
   "property": "C64",
   "status": "partial",
   "theorems": [
    "C64_upper_corner",
    "C64_lower_corner_partial",
    "C64_contains_first_node_refuted",
    "C64_increasing_refuted",
    "C64_planar_refuted"
   ],
   "note": "upper corner proved right for every list; lower corner proved right exactly when a node other than the first attains the minimum; refuted otherwise"
  },
  {
   "property": "C65",
   "status": "proved",
   "theorems": [
    "C65_dyad_1_entries",
    "C65_dyad_2_entries",
    "C65_dyad_1_action",
    "C65_dyad_2_action",
    "C65_voigt_contraction"
   ],
   "note": "both dyads, entry by entry and by their action on symmetric tensors"
  },
  {
   "property": "C66",
   "status": "partial",
   "theorems": [
    "C66_documented_order_partial",
    "C66_hexahedron_other_order_partial",
    "C66_hexahedron_documented_order_refuted",
    "C66_hexahedron_same_nodes"
   ],
   "note": "proved for every cell type but the quadratic hexahedron, for which it is refuted for VTK's documented order and proved for the order of the repository's test file"
  },
  {
   "property": "C67",
   "status": "partial",
   "theorems": [
    "C67_axes_partial",
    "C67_nodes",
    "C67_lossless",
    "C67_empty_file_refuted"
   ],
   "note": "for files with at least one point; a file without points in dimension 1 or 2 is undefined behaviour (refuted theorem)"
  },
  {
   "property": "C68",
   "status": "proved",
   "theorems": [
    "C68_domains"
   ],
   "note": "for every grid and every enumeration of its cell types"
  },
  {
   "property": "C69",
   "status": "proved",
   "theorems": [
    "C69_linearisation_point",
    "C69_forces"
   ],
   "note": "All histories; positions keep their number."
  },
  {
   "property": "C70",
   "status": "partial",
   "theorems": [
    "C70_without_corotation",
    "C70_corotated_aligned_partial",
    "C70_corotated_refuted"
   ],
   "note": "Proved without corotation, and with it around rest for elements whose rest frame is the world frame; refuted for other rest frames."
  },
  {
   "property": "C71",
   "status": "partial",
   "theorems": [
    "C71_reinit_tetrahedra_partial",
    "C71_history_forgotten_tetrahedra",
    "C71_reinit_hexahedra_refuted",
    "C71_switch_off_refuted"
   ],
   "note": "Proved for tetrahedra; refuted for hexahedra (stiffness multiplied by the number of initialisations) and when the option corotated is switched off."
  },
  {
   "property": "C72",
   "status": "partial",
   "theorems": [
    "C72_energy_partial",
    "C72_single_iteration_refuted"
   ],
   "note": "proved for steps with at least two iterations; false for a single iteration (refuted for every step size)"
  },
  {
   "property": "C73",
   "status": "partial",
   "theorems": [
    "C73_implicit_surface_partial",
    "C73_implicit_surface_3D_refuted",
    "C73_tessellated_surface",
    "C73_created_again_partial",
    "C73_stale_types_refuted",
    "C73_stale_triangle_refuted",
    "C73_bounds",
    "C73_axis"
   ],
   "note": "tessellated surfaces on a new component proved in full; implicit surfaces with non-zero corner values; repeated creation only when the remembered triangles stay valid; the rest is refuted"
  },
  {
   "property": "C74",
   "status": "partial",
   "theorems": [
    "C74_iterations",
    "C74_flag_partial",
    "C74_single_iteration_refuted",
    "C74_first_test_refuted",
    "C74_failed_solve_refuted",
    "C74_failed_warm_start_refuted",
    "C74_affine"
   ],
   "note": "The number of iterations, the records and the reported flag are characterised for every system, solver and configuration, and the affine case is proved. The code contradicts the rest: the first test compares a squared residual with the threshold, and failed linear solves are reported as convergence."
  },
  {
   "property": "C77",
   "status": "partial",
   "theorems": [
    "C77_circle_and_sphere",
    "C77_infinite_cylinder_partial",
    "C77_cylinder_length_refuted",
    "C77_circle_grid_partial",
    "C77_small_disc_refuted"
   ],
   "note": "Circle and sphere: proved. Cells of type Inside are exactly those in the disc: proved. The code ignores the length of the cylinder and drops cells that meet the disc without a corner in it."
  },
  {
   "property": "C75",
   "status": "partial",
   "theorems": [
    "C75_history_partial",
    "C75_new_pattern_refuted",
    "C75_empty_system_refuted",
    "C75_failure_refuted",
    "C75_unsymmetric_refuted"
   ],
   "note": "Proved for every history in which matrices of a same dimension have the same pattern, none is empty and all are symmetric (LDLT, LLT) or regular (LU); the code breaks the claim in each of the other cases (refutations)."
  },
  {
   "property": "C76",
   "status": "partial",
   "theorems": [
    "C76_init",
    "C76_attached",
    "C76_positions_copied",
    "C76_readable_partial",
    "C76_moved_indices_refuted",
    "C76_rejected_indices_refuted"
   ],
   "note": "Proved for every history in which the indices are not set while an internal domain refers to them; otherwise the code reads a moved vector or refused indices (refutations)."
  },
  {
   "property": "C78",
   "status": "partial",
   "theorems": [
    "C78_copy_partial",
    "C78_concerned",
    "C78_longer_refuted",
    "C78_exception",
    "C78_dot"
   ],
   "note": "Proved for states whose vector a is not longer than b, with the concerned states, the exceptions and the scalar product characterised for all; a longer a keeps its end in the code."
  },
  {
   "property": "C79",
   "status": "proved",
   "theorems": [
    "C79_any_schedule",
    "C79_schedule_independent"
   ],
   "note": ""
  },
  {
   "property": "C80",
   "status": "partial",
   "theorems": [
    "C80_cells",
    "C80_nodes",
    "C80_corners",
    "C80_edges",
    "C80_faces",
    "C80_any_coordinates",
    "C80_too_large_refuted",
    "C80_int_loop_partial",
    "C80_int_loop_refuted"
   ],
   "note": "Exact for every grid that fits the 64-bit index; the int loops visit everything iff there are fewer than 2^31 items (refuted beyond)."
  },
  {
   "property": "C81",
   "status": "partial",
   "theorems": [
    "C81_by_name",
    "C81_by_name_unique",
    "C81_by_topology",
    "C81_by_topology_unique",
    "C81_by_context_partial",
    "C81_by_context_unique_refuted",
    "C81_quadratic",
    "C81_linked_component",
    "C81_linked_mesh",
    "C81_linked_otherwise",
    "C81_found_partial",
    "C81_not_found",
    "C81_several_refuted",
    "C81_name_changes_result_refuted",
    "C81_created_then_initialised",
    "C81_reference_refuted",
    "C81_material",
    "C81_no_state_refuted"
   ],
   "note": "Creation and initialisation characterised for every scene; refuted with several topologies (crash with printLog, dependence on the template attribute and on registration order), for the reference configuration of a mesh, and without a mechanical state."
  },
  {
   "property": "C82",
   "status": "partial",
   "theorems": [
    "C82_locate_partial",
    "C82_locate_boundary",
    "C82_locate_exact",
    "C82_monotone",
    "C82_upper_side_refuted",
    "C82_node",
    "C82_nodes_increasing",
    "C82_nodes_coincide_refuted",
    "C82_contains_complete",
    "C82_contains_sound",
    "C82_contains_node_refuted",
    "C82_cells_around",
    "C82_cells_around_inside",
    "C82_tolerance_refuted",
    "C82_node_between_two_cells_refuted",
    "C82_cells_around_upper_side_refuted"
   ],
   "note": "Location, node positions, contains and cells_around proved for IEEE doubles with explicit error bounds, for every grid and point in the stated ranges; refuted for the tolerances, the upper sides and far-away grids."
  },
  {
   "property": "C83",
   "status": "proved",
   "theorems": [
    "C83_shape",
    "C83_derivatives",
    "C83_partition",
    "C83_node_exact",
    "C83_interpolate",
    "C83_interpolate_node",
    "C83_jacobian",
    "C83_nonneg",
    "C83_tetrahedron_nonneg_refuted"
   ],
   "note": "Error bounds, exactness at the nodes, interpolation and Jacobian in any order of summation proved for IEEE doubles and every element; non-negativity proved for segment, triangle, quad, hexahedron and refuted for the tetrahedron (which the statement therefore leaves out)."
  },
  {
   "property": "C84",
   "status": "proved",
   "theorems": [
    "C84_complete",
    "C84_local",
    "C84_far_refuted",
    "C84_zero_cell_size_refuted"
   ],
   "note": "Definedness, completeness and locality proved for doubles and 64-bit integers within 2^28 cells of the origin; refuted far away (integer overflow) and for a zero cell size."
  },
  {
   "property": "C85",
   "status": "proved",
   "theorems": [
    "C85_box_exact",
    "C85_sound",
    "C85_complete",
    "C85_closed",
    "C85_closed_triangle",
    "C85_closed_box",
    "C85_defaults",
    "C85_tetrahedron_refuted",
    "C85_zero_tolerance_refuted"
   ],
   "note": "Proved for every double, NaN and infinities included. The two _refuted theorems show that the lower bounds on the tolerance are needed."
  },
  {
   "property": "C86",
   "status": "partial",
   "theorems": [
    "C86_control",
    "C86_bad_input_not_converged",
    "C86_genuine_partial",
    "C86_warm_start_refuted",
    "C86_tolerance_refuted",
    "C86_infinite_solution_refuted",
    "C86_overflow_refuted"
   ],
   "note": "C86_control and C86_bad_input_not_converged hold for every input. The bound of C86_genuine_partial has a drift term, proportional to the number of iterations and the largest iterate; that the residual is within the tolerance without it is false of the code (C86_warm_start_refuted and the other refutations). The bound also supposes a tolerance of at least 2^-400, a squared norm of b of at most 2^1000, step lengths of at most 2^900 and a finite solution."
  },
  {
   "property": "C87",
   "status": "partial",
   "theorems": [
    "C87_parallelepiped_segment_partial",
    "C87_parallelepiped_triangle_partial",
    "C87_parallelepiped_no_miss_partial",
    "C87_end_inside",
    "C87_small_element_refuted",
    "C87_false_positive_refuted",
    "C87_false_negative_refuted",
    "C87_triangle_refuted"
   ],
   "note": "Exact for every parallelepiped, linear or quadratic, when each given point is at least 1e-5 away from the centre or in the element. Missing: the other shapes and the points near the centre of a small element, where the claim is false of the code (the refuted theorems)."
  },
  {
   "property": "C88",
   "status": "partial",
   "theorems": [
    "C88_usable_while_mesh_held_partial",
    "C88_orphan_use_refuted",
    "C88_deleted_mesh_refuted"
   ],
   "note": "Every script that holds the mesh of each domain and container when it uses them gets all the answers its writer expects. Missing: the other scripts, for which the claim is false of the code (C88_orphan_use_refuted)."
  },
  {
   "property": "C89",
   "status": "partial",
   "theorems": [
    "C89_virtual_work",
    "C89_vectors",
    "C89_blocks_independent",
    "C89_fixed_partial",
    "C89_mapped_moves_fixed_refuted"
   ],
   "note": "Proved: virtual work, independence of the bodies, vectors, and fixed unknowns of bodies that carry no mapped stiffness, for scenes where every fixed unknown has a diagonal entry. Missing: fixed unknowns of the other bodies, where the claim is false of the code (C89_mapped_moves_fixed_refuted), and scenes where a fixed unknown has no diagonal entry, where C41 does not apply."
  },
  {
   "property": "C90",
   "status": "partial",
   "theorems": [
    "C90_eigenvalues",
    "C90_questions_have_no_effect",
    "C90_same_matrix_as_the_solver",
    "C90_latest_assembly_init",
    "C90_latest_assembly_script",
    "C90_latest_assembly_solver",
    "C90_translations",
    "C90_condition_number_refuted",
    "C90_inverse_refuted",
    "C90_current_stiffness_refuted",
    "C90_assembly_by_script_refuted",
    "C90_simulation_disturbed_refuted"
   ],
   "note": "Proved for all histories: the eigenvalues are those of the matrix given, questions have no effect, K() is the matrix of the latest assembly and the one given to the solver, translations are in its kernel. Missing: the condition number, the stiffness of the current state, and assembling elsewhere without effect, all three false of the code (C90_condition_number_refuted, C90_inverse_refuted, C90_current_stiffness_refuted, C90_assembly_by_script_refuted, C90_simulation_disturbed_refuted). The eigenvalue solver of Eigen is a parameter."
  },
  {
   "property": "C91",
   "status": "proved",
   "theorems": [
    "C91_copy",
    "C91_own_matrix",
    "C91_reference",
    "C91_new",
    "C91_cleared",
    "C91_in_range",
    "C91_dense_and_sparse",
    "C91_new_unknown",
    "C91_vector_copy",
    "C91_vector_own",
    "C91_vector_reference",
    "C91_vector_new",
    "C91_vector_in_range",
    "C91_vector_new_unknown"
   ],
   "note": "Real numbers; 2x2 and 3x3 blocks generalised to any size; indices out of range are failures (assertions of Eigen). The bodies of clearRowCol and compress of the dense wrapper are in SOFA and taken from its documentation."
  },
  {
   "property": "C92",
   "status": "partial",
   "theorems": [
    "C92_separate",
    "C92_together",
    "C92_with_order",
    "C92_numbers",
    "C92_reference",
    "C92_reference_in",
    "C92_every_call",
    "C92_rectangular_boxes",
    "C92_rectangular_array",
    "C92_rectangular_refuted",
    "C92_dimension_refuted"
   ],
   "note": "Refuted for RectangularHexahedron with separate nodes and for surface elements asked for in one dimension; the rest is proved. The casters and the dispatcher of pybind11 are modelled from its documented behaviour; keyword arguments are not modelled; real numbers."
  },
  {
   "property": "C93",
   "status": "partial",
   "theorems": [
    "C93_usual_materials",
    "C93_linear_elasticity",
    "C93_semidefinite",
    "C93_kernel",
    "C93_rigid_motions",
    "C93_only_rigid_motions_partial",
    "C93_held_body_partial",
    "C93_linear_tetrahedra",
    "C93_parallelepipeds",
    "C93_quadratic_hexahedron_refuted",
    "C93_compressed_refuted"
   ],
   "note": "Semidefiniteness, the kernel as zero strain at the integration points, and rigid motions: proved for all solid meshes. That nothing else is in the kernel, and definiteness of a held body: proved for linear tetrahedra, straight quadratic tetrahedra and linear hexahedra with an open corner (all parallelepipeds among them); refuted for a single quadratic hexahedron; curved quadratic tetrahedra are missing. Real numbers."
  },
  {
   "property": "C94",
   "status": "partial",
   "theorems": [
    "C94_hidden",
    "C94_draws",
    "C94_element_by_element",
    "C94_groups",
    "C94_faces",
    "C94_unit_scale",
    "C94_moves_with_the_body",
    "C94_closed",
    "C94_volume",
    "C94_outward",
    "C94_area",
    "C94_inside",
    "C94_curved_sides_refuted",
    "C94_warped_hexahedron_refuted",
    "C94_hexahedron_force",
    "C94_hexahedron_force_inside",
    "C94_hexahedron_force_twice_refuted",
    "C94_tetrahedron_force_partial",
    "C94_tetrahedron_force_drift_refuted",
    "C94_tetrahedron_force_winding_refuted",
    "C94_hexahedron_force_winding_refuted"
   ],
   "note": "Proved for CaribouForcefield on all meshes and positions: groups, faces, affine motions, closed surfaces; volumes and orientation for straight elements. Refuted by the code: curved sides of quadratic elements and volumes of warped hexahedra; for the co-rotational force fields, orientation, motion (tetrahedra) and double drawing (hexahedra). Real numbers."
  },
  {
   "property": "C95",
   "status": "partial",
   "theorems": [
    "C95_construct",
    "C95_constructors",
    "C95_subdivisions_rounded_refuted",
    "C95_counts",
    "C95_cells",
    "C95_nodes",
    "C95_corners",
    "C95_edges",
    "C95_faces",
    "C95_contains",
    "C95_locate",
    "C95_locate_half_open",
    "C95_around",
    "C95_signatures",
    "C95_hidden_refuted",
    "C95_through_the_base",
    "C95_cell_at_3d",
    "C95_cell_at_2d_refuted",
    "C95_coordinates_rounded_refuted",
    "C95_outside_refuted",
    "C95_empty_refuted",
    "C95_hash_made",
    "C95_hash_none_refuted",
    "C95_hash_history",
    "C95_hash_names_refuted",
    "C95_hash_names"
   ],
   "note": "Proved for all usual grids: construction, numbering of cells, nodes, edges and faces, corners, location, contains, cells_around, the exact table of answered calls, hash grids after any history. Refuted by the code: node(coordinates) and cell_coordinates_at(point) hidden, cell_at in the plane, unchecked arguments, names of two hash grids, None for other objects. Positional arguments only, real numbers."
  },
  {
   "property": "C96",
   "status": "partial",
   "theorems": [
    "C96_energy_formula",
    "C96_never_negative",
    "C96_zero_energy",
    "C96_rigid_motions",
    "C96_only_rigid_motions_partial",
    "C96_held_body_partial",
    "C96_plain_shapes",
    "C96_barrier",
    "C96_flattened_refuted",
    "C96_mirror_refuted",
    "C96_held_mirror_refuted",
    "C96_negative_lambda_refuted",
    "C96_quadratic_hexahedron_refuted",
    "C96_quadratic_tetrahedron_refuted"
   ],
   "note": "Proved for all solid meshes, both laws: formula, sign, zeros, no force where the energy is zero, rigid motions, barrier of the Neo-Hookean law; converse for meshes in one piece of linear tetrahedra, or of linear hexahedra whose box of integration points has a plane face or a corner that is not folded. Refuted by the code: quadratic elements, inverted or flattened Saint Venant-Kirchhoff bodies, Neo-Hookean bodies with a negative lambda. Missing: linear hexahedra without plane face and folded by a right angle at every corner. Real numbers."
  },
  {
   "property": "C97",
   "status": "partial",
   "theorems": [
    "C97_straight_edges",
    "C97_curved_hexahedra_refuted",
    "C97_boundary",
    "C97_interior_partial",
    "C97_linear_elasticity",
    "C97_curved_tetrahedra_refuted",
    "C97_one_point_refuted",
    "C97_corotated_refuted"
   ],
   "note": "Proved: any material, linear tetrahedra and hexahedra of any shape (faces plane or not), quadratic tetrahedra that are affine images of the reference element, quadratic hexahedra with straight edges; linear elasticity (corotational force fields with the option off, any history of evaluations), with one integration point for parallelepipeds only. The code refutes the rest: quadratic tetrahedra and hexahedra with bent edges, one integration point otherwise, the corotational option. Real numbers."
  },
  {
   "property": "C98",
   "status": "proved",
   "theorems": [
    "C98_equilibrium",
    "C98_linear_elasticity",
    "C98_matching_faces_needed"
   ],
   "note": "Any material, linear elements of any shape and straight quadratic elements; linear elasticity as in C97; tractions constant or applied in steps. Real numbers."
  },
  {
   "property": "C99",
   "status": "partial",
   "theorems": [
    "C99_template",
    "C99_absolute_link",
    "C99_deduced",
    "C99_relative_link_refuted",
    "C99_local_link_refuted",
    "C99_nearest_refuted",
    "C99_refused",
    "C99_current",
    "C99_defined",
    "C99_sizes_refuted",
    "C99_stale_refuted"
   ],
   "note": "Holds for templates, absolute links, single-type scenes and right after an initialisation; refuted for relative links without template, several types above the mapping, unmatched sizes and a topology that is initialised again."
  },
  {
   "property": "C100",
   "status": "partial",
   "theorems": [
    "C100_implicit",
    "C100_once",
    "C100_entries",
    "C100_tessellated_partial",
    "C100_tessellated_refuted"
   ],
   "note": "Proved for implicit surfaces; with a tessellated surface the cells that no triangle meets are missing from the table."
  },
  {
   "property": "C101",
   "status": "partial",
   "theorems": [
    "C101_choice",
    "C101_always",
    "C101_each_step_partial",
    "C101_once_partial",
    "C101_never_refuted",
    "C101_within_step_refuted",
    "C101_between_steps_refuted",
    "C101_new_link_refuted",
    "C101_shared_refuted",
    "C101_nothing_solved_refuted"
   ],
   "note": "Proved for every history with ALWAYS, and under stated conditions on the stored positions with the two other analysing strategies; the code refutes it outside of these conditions."
  },
  {
   "property": "C102",
   "status": "partial",
   "theorems": [
    "C102_hyperelastic_forces",
    "C102_hyperelastic_energy",
    "C102_hyperelastic_increments",
    "C102_hyperelastic_rest_frame",
    "C102_hyperelastic_scene",
    "C102_corotational_forces",
    "C102_corotational_increments",
    "C102_translation_partial",
    "C102_without_option_refuted",
    "C102_corotational_scene_refuted"
   ],
   "note": "Proved for hyperelastic force fields entirely and for moved bodies with corotation on; the code refutes it with corotation off (rotations), and with it on for scenes described in another frame."
  },
  {
   "property": "C103",
   "status": "partial",
   "theorems": [
    "C103_symmetries",
    "C103_every_listing_of_a_tetrahedron",
    "C103_hyperelastic_forces",
    "C103_hyperelastic_energy",
    "C103_hyperelastic_increments",
    "C103_hyperelastic_numbers",
    "C103_hyperelastic_numbers_increments",
    "C103_corotational_order",
    "C103_corotational_numbers",
    "C103_without_corotation_listing_partial",
    "C103_mirrored_listing_refuted",
    "C103_corotational_listing_refuted"
   ],
   "note": "Proved for hyperelastic force fields entirely, for the order of the elements and the numbers of the nodes with the corotational ones, and for turned listings without corotation; the code refutes mirrored listings, and with corotation on turned listings."
  },
  {
   "property": "C104",
   "status": "partial",
   "theorems": [
    "C104_step",
    "C104_isolated",
    "C104_loaded_partial",
    "C104_free_flight_refuted"
   ],
   "note": "Momentum: proved for all steps and simulations without load or mass damping; with a load, and for the centre of mass, when each step does at least one iteration. The code refutes the rest: a body in free flight does not move with the default absolute threshold. Exact arithmetic in any ordered field."
  },
  {
   "property": "C105",
   "status": "proved",
   "theorems": [
    "C105_symmetries",
    "C105_every_listing_of_a_triangle",
    "C105_every_listing_of_a_quad",
    "C105_listing",
    "C105_numbers",
    "C105_frame",
    "C105_parts",
    "C105_added"
   ],
   "note": "All parts, for any history of events since init. Exact real arithmetic."
  },
  {
   "property": "C106",
   "status": "partial",
   "theorems": [
    "C106_affine",
    "C106_follows_partial",
    "C106_rest_partial",
    "C106_moment",
    "C106_affine_power",
    "C106_seam",
    "C106_order_partial",
    "C106_origin_refuted"
   ],
   "note": "C106_affine, C106_moment, C106_affine_power and C106_seam hold without restriction on the mapped nodes. C106_follows_partial, C106_rest_partial: affine elements filling the space, nodes at 1e-5 or more from the local origins (otherwise within 1e-5, refuted beyond). C106_order_partial: simplices. Exact real arithmetic."
  },
  {
   "property": "C107",
   "status": "partial",
   "theorems": [
    "C107_energy",
    "C107_volume_partial",
    "C107_remeshing_partial",
    "C107_linear_elasticity_partial",
    "C107_inner_nodes"
   ],
   "note": "C107_energy holds for every regular mesh, C107_inner_nodes for every mesh of linear elements. C107_volume_partial, C107_remeshing_partial: quadratic elements must be straight, because curved ones fail C97 (C97_curved_tetrahedra_refuted). C107_linear_elasticity_partial: hexahedra with one integration point must be parallelepipeds (C97_one_point_refuted), option corotated off (C97_corotated_refuted). Exact real arithmetic."
  },
  {
   "property": "C108",
   "status": "partial",
   "theorems": [
    "C108_moduli",
    "C108_forces",
    "C108_energy",
    "C108_increments",
    "C108_loads",
    "C108_scene",
    "C108_intersections_refuted",
    "C108_corotational_forces",
    "C108_corotational_increments",
    "C108_corotational_matrix",
    "C108_newton_partial",
    "C108_static_partial",
    "C108_newton_refuted"
   ],
   "note": "Proved for hyperelastic force fields (C108_forces, C108_energy, C108_increments), corotational force fields after any history of calls (C108_corotational_*), the moduli (C108_moduli), traction loads in 3D (C108_loads) and a hyperelastic body with its loads (C108_scene). Refuted for the intersection tests (C108_intersections_refuted). The Newton-Raphson solver is covered as long as no displacement is negligible (C108_newton_partial; C108_static_partial for the static solver with a direct linear solver and fixed unknowns), and refuted otherwise (C108_newton_refuted). Exact real arithmetic; the linear solvers are hypotheses."
  }
 ]
}