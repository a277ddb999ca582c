{
 "claims": [
  {
   "property": "C01",
   "status": "proved",
   "theorems": [
    "C01_set_knots_accepts_exactly_valid"
   ],
   "note": "exact acceptance test, stored knots, failure atomicity, loop termination; any strict weak order on knot values (NaN excluded)"
  },
  {
   "property": "C02",
   "status": "proved",
   "theorems": [
    "C02_spans_are_the_elements",
    "C02_elements_cover_the_domain"
   ],
   "note": "exact element list, coverage of the domain"
  },
  {
   "property": "C03",
   "status": "proved",
   "theorems": [
    "C03_init_uniform_clamped",
    "C03_C04_init_breaks"
   ],
   "note": "exact real arithmetic; IGAAxisInitBreaks proved too"
  },
  {
   "property": "C04",
   "status": "proved",
   "theorems": [
    "C04_init_uniform_periodic",
    "C03_C04_init_breaks"
   ],
   "note": "exact real arithmetic"
  },
  {
   "property": "C05",
   "status": "proved",
   "theorems": [
    "C05_nnp_after_set_knots",
    "C05_setup_agrees_with_init_uniform"
   ],
   "note": "IGAAxisSetUp is the identity after SetKnots/InitUniform"
  },
  {
   "property": "C06",
   "status": "partial",
   "theorems": [
    "C06_accepted_knots_have_an_element_refuted",
    "C06_accepted_knots_have_an_element_partial"
   ],
   "note": "False of the code: degree 2, knots 0 1 2 2 3 4 are accepted with zero elements (refuted). Proved: exact criterion U[p]<U[m-p], and that it holds for p=1 or for a clamped end."
  },
  {
   "property": "C07",
   "status": "partial",
   "theorems": [
    "C07_failed_init_keeps_axis_refuted",
    "C07_failed_init_keeps_axis_partial"
   ],
   "note": "False of the code: IGAAxisInit overwrites the degree before validating the knots (refuted, and the axis no longer sets up). Proved: everything except the degree is kept."
  },
  {
   "property": "C08",
   "status": "proved",
   "theorems": [
    "C08_partition_is_a_process_grid",
    "C08_fixed_counts_accepted",
    "C08_one_free_direction"
   ],
   "note": "for arbitrary nonnegative roundings of the sqrt/pow guesses; integers unbounded (no int overflow of the cut counts)"
  },
  {
   "property": "C09",
   "status": "proved",
   "theorems": [
    "C09_rank_coordinates_bijection"
   ],
   "note": ""
  },
  {
   "property": "C10",
   "status": "proved",
   "theorems": [
    "C10_distribute_tiles_and_balances"
   ],
   "note": ""
  },
  {
   "property": "C11",
   "status": "proved",
   "theorems": [
    "C11_every_element_on_one_process"
   ],
   "note": "IGASetUp layouts composed with the element iterator; nonempty end intervals"
  },
  {
   "property": "C12",
   "status": "proved",
   "theorems": [
    "C12_axes_are_ready",
    "C12_every_node_owned_once"
   ],
   "note": "quadrature layout, all dims, all process counts; hypothesis: first and last domain intervals nonempty (always true for InitUniform/InitBreaks, proved)"
  },
  {
   "property": "C13",
   "status": "proved",
   "theorems": [
    "C13_ghost_range_covers"
   ],
   "note": "closure part for every accepted knot vector; owned part needs nonempty end intervals (see C14)"
  },
  {
   "property": "C14",
   "status": "partial",
   "theorems": [
    "C14_owned_nodes_visible_refuted"
   ],
   "note": "False of the code (refuted): degree 2, knots 0 1 2 3 3 4 5, one process: owned node 3 lies outside the ghosted range. Positive part is C13."
  },
  {
   "property": "C15",
   "status": "proved",
   "theorems": [
    "C15_setup_gives_distributed_grids",
    "C15_numbering_is_permutation"
   ],
   "note": "for all decompositions that tile the grid; IGASetUp's layouts are shown to be such (nonempty end intervals)"
  },
  {
   "property": "C16",
   "status": "proved",
   "theorems": [
    "C16_local_to_global_map"
   ],
   "note": "for all ghosted boxes starting no lower than -N; with quadrature they start at >= 0"
  },
  {
   "property": "C17",
   "status": "proved",
   "theorems": [
    "C17_global_local_global",
    "C17_add_sums_all_copies",
    "C17_global_natural",
    "C17_setup_round_trips"
   ],
   "note": "PETSc VecScatter semantics modelled as pairwise writes/adds in arbitrary rank order; ADD in exact real arithmetic"
  },
  {
   "property": "C18",
   "status": "proved",
   "theorems": [
    "C18_element_loop"
   ],
   "note": "from any previous iterator state, widths possibly zero"
  },
  {
   "property": "C19",
   "status": "proved",
   "theorems": [
    "C19_form_loop",
    "C19_end_elements_touch_the_boundary"
   ],
   "note": "any element, any flags; first/last element characterised by the domain ends. Periodic axes: see C60"
  },
  {
   "property": "C20",
   "status": "proved",
   "theorems": [
    "C20_element_closure"
   ],
   "note": "quadrature; nonempty end intervals. Local indices are distinct; on very short periodic axes several local nodes are the same global node"
  },
  {
   "property": "C21",
   "status": "proved",
   "theorems": [
    "C21_C51_assembly_is_serial_sum",
    "C21_C51_independent_of_processes"
   ],
   "note": "quadrature; element kernels (form and point loops, user callback, boundary conditions) are arbitrary functions of the element and of its copies of the input vectors; exact arithmetic; PETSc ADD_VALUES assembly as sum"
  },
  {
   "property": "C22",
   "status": "proved",
   "theorems": [
    "C22_boundary_tables"
   ],
   "note": "tables of any history of calls; IGAFormReset (memzero of pointers) not modelled"
  },
  {
   "property": "C23",
   "status": "proved",
   "theorems": [
    "C23_fix_list"
   ],
   "note": "quadrature lists; BoundaryArea an arbitrary number per face"
  },
  {
   "property": "C24",
   "status": "proved",
   "theorems": [
    "C24_fix_system",
    "C24_assembled_system"
   ],
   "note": "quadrature, exact arithmetic; element system and assembled system (serial sums of C21); every component of every coupled node"
  },
  {
   "property": "C25",
   "status": "proved",
   "theorems": [
    "C25_function_and_jacobian_agree"
   ],
   "note": "any residual with partial derivatives at the fixed state; exact arithmetic"
  },
  {
   "property": "C26",
   "status": "proved",
   "theorems": [
    "C26_C27_assembly_within_pattern",
    "C26_matis_pattern",
    "C26_preallocation_suffices"
   ],
   "note": "Every entry IGAElementAssembleMat adds, on any rank, is at a location IGACreateMat has set on the rank owning the row; MATIS variant; preallocated lengths suffice (quadrature; MATAIJ/BAIJ layout, not SBAIJ filtering, not the collocation stencil)."
  },
  {
   "property": "C27",
   "status": "proved",
   "theorems": [
    "C26_C27_assembly_within_pattern",
    "C27_uniform_knots_are_periodic"
   ],
   "note": "Periodic axes included under periodic_pattern (nonempty intervals repeat), which InitUniform satisfies; an example shows the hypothesis is needed."
  },
  {
   "property": "C28",
   "status": "proved",
   "theorems": [
    "C28_stencil_fits_buffer"
   ],
   "note": "For all accepted knot vectors, all rows (including MATIS rows)."
  },
  {
   "property": "C29",
   "status": "proved",
   "theorems": [
    "C29_find_span_correct",
    "C29_find_span_terminates",
    "C29_find_span_reads_only_domain_knots"
   ],
   "note": "correctness, termination for all inputs, locality of reads"
  },
  {
   "property": "C30",
   "status": "proved",
   "theorems": [
    "C30_values_are_bsplines"
   ],
   "note": "Values returned by IGA_Basis_BSpline = Cox-de Boor B-splines (0/0=0 convention) at every point of every nonempty span, for arbitrary contents of the work arrays; other functions vanish; 0<=B<=1, sum 1; left limit at the right end. Exact real arithmetic."
  },
  {
   "property": "C31",
   "status": "proved",
   "theorems": [
    "C31_derivatives"
   ],
   "note": "Rows 0..4 are the derivatives (Coquelicot is_derive_n) of the polynomial piece and, inside the span, of the B-spline; rows k>=1 add up to 0."
  },
  {
   "property": "C32",
   "status": "partial",
   "theorems": [
    "C32_lagrange_basis",
    "C32_spectral_basis",
    "C32_spectral_high_degree_refuted"
   ],
   "note": "Interpolation, polynomial reproduction and derivatives 1-3 proved for both nodal bases (spectral: degrees 1-9); refuted for spectral degree >= 10, where all nodes coincide and the routine divides by zero."
  },
  {
   "property": "C33",
   "status": "proved",
   "theorems": [
    "C33_rational_functions"
   ],
   "note": "All derivatives up to order 3 of the rational functions; partition of unity of the weighted functions; order 4: see C66."
  },
  {
   "property": "C34",
   "status": "proved",
   "theorems": [
    "C34_inverse_matrix",
    "C34_inverse_map_derivatives"
   ],
   "note": "Determinant, matrix inverse and derivatives of the inverse map up to order 3, for dim 1-3."
  },
  {
   "property": "C35",
   "status": "proved",
   "theorems": [
    "C35_shape_functions",
    "C35_tabulation"
   ],
   "note": "End to end through the tabulation routines for B-spline or other tables, with or without weights, derivatives up to order 3."
  },
  {
   "property": "C36",
   "status": "proved",
   "theorems": [
    "C36_gauss_legendre_tables",
    "C36_gauss_lobatto_tables",
    "C36_other_sizes_are_refused",
    "C36_double_precision"
   ],
   "note": "Tables transcribed from petigarule.c; constants may be stored with any relative rounding error up to 2^-53, and C36_double_precision shows IEEE doubles qualify. Error bound 1e-13 times coefficient norm."
  },
  {
   "property": "C37",
   "status": "proved",
   "theorems": [
    "C37_element_quadrature",
    "C37_reduced_rule",
    "C37_parametric_volume",
    "C37_C39_standard_rules_after_any_calls"
   ],
   "note": "Points, weights and Jacobians of every element, reduced rule, and sum over all processes. Arithmetic exact except the stored constants."
  },
  {
   "property": "C38",
   "status": "partial",
   "theorems": [
    "C38_failed_setup_reports_error_again_refuted",
    "C38_successful_setup"
   ],
   "note": "Refuted: a failed IGASetUp makes the next call return success without ranges. Positive statement for successful calls. Stages 2 and 3 are status oracles."
  },
  {
   "property": "C39",
   "status": "partial",
   "theorems": [
    "C39_successful_calls_give_tables",
    "C39_setup_fails_again",
    "C39_bad_rule_never_silent_refuted",
    "C39_set_type_never_silent_refuted",
    "C37_C39_standard_rules_after_any_calls"
   ],
   "note": "Positive for histories without failing call; refuted: repeating the failing IGARuleSetSize/SetType call reports success."
  },
  {
   "property": "C40",
   "status": "partial",
   "theorems": [
    "C40_setup_is_idempotent_partial",
    "C40_setup_is_idempotent_refuted"
   ],
   "note": "Holds except for IGA_RULE_REDUCED with three or more elements; there refuted, visible through IGAClone."
  },
  {
   "property": "C41",
   "status": "proved",
   "theorems": [
    "C41_save_load_exact"
   ],
   "note": "Full round trip through the modelled IGASave/IGALoad, including zero weights, properties, the rational flag and both header modes, for any writer and reader process counts. Quadrature layouts only."
  },
  {
   "property": "C42",
   "status": "partial",
   "theorems": [
    "C42_dofs_restored_iff_flags_agree",
    "C42_periodicity_lost_refuted"
   ],
   "note": "False: the periodic flag is not in the file (witness: 2 dofs become 3). Proved instead: dofs come back iff the flags of the two axes agree."
  },
  {
   "property": "C43",
   "status": "partial",
   "theorems": [
    "C43_counts_and_column_map",
    "C43_row_map_refuted"
   ],
   "note": "Counts and column map are right; the requested row map is never stored (refuted)."
  },
  {
   "property": "C44",
   "status": "partial",
   "theorems": [
    "C44_block_size",
    "C44_points_layout",
    "C44_point_is_knot_average",
    "C44_lagrange_points",
    "C44_spectral_points",
    "C44_geometry_one_dimension_partial",
    "C44_geometry_offset_wrong",
    "C44_geometry_refuted"
   ],
   "note": "Without geometry: entries are the Greville points / nodes of each owned node, in order. With geometry: right for nsd=1, refuted for nsd>=2 (flat index without factor nsd)."
  },
  {
   "property": "C45",
   "status": "partial",
   "theorems": [
    "C45_subfields",
    "C45_field_first_rank_partial",
    "C45_field_other_ranks_wrong",
    "C45_field_refuted"
   ],
   "note": "SubDM index sets proved for all ranks; FieldIS right only on rank 0 or dof=1, wrong on every other rank."
  },
  {
   "property": "C46",
   "status": "partial",
   "theorems": [
    "C46_blocks_cover_partial",
    "C46_single_process",
    "C46_blocks_fit",
    "C46_blocks_cover_refuted"
   ],
   "note": "Exact set of covered owned nodes; one process: all covered; refuted with 2 processes in a direction."
  },
  {
   "property": "C47",
   "status": "proved",
   "theorems": [
    "C47_difference_quotients",
    "C47_exact_for_affine",
    "C47_error_bound"
   ],
   "note": "Exact real arithmetic; real scalars. h is PETSC_SQRT_MACHINE_EPSILON*sqrt(1+|U|)."
  },
  {
   "property": "C48",
   "status": "proved",
   "theorems": [
    "C48_step",
    "C48_hierarchy"
   ],
   "note": "The size of a coarsened DMDA is taken from PETSc's documentation."
  },
  {
   "property": "C49",
   "status": "proved",
   "theorems": [
    "C49_no_vector_handed_out_twice",
    "C49_restored_vector_is_reused"
   ],
   "note": ""
  },
  {
   "property": "C50",
   "status": "partial",
   "theorems": [
    "C50_some_process_holds_the_point",
    "C50_collocation_point_lost_refuted"
   ],
   "note": "Proved for quadrature layouts. Refuted for collocation layouts: a short knot span between the collocation points of two processes is stored completely by none of them."
  },
  {
   "property": "C51",
   "status": "proved",
   "theorems": [
    "C21_C51_assembly_is_serial_sum",
    "C21_C51_independent_of_processes",
    "C51_point_loop"
   ],
   "note": "exact arithmetic; MPI_Allreduce as a sum in any order; element point loop proved for nqp>=1"
  },
  {
   "property": "C52",
   "status": "proved",
   "theorems": [
    "C52_matrix_round_trip"
   ],
   "note": "MatView/MatLoad of PETSc on the natural matrix assumed to be inverse to each other."
  },
  {
   "property": "C53",
   "status": "proved",
   "theorems": [
    "C53_draw_grid",
    "C53_drawn_values",
    "C53_collocation_points_on_process"
   ],
   "note": "quadrature mode: grid, points, location, drawn values and coordinates; collocation mode: location of the points. The DMDA and the viewers are not modelled."
  },
  {
   "property": "C54",
   "status": "proved",
   "theorems": [
    "C54_normal",
    "C54_normal_no_geometry"
   ],
   "note": "Unit length, orthogonal to both tangents, pointing outwards, surface measure; with and without geometry."
  },
  {
   "property": "C55",
   "status": "partial",
   "theorems": [
    "C55_find_span_nonempty_refuted"
   ],
   "note": "False of the code for unclamped knots with a repeated knot at the domain end (refuted); C29 is the positive part."
  },
  {
   "property": "C56",
   "status": "partial",
   "theorems": [
    "C56_auto_grid_2d_complete",
    "C56_rounding_is_enough",
    "C56_one_fixed_3d_complete",
    "C56_auto_grid_3d_complete_refuted",
    "C56_witness_guesses_are_exact"
   ],
   "note": "2D proved for all sizes, 3D with one count fixed too; fully automatic 3D false of the code (refuted with exactly rounded roots): 3x4x9 elements on 60 processes."
  },
  {
   "property": "C57",
   "status": "proved",
   "theorems": [
    "C57_collocation_layout"
   ],
   "note": "exact real arithmetic for Greville points; one direction"
  },
  {
   "property": "C58",
   "status": "partial",
   "theorems": [
    "C58_collocation_geometry_visible_refuted",
    "C58_collocation_geometry_visible_partial"
   ],
   "note": "False of the code on non-uniform periodic axes (refuted: degree 4, breaks 0 1 101 102, one process); proved on non-periodic axes."
  },
  {
   "property": "C59",
   "status": "partial",
   "theorems": [
    "C59_next_element_after_end_refuted"
   ],
   "note": "False of the code (refuted): the call after the end restarts at the first element. C18 is the positive part."
  },
  {
   "property": "C60",
   "status": "partial",
   "theorems": [
    "C60_boundary_form_on_periodic_axis_refuted"
   ],
   "note": "False of the code (refuted): the form is visited on the first element of a periodic axis."
  },
  {
   "property": "C61",
   "status": "proved",
   "theorems": [
    "C61_fixed_dofs_agree"
   ],
   "note": "quadrature; end intervals of each axis nonempty"
  },
  {
   "property": "C62",
   "status": "partial",
   "theorems": [
    "C62_collocation_fix_table_refuted",
    "C62_assembled_collocation_fix_table_refuted"
   ],
   "note": "False of the code (refuted): FixSystem uses the form's constants, BuildFix the fix table."
  },
  {
   "property": "C63",
   "status": "partial",
   "theorems": [
    "C63_quadrature_ignores_periodic_axes",
    "C63_collocation_fixes_periodic_nodes_refuted"
   ],
   "note": "Proved for quadrature; false of the code for collocation (refuted)."
  },
  {
   "property": "C64",
   "status": "partial",
   "theorems": [
    "C64_values_at_quadrature_points",
    "C64_user_rule_values_refuted"
   ],
   "note": "Proved for predefined rules and user rules with positive weights; refuted for a user rule with a negative weight (values stay uninitialised)."
  },
  {
   "property": "C65",
   "status": "partial",
   "theorems": [
    "C65_boundary_values",
    "C65_boundary_values_defined_refuted"
   ],
   "note": "Proved when the first and last interval are nonempty; refuted otherwise: an accepted knot vector makes the routine divide by zero."
  },
  {
   "property": "C66",
   "status": "partial",
   "theorems": [
    "C66_lagrange_fourth_derivative_refuted",
    "C66_rational_fourth_derivative_refuted",
    "C66_mapped_fourth_derivative_refuted"
   ],
   "note": "Refuted three times: Lagrange tables, rational functions and mapped functions store zero for order 4."
  },
  {
   "property": "C67",
   "status": "proved",
   "theorems": [
    "C67_low_multiplicity_refused",
    "C67_nodal_fields_continuous"
   ],
   "note": "Refusal is exact; continuity for every coefficient vector (spectral: p <= 9 and the literal 1.0 stored exactly)."
  },
  {
   "property": "C68",
   "status": "proved",
   "theorems": [
    "C68_tensor_product_derivatives",
    "C68_bspline_products"
   ],
   "note": "All mixed derivatives up to order 4 for dim 1-3; instance for B-splines on a nonempty span."
  },
  {
   "property": "C69",
   "status": "proved",
   "theorems": [
    "C69_field_evaluation"
   ],
   "note": "Values and derivatives up to order 3 of mapped fields, order 4 for unmapped tables."
  },
  {
   "property": "C70",
   "status": "partial",
   "theorems": [
    "C70_point_members",
    "C70_early_exit",
    "C70_manifold_shape_refuted",
    "C70_manifold_offset_wrong"
   ],
   "note": "Proved for all members except the shape functions of a geometry with nsd > dim, for which the statement is refuted."
  },
  {
   "property": "C71",
   "status": "proved",
   "theorems": [
    "C71_jacobian_and_left_inverse"
   ],
   "note": "Square and rectangular case."
  },
  {
   "property": "C72",
   "status": "proved",
   "theorems": [
    "C72_vector_round_trip"
   ],
   "note": ""
  },
  {
   "property": "C73",
   "status": "partial",
   "theorems": [
    "C73_handed_out_size_partial",
    "C73_handed_out_size_refuted"
   ],
   "note": "False when a vector obtained before IGAReset is restored after it: the pool then hands out a vector of the old size (refuted). Proved for histories in which no vector is held during a reset."
  },
  {
   "property": "C74",
   "status": "proved",
   "theorems": [
    "C74_arrays_distinct",
    "C74_arrays_initialised",
    "C74_lifetime"
   ],
   "note": ""
  },
  {
   "property": "C75",
   "status": "partial",
   "theorems": [
    "C75_accumulating_residual_refuted",
    "C75_accumulating_residual_partial"
   ],
   "note": "Refuted: G is not cleared between columns, so accumulating residuals give wrong columns from the second on. Proved when the callback clears its output."
  },
  {
   "property": "C76",
   "status": "partial",
   "theorems": [
    "C76_point_per_process_refuted",
    "C76_undistributed_partial"
   ],
   "note": "Refuted: the test compares the fine grid with the process count, so the coarse grid can have fewer points than processes. Proved for undistributed directions."
  },
  {
   "property": "C77",
   "status": "partial",
   "theorems": [
    "C77_function_is_last_set",
    "C77_own_context_partial",
    "C77_own_context_refuted"
   ],
   "note": "Refuted when both the first and second order variants are set (shared context field). Proved otherwise; the function called is always the last one set."
  },
  {
   "property": "C78",
   "status": "partial",
   "theorems": [
    "C78_first_order",
    "C78_second_order_partial",
    "C78_second_order_refuted"
   ],
   "note": "Refuted for IGACreateTS2 with only IGASetFormIFunction: the callback gets the second derivative as V. Proved for first order steppers and for second order steppers with IGASetFormI2Function."
  },
  {
   "property": "C79",
   "status": "proved",
   "theorems": [
    "C79_vector_is_copied",
    "C79_evaluates_the_field",
    "C79_piece_is_the_field",
    "C79_evaluates_the_mapped_field"
   ],
   "note": "B-spline tables (also NURBS). Rational fields: derivatives up to order 3 (the fourth is stored as zero, see C66); geometry of full dimension up to order 3."
  },
  {
   "property": "C80",
   "status": "partial",
   "theorems": [
    "C80_order_raised_refuted",
    "C80_made_collective_refuted"
   ],
   "note": "Refuted: raising the order or making the probe collective after IGAProbeSetPoint succeeds but returns wrong values."
  },
  {
   "property": "C81",
   "status": "proved",
   "theorems": [
    "C81_loops",
    "C81_vector",
    "C81_matrix",
    "C81_system_matrix",
    "C81_system_vector",
    "C81_function",
    "C81_jacobian",
    "C81_ifunction",
    "C81_ijacobian",
    "C81_iefunction",
    "C81_iejacobian",
    "C81_rhsfunction",
    "C81_rhsjacobian",
    "C81_i2function",
    "C81_i2jacobian"
   ],
   "note": "All thirteen drivers, quadrature mode (neq = nen). The callback is an arbitrary function of element, form visit, point, nodal arrays and the zeroed output array. The number of points is at least 1 per visit. Prescribed rows carry the number of element copies of the node as a factor, as the code adds one row per element. Collocation mode is not covered."
  },
  {
   "property": "C82",
   "status": "proved",
   "theorems": [
    "C82_function",
    "C82_ifunction",
    "C82_iefunction",
    "C82_rhsfunction",
    "C82_i2function"
   ],
   "note": "The hypothesis is about the callbacks at the quadrature points only (is_jacobian). For I/IE/I2 the Jacobian is taken along (V + a s w, U + s w), the shift the time stepper passes; the residual may be called with another a0, as the code does."
  },
  {
   "property": "C83",
   "status": "proved",
   "theorems": [
    "C83_same_equations",
    "C83_same_matrix"
   ],
   "note": "Equality of residual and A U - b in every row, and equality of the matrices."
  },
  {
   "property": "C84",
   "status": "partial",
   "theorems": [
    "C84_refuted"
   ],
   "note": "Refuted: neither driver imposes boundary values; a problem with identity element matrices and zero vector has solutions, and none takes the prescribed value."
  },
  {
   "property": "C85",
   "status": "partial",
   "theorems": [
    "C85_rhs_against_ifunction",
    "C85_free_nodes_partial",
    "C85_refuted"
   ],
   "note": "Refuted: loads are subtracted by ComputeRHSFunction as in a residual, so they enter the explicit equation with the wrong sign. C85_rhs_against_ifunction gives the exact difference at all degrees of freedom, C85_free_nodes_partial the agreement where there is neither a load nor a prescribed value."
  },
  {
   "property": "C86",
   "status": "proved",
   "theorems": [
    "C86_error_norm",
    "C86_zero",
    "C86_triangle",
    "C86_homogeneous"
   ],
   "note": "Exact arithmetic, real scalars; the shape tables at the points are arbitrary (their values are the subject of C68 and C69)."
  },
  {
   "property": "C87",
   "status": "partial",
   "theorems": [
    "C87_fifth_derivative_refuted",
    "C87_overflow_refuted",
    "C87_order_refuted",
    "C87_negative_partial"
   ],
   "note": "False: k=5 in 1D silently gives the fourth-derivative seminorm, k=5 in 2D uses memory beyond the work arrays, k above the order of the IGA silently counts the discrete derivatives as zero. Negative k is rejected."
  },
  {
   "property": "C88",
   "status": "partial",
   "theorems": [
    "C88_sum_of_element_inverses",
    "C88_positive_definite",
    "C88_few_periodic_functions",
    "C88_positive_definite_refuted"
   ],
   "note": "Sum-of-inverses formula and positive definiteness proved for any number of processes when every periodic direction has at least p+1 functions; refuted for fewer (the set-up fails with a zero pivot, for every matrix on one process). LAPACK is a contract, met by a concrete algorithm."
  },
  {
   "property": "C89",
   "status": "partial",
   "theorems": [
    "C89_positive_definite",
    "C89_uncovered_node",
    "C89_positive_definite_refuted"
   ],
   "note": "Proved on one process and without overlap; refuted in parallel: nodes outside all blocks (C46) get zero rows and columns, so the preconditioner is singular."
  },
  {
   "property": "C90",
   "status": "partial",
   "theorems": [
    "C90_adjacency_graph",
    "C90_symmetric",
    "C90_no_repetition",
    "C90_arguments",
    "C90_repetition_refuted"
   ],
   "note": "CSR well-formedness, exact fill of the allocation, symmetry, self-adjacency and the characterisation of rows hold for all inputs. Rows are strictly increasing when every wrapped direction has three or more local nodes; refuted otherwise: one linear periodic element on one process lists a neighbour twice."
  },
  {
   "property": "C91",
   "status": "partial",
   "theorems": [
    "C91_joined_nodes_are_neighbours",
    "C91_joined_nodes_are_neighbours_refuted"
   ],
   "note": "Proved if every periodic direction held by one process has at most two repeated basis functions (degree minus seam multiplicity plus one). Refuted for a cubic periodic direction on one process: the local box has 7 nodes for a ring of 4, the wrap joins local nodes 0 and 6, which are the global nodes 0 and 2."
  },
  {
   "property": "C92",
   "status": "proved",
   "theorems": [
    "C92_boundary_sets"
   ],
   "note": "Both lists characterised exactly on every process of every setup_ok decomposition; the prescribed unknowns are those of BCSpec.node_prescribed."
  },
  {
   "property": "C93",
   "status": "proved",
   "theorems": [
    "C93_primal_vertices"
   ],
   "note": "For every setup_ok decomposition, the default list (not the optional minimal one)."
  },
  {
   "property": "C94",
   "status": "proved",
   "theorems": [
    "C94_options",
    "C94_new",
    "C94_accepted"
   ],
   "note": "IGASetFromOptions (src/petiga.c:712-897) modelled with the setters it calls over a record of the options given; every block proved componentwise. Excluded: -iga_load (the file replaces the mesh), a single value for -iga_limits, and PETSc's own option parsing."
  },
  {
   "property": "C95",
   "status": "partial",
   "theorems": [
    "C95_refuted",
    "C95_smooth_refuted",
    "C95_one_kind_partial"
   ],
   "note": "Refuted: the continuity list defaults per direction, but directions beyond the list read (none was read) take the first entry: with lagrange,bspline the B-spline direction is C0, with bspline,lagrange the Lagrange direction is smooth. Holds when all directions are of the first one's kind."
  },
  {
   "property": "C96",
   "status": "partial",
   "theorems": [
    "C96_meshes_partial",
    "C96_refuted",
    "C96_elements_refuted"
   ],
   "note": "Refuted: degrees and limits of directions beyond the (absent) list are those of direction 0: degrees 2,3 set by IGAAxisSetDegree become 2,2 with no options at all; -iga_elements 8,8 on a mesh with degrees 2,3 resets direction 1 to degree 2 and to the limits of direction 0. With meshes and no options nothing changes."
  },
  {
   "property": "C97",
   "status": "partial",
   "theorems": [
    "C97_ignored",
    "C97_refuted",
    "C97_file"
   ],
   "note": "Refuted: -iga_limits and -iga_continuity without -iga_elements or -iga_degree are read and dropped on an IGA that has meshes."
  },
  {
   "property": "C98",
   "status": "proved",
   "theorems": [
    "C98_again"
   ],
   "note": "Proved for all options but -iga_load and quadrature rules whose sizes their types have."
  },
  {
   "property": "C99",
   "status": "partial",
   "theorems": [
    "C99_quadrature",
    "C99_functions",
    "C99_weights_order_refuted",
    "C99_no_positive_weight_refuted"
   ],
   "note": "Proved for every rule whose positive weights come first (all built-in rules); for user rules with a zero weight before a positive one the values used are uninitialised memory, and with no positive weight the face count divides by zero (C99_weights_order_refuted, C99_no_positive_weight_refuted)."
  },
  {
   "property": "C100",
   "status": "proved",
   "theorems": [
    "C100_matrix",
    "C100_system",
    "C100_jacobian",
    "C100_C101_diffusion_reaction",
    "C100_with_fewer_points_singular"
   ],
   "note": "Proved with more than p points per direction (the default); with p points the mass matrix can be singular (C100_with_fewer_points_singular)."
  },
  {
   "property": "C101",
   "status": "proved",
   "theorems": [
    "C101_system",
    "C101_jacobian",
    "C101_null_vectors",
    "C100_C101_diffusion_reaction"
   ],
   "note": "Polynomial spaces (no rational weights). Null vectors of the matrix without Dirichlet conditions: C101_null_vectors."
  },
  {
   "property": "C102",
   "status": "partial",
   "theorems": [
    "C102_tables",
    "C102_open",
    "C102_uniform_periodic",
    "C102_point_outside_refuted"
   ],
   "note": "Refuted for non-uniform periodic knots (point outside the domain, negative table value)."
  },
  {
   "property": "C103",
   "status": "proved",
   "theorems": [
    "C103_one_form",
    "C103_unit_weight",
    "C103_face_tables"
   ],
   "note": "Face tables: open knot vectors, as in the statement."
  },
  {
   "property": "C104",
   "status": "proved",
   "theorems": [
    "C104_rows",
    "C104_vector",
    "C104_matrix"
   ],
   "note": ""
  },
  {
   "property": "C105",
   "status": "partial",
   "theorems": [
    "C105_pattern",
    "C105_buffer",
    "C105_preallocation",
    "C105_matis",
    "C105_matis_periodic_refuted"
   ],
   "note": "Refuted for MATIS on periodic axes: basis->offset is read past its end."
  },
  {
   "property": "C106",
   "status": "partial",
   "theorems": [
    "C106_control_points",
    "C106_refuted"
   ],
   "note": "Proved when no direction but the last is periodic (or its last point lies in the last interval); refuted otherwise."
  },
  {
   "property": "C107",
   "status": "proved",
   "theorems": [
    "C107_rows",
    "C107_solution",
    "C107_open_end",
    "C107_normal"
   ],
   "note": "Components of the conditions in [0,dof) (the collocation branch does not check them); one boundary condition list per face; loads and values as set."
  },
  {
   "property": "C108",
   "status": "partial",
   "theorems": [
    "C108_function",
    "C108_jacobian",
    "C108_jacobian_derivative_refuted",
    "C108_loads_refuted"
   ],
   "note": "Residual and matrix proved row by row; refuted: the Jacobian rows of other nodes keep their entries at prescribed unknowns, which the residual does not depend on; loads set with IGASetBoundaryLoad are ignored by the nonlinear residual although the linear system honours them."
  },
  {
   "property": "C109",
   "status": "proved",
   "theorems": [
    "C109_no_fault",
    "C109_alive_iff_reachable",
    "C109_nothing_left",
    "C109_handles_valid",
    "C109_set_form",
    "C109_set_iga_twice",
    "C109_set_iga",
    "C109_probe_set_vec",
    "C109_made_keep_iga",
    "C109_clone_shares_nothing"
   ],
   "note": "All sequences of legal calls of the API modelled in RefModel.v (counters, owning pointers, freed blocks). Programs stop at the first error."
  },
  {
   "property": "C110",
   "status": "partial",
   "theorems": [
    "C110_probe_usable",
    "C110_after_geometry_dim_refuted",
    "C110_after_reset_refuted"
   ],
   "note": "Proved as long as no IGA is reset or given another geometry dimension; refuted otherwise: the probe keeps pointers to the freed arrays (C110_after_geometry_dim_refuted, C110_after_reset_refuted)."
  },
  {
   "property": "C111",
   "status": "proved",
   "theorems": [
    "C111_tables",
    "C111_destroy",
    "C111_blank"
   ],
   "note": "Memory-level model of the struct and its twelve tables; refines the tables of C22."
  },
  {
   "property": "C112",
   "status": "partial",
   "theorems": [
    "C112_reset_refuted",
    "C112_reset_overruns",
    "C112_after_reset"
   ],
   "note": "False on every platform: IGAFormReset zeroes 3*2*sizeof(struct _IGAFormBC) bytes starting at an array of six pointers, past the end of the struct (C112_reset_overruns, C112_reset_refuted); where that goes unnoticed the tables are lost and the next IGAFormSetBoundaryValue follows NULL (C112_after_reset)."
  },
  {
   "property": "C113",
   "status": "proved",
   "theorems": [
    "C113_sub_dm",
    "C113_sub_dm_range",
    "C113_sub_dm_empty"
   ],
   "note": "Proved for release builds, and for debug builds when the selected fields are all named or none is. An empty selection gives an empty index set with a DM of all fields (C113_sub_dm_empty); partly named selections in debug builds: C114_names_refuted."
  },
  {
   "property": "C114",
   "status": "partial",
   "theorems": [
    "C114_names",
    "C114_one_process",
    "C114_exact",
    "C114_last_entry_missed",
    "C114_two_processes_refuted",
    "C114_names_refuted"
   ],
   "note": "True on one process and with one component (C114_one_process, C114_names). False on more: the stride starts at node start+i instead of entry start*bs+i (C114_exact), so that as soon as no process owns all nodes the last entry is in no field (C114_last_entry_missed, C114_two_processes_refuted). Debug builds reject the decomposition when only some fields are named (C114_names_refuted)."
  },
  {
   "property": "C115",
   "status": "proved",
   "theorems": [
    "C115_describes",
    "C115_setup",
    "C115_objects",
    "C115_derived"
   ],
   "note": "IGASetUp, IGALoad and the options enter as what they leave in the members a DM reads; -mat_type (MatSetFromOptions) is not modelled."
  },
  {
   "property": "C116",
   "status": "partial",
   "theorems": [
    "C116_chosen_after_setup",
    "C116_chosen_before_setup_refuted",
    "C116_duplicate_refuted",
    "C116_clone_refuted",
    "C116_failed_creation_refuted"
   ],
   "note": "True for types chosen after the set-up (C116_chosen_after_setup). False for types chosen before it, for duplicates, clones and failing creations (the four refutations)."
  },
  {
   "property": "C117",
   "status": "proved",
   "theorems": [
    "C117_access",
    "C117_geometry",
    "C117_maps",
    "C117_vector",
    "C117_scalar",
    "C117_div",
    "C117_del2",
    "C117_face",
    "C117_normal"
   ],
   "note": "petigaftn.F90 with arrays as memory and extents, element (i1,...,ik) by the column-major rule, against C's row-major rule and the C evaluation functions; all orders at once. Trusted: that type(IGAPoint) has the layout of struct _n_IGAPoint, and how compilers implement bind(C) and C_F_POINTER."
  },
  {
   "property": "C118",
   "status": "partial",
   "theorems": [
    "C118_complex_refuted",
    "C118_complex"
   ],
   "note": "Proved for real scalars (C117_geometry) and what is shown with complex scalars (C118_complex: only the first property is right); refuted as stated: IGA_Property is real while the properties are PetscScalar."
  },
  {
   "property": "C119",
   "status": "partial",
   "theorems": [
    "C119_interior",
    "C119_periodic",
    "C119_ends_refuted"
   ],
   "note": "Proved when the first and last interval of the domain are nonempty, and for periodic axes whose end knots have equal multiplicity; refuted for knot vectors whose domain begins inside a repeated knot."
  },
  {
   "property": "C120",
   "status": "proved",
   "theorems": [
    "C120_counts"
   ],
   "note": "Over the layouts IGASetUp computes on all ranks (C12); reductions as folds over the ranks. The text itself and its formats are not modelled."
  },
  {
   "property": "C121",
   "status": "proved",
   "theorems": [
    "C121_structure",
    "C121_assembly_fits",
    "C121_preallocation_suffices",
    "C121_symmetric_values"
   ],
   "note": "Structure of baij and sbaij, preallocation, values for symmetric element matrices. PetIGA never sets MAT_IGNORE_LOWER_TRIANGULAR; the value theorem assumes it."
  },
  {
   "property": "C122",
   "status": "proved",
   "theorems": [
    "C122_parts",
    "C122_vector_through_node_dm"
   ],
   "note": "Quadrature mode; DMDA by its documented rules."
  },
  {
   "property": "C123",
   "status": "proved",
   "theorems": [
    "C123_file_is_natural",
    "C123_load_restores"
   ],
   "note": "Quadrature mode; file as array of numbers."
  },
  {
   "property": "C124",
   "status": "proved",
   "theorems": [
    "C124_system",
    "C124_residual"
   ],
   "note": "Proved for all dimensions and open knot vectors; periodic directions are excluded (the loads there are not related to integrals). IGAElementBuildFix/AddFlux as modelled for C81."
  },
  {
   "property": "C125",
   "status": "partial",
   "theorems": [
    "C125_uniform_stretch",
    "C125_edge_length",
    "C125_constant_speed",
    "C125_face_area",
    "C125_constant_area",
    "C125_total",
    "C125_distribution_refuted",
    "C125_surface_refuted"
   ],
   "note": "Total load per element face proved; exact distribution proved when the face is stretched by a constant factor and refuted otherwise (quadratic edge with control points 0, 1/4, 1: 1/3 instead of 1/4); for surfaces in space the routine reads the control points with the wrong stride and finds length 0 for a unit edge."
  },
  {
   "property": "C126",
   "status": "partial",
   "theorems": [
    "C126_span",
    "C126_orthonormal",
    "C126_dependent",
    "C126_nested",
    "C126_invalid",
    "C126_constants",
    "C126_orthonormal_refuted"
   ],
   "note": "Real scalars, exact arithmetic, arbitrary mask. C126_orthonormal needs the wanted vectors independent; C126_dependent describes the general case, C126_orthonormal_refuted shows a reachable one (the same volume term twice) where a null vector is set. How the mask is built is not modelled."
  },
  {
   "property": "C127",
   "status": "partial",
   "theorems": [
    "C127_alias",
    "C127_defaults",
    "C127_reject",
    "C127_stack",
    "C127_stack_refuted",
    "C127_long_refuted"
   ],
   "note": "Positive theorems with an empty stack of prefixes and values of at most 1023 characters (names compared exactly). C127_stack_refuted: between PetscOptionsPrefixPush and Pop the test looks at one name and the assignment writes another. C127_long_refuted: longer values are cut."
  },
  {
   "property": "C128",
   "status": "partial",
   "theorems": [
    "C128_string",
    "C128_value",
    "C128_last",
    "C128_two_refuted"
   ],
   "note": "C128_string, C128_value for one call; C128_last and C128_two_refuted: every pointer IGAGetOptString returns reads the value of the last call. PETSc's conversion of text is an argument."
  },
  {
   "property": "C129",
   "status": "partial",
   "theorems": [
    "C129_line",
    "C129_setup",
    "C129_ends_refuted",
    "C129_directions_refuted"
   ],
   "note": "C129_line, C129_setup: one direction that is not periodic, no process uses all nodes of the next one; exact set of nodes. Missing: a closed form in 2-D and 3-D, periodic directions. C129_ends_refuted: the last node of the domain is not in the mask although one process uses it. C129_directions_refuted: fix[0] bounds all directions, so exchanging two equal directions changes the mask."
  },
  {
   "property": "C130",
   "status": "proved",
   "theorems": [
    "C130_entries_fit",
    "C130_tiles_fit",
    "C130_sharp"
   ],
   "note": ""
  },
  {
   "property": "C131",
   "status": "proved",
   "theorems": [
    "C131_entries_fit",
    "C131_tiles_fit"
   ],
   "note": ""
  },
  {
   "property": "C132",
   "status": "partial",
   "theorems": [
    "C132_first_setup",
    "C132_further_setups",
    "C132_options_again_refuted",
    "C132_reuse_refuted",
    "C132_first_blocks"
   ],
   "note": "The first set-up and set-ups without reading options in between are proved; reading the option again after a set-up, and use after PCReset with another space, are refuted."
  }
 ]
}