{
 "claims": [
  {
   "property": "C01",
   "status": "proved",
   "theorems": [
    "distribute_partition",
    "distribute_balanced"
   ],
   "note": "For every range and number of ranks."
  },
  {
   "property": "C02",
   "status": "proved",
   "theorems": [
    "sorted_lookup_correct",
    "sorted_distribution_prefix_sums",
    "sorted_lookup_past_end",
    "sorted_lookup_empty_refuted"
   ],
   "note": "The refuted theorem records that a total of zero divides by zero."
  },
  {
   "property": "C03",
   "status": "proved",
   "theorems": [
    "alltoallv_constructible",
    "alltoallv_delivers",
    "alltoallv_swap_roundtrip",
    "gatherv_concat",
    "alltoallv_empty_refuted"
   ],
   "note": "Buffers non-empty; MPI_Alltoallv and MPI_Allgatherv are modelled from the MPI standard."
  },
  {
   "property": "C04",
   "status": "proved",
   "theorems": [
    "apply_permutation_correct",
    "apply_permutation_tensor_correct"
   ],
   "note": "Vectors and any mode of a tensor."
  },
  {
   "property": "C05",
   "status": "proved",
   "theorems": [
    "find_blocks_correct",
    "find_blocks_wrap_refuted"
   ],
   "note": "Index 2^64-1 wraps (refuted)."
  },
  {
   "property": "C06",
   "status": "proved",
   "theorems": [
    "binom_correct",
    "choose_enumerates",
    "integer_sums_enumerate"
   ],
   "note": ""
  },
  {
   "property": "C07",
   "status": "proved",
   "theorems": [
    "flatten_unflatten",
    "unflatten_flatten",
    "product_iterates",
    "permute_inverse",
    "product_zero_extent_refuted"
   ],
   "note": ""
  },
  {
   "property": "C08",
   "status": "proved",
   "theorems": [
    "permutation_numbering_bijective",
    "permutation_numbering_13_refuted"
   ],
   "note": ""
  },
  {
   "property": "C09",
   "status": "proved",
   "theorems": [
    "allocator_blocks_disjoint",
    "allocator_reset_restores",
    "allocation_size_suffices",
    "allocation_size_zero_refuted",
    "allocate_overflow_refuted"
   ],
   "note": ""
  },
  {
   "property": "C12",
   "status": "proved",
   "theorems": [
    "packed_tensor_layout",
    "subtensor_refers_to_parent",
    "subtensor_in_range",
    "reshape_keeps_order",
    "copy_values_copies",
    "copy_values_zero_extent_refuted"
   ],
   "note": "copy_values needs positive extents strictly between the first and last mode (refuted otherwise)."
  },
  {
   "property": "C44",
   "status": "proved",
   "theorems": [
    "levels_hierarchy",
    "levels_logarithmic_halves",
    "levels_degree_zero_refuted"
   ],
   "note": "All strategies, coarse levels and degrees >= 1."
  },
  {
   "property": "C34",
   "status": "proved",
   "theorems": [
    "output_interval_correct",
    "output_spacing",
    "moment_rate_output_refuted",
    "dt_limits_correct"
   ],
   "note": "Exact real arithmetic; tolerance positive; every writer but the moment rate writer, whose deviation is the refuted theorem."
  },
  {
   "property": "C35",
   "status": "proved",
   "theorems": [
    "monitored_output_is_current",
    "monitored_rates_are_current",
    "monitored_vmax_stale_refuted"
   ],
   "note": "Linear solver, traction evaluation and friction are functions of time and slip (Section variables). Covers both quasi-dynamic operators."
  },
  {
   "property": "C13",
   "status": "proved",
   "theorems": [
    "simplex_equal_iff_same_vertices",
    "downward_lists_faces",
    "facet_numbering",
    "downward0_agrees"
   ],
   "note": "All dimensions."
  },
  {
   "property": "C21",
   "status": "proved",
   "theorems": [
    "upward_lists_elements",
    "upward_downward_dual"
   ],
   "note": "All meshes whose face lists are closed (hypothesis has_all_faces)."
  },
  {
   "property": "C49",
   "status": "proved",
   "theorems": [
    "permute_faces_correct",
    "permute_volume_tags_refuted"
   ],
   "note": "The refuted theorem records that volume tags do not follow."
  },
  {
   "property": "C18",
   "status": "proved",
   "theorems": [
    "redistribution_correct",
    "redistribution_conserves",
    "partition_flag_truthful"
   ],
   "note": "For every outcome of the unstable sort and every arrival order. Partition values are assumed to be valid ranks."
  },
  {
   "property": "C47",
   "status": "proved",
   "theorems": [
    "distributed_csr_correct",
    "sorted_distribution_prefix_sums"
   ],
   "note": "Element distribution is the prefix-sum theorem of C02."
  },
  {
   "property": "C19",
   "status": "proved",
   "theorems": [
    "faces_correct",
    "vertex_data_attached",
    "boundary_data_attached",
    "owner_has_face_refuted"
   ],
   "note": "getFaces with the three exchanges and getSharedRanks; arbitrary arrival order. owner_has_face_refuted: a face's owner need not have the face."
  },
  {
   "property": "C22",
   "status": "proved",
   "theorems": [
    "ghost_exchange_correct",
    "scatter_correct",
    "scatter_progress",
    "scatter_completions_finite",
    "ghost_begin_defined",
    "simple_scatter_unpack"
   ],
   "note": "Asynchronous transition system with FIFO channels; requests read the send buffer when they complete."
  },
  {
   "property": "C23",
   "status": "proved",
   "theorems": [
    "facet_table_correct",
    "neighbour_table_correct",
    "neighbour_table_symmetric",
    "neighbour_counts_correct",
    "interior_elements_first"
   ],
   "note": "DGOperatorTopo. All interleavings of the OpenMP facet loop. Boundary slots end up with side 1, which is recorded in slot_ok. The link between preallocation counts and assembled blocks is in C48."
  },
  {
   "property": "C24",
   "status": "proved",
   "theorems": [
    "boundary_map_total",
    "boundary_map_numbers",
    "boundary_map_agrees",
    "boundary_facet_local_once",
    "boundary_exchange_correct"
   ],
   "note": "BoundaryMap for every sort result and every map iteration order; exchange built on C22. The scatter plan is created on MPI_COMM_WORLD whatever communicator is passed (finding)."
  },
  {
   "property": "C25",
   "status": "proved",
   "theorems": [
    "apply_overlap_correct"
   ],
   "note": "The distributed mesh conditions (dist_mesh: consistent owners and shared ranks, an element next to a ghost is known to the owner) are hypotheses; the ghost layer that establishes them is C20. The local operator is an arbitrary function of element, neighbour slots and blocks."
  },
  {
   "property": "C48",
   "status": "proved",
   "theorems": [
    "assembly_complete",
    "assembly_entries",
    "assembly_within_allocation",
    "rhs_complete"
   ],
   "note": "The distributed mesh is a hypothesis (mesh_parts); the local operators evaluate a form that does not depend on which side of a facet is called first. PETSc assembly is the sum of added blocks."
  },
  {
   "property": "C20",
   "status": "proved",
   "theorems": [
    "ghosts_correct",
    "no_ghosts_correct",
    "strip_mesh"
   ],
   "note": "Overlap 1 and overlap 0 of getLocalMesh's element part, all partitions, rank counts, hash-set orders and message arrival orders, with consistent contiguous numbering, owners, sharers and attached data."
  },
  {
   "property": "C17",
   "status": "proved",
   "theorems": [
    "gen_elements_rank_independent",
    "gen_vertices_rank_independent",
    "gen_mesh_cells",
    "gen_mesh_conforming",
    "gen_mesh_global",
    "vertex_pos_hits_points",
    "vertex_pos_increasing",
    "gen_mesh_zero_cells_refuted",
    "resolution_guarantee_refuted"
   ],
   "note": "Real numbers in place of doubles for coordinates; the rounding of the cell counts (lround) is an input. gen_mesh_zero_cells_refuted: a cell count of zero divides by zero. resolution_guarantee_refuted: documented spacing <= h does not hold."
  },
  {
   "property": "C45",
   "status": "proved",
   "theorems": [
    "extract_boundary_correct",
    "outer_facets_have_condition",
    "boundary_condition_unique",
    "config_bc_first",
    "constructor_planes"
   ],
   "note": "Condition functions are arbitrary; config_bc is the one the configuration builds."
  },
  {
   "property": "C42",
   "status": "proved",
   "theorems": [
    "checkpoint_crash_safe",
    "checkpoint_previous_survives",
    "slots_move",
    "slots_agree_on_ranks",
    "restart_after_crash",
    "pointer_update_not_atomic_refuted",
    "one_slot_not_safe_refuted",
    "restart_overwrites_slot_refuted"
   ],
   "note": "A crash is an arbitrary prefix of the file operations. The _refuted theorems record: the pointer file is rewritten in place; one slot is unsafe; after a restart the slot counter starts at zero again and can overwrite the checkpoint the pointer names."
  },
  {
   "property": "C43",
   "status": "proved",
   "theorems": [
    "checkpoint_taken_when_due",
    "checkpoint_only_when_due",
    "checkpoint_restores_state",
    "adapt_loaded_twice_refuted",
    "zero_step_interval_refuted"
   ],
   "note": "Real numbers for times. PETSc's own View/Load of objects are opaque and assumed inverse to each other."
  },
  {
   "property": "C10",
   "status": "proved",
   "theorems": [
    "zeroIn_safe",
    "good_value_near_root",
    "zeroIn_correct",
    "zeroIn_near_root",
    "zeroIn_terminates_tol",
    "zeroIn_rejects_same_sign",
    "zeroIn_fuel_irrelevant"
   ],
   "note": "Exact real arithmetic. Safety holds for every tol >= 0; termination is proved for tol > 0, and for tol = 0 when the interval does not contain 0 (then 2 eps |x| has a positive lower bound). NaN and infinity checks are outside the model."
  },
  {
   "property": "C36",
   "status": "proved",
   "theorems": [
    "balance_unique",
    "slip_rate_correct",
    "slip_rate_terminates",
    "slip_rate_undamped",
    "slip_rate_vector",
    "slip_rate_carries_strength",
    "slip_rate_tension"
   ],
   "note": "Exact real arithmetic. slip_rate_correct covers the two bracket attempts and the NaN outcome; termination for tractions below eta (all slip rates below 1 m/s, the search interval does not contain exponent 0). slip_rate_zero_traction_refuted: zero traction gives NaN with error code 0."
  },
  {
   "property": "C37",
   "status": "proved",
   "theorems": [
    "psi_init_balances",
    "psi_init_slip_rate"
   ],
   "note": "Exact real arithmetic. psi_init_excess_rate_refuted: NaN when eta |Vinit| is at least the traction."
  },
  {
   "property": "C38",
   "status": "proved",
   "theorems": [
    "ageing_steady",
    "slip_law_steady",
    "ageing_relaxes"
   ],
   "note": "Exact real arithmetic. slip_law_zero_rate_refuted: the slip law is NaN at V = 0."
  },
  {
   "property": "C31",
   "status": "proved",
   "theorems": [
    "table_appends",
    "table_restarts",
    "table_rows_readable",
    "probe_files_independent"
   ],
   "note": "Number formatting is an input (text of each number). probe_same_name_refuted: two probes of the same name share, and overwrite, one file."
  },
  {
   "property": "C32",
   "status": "proved",
   "theorems": [
    "vtu_offsets",
    "vtu_read_back",
    "vtu_read_back_zlib",
    "points_expanded",
    "vtu_cells",
    "pvtu_lists_written"
   ],
   "note": "zlib is an arbitrary invertible function with one block; XML reduced to (name, offset) entries in document order; connectivity is int32, so the number of points of a group must fit."
  },
  {
   "property": "C33",
   "status": "proved",
   "theorems": [
    "hdf5_records",
    "hdf5_rows",
    "hdf5_resume_step",
    "hdf5_restart_refuted",
    "hdf5_rewrite_refuted"
   ],
   "note": "Histories in which each record opens the next row or replaces row 0 (the moment rate writer writes step 0 twice), for any number of ranks, sizes and order in which the ranks' parts land. The refuted theorems record that a resumed run cannot write (datasets are created again) and that replacing a row other than 0 reads past the record."
  },
  {
   "property": "C14",
   "status": "proved",
   "theorems": [
    "lexer_reads_spelled",
    "gmsh_reads_wellformed",
    "gmsh_silent_wellformed",
    "gmsh_failure_has_message",
    "gmsh_calls_safe",
    "gmsh_terminates",
    "gmsh_bad_nodes_refuted",
    "gmsh_untagged_refuted",
    "gmsh_dangling_node_refuted",
    "gmsh_blank_line_refuted",
    "gmsh_crlf_refuted",
    "gmsh_no_newline_refuted",
    "gmsh_comments_refuted"
   ],
   "note": "Lexer and parser on character lists; conversion of decimal fractions (strtod) is a parameter. The refuted theorems record: parse returns true although a section is malformed (only the message tells), an element without tags inherits the previous tag, node numbers have no upper bound, and blank trailing lines, CRLF line ends, a missing final newline or words in skipped sections make the parser run forever."
  },
  {
   "property": "C15",
   "status": "proved",
   "theorems": [
    "builder_collects",
    "builder_counts",
    "builder_accepts",
    "builder_create_renumbers",
    "builder_create_throws",
    "builder_boundary_found",
    "builder_mesh_of_file",
    "gmsh_file_to_mesh",
    "builder_two_sections_refuted",
    "builder_dangling_refuted"
   ],
   "note": "Composed with the Gmsh parser (C14), the node permutations (C46) and the permutation numbering (C08). Exact arithmetic in node_permutation with tolerance below 1/10. Two sections of high order elements write out of bounds; node numbers of linear elements are not checked (refuted theorems)."
  },
  {
   "property": "C46",
   "status": "proved",
   "theorems": [
    "equidistant_nodes_enumerate",
    "equidistant_nodes_distinct",
    "equidistant_numbering",
    "node_permutation_correct",
    "num_nodes_to_degree_correct",
    "equidistant_degree0_refuted"
   ],
   "note": "Exact real arithmetic; node_permutation for any tolerance below 1/N. The one-dimensional factory returns two nodes for degree 0 (refuted theorem)."
  },
  {
   "property": "C16",
   "status": "proved",
   "theorems": [
    "hdf5_mesh_calls",
    "hdf5_mesh_result",
    "hdf5_face_tags",
    "hdf5_mesh",
    "hdf5_disagreeing_tags_refuted",
    "hdf5_short_groups_refuted"
   ],
   "note": "Whole parser composed with the mesh builder, for every well-formed file; disagreeing tags and a short group data set are recorded as refutations."
  },
  {
   "property": "C39",
   "status": "proved",
   "theorems": [
    "greens_function_reproduces",
    "greens_small_traction_refuted"
   ],
   "note": "Assembly loop with all index computations; solver abstract and linear. Needs traction blocks at least as large as slip blocks (true of both adapters), otherwise columns are lost."
  },
  {
   "property": "C40",
   "status": "proved",
   "theorems": [
    "greens_survives_interruption",
    "greens_file_never_torn",
    "greens_crash_atomic",
    "greens_boundary_torn_refuted",
    "greens_backup_unused_refuted"
   ],
   "note": "All crash points, checkpoint times and numbers of restarts on the same number of processes. The boundary traction file is not written atomically: a crash there blocks all later runs (refuted)."
  },
  {
   "property": "C41",
   "status": "proved",
   "theorems": [
    "greens_relayout",
    "greens_computed_once",
    "greens_partial_relayout_refuted",
    "greens_boundary_layout_refuted"
   ],
   "note": "Complete files; incomplete operators and a boundary file of another layout are mishandled (refuted)."
  },
  {
   "property": "C11",
   "status": "proved",
   "theorems": [
    "schema_translate",
    "schema_error_located",
    "schema_decides",
    "schema_only_known_keys",
    "schema_order_unknown",
    "config_cmdline",
    "config_cmdline_accepts",
    "iequals_prefix",
    "schema_non_table_refuted",
    "schema_default_refuted",
    "cmdline_trailing_text_refuted",
    "schema_float_for_integer_refuted",
    "iequals_refuted",
    "lower_case"
   ],
   "note": "All schemas and TOML values, nested to any depth, plus command line overrides. Conversions of the TOML library included. Known gaps of the code are stated as refuted theorems."
  },
  {
   "property": "C50",
   "status": "proved",
   "theorems": [
    "tandem_config_valid",
    "config_final_time_exact",
    "config_empty_mode_refuted",
    "config_section_not_table_refuted",
    "config_output_times_refuted",
    "tandem_config_defaults"
   ],
   "note": "The whole schema of app/tandem. Names are matched by prefix, a section that is no table counts as empty, t_max < t_min is accepted (refuted)."
  },
  {
   "property": "C28",
   "status": "proved",
   "theorems": [
    "closest_point",
    "closest_zero"
   ],
   "note": "All dimensions; exact arithmetic, exact linear solver (instance: Gaussian elimination), affinely independent vertices, no overflow of the squared distance."
  },
  {
   "property": "C29",
   "status": "proved",
   "theorems": [
    "ref_vertices",
    "ref_simplex_image",
    "affine_inverse"
   ],
   "note": "Exact arithmetic and exact linear solver; inverse for non-degenerate simplices."
  },
  {
   "property": "C30",
   "status": "proved",
   "theorems": [
    "locate_minimal",
    "duplicates_removed",
    "missing_probe_error",
    "probes_assigned",
    "probe_positions"
   ],
   "note": "Any number of ranks and probes, any locator results."
  },
  {
   "property": "C51",
   "status": "proved",
   "theorems": [
    "locate_affine",
    "x_inv_throws",
    "x_inv_stops_early",
    "locate_throws_refuted",
    "locate_inexact_refuted"
   ],
   "note": "General position is needed: refuted theorems give points of an element for which the locator throws or is off by more than 3/10."
  },
  {
   "property": "C52",
   "status": "proved",
   "theorems": [
    "facet_located",
    "foreign_facet_refuted"
   ],
   "note": "The order condition is needed: foreign_facet_refuted."
  },
  {
   "property": "C53",
   "status": "proved",
   "theorems": [
    "assembled_matrix_positive",
    "trace_inequality_linear",
    "small_penalty_refuted"
   ],
   "note": "Exact arithmetic. For degree above one the inverse trace inequality (Warburton and Hesthaven) is a hypothesis; for linear elements on affine meshes it is proved. The coefficient at quadrature points must lie within its nodal range, which the code silently assumes."
  },
  {
   "property": "C26",
   "status": "proved",
   "theorems": [
    "apply_matches_assembly",
    "blocks_symmetric",
    "constants_in_kernel",
    "residual_is_traction",
    "residual_is_traction_boundary",
    "assembly_is_interior_penalty",
    "sip_form_symmetric",
    "assembled_matrix_symmetric",
    "distributed_apply_is_matrix",
    "natural_interior_refuted",
    "untagged_boundary_refuted",
    "br2_apply_refuted",
    "br2_asymmetric_refuted"
   ],
   "note": "Exact arithmetic; tensor kernels modelled as sums. assembly_is_interior_penalty: the matrix and vector added by all ranks are those of the symmetric interior penalty form of the global problem, which does not mention ranks or sides. The refuted theorems show that the conditions on boundary tags and on the method are needed: interior natural facets and untagged boundary facets are treated differently by assembly and application, BR2 is not implemented matrix-free, and BR2 blocks are not symmetric for material varying along a facet."
  },
  {
   "property": "C54",
   "status": "proved",
   "theorems": [
    "fault_basis_correct",
    "fault_basis_defined",
    "almost_colinear_refuted"
   ],
   "note": "Exact arithmetic. The tolerance tests of the code compare a sign (2D) and the norm of a normalized vector (3D), so that almost parallel vectors are not rejected (refuted)."
  },
  {
   "property": "C55",
   "status": "proved",
   "theorems": [
    "elasticity_apply_matches_assembly",
    "elasticity_blocks_symmetric",
    "rigid_motions_in_kernel",
    "elasticity_residual_is_traction",
    "elasticity_residual_is_traction_boundary",
    "elasticity_traction_value",
    "elasticity_natural_interior_refuted",
    "elasticity_untagged_boundary_refuted",
    "elasticity_br2_apply_refuted"
   ],
   "note": "Exact arithmetic; tensor kernels modelled as sums. The refuted theorems show that the conditions on tags and method are needed."
  },
  {
   "property": "C56",
   "status": "proved",
   "theorems": [
    "wave_rhs_correct",
    "inverse_mass_spd",
    "project_is_l2_projection",
    "project_reproduces",
    "wave_force_refuted",
    "project_curved_refuted"
   ],
   "note": "Exact arithmetic. MhatInv is assumed to be the inverse of the reference mass matrix. Body forces are ignored by wave_rhs, and on curved elements the projection is not exact (refuted)."
  },
  {
   "property": "C27",
   "status": "proved",
   "theorems": [
    "imposed_jump",
    "elasticity_imposed_jump",
    "slip_exchange",
    "traction_exchange",
    "elasticity_traction_exchange",
    "poisson_traction_projection",
    "elasticity_traction_projection",
    "traction_components",
    "facet_functional_exchange",
    "facet_functional_parallel_refuted"
   ],
   "note": "Exact arithmetic; two views of a facet that differ in the order of its elements. The sign of user functions on facets exactly parallel to the reference normal does depend on the side (refuted); for the fault this case throws."
  },
  {
   "property": "C57",
   "status": "proved",
   "theorems": [
    "elasticity_assembly_is_interior_penalty",
    "elasticity_matrix_symmetric",
    "elasticity_distributed_apply"
   ],
   "note": "Exact arithmetic; interior penalty method. The form is stated on the global mesh without ranks or sides. The matrix-free part needs the conditions on boundary tags of C55."
  },
  {
   "property": "C58",
   "status": "proved",
   "theorems": [
    "elasticity_matrix_positive",
    "strain_trace_inequality_linear",
    "elastic_small_penalty_refuted"
   ],
   "note": "Exact arithmetic. For degree above one the inverse trace inequality is a hypothesis; for linear elements on affine meshes it is proved. The bounds of the stiffness tensor used by the code require lambda >= 0 and the coefficients at quadrature points within their nodal range."
  },
  {
   "property": "C59",
   "status": "proved",
   "theorems": [
    "time_step_bounds_form",
    "time_step_bounds_frequency",
    "vibration_frequency_bound",
    "time_step_density_refuted"
   ],
   "note": "Inverse inequalities are hypotheses (proved in the example for linear elements); exact arithmetic."
  },
  {
   "property": "C60",
   "status": "proved",
   "theorems": [
    "local_meshes_fit_together"
   ],
   "note": "Composition of doPartition, getGhostElements, repartitionByHash of the tagged facets and getFaces; the result satisfies the hypotheses of C22-C26, C48, C55, C57 (mesh_parts, dist_mesh). Example given_run."
  },
  {
   "property": "C61",
   "status": "proved",
   "theorems": [
    "assembly_of_mesh_read",
    "assembly_independent_of_partition"
   ],
   "note": "Blocks are labelled with the vertex lists of their elements; the local operators are any functions that evaluate a form given on vertex lists. Example given_assembly."
  },
  {
   "property": "C62",
   "status": "proved",
   "theorems": [
    "facet_normal_is_outward",
    "element_surface_closed",
    "shared_facets_coincide",
    "shared_normals_opposite",
    "geometry_of_problem",
    "rank_geometry_is_problem",
    "straight_elements",
    "straight_mesh_valid",
    "stored_area",
    "penalty_area_and_volume"
   ],
   "note": "The nodal basis is a hypothesis (conforming_basis), shown for the linear basis in all dimensions and for a quadratic one in the example. Elements on different sides of a facet is part of the definition of a valid mesh."
  },
  {
   "property": "C63",
   "status": "proved",
   "theorems": [
    "mesh_gives_interior_penalty",
    "straight_mesh_matrix_positive"
   ],
   "note": "Composition of C23, C26, C48, C53 and C62: ranks that meet the hypotheses exist for every mesh (mesh_rank_ok) and a concrete strip of triangles is worked out (strip_positive). The trace inequality is a hypothesis for degree above one and proved for linear elements on straight meshes."
  },
  {
   "property": "C64",
   "status": "proved",
   "theorems": [
    "mesh_gives_elastic_interior_penalty",
    "straight_mesh_elastic_stable",
    "grad_constant_table"
   ],
   "note": "Composition of C23, C48, C57, C58, C59 and C62. The inverse trace and gradient inequalities, hypotheses in C58 and C59, are proved here for linear functions on every simplex with the constants of InverseInequality.h (linear_trace, straight_grad). Density of at least one is needed: time_step_density_refuted. Ranks that meet the hypotheses exist for every mesh (mesh_erank_ok); a strip of triangles is worked out (strip_stable)."
  },
  {
   "property": "C65",
   "status": "proved",
   "theorems": [
    "jacobi_polynomial_and_derivative",
    "singularity_free_jacobi",
    "dubiner_basis",
    "dubiner_gradient",
    "dubiner_gradient_interval",
    "dubiner_gradient_interval_refuted",
    "dubiner_constant"
   ],
   "note": "double is modelled by the reals. The refuted theorem records that the one-dimensional gradient lacks the chain rule factor 2."
  },
  {
   "property": "C66",
   "status": "proved",
   "theorems": [
    "gauss_jacobi_exact",
    "change_interval_exact",
    "tensor_product_rule_exact",
    "simplex_quadrature_rule_exact",
    "jacobi_roots_exist",
    "gauss_jacobi_inside",
    "tensor_product_rule_inside",
    "simplex_integral_unique"
   ],
   "note": "The Newton iteration is replaced by its limit: the points are assumed to be distinct zeros, which are proved to exist. The contents of the tables are an assumption (good_table), shown to be met by the one-point rules."
  },
  {
   "property": "C67",
   "status": "proved",
   "theorems": [
    "modal_ref_element",
    "modal_mass_matrix",
    "nodal_basis_exists_unique",
    "nodal_ref_element",
    "nodal_mass_matrix",
    "equidistant_unisolvent",
    "interval_unisolvent",
    "gauss_inverse_exact"
   ],
   "note": "Eigen's inverse is a parameter assumed exact for nonsingular matrices (gauss_inverse_exact is an instance); reals for double. Gradients for D = 2, 3 (dubiner_gradient_interval_refuted of C65 covers D = 1). Warp and blend nodes are covered under the hypothesis that they determine the polynomials. Examples in RefElementExamples.v: all hypotheses are met for every D and N."
  },
  {
   "property": "C68",
   "status": "proved",
   "theorems": [
    "multiindices_nested",
    "nodal_prolongation",
    "modal_prolongation",
    "coarse_operators",
    "coarse_operators_inherit",
    "nodal_multigrid",
    "interpolation_refused"
   ],
   "note": "MatMatMult and MatTranspose are exact; matrix inversion is exact (exact_inverse, met by Gaussian elimination). Examples: InterpolationExamples.v."
  },
  {
   "property": "C69",
   "status": "proved",
   "theorems": [
    "fe_map_values",
    "fe_gradient_values",
    "l2_error",
    "h1_error",
    "l2_error_exact",
    "h1_error_refuted",
    "l2_facets_error",
    "nodal_represents",
    "modal_represents"
   ],
   "note": "double is modelled by reals; MPI_Reduce by the sum. The MinQuadratureOrder rule is the model of C66."
  },
  {
   "property": "C70",
   "status": "proved",
   "theorems": [
    "lobatto_points",
    "interval_nodes",
    "triangle_edge_nodes",
    "tetrahedron_face_nodes",
    "facet_nodes_conform",
    "warp_and_blend_conform",
    "equidistant_conform",
    "triangle_nodes_symmetric",
    "low_degree_nodes",
    "blending_parameter"
   ],
   "note": "Real arithmetic; Newton's roots, Eigen's solver and epsilon are parameters with stated conditions. That the warped and blended nodes of degree above two are unisolvent is a hypothesis (existence of the nodal basis): it depends on alpha. NodesExamples.v meets the hypotheses."
  },
  {
   "property": "C71",
   "status": "proved",
   "theorems": [
    "lspoly_report",
    "lspoly_polynomial",
    "lspoly_best_polynomial",
    "lspoly_damps_error",
    "lspoly_preconditioner",
    "lspoly_bound",
    "lspoly_small_bound_refuted",
    "lspoly_large_alpha_refuted"
   ],
   "note": "Exact arithmetic; operator and preconditioner are matrices. The refuted theorems show that the bound and alpha <= beta + 1 are needed."
  },
  {
   "property": "C72",
   "status": "proved",
   "theorems": [
    "gram_schmidt",
    "projected_symmetric",
    "rand_eigs_min",
    "rand_eigs_min_exact",
    "rand_eigs_max",
    "pc_apply_formula",
    "pc_apply_smoothed",
    "pc_apply_partition",
    "pc_apply_symmetric",
    "pc_apply_deflates",
    "pc_setup_succeeds",
    "pc_setup_relaxation",
    "pc_presmoothing_lost_refuted",
    "pc_transpose_refuted",
    "pc_reset_refuted"
   ],
   "note": "Exact arithmetic; KSPSolve is a linear solver; dsyev returns ascending eigenvalues and orthonormal eigenvectors. The refuted theorems record defects: pre-smoothing is lost, the transpose is wrong with post-smoothing, a reset loses a vector."
  },
  {
   "property": "C73",
   "status": "proved",
   "theorems": [
    "fault_rhs_nodes",
    "fault_rhs_obeys_friction",
    "fault_rhs_no_solution",
    "fault_init_state",
    "fault_rhs_finishes",
    "fault_output_2d",
    "fault_output_3d",
    "fault_output_rows",
    "fault_params_output",
    "fault_rhs_nan_refuted"
   ],
   "note": "fault_rhs_nan_refuted: with zero shear traction in 3D the slip rate vector is 0/0 and neither the reported maximum nor the error code shows it."
  },
  {
   "property": "C74",
   "status": "proved",
   "theorems": [
    "moment_rates_elasticity",
    "moment_rate_uniform",
    "moment_rates_poisson",
    "fault_moment_of_rhs",
    "moment_rates_integrals",
    "moment_rate_boundary_refuted",
    "poisson_moment_rate_refuted",
    "poisson_moment_rate_overrun_refuted"
   ],
   "note": "poisson_moment_rate_refuted and poisson_moment_rate_overrun_refuted show that the two conditions of the antiplane case are needed: nodal coefficients are used as values at quadrature points."
  },
  {
   "property": "C75",
   "status": "proved",
   "theorems": [
    "inverse_trace_inequality",
    "trace_constant_optimal"
   ],
   "note": "Warburton and Hesthaven's inequality, for the constant as the code computes it; the second theorem exhibits a polynomial with equality."
  },
  {
   "property": "C76",
   "status": "proved",
   "theorems": [
    "straight_mesh_positive_every_degree",
    "straight_mesh_elastic_every_degree",
    "poisson_reference_of_degree",
    "elastic_reference_of_degree",
    "poisson_operator_positive",
    "elastic_operator_positive",
    "nodal_sign_refuted"
   ],
   "note": "nodal_sign_refuted shows that the condition on the coefficients is needed: with quadratic functions a coefficient positive at all nodes is negative at a quadrature point."
  },
  {
   "property": "C77",
   "status": "proved",
   "theorems": [
    "directories_created",
    "directories_frame",
    "refused_directory_aborts",
    "checkpoint_directory",
    "checkpoint_directories_distinct",
    "checkpoint_files",
    "checkpoint_directories_ready",
    "refused_parent_refuted",
    "old_error_aborts_refuted",
    "file_in_place_refuted",
    "pointer_without_prefix_refuted"
   ],
   "note": "Symbolic links and '..' are not modelled. The _refuted theorems: a refused directory further up goes unnoticed; an old errno ends the program; a regular file in place of the directory goes unnoticed; with an empty save directory last_checkpoint.txt is put in the root directory."
  },
  {
   "property": "C78",
   "status": "proved",
   "theorems": [
    "vtu_shows_field",
    "vtu_shows_derivatives",
    "vtu_shows_facets",
    "cells_are_the_elements",
    "derivatives_of_a_range_refuted"
   ],
   "note": "derivatives_of_a_range_refuted: VTUAdapter.h:57-62 forgets the beginning of the range, so with a range that does not begin at 0 the derivatives are those of another element; no program of the repository uses such a range."
  },
  {
   "property": "C79",
   "status": "proved",
   "theorems": [
    "polynomial_solutions_are_discrete_solutions",
    "poisson_operator_reproduces_polynomials",
    "form_consistent",
    "reference_divergence"
   ],
   "note": "Consistency of the interior penalty equations with the data the code assembles, by the divergence theorem on every element (proved from nested Newton integrals for polynomials on the reference simplex) and regrouping of the sides of elements into facets. Straight elements, exact quadrature up to twice the degree as in C76. Example: two ranks, discontinuous coefficient, slip, natural and prescribed boundaries, every degree from two."
  },
  {
   "property": "C80",
   "status": "proved",
   "theorems": [
    "polynomial_equilibria_are_discrete_solutions",
    "elastic_operator_reproduces_polynomials",
    "elastic_form_consistent"
   ],
   "note": "As C79 with the stress in place of the flux. Straight elements, exact quadrature as in C76. Example: two ranks, discontinuous Lam\u00e9 parameters, slip, free and prescribed boundaries, every degree from two."
  },
  {
   "property": "C81",
   "status": "proved",
   "theorems": [
    "anchored_mesh_positive_definite",
    "exactly_one_discrete_solution",
    "poisson_operator_exact",
    "floating_elements_singular"
   ],
   "note": "For anchored_mesh_positive_definite and exactly_one_discrete_solution the coefficient is positive and its interpolated values lie between nodal values; poisson_operator_exact discharges that for constants per element. Exact real arithmetic; straight meshes."
  },
  {
   "property": "C82",
   "status": "proved",
   "theorems": [
    "anchored_mesh_elastic_positive_definite",
    "exactly_one_discrete_displacement",
    "elastic_operator_exact",
    "floating_bodies_singular"
   ],
   "note": "For the first two theorems the Lame parameters are nonnegative (mu positive) and their interpolated values lie between nodal values; elastic_operator_exact discharges that for constants per element. Exact real arithmetic; straight meshes."
  },
  {
   "property": "C83",
   "status": "proved",
   "theorems": [
    "qd_calls_succeed",
    "fd_calls_succeed",
    "qd_rhs_is_the_state_rate",
    "qd_initial_condition_is_initial",
    "qd_update_brings_up_to_date",
    "qd_rhs_independent_of_distribution_and_history",
    "fd_rhs_is_the_rate",
    "fd_rhs_independent_of_distribution_and_history",
    "fd_initial_condition_is_initial",
    "fd_rhs_without_wave_equation_refuted",
    "fd_initial_condition_on_two_ranks_refuted",
    "fd_boundary_output_is_stale_refuted",
    "fd_poisson_velocity_rate_refuted"
   ],
   "note": "With ghosts and an initial displacement the fully dynamic initial condition is wrong; its boundary output can be stale; with Poisson the mode does nothing to the velocity."
  },
  {
   "property": "C84",
   "status": "proved",
   "theorems": [
    "equilibrium_energy_balance",
    "reported_traction_is_facet_force",
    "wave_energy_balance",
    "wave_energy_conserved",
    "wave_energy_bounds_motion"
   ],
   "note": "Stored energy and work are defined in ElasticEnergySpec from stresses, jumps and quadrature weights. The wave theorems take continuous time, elements of constant Jacobian and density, and no body force."
  },
  {
   "property": "C85",
   "status": "proved",
   "theorems": [
    "triangle_rules_accurate",
    "tetrahedron_rules_accurate",
    "high_order_tetrahedron_rules_accurate",
    "tables_well_formed",
    "simplex_quadrature_rule_accurate",
    "triangle_rules_exact_refuted"
   ],
   "note": "The numbers of the tables are the decimals of the source, generated into three Coq files by tools/gen_quad_tables.py; they are not rounded to double. The check runs in fixed-point arithmetic with eighteen digits on Coq's 63-bit integers and is proved sound, so these theorems also depend on the standard library's axioms on Uint63. triangle_rules_exact_refuted records that the decimals are not exact, so good_table of C66 is met by ideal tables only. One rule (triangles, order 16) has points on the boundary."
  },
  {
   "property": "C86",
   "status": "proved",
   "theorems": [
    "script_answers_exact",
    "script_errors_reported",
    "untagged_errors_reported",
    "script_history_sound",
    "tandem_requests_fit",
    "pure_script_history_free",
    "seas_scenario_follows_script",
    "elasticity_materials_follow_script",
    "time_is_last_argument",
    "friction_scenario_follows_script",
    "friction_params_follow_script",
    "static_scenario_follows_script",
    "new_library_ready",
    "load_runs_text",
    "caught_errors_exhaust_stack_refuted",
    "every_error_reported_refuted",
    "failed_script_stops_run_refuted",
    "default_lam_agrees_refuted"
   ],
   "note": "The interpreter is a parameter. History claims assume that what the script raises is a text or a number (as Lua's own errors are); every_error_reported_refuted shows it is needed. Lookups through __index functions with effects are not modelled."
  },
  {
   "property": "C87",
   "status": "proved",
   "theorems": [
    "fault_geometry_written",
    "moment_rate_rows",
    "fault_number_refuted",
    "fault_geometry_restart_refuted"
   ],
   "note": "All mesh parts, ranks, degrees >= 1 and write orders. The two refuted theorems record what the code does not do: global numbers from 2^31 - 1 on are stored as 2^31 - 1, and a continued run cannot write the geometry again."
  },
  {
   "property": "C88",
   "status": "proved",
   "theorems": [
    "assembly_is_br2",
    "br2_matrix_positive",
    "br2_operator_positive",
    "curved_mass_refuted"
   ],
   "note": "On curved elements the code uses a weight-adjusted approximation of the inverse mass matrix; curved_mass_refuted shows that the statement needs straight-sided elements."
  },
  {
   "property": "C89",
   "status": "proved",
   "theorems": [
    "br2_operator_exact",
    "br2_consistent",
    "br2_zero_anchored"
   ],
   "note": "br2_operator_exact is about the operator that Poisson's constructor builds (as in C76) and all ranks together: symmetric, positive definite, exactly one solution, exact for classical polynomial solutions. br2_zero_anchored: an element connected with prescribed values has no field of zero energy. br2_consistent holds for coefficients that are linear in each element. The coefficient is constant in each element in br2_operator_exact because C88 needs it."
  },
  {
   "property": "C90",
   "status": "proved",
   "theorems": [
    "elasticity_assembly_is_br2",
    "elasticity_br2_matrix_positive",
    "elasticity_br2_operator_positive"
   ],
   "note": "Reals without rounding; matrix inversion (Eigen FullPivLU) is an exact inverse of nonsingular matrices, and nonsingularity is proved on straight elements. C90a assumes on arbitrary geometry that each rank keeps the inverses of its mass matrices."
  },
  {
   "property": "C91",
   "status": "proved",
   "theorems": [
    "elastic_br2_operator_exact",
    "ebr2_consistent"
   ],
   "note": "elastic_br2_operator_exact is about the operator that Elasticity's constructor builds (as in C76) and all ranks together: symmetric, positive definite, exactly one solution, exact for polynomial equilibria. Reals without rounding; the matrix inverse is exact on nonsingular matrices. Both Lame parameters are constant in each element because C90 needs it."
  },
  {
   "property": "C92",
   "status": "proved",
   "theorems": [
    "mask_text_safe",
    "mask_text_shows",
    "node_mask_union",
    "node_mask_printed",
    "affinity_lines",
    "last_group_refuted",
    "node_mask_refuted"
   ],
   "note": "The operating system's masks, the number of CPUs and the ranks on the node are arbitrary. [1 << k] with k >= 32 is undefined; node_mask_refuted holds for every fixed value it may yield."
  },
  {
   "property": "C93",
   "status": "proved",
   "theorems": [
    "poisson_energy_balance",
    "reported_flux_is_shear_force"
   ],
   "note": "Interior penalty method; the matrix is assembled once and the two right-hand sides with their data. Case: the strip of three triangles on two ranks at any degree with a slipping fault, and the flux of the fault between the ranks seen from both."
  },
  {
   "property": "C94",
   "status": "proved",
   "theorems": [
    "golden_section_search",
    "golden_section_ends_refuted",
    "sample_triangle",
    "sample_tetrahedron",
    "lebesgue_function_correct",
    "lebesgue_estimate_correct"
   ],
   "note": "Real arithmetic; Eigen's inverse is any exact inverse. With a tolerance that is not positive the search does not end (golden_section_ends_refuted)."
  },
  {
   "property": "C95",
   "status": "proved",
   "theorems": [
    "profile_times",
    "profile_get",
    "summary_correct",
    "total_row",
    "table_header",
    "table_rows",
    "table_header_refuted"
   ],
   "note": "double is modelled by the reals; how a number becomes text is not modelled (items are texts). table_header_refuted: with names but no widths the constructor reads the last element of an empty vector."
  },
  {
   "property": "C96",
   "status": "proved",
   "theorems": [
    "storage_size",
    "storage_size_refuted",
    "tensors_are_values",
    "tensors_do_not_leak",
    "moved_from_empty_refuted"
   ],
   "note": "Allocation is assumed to succeed. storage_size_refuted: 2^61 doubles ask for 0 bytes. moved_from_empty_refuted: a tensor whose value was moved away still points to the new owner's memory."
  },
  {
   "property": "C97",
   "status": "proved",
   "theorems": [
    "block_numbers",
    "block_access",
    "blocks_added",
    "blocks_added_any_order",
    "nested_vector_round_trip",
    "nested_vector_other_processes",
    "nested_vector_other_viewer_refuted"
   ],
   "note": "PETSc's calls are modelled by their documented effect, entries by real numbers, PetscInt without bound. nested_vector_other_viewer_refuted: with a viewer that is neither ASCII nor binary saving succeeds and writes nothing."
  },
  {
   "property": "C98",
   "status": "proved",
   "theorems": [
    "boundary_cells_show_facets",
    "check_bc_shows_conditions",
    "check_bc_status_refuted"
   ],
   "note": "For every local mesh that satisfies TopoSpec.topo_ok. A facet between two processes is drawn by both of them; the merging of the files is not modelled."
  },
  {
   "property": "C99",
   "status": "proved",
   "theorems": [
    "sum_and_difference",
    "norm_is_length",
    "normalize_unit",
    "cross_product"
   ],
   "note": "Exact real arithmetic; rounding is not modelled."
  },
  {
   "property": "C100",
   "status": "proved",
   "theorems": [
    "range_visits_elements",
    "reversed_range_wraps",
    "enumerate_counts",
    "advance_back"
   ],
   "note": "Unsigned 64-bit numbers; the counter of enumerate does not overflow."
  },
  {
   "property": "C101",
   "status": "proved",
   "theorems": [
    "one_character_changes_hash",
    "common_end_keeps_hash",
    "misspelt_section_unknown",
    "hash_distinct_refuted"
   ],
   "note": "Characters are unsigned in the model; on platforms with signed char codes from 128 on are extended by their sign. The section names consist of letters, for which both agree."
  }
 ]
}