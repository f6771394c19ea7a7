# What `Print Assumptions` lists for each theorem of MANIFEST.json

Generated by `tools/assumptions.py`. "closed" means: no axioms.

| property | theorem | module | axioms |
|---|---|---|---|
| C01 | distribute_partition | DistributeProps | closed |
| C01 | distribute_balanced | DistributeProps | closed |
| C02 | sorted_lookup_correct | DistributeProps | closed |
| C02 | sorted_distribution_prefix_sums | DistributeProps | closed |
| C02 | sorted_lookup_past_end | DistributeProps | closed |
| C02 | sorted_lookup_empty_refuted | DistributeProps | closed |
| C03 | alltoallv_constructible | CommProps | closed |
| C03 | alltoallv_delivers | CommProps | closed |
| C03 | alltoallv_swap_roundtrip | CommProps | closed |
| C03 | gatherv_concat | CommProps | closed |
| C03 | alltoallv_empty_refuted | CommProps | closed |
| C04 | apply_permutation_correct | AlgorithmProps | closed |
| C04 | apply_permutation_tensor_correct | TensorProps | closed |
| C05 | find_blocks_correct | AlgorithmProps | closed |
| C05 | find_blocks_wrap_refuted | AlgorithmProps | closed |
| C06 | binom_correct | CombinatoricsProps | closed |
| C06 | choose_enumerates | CombinatoricsProps | closed |
| C06 | integer_sums_enumerate | CombinatoricsProps | closed |
| C07 | flatten_unflatten | MultiIndexProps | closed |
| C07 | unflatten_flatten | MultiIndexProps | closed |
| C07 | product_iterates | MultiIndexProps | closed |
| C07 | permute_inverse | MultiIndexProps | closed |
| C07 | product_zero_extent_refuted | MultiIndexProps | closed |
| C08 | permutation_numbering_bijective | LehmerProps | closed |
| C08 | permutation_numbering_13_refuted | LehmerProps | closed |
| C09 | allocator_blocks_disjoint | AllocatorProps | closed |
| C09 | allocator_reset_restores | AllocatorProps | closed |
| C09 | allocation_size_suffices | AllocatorProps | closed |
| C09 | allocation_size_zero_refuted | AllocatorProps | closed |
| C09 | allocate_overflow_refuted | AllocatorProps | closed |
| C10 | zeroIn_safe | ZeroProps | ClassicalDedekindReals.sig_forall_dec, FunctionalExtensionality.functional_extensionality_dep |
| C10 | good_value_near_root | ZeroProps | ClassicalDedekindReals.sig_forall_dec, ClassicalDedekindReals.sig_not_dec, FunctionalExtensionality.functional_extensionality_dep |
| C10 | zeroIn_correct | ZeroProps | ClassicalDedekindReals.sig_forall_dec, FunctionalExtensionality.functional_extensionality_dep |
| C10 | zeroIn_near_root | ZeroProps | ClassicalDedekindReals.sig_forall_dec, ClassicalDedekindReals.sig_not_dec, FunctionalExtensionality.functional_extensionality_dep |
| C10 | zeroIn_terminates_tol | ZeroProps | ClassicalDedekindReals.sig_forall_dec, FunctionalExtensionality.functional_extensionality_dep |
| C10 | zeroIn_rejects_same_sign | ZeroProps | ClassicalDedekindReals.sig_forall_dec, FunctionalExtensionality.functional_extensionality_dep |
| C10 | zeroIn_fuel_irrelevant | ZeroProps | ClassicalDedekindReals.sig_forall_dec, FunctionalExtensionality.functional_extensionality_dep |
| C11 | schema_translate | SchemaProps | closed |
| C11 | schema_error_located | SchemaProps | closed |
| C11 | schema_decides | SchemaProps | closed |
| C11 | schema_only_known_keys | SchemaProps | closed |
| C11 | schema_order_unknown | SchemaProps | closed |
| C11 | config_cmdline | SchemaProps | closed |
| C11 | config_cmdline_accepts | SchemaProps | closed |
| C11 | iequals_prefix | SchemaProps | closed |
| C11 | schema_non_table_refuted | SchemaProps | closed |
| C11 | schema_default_refuted | SchemaProps | closed |
| C11 | cmdline_trailing_text_refuted | SchemaProps | closed |
| C11 | schema_float_for_integer_refuted | SchemaProps | closed |
| C11 | iequals_refuted | SchemaProps | closed |
| C11 | lower_case | SchemaProps | closed |
| C12 | packed_tensor_layout | TensorProps | closed |
| C12 | subtensor_refers_to_parent | TensorProps | closed |
| C12 | subtensor_in_range | TensorProps | closed |
| C12 | reshape_keeps_order | TensorProps | closed |
| C12 | copy_values_copies | TensorProps | closed |
| C12 | copy_values_zero_extent_refuted | TensorProps | closed |
| C13 | simplex_equal_iff_same_vertices | SimplexProps | closed |
| C13 | downward_lists_faces | SimplexProps | closed |
| C13 | facet_numbering | SimplexProps | closed |
| C13 | downward0_agrees | SimplexProps | closed |
| C14 | lexer_reads_spelled | GmshLexProofs | closed |
| C14 | gmsh_reads_wellformed | GmshProps | closed |
| C14 | gmsh_silent_wellformed | GmshProps | closed |
| C14 | gmsh_failure_has_message | GmshProps | closed |
| C14 | gmsh_calls_safe | GmshProps | closed |
| C14 | gmsh_terminates | GmshProps | closed |
| C14 | gmsh_bad_nodes_refuted | GmshProps | closed |
| C14 | gmsh_untagged_refuted | GmshProps | closed |
| C14 | gmsh_dangling_node_refuted | GmshProps | closed |
| C14 | gmsh_blank_line_refuted | GmshProps | closed |
| C14 | gmsh_crlf_refuted | GmshProps | closed |
| C14 | gmsh_no_newline_refuted | GmshProps | closed |
| C14 | gmsh_comments_refuted | GmshProps | closed |
| C15 | builder_collects | BuilderProps | ClassicalDedekindReals.sig_forall_dec, ClassicalDedekindReals.sig_not_dec, FunctionalExtensionality.functional_extensionality_dep |
| C15 | builder_counts | BuilderProps | ClassicalDedekindReals.sig_forall_dec, ClassicalDedekindReals.sig_not_dec, FunctionalExtensionality.functional_extensionality_dep |
| C15 | builder_accepts | BuilderProps | ClassicalDedekindReals.sig_forall_dec, ClassicalDedekindReals.sig_not_dec, FunctionalExtensionality.functional_extensionality_dep |
| C15 | builder_create_renumbers | BuilderProps | closed |
| C15 | builder_create_throws | BuilderProps | closed |
| C15 | builder_boundary_found | BuilderProps | ClassicalDedekindReals.sig_forall_dec, ClassicalDedekindReals.sig_not_dec, FunctionalExtensionality.functional_extensionality_dep |
| C15 | builder_mesh_of_file | BuilderFileProps | ClassicalDedekindReals.sig_forall_dec, ClassicalDedekindReals.sig_not_dec, FunctionalExtensionality.functional_extensionality_dep |
| C15 | gmsh_file_to_mesh | BuilderFileProps | ClassicalDedekindReals.sig_forall_dec, ClassicalDedekindReals.sig_not_dec, FunctionalExtensionality.functional_extensionality_dep |
| C15 | builder_two_sections_refuted | BuilderFileProps | ClassicalDedekindReals.sig_forall_dec, ClassicalDedekindReals.sig_not_dec, FunctionalExtensionality.functional_extensionality_dep |
| C15 | builder_dangling_refuted | BuilderFileProps | ClassicalDedekindReals.sig_forall_dec, ClassicalDedekindReals.sig_not_dec, FunctionalExtensionality.functional_extensionality_dep |
| C16 | hdf5_mesh_calls | H5MeshProps | closed |
| C16 | hdf5_mesh_result | H5MeshProps | closed |
| C16 | hdf5_face_tags | H5MeshProps | closed |
| C16 | hdf5_mesh | H5MeshFileProps | ClassicalDedekindReals.sig_forall_dec, ClassicalDedekindReals.sig_not_dec, FunctionalExtensionality.functional_extensionality_dep |
| C16 | hdf5_disagreeing_tags_refuted | H5MeshFileProps | closed |
| C16 | hdf5_short_groups_refuted | H5MeshFileProps | closed |
| C17 | gen_elements_rank_independent | GenMeshProps | closed |
| C17 | gen_vertices_rank_independent | GenMeshProps | closed |
| C17 | gen_mesh_cells | GenMeshProps | closed |
| C17 | gen_mesh_conforming | GenMeshProps | closed |
| C17 | gen_mesh_global | GenMeshProps | closed |
| C17 | vertex_pos_hits_points | GenMeshCoord | ClassicalDedekindReals.sig_forall_dec, FunctionalExtensionality.functional_extensionality_dep |
| C17 | vertex_pos_increasing | GenMeshCoord | ClassicalDedekindReals.sig_forall_dec, FunctionalExtensionality.functional_extensionality_dep |
| C17 | gen_mesh_zero_cells_refuted | GenMeshProps | closed |
| C17 | resolution_guarantee_refuted | GenMeshCoord | ClassicalDedekindReals.sig_forall_dec, FunctionalExtensionality.functional_extensionality_dep |
| C18 | redistribution_correct | PartitionProps | closed |
| C18 | redistribution_conserves | PartitionProps | closed |
| C18 | partition_flag_truthful | PartitionProps | closed |
| C19 | faces_correct | FacesProps | closed |
| C19 | vertex_data_attached | FacesProps | closed |
| C19 | boundary_data_attached | FacesProps | closed |
| C19 | owner_has_face_refuted | FacesProps | closed |
| C20 | ghosts_correct | GhostProps | closed |
| C20 | no_ghosts_correct | GhostProps | closed |
| C20 | strip_mesh | GhostProps | closed |
| C21 | upward_lists_elements | LocalMeshProps | closed |
| C21 | upward_downward_dual | LocalMeshProps | closed |
| C22 | ghost_exchange_correct | ScatterProps | closed |
| C22 | scatter_correct | ScatterProps | closed |
| C22 | scatter_progress | ScatterProps | closed |
| C22 | scatter_completions_finite | ScatterProps | closed |
| C22 | ghost_begin_defined | ScatterProps | closed |
| C22 | simple_scatter_unpack | ScatterProps | closed |
| C23 | facet_table_correct | TopoProps | closed |
| C23 | neighbour_table_correct | TopoProps | closed |
| C23 | neighbour_table_symmetric | TopoProps | closed |
| C23 | neighbour_counts_correct | TopoProps | closed |
| C23 | interior_elements_first | TopoProps | closed |
| C24 | boundary_map_total | BoundaryMapProps | closed |
| C24 | boundary_map_numbers | BoundaryMapProps | closed |
| C24 | boundary_map_agrees | BoundaryMapProps | closed |
| C24 | boundary_facet_local_once | BoundaryMapProps | closed |
| C24 | boundary_exchange_correct | BoundaryMapProps | closed |
| C25 | apply_overlap_correct | ApplyProps | closed |
| C26 | apply_matches_assembly | PoissonProps | ClassicalDedekindReals.sig_forall_dec, ClassicalDedekindReals.sig_not_dec, FunctionalExtensionality.functional_extensionality_dep |
| C26 | blocks_symmetric | PoissonProps | ClassicalDedekindReals.sig_forall_dec, FunctionalExtensionality.functional_extensionality_dep |
| C26 | constants_in_kernel | PoissonProps | ClassicalDedekindReals.sig_forall_dec, FunctionalExtensionality.functional_extensionality_dep |
| C26 | residual_is_traction | PoissonProps | ClassicalDedekindReals.sig_forall_dec, ClassicalDedekindReals.sig_not_dec, FunctionalExtensionality.functional_extensionality_dep |
| C26 | residual_is_traction_boundary | PoissonProps | ClassicalDedekindReals.sig_forall_dec, ClassicalDedekindReals.sig_not_dec, FunctionalExtensionality.functional_extensionality_dep |
| C26 | assembly_is_interior_penalty | SipProps | ClassicalDedekindReals.sig_forall_dec, FunctionalExtensionality.functional_extensionality_dep |
| C26 | sip_form_symmetric | SipProps | ClassicalDedekindReals.sig_forall_dec, FunctionalExtensionality.functional_extensionality_dep |
| C26 | assembled_matrix_symmetric | SipProps | ClassicalDedekindReals.sig_forall_dec, FunctionalExtensionality.functional_extensionality_dep |
| C26 | distributed_apply_is_matrix | SipProps | ClassicalDedekindReals.sig_forall_dec, ClassicalDedekindReals.sig_not_dec, FunctionalExtensionality.functional_extensionality_dep |
| C26 | natural_interior_refuted | PoissonExamples | ClassicalDedekindReals.sig_forall_dec, ClassicalDedekindReals.sig_not_dec, FunctionalExtensionality.functional_extensionality_dep |
| C26 | untagged_boundary_refuted | PoissonExamples | ClassicalDedekindReals.sig_forall_dec, ClassicalDedekindReals.sig_not_dec, FunctionalExtensionality.functional_extensionality_dep |
| C26 | br2_apply_refuted | PoissonExamples | ClassicalDedekindReals.sig_forall_dec, ClassicalDedekindReals.sig_not_dec, FunctionalExtensionality.functional_extensionality_dep |
| C26 | br2_asymmetric_refuted | PoissonExamples | ClassicalDedekindReals.sig_forall_dec, ClassicalDedekindReals.sig_not_dec, FunctionalExtensionality.functional_extensionality_dep |
| C27 | imposed_jump | FaultSideProps | ClassicalDedekindReals.sig_forall_dec, ClassicalDedekindReals.sig_not_dec, FunctionalExtensionality.functional_extensionality_dep |
| C27 | elasticity_imposed_jump | FaultSideProps | ClassicalDedekindReals.sig_forall_dec, ClassicalDedekindReals.sig_not_dec, FunctionalExtensionality.functional_extensionality_dep |
| C27 | slip_exchange | FaultSideProps | ClassicalDedekindReals.sig_forall_dec, ClassicalDedekindReals.sig_not_dec, FunctionalExtensionality.functional_extensionality_dep |
| C27 | traction_exchange | FaultSideProps | ClassicalDedekindReals.sig_forall_dec, ClassicalDedekindReals.sig_not_dec, FunctionalExtensionality.functional_extensionality_dep |
| C27 | elasticity_traction_exchange | ElasticityFaultProps | ClassicalDedekindReals.sig_forall_dec, ClassicalDedekindReals.sig_not_dec, FunctionalExtensionality.functional_extensionality_dep |
| C27 | poisson_traction_projection | FaultSideProps | ClassicalDedekindReals.sig_forall_dec, FunctionalExtensionality.functional_extensionality_dep |
| C27 | elasticity_traction_projection | FaultSideProps | ClassicalDedekindReals.sig_forall_dec, FunctionalExtensionality.functional_extensionality_dep |
| C27 | traction_components | FaultSideProps | ClassicalDedekindReals.sig_forall_dec, ClassicalDedekindReals.sig_not_dec, FunctionalExtensionality.functional_extensionality_dep |
| C27 | facet_functional_exchange | FaultSideProps | ClassicalDedekindReals.sig_forall_dec, FunctionalExtensionality.functional_extensionality_dep |
| C27 | facet_functional_parallel_refuted | FaultSideProps | ClassicalDedekindReals.sig_forall_dec, FunctionalExtensionality.functional_extensionality_dep |
| C28 | closest_point | PlexProps | ClassicalDedekindReals.sig_forall_dec, ClassicalDedekindReals.sig_not_dec, FunctionalExtensionality.functional_extensionality_dep |
| C28 | closest_zero | PlexProps | ClassicalDedekindReals.sig_forall_dec, ClassicalDedekindReals.sig_not_dec, FunctionalExtensionality.functional_extensionality_dep |
| C29 | ref_vertices | PlexProps | ClassicalDedekindReals.sig_forall_dec, FunctionalExtensionality.functional_extensionality_dep |
| C29 | ref_simplex_image | PlexProps | ClassicalDedekindReals.sig_forall_dec, FunctionalExtensionality.functional_extensionality_dep |
| C29 | affine_inverse | PlexProps | ClassicalDedekindReals.sig_forall_dec, FunctionalExtensionality.functional_extensionality_dep |
| C30 | locate_minimal | LocateProps | ClassicalDedekindReals.sig_forall_dec, ClassicalDedekindReals.sig_not_dec, FunctionalExtensionality.functional_extensionality_dep |
| C30 | duplicates_removed | LocatorProps | ClassicalDedekindReals.sig_forall_dec, FunctionalExtensionality.functional_extensionality_dep |
| C30 | missing_probe_error | LocatorProps | ClassicalDedekindReals.sig_forall_dec, FunctionalExtensionality.functional_extensionality_dep |
| C30 | probes_assigned | LocatorProps | ClassicalDedekindReals.sig_forall_dec, FunctionalExtensionality.functional_extensionality_dep |
| C30 | probe_positions | LocatorProps | closed |
| C31 | table_appends | TableProps | closed |
| C31 | table_restarts | TableProps | closed |
| C31 | table_rows_readable | TableProps | closed |
| C31 | probe_files_independent | TableProps | closed |
| C32 | vtu_offsets | VtuProps | closed |
| C32 | vtu_read_back | VtuProps | closed |
| C32 | vtu_read_back_zlib | VtuProps | closed |
| C32 | points_expanded | VtuProps | closed |
| C32 | vtu_cells | VtuProps | closed |
| C32 | pvtu_lists_written | VtuProps | closed |
| C33 | hdf5_records | Hdf5Props | closed |
| C33 | hdf5_rows | Hdf5Props | closed |
| C33 | hdf5_resume_step | Hdf5Props | closed |
| C33 | hdf5_restart_refuted | Hdf5Props | closed |
| C33 | hdf5_rewrite_refuted | Hdf5Props | closed |
| C34 | output_interval_correct | MonitorProps | ClassicalDedekindReals.sig_forall_dec, FunctionalExtensionality.functional_extensionality_dep |
| C34 | output_spacing | MonitorProps | ClassicalDedekindReals.sig_forall_dec, FunctionalExtensionality.functional_extensionality_dep |
| C34 | moment_rate_output_refuted | MonitorProps | ClassicalDedekindReals.sig_forall_dec, FunctionalExtensionality.functional_extensionality_dep |
| C34 | dt_limits_correct | MonitorProps | ClassicalDedekindReals.sig_forall_dec, FunctionalExtensionality.functional_extensionality_dep |
| C35 | monitored_output_is_current | MonitorProps | ClassicalDedekindReals.sig_forall_dec, FunctionalExtensionality.functional_extensionality_dep |
| C35 | monitored_rates_are_current | MonitorProps | ClassicalDedekindReals.sig_forall_dec, FunctionalExtensionality.functional_extensionality_dep |
| C35 | monitored_vmax_stale_refuted | MonitorProps | ClassicalDedekindReals.sig_forall_dec, FunctionalExtensionality.functional_extensionality_dep |
| C36 | balance_unique | FrictionProps | ClassicalDedekindReals.sig_forall_dec, ClassicalDedekindReals.sig_not_dec, Classical_Prop.classic, FunctionalExtensionality.functional_extensionality_dep |
| C36 | slip_rate_correct | FrictionProps | ClassicalDedekindReals.sig_forall_dec, ClassicalDedekindReals.sig_not_dec, Classical_Prop.classic, FunctionalExtensionality.functional_extensionality_dep |
| C36 | slip_rate_terminates | FrictionProps | ClassicalDedekindReals.sig_forall_dec, ClassicalDedekindReals.sig_not_dec, Classical_Prop.classic, FunctionalExtensionality.functional_extensionality_dep |
| C36 | slip_rate_undamped | FrictionProps | ClassicalDedekindReals.sig_forall_dec, ClassicalDedekindReals.sig_not_dec, Classical_Prop.classic, FunctionalExtensionality.functional_extensionality_dep |
| C36 | slip_rate_vector | FrictionProps | ClassicalDedekindReals.sig_forall_dec, ClassicalDedekindReals.sig_not_dec, FunctionalExtensionality.functional_extensionality_dep |
| C36 | slip_rate_carries_strength | FrictionProps | ClassicalDedekindReals.sig_forall_dec, ClassicalDedekindReals.sig_not_dec, Classical_Prop.classic, FunctionalExtensionality.functional_extensionality_dep |
| C36 | slip_rate_tension | FrictionProps | ClassicalDedekindReals.sig_forall_dec, ClassicalDedekindReals.sig_not_dec, Classical_Prop.classic, FunctionalExtensionality.functional_extensionality_dep |
| C37 | psi_init_balances | FrictionProps | ClassicalDedekindReals.sig_forall_dec, ClassicalDedekindReals.sig_not_dec, Classical_Prop.classic, FunctionalExtensionality.functional_extensionality_dep |
| C37 | psi_init_slip_rate | FrictionProps | ClassicalDedekindReals.sig_forall_dec, ClassicalDedekindReals.sig_not_dec, Classical_Prop.classic, FunctionalExtensionality.functional_extensionality_dep |
| C38 | ageing_steady | FrictionProps | ClassicalDedekindReals.sig_forall_dec, ClassicalDedekindReals.sig_not_dec, Classical_Prop.classic, FunctionalExtensionality.functional_extensionality_dep |
| C38 | slip_law_steady | FrictionProps | ClassicalDedekindReals.sig_forall_dec, ClassicalDedekindReals.sig_not_dec, Classical_Prop.classic, FunctionalExtensionality.functional_extensionality_dep |
| C38 | ageing_relaxes | FrictionProps | ClassicalDedekindReals.sig_forall_dec, ClassicalDedekindReals.sig_not_dec, Classical_Prop.classic, FunctionalExtensionality.functional_extensionality_dep |
| C39 | greens_function_reproduces | GreenProps | ClassicalDedekindReals.sig_forall_dec, FunctionalExtensionality.functional_extensionality_dep |
| C39 | greens_small_traction_refuted | GreenProps | ClassicalDedekindReals.sig_forall_dec, FunctionalExtensionality.functional_extensionality_dep |
| C40 | greens_survives_interruption | GreenProps | ClassicalDedekindReals.sig_forall_dec |
| C40 | greens_file_never_torn | GreenProps | ClassicalDedekindReals.sig_forall_dec |
| C40 | greens_crash_atomic | GreenProps | closed |
| C40 | greens_boundary_torn_refuted | GreenProps | ClassicalDedekindReals.sig_forall_dec |
| C40 | greens_backup_unused_refuted | GreenProps | ClassicalDedekindReals.sig_forall_dec |
| C41 | greens_relayout | GreenProps | ClassicalDedekindReals.sig_forall_dec, FunctionalExtensionality.functional_extensionality_dep |
| C41 | greens_computed_once | GreenProps | ClassicalDedekindReals.sig_forall_dec, FunctionalExtensionality.functional_extensionality_dep |
| C41 | greens_partial_relayout_refuted | GreenProps | ClassicalDedekindReals.sig_forall_dec, FunctionalExtensionality.functional_extensionality_dep |
| C41 | greens_boundary_layout_refuted | GreenProps | ClassicalDedekindReals.sig_forall_dec, FunctionalExtensionality.functional_extensionality_dep |
| C42 | checkpoint_crash_safe | TsCheckpointProps | closed |
| C42 | checkpoint_previous_survives | TsCheckpointProps | closed |
| C42 | slots_move | TsCheckpointProps | ClassicalDedekindReals.sig_forall_dec, FunctionalExtensionality.functional_extensionality_dep |
| C42 | slots_agree_on_ranks | TsCheckpointProps | ClassicalDedekindReals.sig_forall_dec, FunctionalExtensionality.functional_extensionality_dep |
| C42 | restart_after_crash | TsCheckpointProps | ClassicalDedekindReals.sig_forall_dec, FunctionalExtensionality.functional_extensionality_dep |
| C42 | pointer_update_not_atomic_refuted | TsCheckpointProps | closed |
| C42 | one_slot_not_safe_refuted | TsCheckpointProps | closed |
| C42 | restart_overwrites_slot_refuted | TsCheckpointProps | ClassicalDedekindReals.sig_forall_dec |
| C43 | checkpoint_taken_when_due | TsCheckpointProps | ClassicalDedekindReals.sig_forall_dec, FunctionalExtensionality.functional_extensionality_dep |
| C43 | checkpoint_only_when_due | TsCheckpointProps | ClassicalDedekindReals.sig_forall_dec, FunctionalExtensionality.functional_extensionality_dep |
| C43 | checkpoint_restores_state | TsCheckpointProps | closed |
| C43 | adapt_loaded_twice_refuted | TsCheckpointProps | closed |
| C43 | zero_step_interval_refuted | TsCheckpointProps | ClassicalDedekindReals.sig_forall_dec, FunctionalExtensionality.functional_extensionality_dep |
| C44 | levels_hierarchy | MGConfigProps | closed |
| C44 | levels_logarithmic_halves | MGConfigProps | closed |
| C44 | levels_degree_zero_refuted | MGConfigProps | closed |
| C45 | extract_boundary_correct | GenMeshBoundary | closed |
| C45 | outer_facets_have_condition | GenMeshBoundary | closed |
| C45 | boundary_condition_unique | GenMeshBoundary | closed |
| C45 | config_bc_first | GenMeshBoundary | closed |
| C45 | constructor_planes | GenMeshBoundary | closed |
| C46 | equidistant_nodes_enumerate | EquidistantProps | ClassicalDedekindReals.sig_forall_dec, FunctionalExtensionality.functional_extensionality_dep |
| C46 | equidistant_nodes_distinct | EquidistantProps | ClassicalDedekindReals.sig_forall_dec, FunctionalExtensionality.functional_extensionality_dep |
| C46 | equidistant_numbering | EquidistantProps | ClassicalDedekindReals.sig_forall_dec, FunctionalExtensionality.functional_extensionality_dep |
| C46 | node_permutation_correct | EquidistantProps | ClassicalDedekindReals.sig_forall_dec, ClassicalDedekindReals.sig_not_dec, FunctionalExtensionality.functional_extensionality_dep |
| C46 | num_nodes_to_degree_correct | EquidistantProps | closed |
| C46 | equidistant_degree0_refuted | EquidistantProps | ClassicalDedekindReals.sig_forall_dec, FunctionalExtensionality.functional_extensionality_dep |
| C47 | distributed_csr_correct | PartitionProps | closed |
| C47 | sorted_distribution_prefix_sums | DistributeProps | closed |
| C48 | assembly_complete | AssembleProps | closed |
| C48 | assembly_entries | AssembleProps | closed |
| C48 | assembly_within_allocation | AssembleProps | closed |
| C48 | rhs_complete | AssembleProps | closed |
| C49 | permute_faces_correct | LocalMeshProps | closed |
| C49 | permute_volume_tags_refuted | LocalMeshProps | closed |
| C50 | tandem_config_valid | SeasConfigProps | closed |
| C50 | config_final_time_exact | SeasConfigProps | closed |
| C50 | config_empty_mode_refuted | SeasConfigProps | closed |
| C50 | config_section_not_table_refuted | SeasConfigProps | closed |
| C50 | config_output_times_refuted | SeasConfigProps | closed |
| C50 | tandem_config_defaults | SeasConfigDefaults | closed |
| C51 | locate_affine | LocateProps | ClassicalDedekindReals.sig_forall_dec, ClassicalDedekindReals.sig_not_dec, FunctionalExtensionality.functional_extensionality_dep |
| C51 | x_inv_throws | LocateProps | ClassicalDedekindReals.sig_forall_dec, FunctionalExtensionality.functional_extensionality_dep |
| C51 | x_inv_stops_early | LocateProps | ClassicalDedekindReals.sig_forall_dec, FunctionalExtensionality.functional_extensionality_dep |
| C51 | locate_throws_refuted | LocateProps | ClassicalDedekindReals.sig_forall_dec, ClassicalDedekindReals.sig_not_dec, FunctionalExtensionality.functional_extensionality_dep |
| C51 | locate_inexact_refuted | LocateProps | ClassicalDedekindReals.sig_forall_dec, ClassicalDedekindReals.sig_not_dec, FunctionalExtensionality.functional_extensionality_dep |
| C52 | facet_located | FacetLocateProps | ClassicalDedekindReals.sig_forall_dec, ClassicalDedekindReals.sig_not_dec, FunctionalExtensionality.functional_extensionality_dep |
| C52 | foreign_facet_refuted | FacetLocateProps | ClassicalDedekindReals.sig_forall_dec, ClassicalDedekindReals.sig_not_dec, FunctionalExtensionality.functional_extensionality_dep |
| C53 | assembled_matrix_positive | CoerciveProps | ClassicalDedekindReals.sig_forall_dec, FunctionalExtensionality.functional_extensionality_dep |
| C53 | trace_inequality_linear | CoerciveProps | ClassicalDedekindReals.sig_forall_dec, FunctionalExtensionality.functional_extensionality_dep |
| C53 | small_penalty_refuted | CoerciveExamples | ClassicalDedekindReals.sig_forall_dec, FunctionalExtensionality.functional_extensionality_dep |
| C54 | fault_basis_correct | FaultProps | ClassicalDedekindReals.sig_forall_dec, ClassicalDedekindReals.sig_not_dec, FunctionalExtensionality.functional_extensionality_dep |
| C54 | fault_basis_defined | FaultProps | ClassicalDedekindReals.sig_forall_dec, ClassicalDedekindReals.sig_not_dec, FunctionalExtensionality.functional_extensionality_dep |
| C54 | almost_colinear_refuted | FaultProps | ClassicalDedekindReals.sig_forall_dec, ClassicalDedekindReals.sig_not_dec, FunctionalExtensionality.functional_extensionality_dep |
| C55 | elasticity_apply_matches_assembly | ElasticityProps | ClassicalDedekindReals.sig_forall_dec, ClassicalDedekindReals.sig_not_dec, FunctionalExtensionality.functional_extensionality_dep |
| C55 | elasticity_blocks_symmetric | ElasticityProps | ClassicalDedekindReals.sig_forall_dec, FunctionalExtensionality.functional_extensionality_dep |
| C55 | rigid_motions_in_kernel | ElasticityProps | ClassicalDedekindReals.sig_forall_dec, FunctionalExtensionality.functional_extensionality_dep |
| C55 | elasticity_residual_is_traction | ElasticityProps | ClassicalDedekindReals.sig_forall_dec, ClassicalDedekindReals.sig_not_dec, FunctionalExtensionality.functional_extensionality_dep |
| C55 | elasticity_residual_is_traction_boundary | ElasticityProps | ClassicalDedekindReals.sig_forall_dec, ClassicalDedekindReals.sig_not_dec, FunctionalExtensionality.functional_extensionality_dep |
| C55 | elasticity_traction_value | ElasticityProps | ClassicalDedekindReals.sig_forall_dec, FunctionalExtensionality.functional_extensionality_dep |
| C55 | elasticity_natural_interior_refuted | ElasticityExamples | ClassicalDedekindReals.sig_forall_dec, ClassicalDedekindReals.sig_not_dec, FunctionalExtensionality.functional_extensionality_dep |
| C55 | elasticity_untagged_boundary_refuted | ElasticityExamples | ClassicalDedekindReals.sig_forall_dec, ClassicalDedekindReals.sig_not_dec, FunctionalExtensionality.functional_extensionality_dep |
| C55 | elasticity_br2_apply_refuted | ElasticityExamples | ClassicalDedekindReals.sig_forall_dec, ClassicalDedekindReals.sig_not_dec, FunctionalExtensionality.functional_extensionality_dep |
| C56 | wave_rhs_correct | WaveProps | ClassicalDedekindReals.sig_forall_dec, ClassicalDedekindReals.sig_not_dec, FunctionalExtensionality.functional_extensionality_dep |
| C56 | inverse_mass_spd | WaveProps | ClassicalDedekindReals.sig_forall_dec, FunctionalExtensionality.functional_extensionality_dep |
| C56 | project_is_l2_projection | WaveProps | ClassicalDedekindReals.sig_forall_dec, FunctionalExtensionality.functional_extensionality_dep |
| C56 | project_reproduces | WaveProps | ClassicalDedekindReals.sig_forall_dec, FunctionalExtensionality.functional_extensionality_dep |
| C56 | wave_force_refuted | ElasticityExamples | ClassicalDedekindReals.sig_forall_dec, ClassicalDedekindReals.sig_not_dec, FunctionalExtensionality.functional_extensionality_dep |
| C56 | project_curved_refuted | ElasticityExamples | ClassicalDedekindReals.sig_forall_dec, FunctionalExtensionality.functional_extensionality_dep |
| C57 | elasticity_assembly_is_interior_penalty | ElasticFormProps | ClassicalDedekindReals.sig_forall_dec, FunctionalExtensionality.functional_extensionality_dep |
| C57 | elasticity_matrix_symmetric | ElasticFormProps | ClassicalDedekindReals.sig_forall_dec, FunctionalExtensionality.functional_extensionality_dep |
| C57 | elasticity_distributed_apply | ElasticFormProps | ClassicalDedekindReals.sig_forall_dec, ClassicalDedekindReals.sig_not_dec, FunctionalExtensionality.functional_extensionality_dep |
| C58 | elasticity_matrix_positive | ElasticCoerciveProps | ClassicalDedekindReals.sig_forall_dec, ClassicalDedekindReals.sig_not_dec, FunctionalExtensionality.functional_extensionality_dep |
| C58 | strain_trace_inequality_linear | ElasticCoerciveProps | ClassicalDedekindReals.sig_forall_dec, FunctionalExtensionality.functional_extensionality_dep |
| C58 | elastic_small_penalty_refuted | ElasticFormExamples | ClassicalDedekindReals.sig_forall_dec, FunctionalExtensionality.functional_extensionality_dep |
| C59 | time_step_bounds_form | ElasticCflProps | ClassicalDedekindReals.sig_forall_dec, ClassicalDedekindReals.sig_not_dec, FunctionalExtensionality.functional_extensionality_dep |
| C59 | time_step_bounds_frequency | ElasticCflProps | ClassicalDedekindReals.sig_forall_dec, ClassicalDedekindReals.sig_not_dec, FunctionalExtensionality.functional_extensionality_dep |
| C59 | vibration_frequency_bound | ElasticModeProps | ClassicalDedekindReals.sig_forall_dec, ClassicalDedekindReals.sig_not_dec, FunctionalExtensionality.functional_extensionality_dep |
| C59 | time_step_density_refuted | ElasticCflExamples | ClassicalDedekindReals.sig_forall_dec, ClassicalDedekindReals.sig_not_dec, FunctionalExtensionality.functional_extensionality_dep |
| C60 | local_meshes_fit_together | PipelineProps | closed |
| C61 | assembly_of_mesh_read | PipelineAssembleProps | closed |
| C61 | assembly_independent_of_partition | PipelineAssembleProps | closed |
| C62 | facet_normal_is_outward | GeometryProps | ClassicalDedekindReals.sig_forall_dec, ClassicalDedekindReals.sig_not_dec, FunctionalExtensionality.functional_extensionality_dep |
| C62 | element_surface_closed | GeometryProps | ClassicalDedekindReals.sig_forall_dec, FunctionalExtensionality.functional_extensionality_dep |
| C62 | shared_facets_coincide | GeometryProps | ClassicalDedekindReals.sig_forall_dec, FunctionalExtensionality.functional_extensionality_dep |
| C62 | shared_normals_opposite | GeometryProps | ClassicalDedekindReals.sig_forall_dec, ClassicalDedekindReals.sig_not_dec, FunctionalExtensionality.functional_extensionality_dep |
| C62 | geometry_of_problem | GeometryProps | ClassicalDedekindReals.sig_forall_dec, ClassicalDedekindReals.sig_not_dec, FunctionalExtensionality.functional_extensionality_dep |
| C62 | rank_geometry_is_problem | GeometryProps | ClassicalDedekindReals.sig_forall_dec, ClassicalDedekindReals.sig_not_dec, FunctionalExtensionality.functional_extensionality_dep |
| C62 | straight_elements | GeometryStraight | ClassicalDedekindReals.sig_forall_dec, FunctionalExtensionality.functional_extensionality_dep |
| C62 | straight_mesh_valid | GeometryStraight | ClassicalDedekindReals.sig_forall_dec, FunctionalExtensionality.functional_extensionality_dep |
| C62 | stored_area | GeometryArea | ClassicalDedekindReals.sig_forall_dec, ClassicalDedekindReals.sig_not_dec, FunctionalExtensionality.functional_extensionality_dep |
| C62 | penalty_area_and_volume | GeometryArea | ClassicalDedekindReals.sig_forall_dec, ClassicalDedekindReals.sig_not_dec, FunctionalExtensionality.functional_extensionality_dep |
| C63 | mesh_gives_interior_penalty | MeshPoissonProps | ClassicalDedekindReals.sig_forall_dec, ClassicalDedekindReals.sig_not_dec, FunctionalExtensionality.functional_extensionality_dep |
| C63 | straight_mesh_matrix_positive | MeshPoissonProps | ClassicalDedekindReals.sig_forall_dec, ClassicalDedekindReals.sig_not_dec, FunctionalExtensionality.functional_extensionality_dep |
| C64 | mesh_gives_elastic_interior_penalty | MeshElasticProps | ClassicalDedekindReals.sig_forall_dec, ClassicalDedekindReals.sig_not_dec, FunctionalExtensionality.functional_extensionality_dep |
| C64 | straight_mesh_elastic_stable | MeshWaveProps | ClassicalDedekindReals.sig_forall_dec, ClassicalDedekindReals.sig_not_dec, FunctionalExtensionality.functional_extensionality_dep |
| C64 | grad_constant_table | GradTableProps | ClassicalDedekindReals.sig_forall_dec, FunctionalExtensionality.functional_extensionality_dep |
| C65 | jacobi_polynomial_and_derivative | BasisProps | ClassicalDedekindReals.sig_forall_dec, FunctionalExtensionality.functional_extensionality_dep |
| C65 | singularity_free_jacobi | BasisProps | ClassicalDedekindReals.sig_forall_dec, FunctionalExtensionality.functional_extensionality_dep |
| C65 | dubiner_basis | BasisProps | ClassicalDedekindReals.sig_forall_dec, FunctionalExtensionality.functional_extensionality_dep |
| C65 | dubiner_gradient | BasisProps | ClassicalDedekindReals.sig_forall_dec, FunctionalExtensionality.functional_extensionality_dep |
| C65 | dubiner_gradient_interval | BasisProps | ClassicalDedekindReals.sig_forall_dec, FunctionalExtensionality.functional_extensionality_dep |
| C65 | dubiner_gradient_interval_refuted | BasisProps | ClassicalDedekindReals.sig_forall_dec, FunctionalExtensionality.functional_extensionality_dep |
| C65 | dubiner_constant | BasisProps | ClassicalDedekindReals.sig_forall_dec, FunctionalExtensionality.functional_extensionality_dep |
| C66 | gauss_jacobi_exact | QuadratureProps | ClassicalDedekindReals.sig_forall_dec, FunctionalExtensionality.functional_extensionality_dep |
| C66 | change_interval_exact | QuadratureProps | ClassicalDedekindReals.sig_forall_dec, FunctionalExtensionality.functional_extensionality_dep |
| C66 | tensor_product_rule_exact | QuadratureProps | ClassicalDedekindReals.sig_forall_dec, ClassicalDedekindReals.sig_not_dec, Classical_Prop.classic, FunctionalExtensionality.functional_extensionality_dep |
| C66 | simplex_quadrature_rule_exact | QuadratureProps | ClassicalDedekindReals.sig_forall_dec, ClassicalDedekindReals.sig_not_dec, Classical_Prop.classic, FunctionalExtensionality.functional_extensionality_dep |
| C66 | jacobi_roots_exist | RootsProps | ClassicalDedekindReals.sig_forall_dec, ClassicalDedekindReals.sig_not_dec, FunctionalExtensionality.functional_extensionality_dep |
| C66 | gauss_jacobi_inside | RootsProps | ClassicalDedekindReals.sig_forall_dec, ClassicalDedekindReals.sig_not_dec, FunctionalExtensionality.functional_extensionality_dep |
| C66 | tensor_product_rule_inside | RootsProps | ClassicalDedekindReals.sig_forall_dec, ClassicalDedekindReals.sig_not_dec, FunctionalExtensionality.functional_extensionality_dep |
| C66 | simplex_integral_unique | RootsProps | ClassicalDedekindReals.sig_forall_dec, ClassicalDedekindReals.sig_not_dec, Classical_Prop.classic, FunctionalExtensionality.functional_extensionality_dep |
| C67 | modal_ref_element | RefElementProps | ClassicalDedekindReals.sig_forall_dec, ClassicalDedekindReals.sig_not_dec, Classical_Prop.classic, FunctionalExtensionality.functional_extensionality_dep |
| C67 | modal_mass_matrix | RefElementProps | ClassicalDedekindReals.sig_forall_dec, ClassicalDedekindReals.sig_not_dec, Classical_Prop.classic, FunctionalExtensionality.functional_extensionality_dep |
| C67 | nodal_basis_exists_unique | RefElementProps | ClassicalDedekindReals.sig_forall_dec, ClassicalDedekindReals.sig_not_dec, Classical_Prop.classic, FunctionalExtensionality.functional_extensionality_dep |
| C67 | nodal_ref_element | RefElementProps | ClassicalDedekindReals.sig_forall_dec, ClassicalDedekindReals.sig_not_dec, Classical_Prop.classic, FunctionalExtensionality.functional_extensionality_dep |
| C67 | nodal_mass_matrix | RefElementProps | ClassicalDedekindReals.sig_forall_dec, ClassicalDedekindReals.sig_not_dec, Classical_Prop.classic, FunctionalExtensionality.functional_extensionality_dep |
| C67 | equidistant_unisolvent | UnisolventProps | ClassicalDedekindReals.sig_forall_dec, ClassicalDedekindReals.sig_not_dec, Classical_Prop.classic, FunctionalExtensionality.functional_extensionality_dep |
| C67 | interval_unisolvent | UnisolventProps | ClassicalDedekindReals.sig_forall_dec, ClassicalDedekindReals.sig_not_dec, Classical_Prop.classic, FunctionalExtensionality.functional_extensionality_dep |
| C67 | gauss_inverse_exact | UnisolventProps | ClassicalDedekindReals.sig_forall_dec, FunctionalExtensionality.functional_extensionality_dep |
| C68 | multiindices_nested | InterpolationProps | closed |
| C68 | nodal_prolongation | InterpolationProps | ClassicalDedekindReals.sig_forall_dec, ClassicalDedekindReals.sig_not_dec, Classical_Prop.classic, FunctionalExtensionality.functional_extensionality_dep |
| C68 | modal_prolongation | InterpolationProps | ClassicalDedekindReals.sig_forall_dec, FunctionalExtensionality.functional_extensionality_dep |
| C68 | coarse_operators | InterpolationProps | ClassicalDedekindReals.sig_forall_dec, FunctionalExtensionality.functional_extensionality_dep |
| C68 | coarse_operators_inherit | InterpolationProps | ClassicalDedekindReals.sig_forall_dec, Classical_Prop.classic, FunctionalExtensionality.functional_extensionality_dep |
| C68 | nodal_multigrid | InterpolationProps | ClassicalDedekindReals.sig_forall_dec, ClassicalDedekindReals.sig_not_dec, Classical_Prop.classic, FunctionalExtensionality.functional_extensionality_dep |
| C68 | interpolation_refused | InterpolationProps | closed |
| C69 | fe_map_values | ErrorProps | ClassicalDedekindReals.sig_forall_dec, FunctionalExtensionality.functional_extensionality_dep |
| C69 | fe_gradient_values | ErrorProps | ClassicalDedekindReals.sig_forall_dec, FunctionalExtensionality.functional_extensionality_dep |
| C69 | l2_error | ErrorNormProps | ClassicalDedekindReals.sig_forall_dec, ClassicalDedekindReals.sig_not_dec, FunctionalExtensionality.functional_extensionality_dep |
| C69 | h1_error | ErrorNormProps | ClassicalDedekindReals.sig_forall_dec, ClassicalDedekindReals.sig_not_dec, FunctionalExtensionality.functional_extensionality_dep |
| C69 | l2_error_exact | ErrorExactProps | ClassicalDedekindReals.sig_forall_dec, ClassicalDedekindReals.sig_not_dec, Classical_Prop.classic, FunctionalExtensionality.functional_extensionality_dep |
| C69 | h1_error_refuted | ErrorExactProps | ClassicalDedekindReals.sig_forall_dec, ClassicalDedekindReals.sig_not_dec, Classical_Prop.classic, FunctionalExtensionality.functional_extensionality_dep |
| C69 | l2_facets_error | ErrorExactProps | ClassicalDedekindReals.sig_forall_dec, ClassicalDedekindReals.sig_not_dec, FunctionalExtensionality.functional_extensionality_dep |
| C69 | nodal_represents | ErrorProps | ClassicalDedekindReals.sig_forall_dec, ClassicalDedekindReals.sig_not_dec, Classical_Prop.classic, FunctionalExtensionality.functional_extensionality_dep |
| C69 | modal_represents | ErrorProps | ClassicalDedekindReals.sig_forall_dec, ClassicalDedekindReals.sig_not_dec, Classical_Prop.classic, FunctionalExtensionality.functional_extensionality_dep |
| C70 | lobatto_points | NodesProps | ClassicalDedekindReals.sig_forall_dec, ClassicalDedekindReals.sig_not_dec, FunctionalExtensionality.functional_extensionality_dep |
| C70 | interval_nodes | NodesProps | ClassicalDedekindReals.sig_forall_dec, ClassicalDedekindReals.sig_not_dec, Classical_Prop.classic, FunctionalExtensionality.functional_extensionality_dep |
| C70 | triangle_edge_nodes | NodesProps | ClassicalDedekindReals.sig_forall_dec, ClassicalDedekindReals.sig_not_dec, Classical_Prop.classic, FunctionalExtensionality.functional_extensionality_dep |
| C70 | tetrahedron_face_nodes | NodesProps | ClassicalDedekindReals.sig_forall_dec, ClassicalDedekindReals.sig_not_dec, FunctionalExtensionality.functional_extensionality_dep |
| C70 | facet_nodes_conform | NodesMeshProps | ClassicalDedekindReals.sig_forall_dec, ClassicalDedekindReals.sig_not_dec, Classical_Prop.classic, FunctionalExtensionality.functional_extensionality_dep |
| C70 | warp_and_blend_conform | NodesMeshProps | ClassicalDedekindReals.sig_forall_dec, ClassicalDedekindReals.sig_not_dec, Classical_Prop.classic, FunctionalExtensionality.functional_extensionality_dep |
| C70 | equidistant_conform | NodesMeshProps | ClassicalDedekindReals.sig_forall_dec, ClassicalDedekindReals.sig_not_dec, Classical_Prop.classic, FunctionalExtensionality.functional_extensionality_dep |
| C70 | triangle_nodes_symmetric | NodesSymmetryProps | ClassicalDedekindReals.sig_forall_dec, ClassicalDedekindReals.sig_not_dec, Classical_Prop.classic, FunctionalExtensionality.functional_extensionality_dep |
| C70 | low_degree_nodes | NodesSymmetryProps | ClassicalDedekindReals.sig_forall_dec, ClassicalDedekindReals.sig_not_dec, Classical_Prop.classic, FunctionalExtensionality.functional_extensionality_dep |
| C70 | blending_parameter | NodesAlpha | ClassicalDedekindReals.sig_forall_dec, FunctionalExtensionality.functional_extensionality_dep |
| C71 | lspoly_report | LsPolyProps | ClassicalDedekindReals.sig_forall_dec, ClassicalDedekindReals.sig_not_dec, FunctionalExtensionality.functional_extensionality_dep |
| C71 | lspoly_polynomial | LsPolyProps | ClassicalDedekindReals.sig_forall_dec, ClassicalDedekindReals.sig_not_dec, FunctionalExtensionality.functional_extensionality_dep |
| C71 | lspoly_best_polynomial | LsPolyProps | ClassicalDedekindReals.sig_forall_dec, ClassicalDedekindReals.sig_not_dec, Classical_Prop.classic, FunctionalExtensionality.functional_extensionality_dep |
| C71 | lspoly_damps_error | LsPolyProps | ClassicalDedekindReals.sig_forall_dec, ClassicalDedekindReals.sig_not_dec, Classical_Prop.classic, FunctionalExtensionality.functional_extensionality_dep |
| C71 | lspoly_preconditioner | LsPolyProps | ClassicalDedekindReals.sig_forall_dec, ClassicalDedekindReals.sig_not_dec, Classical_Prop.classic, FunctionalExtensionality.functional_extensionality_dep |
| C71 | lspoly_bound | LsPolyProps | ClassicalDedekindReals.sig_forall_dec, FunctionalExtensionality.functional_extensionality_dep |
| C71 | lspoly_small_bound_refuted | LsPolyProps | ClassicalDedekindReals.sig_forall_dec, ClassicalDedekindReals.sig_not_dec, FunctionalExtensionality.functional_extensionality_dep |
| C71 | lspoly_large_alpha_refuted | LsPolyProps | ClassicalDedekindReals.sig_forall_dec, ClassicalDedekindReals.sig_not_dec, FunctionalExtensionality.functional_extensionality_dep |
| C72 | gram_schmidt | EigDeflateProps | ClassicalDedekindReals.sig_forall_dec, ClassicalDedekindReals.sig_not_dec, FunctionalExtensionality.functional_extensionality_dep |
| C72 | projected_symmetric | EigDeflateProps | ClassicalDedekindReals.sig_forall_dec, FunctionalExtensionality.functional_extensionality_dep |
| C72 | rand_eigs_min | EigDeflateProps | ClassicalDedekindReals.sig_forall_dec, ClassicalDedekindReals.sig_not_dec, Classical_Prop.classic, FunctionalExtensionality.functional_extensionality_dep |
| C72 | rand_eigs_min_exact | EigDeflateProps | ClassicalDedekindReals.sig_forall_dec, ClassicalDedekindReals.sig_not_dec, Classical_Prop.classic, FunctionalExtensionality.functional_extensionality_dep |
| C72 | rand_eigs_max | EigDeflateProps | ClassicalDedekindReals.sig_forall_dec, ClassicalDedekindReals.sig_not_dec, FunctionalExtensionality.functional_extensionality_dep |
| C72 | pc_apply_formula | EigDeflateProps | ClassicalDedekindReals.sig_forall_dec, FunctionalExtensionality.functional_extensionality_dep |
| C72 | pc_apply_smoothed | EigDeflateProps | ClassicalDedekindReals.sig_forall_dec, FunctionalExtensionality.functional_extensionality_dep |
| C72 | pc_apply_partition | EigDeflateProps | ClassicalDedekindReals.sig_forall_dec, FunctionalExtensionality.functional_extensionality_dep |
| C72 | pc_apply_symmetric | EigDeflateProps | ClassicalDedekindReals.sig_forall_dec, FunctionalExtensionality.functional_extensionality_dep |
| C72 | pc_apply_deflates | EigDeflateProps | ClassicalDedekindReals.sig_forall_dec, FunctionalExtensionality.functional_extensionality_dep |
| C72 | pc_setup_succeeds | EigDeflateProps | ClassicalDedekindReals.sig_forall_dec, ClassicalDedekindReals.sig_not_dec, FunctionalExtensionality.functional_extensionality_dep |
| C72 | pc_setup_relaxation | EigDeflateProps | ClassicalDedekindReals.sig_forall_dec, ClassicalDedekindReals.sig_not_dec, FunctionalExtensionality.functional_extensionality_dep |
| C72 | pc_presmoothing_lost_refuted | EigDeflateProps | ClassicalDedekindReals.sig_forall_dec, FunctionalExtensionality.functional_extensionality_dep |
| C72 | pc_transpose_refuted | EigDeflateProps | ClassicalDedekindReals.sig_forall_dec, FunctionalExtensionality.functional_extensionality_dep |
| C72 | pc_reset_refuted | EigDeflateProps | closed |
| C73 | fault_rhs_nodes | FaultOdeProps | ClassicalDedekindReals.sig_forall_dec, ClassicalDedekindReals.sig_not_dec, Classical_Prop.classic, FunctionalExtensionality.functional_extensionality_dep |
| C73 | fault_rhs_obeys_friction | FaultOdeProps | ClassicalDedekindReals.sig_forall_dec, ClassicalDedekindReals.sig_not_dec, Classical_Prop.classic, FunctionalExtensionality.functional_extensionality_dep |
| C73 | fault_rhs_no_solution | FaultOdeProps | ClassicalDedekindReals.sig_forall_dec, ClassicalDedekindReals.sig_not_dec, Classical_Prop.classic, FunctionalExtensionality.functional_extensionality_dep |
| C73 | fault_init_state | FaultOdeProps | ClassicalDedekindReals.sig_forall_dec, ClassicalDedekindReals.sig_not_dec, Classical_Prop.classic, FunctionalExtensionality.functional_extensionality_dep |
| C73 | fault_rhs_finishes | FaultOdeProps | ClassicalDedekindReals.sig_forall_dec, ClassicalDedekindReals.sig_not_dec, Classical_Prop.classic, FunctionalExtensionality.functional_extensionality_dep |
| C73 | fault_output_2d | FaultOdeProps | ClassicalDedekindReals.sig_forall_dec, ClassicalDedekindReals.sig_not_dec, Classical_Prop.classic, FunctionalExtensionality.functional_extensionality_dep |
| C73 | fault_output_3d | FaultOdeProps | ClassicalDedekindReals.sig_forall_dec, ClassicalDedekindReals.sig_not_dec, Classical_Prop.classic, FunctionalExtensionality.functional_extensionality_dep |
| C73 | fault_output_rows | FaultOdeProps | ClassicalDedekindReals.sig_forall_dec, ClassicalDedekindReals.sig_not_dec, Classical_Prop.classic, FunctionalExtensionality.functional_extensionality_dep |
| C73 | fault_params_output | FaultOdeProps | ClassicalDedekindReals.sig_forall_dec |
| C73 | fault_rhs_nan_refuted | FaultOdeProps | ClassicalDedekindReals.sig_forall_dec, ClassicalDedekindReals.sig_not_dec, Classical_Prop.classic, FunctionalExtensionality.functional_extensionality_dep |
| C74 | moment_rates_elasticity | FaultMomentProps | ClassicalDedekindReals.sig_forall_dec, FunctionalExtensionality.functional_extensionality_dep |
| C74 | moment_rate_uniform | FaultMomentProps | ClassicalDedekindReals.sig_forall_dec, FunctionalExtensionality.functional_extensionality_dep |
| C74 | moment_rates_poisson | FaultMomentProps | ClassicalDedekindReals.sig_forall_dec, FunctionalExtensionality.functional_extensionality_dep |
| C74 | fault_moment_of_rhs | FaultOdeExamples | ClassicalDedekindReals.sig_forall_dec, ClassicalDedekindReals.sig_not_dec, Classical_Prop.classic, FunctionalExtensionality.functional_extensionality_dep |
| C74 | moment_rates_integrals | FaultMomentProps | ClassicalDedekindReals.sig_forall_dec, FunctionalExtensionality.functional_extensionality_dep |
| C74 | moment_rate_boundary_refuted | FaultMomentProps | ClassicalDedekindReals.sig_forall_dec, FunctionalExtensionality.functional_extensionality_dep |
| C74 | poisson_moment_rate_refuted | FaultOdeExamples | ClassicalDedekindReals.sig_forall_dec, FunctionalExtensionality.functional_extensionality_dep |
| C74 | poisson_moment_rate_overrun_refuted | FaultOdeExamples | ClassicalDedekindReals.sig_forall_dec, FunctionalExtensionality.functional_extensionality_dep |
| C75 | inverse_trace_inequality | TraceProps | ClassicalDedekindReals.sig_forall_dec, ClassicalDedekindReals.sig_not_dec, Classical_Prop.classic, FunctionalExtensionality.functional_extensionality_dep |
| C75 | trace_constant_optimal | TraceProps | ClassicalDedekindReals.sig_forall_dec, ClassicalDedekindReals.sig_not_dec, FunctionalExtensionality.functional_extensionality_dep |
| C76 | straight_mesh_positive_every_degree | DegreeProps | ClassicalDedekindReals.sig_forall_dec, ClassicalDedekindReals.sig_not_dec, Classical_Prop.classic, FunctionalExtensionality.functional_extensionality_dep |
| C76 | straight_mesh_elastic_every_degree | DegreeProps | ClassicalDedekindReals.sig_forall_dec, ClassicalDedekindReals.sig_not_dec, Classical_Prop.classic, FunctionalExtensionality.functional_extensionality_dep |
| C76 | poisson_reference_of_degree | OperatorRefProps | ClassicalDedekindReals.sig_forall_dec, ClassicalDedekindReals.sig_not_dec, Classical_Prop.classic, FunctionalExtensionality.functional_extensionality_dep |
| C76 | elastic_reference_of_degree | OperatorRefProps | ClassicalDedekindReals.sig_forall_dec, ClassicalDedekindReals.sig_not_dec, Classical_Prop.classic, FunctionalExtensionality.functional_extensionality_dep |
| C76 | poisson_operator_positive | OperatorRefProps | ClassicalDedekindReals.sig_forall_dec, ClassicalDedekindReals.sig_not_dec, Classical_Prop.classic, FunctionalExtensionality.functional_extensionality_dep |
| C76 | elastic_operator_positive | OperatorRefProps | ClassicalDedekindReals.sig_forall_dec, ClassicalDedekindReals.sig_not_dec, Classical_Prop.classic, FunctionalExtensionality.functional_extensionality_dep |
| C76 | nodal_sign_refuted | OperatorRefExamples | ClassicalDedekindReals.sig_forall_dec, ClassicalDedekindReals.sig_not_dec, Classical_Prop.classic, FunctionalExtensionality.functional_extensionality_dep |
| C77 | directories_created | CheckpointPathProps | closed |
| C77 | directories_frame | CheckpointPathProps | closed |
| C77 | refused_directory_aborts | CheckpointPathProps | closed |
| C77 | checkpoint_directory | CheckpointPathProps | closed |
| C77 | checkpoint_directories_distinct | CheckpointPathProps | closed |
| C77 | checkpoint_files | CheckpointPathProps | closed |
| C77 | checkpoint_directories_ready | CheckpointPathProps | closed |
| C77 | refused_parent_refuted | CheckpointPathProps | closed |
| C77 | old_error_aborts_refuted | CheckpointPathProps | closed |
| C77 | file_in_place_refuted | CheckpointPathProps | closed |
| C77 | pointer_without_prefix_refuted | CheckpointPathProps | closed |
| C78 | vtu_shows_field | VtuFieldProps | ClassicalDedekindReals.sig_forall_dec, FunctionalExtensionality.functional_extensionality_dep |
| C78 | vtu_shows_derivatives | VtuFieldProps | ClassicalDedekindReals.sig_forall_dec, FunctionalExtensionality.functional_extensionality_dep |
| C78 | vtu_shows_facets | VtuFieldProps | ClassicalDedekindReals.sig_forall_dec, FunctionalExtensionality.functional_extensionality_dep |
| C78 | cells_are_the_elements | VtuFieldProps | closed |
| C78 | derivatives_of_a_range_refuted | VtuFieldExamples | ClassicalDedekindReals.sig_forall_dec, ClassicalDedekindReals.sig_not_dec, Classical_Prop.classic, FunctionalExtensionality.functional_extensionality_dep |
| C79 | polynomial_solutions_are_discrete_solutions | ConsistencyProps | ClassicalDedekindReals.sig_forall_dec, ClassicalDedekindReals.sig_not_dec, Classical_Prop.classic, FunctionalExtensionality.functional_extensionality_dep |
| C79 | poisson_operator_reproduces_polynomials | ConsistencyProps | ClassicalDedekindReals.sig_forall_dec, ClassicalDedekindReals.sig_not_dec, Classical_Prop.classic, FunctionalExtensionality.functional_extensionality_dep |
| C79 | form_consistent | ConsistencyProps | ClassicalDedekindReals.sig_forall_dec, ClassicalDedekindReals.sig_not_dec, Classical_Prop.classic, FunctionalExtensionality.functional_extensionality_dep |
| C79 | reference_divergence | DivergenceProofs | ClassicalDedekindReals.sig_forall_dec, ClassicalDedekindReals.sig_not_dec, Classical_Prop.classic, FunctionalExtensionality.functional_extensionality_dep |
| C80 | polynomial_equilibria_are_discrete_solutions | ElasticConsistencyProps | ClassicalDedekindReals.sig_forall_dec, ClassicalDedekindReals.sig_not_dec, Classical_Prop.classic, FunctionalExtensionality.functional_extensionality_dep |
| C80 | elastic_operator_reproduces_polynomials | ElasticConsistencyProps | ClassicalDedekindReals.sig_forall_dec, ClassicalDedekindReals.sig_not_dec, Classical_Prop.classic, FunctionalExtensionality.functional_extensionality_dep |
| C80 | elastic_form_consistent | ElasticConsistencyProps | ClassicalDedekindReals.sig_forall_dec, ClassicalDedekindReals.sig_not_dec, Classical_Prop.classic, FunctionalExtensionality.functional_extensionality_dep |
| C81 | anchored_mesh_positive_definite | DefiniteProps | ClassicalDedekindReals.sig_forall_dec, ClassicalDedekindReals.sig_not_dec, Classical_Prop.classic, FunctionalExtensionality.functional_extensionality_dep |
| C81 | exactly_one_discrete_solution | DefiniteProps | ClassicalDedekindReals.sig_forall_dec, ClassicalDedekindReals.sig_not_dec, Classical_Prop.classic, FunctionalExtensionality.functional_extensionality_dep |
| C81 | poisson_operator_exact | DefiniteProps | ClassicalDedekindReals.sig_forall_dec, ClassicalDedekindReals.sig_not_dec, Classical_Prop.classic, FunctionalExtensionality.functional_extensionality_dep |
| C81 | floating_elements_singular | DefiniteProps | ClassicalDedekindReals.sig_forall_dec, ClassicalDedekindReals.sig_not_dec, Classical_Prop.classic, FunctionalExtensionality.functional_extensionality_dep |
| C82 | anchored_mesh_elastic_positive_definite | ElasticDefiniteProps | ClassicalDedekindReals.sig_forall_dec, ClassicalDedekindReals.sig_not_dec, Classical_Prop.classic, FunctionalExtensionality.functional_extensionality_dep |
| C82 | exactly_one_discrete_displacement | ElasticDefiniteProps | ClassicalDedekindReals.sig_forall_dec, ClassicalDedekindReals.sig_not_dec, Classical_Prop.classic, FunctionalExtensionality.functional_extensionality_dep |
| C82 | elastic_operator_exact | ElasticDefiniteProps | ClassicalDedekindReals.sig_forall_dec, ClassicalDedekindReals.sig_not_dec, Classical_Prop.classic, FunctionalExtensionality.functional_extensionality_dep |
| C82 | floating_bodies_singular | ElasticDefiniteProps | ClassicalDedekindReals.sig_forall_dec, ClassicalDedekindReals.sig_not_dec, Classical_Prop.classic, FunctionalExtensionality.functional_extensionality_dep |
| C83 | qd_calls_succeed | SeasOpProps | ClassicalDedekindReals.sig_forall_dec |
| C83 | fd_calls_succeed | SeasOpProps | ClassicalDedekindReals.sig_forall_dec |
| C83 | qd_rhs_is_the_state_rate | SeasOpProps | ClassicalDedekindReals.sig_forall_dec |
| C83 | qd_initial_condition_is_initial | SeasOpProps | ClassicalDedekindReals.sig_forall_dec |
| C83 | qd_update_brings_up_to_date | SeasOpProps | ClassicalDedekindReals.sig_forall_dec |
| C83 | qd_rhs_independent_of_distribution_and_history | SeasOpProps | ClassicalDedekindReals.sig_forall_dec |
| C83 | fd_rhs_is_the_rate | SeasOpProps | ClassicalDedekindReals.sig_forall_dec |
| C83 | fd_rhs_independent_of_distribution_and_history | SeasOpProps | ClassicalDedekindReals.sig_forall_dec |
| C83 | fd_initial_condition_is_initial | SeasOpProps | ClassicalDedekindReals.sig_forall_dec |
| C83 | fd_rhs_without_wave_equation_refuted | SeasOpProps | closed |
| C83 | fd_initial_condition_on_two_ranks_refuted | SeasOpExamples | ClassicalDedekindReals.sig_forall_dec, FunctionalExtensionality.functional_extensionality_dep |
| C83 | fd_boundary_output_is_stale_refuted | SeasOpExamples | ClassicalDedekindReals.sig_forall_dec, FunctionalExtensionality.functional_extensionality_dep |
| C83 | fd_poisson_velocity_rate_refuted | SeasOpExamples | ClassicalDedekindReals.sig_forall_dec, FunctionalExtensionality.functional_extensionality_dep |
| C84 | equilibrium_energy_balance | ElasticEnergyProps | ClassicalDedekindReals.sig_forall_dec, FunctionalExtensionality.functional_extensionality_dep |
| C84 | reported_traction_is_facet_force | ElasticEnergyProps | ClassicalDedekindReals.sig_forall_dec, ClassicalDedekindReals.sig_not_dec, FunctionalExtensionality.functional_extensionality_dep |
| C84 | wave_energy_balance | ElasticEnergyWave | ClassicalDedekindReals.sig_forall_dec, ClassicalDedekindReals.sig_not_dec, FunctionalExtensionality.functional_extensionality_dep |
| C84 | wave_energy_conserved | ElasticEnergyWave | ClassicalDedekindReals.sig_forall_dec, ClassicalDedekindReals.sig_not_dec, Classical_Prop.classic, FunctionalExtensionality.functional_extensionality_dep |
| C84 | wave_energy_bounds_motion | ElasticEnergyWave | ClassicalDedekindReals.sig_forall_dec, ClassicalDedekindReals.sig_not_dec, Classical_Prop.classic, FunctionalExtensionality.functional_extensionality_dep |
| C85 | triangle_rules_accurate | QuadTableProps | ClassicalDedekindReals.sig_forall_dec, ClassicalDedekindReals.sig_not_dec, Classical_Prop.classic, FunctionalExtensionality.functional_extensionality_dep, PrimInt63.add, PrimInt63.div, PrimInt63.diveucl_21, PrimInt63.eqb, PrimInt63.int, PrimInt63.land, PrimInt63.leb, PrimInt63.lsr, PrimInt63.ltb, PrimInt63.mul, PrimInt63.mulc, PrimInt63.sub, Uint63.add_spec, Uint63.div_spec, Uint63.diveucl_21_spec, Uint63.eqb_correct, Uint63.leb_spec, Uint63.ltb_spec, Uint63.mul_spec, Uint63.mulc_spec, Uint63.sub_spec |
| C85 | tetrahedron_rules_accurate | QuadTableProps | ClassicalDedekindReals.sig_forall_dec, ClassicalDedekindReals.sig_not_dec, Classical_Prop.classic, FunctionalExtensionality.functional_extensionality_dep, PrimInt63.add, PrimInt63.div, PrimInt63.diveucl_21, PrimInt63.eqb, PrimInt63.int, PrimInt63.land, PrimInt63.leb, PrimInt63.lsr, PrimInt63.ltb, PrimInt63.mul, PrimInt63.mulc, PrimInt63.sub, Uint63.add_spec, Uint63.div_spec, Uint63.diveucl_21_spec, Uint63.eqb_correct, Uint63.leb_spec, Uint63.ltb_spec, Uint63.mul_spec, Uint63.mulc_spec, Uint63.sub_spec |
| C85 | high_order_tetrahedron_rules_accurate | QuadTableProps | ClassicalDedekindReals.sig_forall_dec, ClassicalDedekindReals.sig_not_dec, Classical_Prop.classic, FunctionalExtensionality.functional_extensionality_dep, PrimInt63.add, PrimInt63.div, PrimInt63.diveucl_21, PrimInt63.eqb, PrimInt63.int, PrimInt63.land, PrimInt63.leb, PrimInt63.lsr, PrimInt63.ltb, PrimInt63.mul, PrimInt63.mulc, PrimInt63.sub, Uint63.add_spec, Uint63.div_spec, Uint63.diveucl_21_spec, Uint63.eqb_correct, Uint63.leb_spec, Uint63.ltb_spec, Uint63.mul_spec, Uint63.mulc_spec, Uint63.sub_spec |
| C85 | tables_well_formed | QuadTableProps | PrimInt63.int |
| C85 | simplex_quadrature_rule_accurate | QuadTableProps | ClassicalDedekindReals.sig_forall_dec, ClassicalDedekindReals.sig_not_dec, Classical_Prop.classic, FunctionalExtensionality.functional_extensionality_dep, PrimInt63.add, PrimInt63.div, PrimInt63.diveucl_21, PrimInt63.eqb, PrimInt63.int, PrimInt63.land, PrimInt63.leb, PrimInt63.lsr, PrimInt63.ltb, PrimInt63.mul, PrimInt63.mulc, PrimInt63.sub, Uint63.add_spec, Uint63.div_spec, Uint63.diveucl_21_spec, Uint63.eqb_correct, Uint63.leb_spec, Uint63.ltb_spec, Uint63.mul_spec, Uint63.mulc_spec, Uint63.sub_spec |
| C85 | triangle_rules_exact_refuted | QuadTableProps | ClassicalDedekindReals.sig_forall_dec, ClassicalDedekindReals.sig_not_dec, Classical_Prop.classic, FunctionalExtensionality.functional_extensionality_dep, PrimInt63.eqb, PrimInt63.int, PrimInt63.land, PrimInt63.lsr |
| C86 | script_answers_exact | ScriptProps | closed |
| C86 | script_errors_reported | ScriptProps | closed |
| C86 | untagged_errors_reported | ScriptProps | closed |
| C86 | script_history_sound | ScriptProps | closed |
| C86 | tandem_requests_fit | ScriptProps | closed |
| C86 | pure_script_history_free | ScriptProps | closed |
| C86 | seas_scenario_follows_script | ScriptProps | closed |
| C86 | elasticity_materials_follow_script | ScriptProps | closed |
| C86 | time_is_last_argument | ScriptProps | closed |
| C86 | friction_scenario_follows_script | ScriptProps | closed |
| C86 | friction_params_follow_script | ScriptProps | closed |
| C86 | static_scenario_follows_script | ScriptProps | closed |
| C86 | new_library_ready | ScriptProps | closed |
| C86 | load_runs_text | ScriptProps | closed |
| C86 | caught_errors_exhaust_stack_refuted | ScriptProps | closed |
| C86 | every_error_reported_refuted | ScriptProps | closed |
| C86 | failed_script_stops_run_refuted | ScriptProps | closed |
| C86 | default_lam_agrees_refuted | ScriptProps | closed |
| C87 | fault_geometry_written | FaultFileProps | ClassicalDedekindReals.sig_forall_dec, FunctionalExtensionality.functional_extensionality_dep |
| C87 | moment_rate_rows | FaultFileProps | ClassicalDedekindReals.sig_forall_dec, FunctionalExtensionality.functional_extensionality_dep |
| C87 | fault_number_refuted | FaultFileProps | closed |
| C87 | fault_geometry_restart_refuted | FaultFileProps | ClassicalDedekindReals.sig_forall_dec, FunctionalExtensionality.functional_extensionality_dep |
| C88 | assembly_is_br2 | Br2Props | ClassicalDedekindReals.sig_forall_dec, FunctionalExtensionality.functional_extensionality_dep |
| C88 | br2_matrix_positive | Br2Props | ClassicalDedekindReals.sig_forall_dec, FunctionalExtensionality.functional_extensionality_dep |
| C88 | br2_operator_positive | Br2Props | ClassicalDedekindReals.sig_forall_dec, ClassicalDedekindReals.sig_not_dec, Classical_Prop.classic, FunctionalExtensionality.functional_extensionality_dep |
| C88 | curved_mass_refuted | Br2Examples | ClassicalDedekindReals.sig_forall_dec, FunctionalExtensionality.functional_extensionality_dep |
| C89 | br2_operator_exact | Br2SolveProps | ClassicalDedekindReals.sig_forall_dec, ClassicalDedekindReals.sig_not_dec, Classical_Prop.classic, FunctionalExtensionality.functional_extensionality_dep |
| C89 | br2_consistent | Br2SolveProps | ClassicalDedekindReals.sig_forall_dec, ClassicalDedekindReals.sig_not_dec, Classical_Prop.classic, FunctionalExtensionality.functional_extensionality_dep |
| C89 | br2_zero_anchored | Br2Definite | ClassicalDedekindReals.sig_forall_dec, ClassicalDedekindReals.sig_not_dec, Classical_Prop.classic, FunctionalExtensionality.functional_extensionality_dep |
| C90 | elasticity_assembly_is_br2 | ElasticBr2Props | ClassicalDedekindReals.sig_forall_dec, FunctionalExtensionality.functional_extensionality_dep |
| C90 | elasticity_br2_matrix_positive | ElasticBr2Props | ClassicalDedekindReals.sig_forall_dec, FunctionalExtensionality.functional_extensionality_dep |
| C90 | elasticity_br2_operator_positive | ElasticBr2Props | ClassicalDedekindReals.sig_forall_dec, ClassicalDedekindReals.sig_not_dec, Classical_Prop.classic, FunctionalExtensionality.functional_extensionality_dep |
| C91 | elastic_br2_operator_exact | ElasticBr2SolveProps | ClassicalDedekindReals.sig_forall_dec, ClassicalDedekindReals.sig_not_dec, Classical_Prop.classic, FunctionalExtensionality.functional_extensionality_dep |
| C91 | ebr2_consistent | ElasticBr2SolveProps | ClassicalDedekindReals.sig_forall_dec, ClassicalDedekindReals.sig_not_dec, Classical_Prop.classic, FunctionalExtensionality.functional_extensionality_dep |
| C92 | mask_text_safe | AffinityProps | closed |
| C92 | mask_text_shows | AffinityProps | closed |
| C92 | node_mask_union | AffinityProps | closed |
| C92 | node_mask_printed | AffinityProps | closed |
| C92 | affinity_lines | AffinityProps | closed |
| C92 | last_group_refuted | AffinityProps | closed |
| C92 | node_mask_refuted | AffinityProps | closed |
| C93 | poisson_energy_balance | PoissonEnergyProps | ClassicalDedekindReals.sig_forall_dec, FunctionalExtensionality.functional_extensionality_dep |
| C93 | reported_flux_is_shear_force | PoissonEnergyProps | ClassicalDedekindReals.sig_forall_dec, ClassicalDedekindReals.sig_not_dec, FunctionalExtensionality.functional_extensionality_dep |
| C94 | golden_section_search | WarpOptProps | ClassicalDedekindReals.sig_forall_dec, ClassicalDedekindReals.sig_not_dec, FunctionalExtensionality.functional_extensionality_dep |
| C94 | golden_section_ends_refuted | WarpOptProps | ClassicalDedekindReals.sig_forall_dec, ClassicalDedekindReals.sig_not_dec, FunctionalExtensionality.functional_extensionality_dep |
| C94 | sample_triangle | WarpOptProps | ClassicalDedekindReals.sig_forall_dec, FunctionalExtensionality.functional_extensionality_dep |
| C94 | sample_tetrahedron | WarpOptProps | ClassicalDedekindReals.sig_forall_dec, FunctionalExtensionality.functional_extensionality_dep |
| C94 | lebesgue_function_correct | WarpOptProps | ClassicalDedekindReals.sig_forall_dec, ClassicalDedekindReals.sig_not_dec, Classical_Prop.classic, FunctionalExtensionality.functional_extensionality_dep |
| C94 | lebesgue_estimate_correct | WarpOptProps | ClassicalDedekindReals.sig_forall_dec, ClassicalDedekindReals.sig_not_dec, Classical_Prop.classic, FunctionalExtensionality.functional_extensionality_dep |
| C95 | profile_times | ProfileProps | ClassicalDedekindReals.sig_forall_dec, FunctionalExtensionality.functional_extensionality_dep |
| C95 | profile_get | ProfileProps | closed |
| C95 | summary_correct | ProfileProps | ClassicalDedekindReals.sig_forall_dec, FunctionalExtensionality.functional_extensionality_dep |
| C95 | total_row | ProfileProps | ClassicalDedekindReals.sig_forall_dec, FunctionalExtensionality.functional_extensionality_dep |
| C95 | table_header | ProfileProps | closed |
| C95 | table_rows | ProfileProps | closed |
| C95 | table_header_refuted | ProfileProps | closed |
| C96 | storage_size | ManagedProps | closed |
| C96 | storage_size_refuted | ManagedProps | closed |
| C96 | tensors_are_values | ManagedProps | ClassicalDedekindReals.sig_forall_dec |
| C96 | tensors_do_not_leak | ManagedProps | ClassicalDedekindReals.sig_forall_dec |
| C96 | moved_from_empty_refuted | ManagedProps | closed |
| C97 | block_numbers | PetscVecProps | closed |
| C97 | block_access | PetscVecProps | ClassicalDedekindReals.sig_forall_dec |
| C97 | blocks_added | PetscVecProps | ClassicalDedekindReals.sig_forall_dec, FunctionalExtensionality.functional_extensionality_dep |
| C97 | blocks_added_any_order | PetscVecProps | ClassicalDedekindReals.sig_forall_dec, FunctionalExtensionality.functional_extensionality_dep |
| C97 | nested_vector_round_trip | PetscVecProps | closed |
| C97 | nested_vector_other_processes | PetscVecProps | closed |
| C97 | nested_vector_other_viewer_refuted | PetscVecProps | closed |
| C98 | boundary_cells_show_facets | CheckBcProps | closed |
| C98 | check_bc_shows_conditions | CheckBcProps | closed |
| C98 | check_bc_status_refuted | CheckBcProps | closed |
| C99 | sum_and_difference | VecProps | ClassicalDedekindReals.sig_forall_dec, FunctionalExtensionality.functional_extensionality_dep |
| C99 | norm_is_length | VecProps | ClassicalDedekindReals.sig_forall_dec, ClassicalDedekindReals.sig_not_dec, FunctionalExtensionality.functional_extensionality_dep |
| C99 | normalize_unit | VecProps | ClassicalDedekindReals.sig_forall_dec, ClassicalDedekindReals.sig_not_dec, FunctionalExtensionality.functional_extensionality_dep |
| C99 | cross_product | VecProps | ClassicalDedekindReals.sig_forall_dec, ClassicalDedekindReals.sig_not_dec, FunctionalExtensionality.functional_extensionality_dep |
| C100 | range_visits_elements | RangeProps | closed |
| C100 | reversed_range_wraps | RangeProps | closed |
| C100 | enumerate_counts | RangeProps | closed |
| C100 | advance_back | RangeProps | closed |
| C101 | one_character_changes_hash | HashProps | closed |
| C101 | common_end_keeps_hash | HashProps | closed |
| C101 | misspelt_section_unknown | HashProps | closed |
| C101 | hash_distinct_refuted | HashProps | closed |
