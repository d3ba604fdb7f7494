# What `Print Assumptions` lists

Generated by tools/assumptions.py from the finished build; one section per set of axioms.

## Closed under the global context (185 theorems)

C01_order_invariant, C02_transitivity_iff, C02_ctor_transitive_refuted, C03_ctor_effect, C04_link_queries, C05_disjoin_linked, C05_disjoin_unlinked, C06_disjoin_links_refuted, C07_comparisons, C08_cardinalities, C09_LinkConeCard, C09_LinkConeCard_refuted, C10_Rank, C11_copy, C12_embedding, C12_fresh_is_embedded, C13_causet_closure, C14_FromPermutation, C14_not_permutation, C15_NewChain, C15_NewAntichain, C16_NewSimplex, C17_NewFence, C17_degenerate, C18_FromPastMatrix, C18_FromFutureMatrix, C18_roundtrip, C19_ValueError_iff, C19_link_matrix_past, C19_future_incomplete_refuted, C19_three_loop_refuted, C19_missing_rows_refuted, C19_future_ValueError_iff, C19_link_roundtrip, C19_link_roundtrip_open_refuted, C20_csv_round_trip, C20_small, C20_any_file, C20_ragged, C20_thin, C20_written, C21_merge, C21_merge_disjoint, C21_not_closed_refuted, C22_links_without_caches, C22_links_with_caches_refuted, C23_link, C23_link_not_closed, C23_LinkCount, C23_unlink, C24_add_discard, C24_unlink_raises, C24_unlink_effect, C25_matrices, C25_shape, C25_default_triangular, C25_default_order, C26_sortedByCausality, C26_unlabelled, C27_find, C28_set_operators, C28_rsub_refuted, C29_chain_antichain, C30_path_accepted, C30_converse_refuted, C30_isPath_exact, C30_isPath_self, C31_infinities, C32_cones, C32_intersect_refuted, C33_intervals, C34_CentralAntichain, C35_LayerNumbers, C35_LayerNumbers_monotone, C35_Layers, C36_layered, C36_layered_partition, C36_nonconvex_refuted, C37_RankNumbers, C37_Ranks, C38_Paths, C38_negative_length, C39_Paths_min_max, C39_exists, C40_symmetric, C40_comparable, C40_spacelike, C40_comparable_searching, C40_comparable_outside, C41_DistanceMatrix, C41_counting_names, C41_ziczac_meaning, C41_shortest, C41_intersection, C41_common_past_refuted, C42_Antipaths, C42_trivial, C42_neighbours, C42_isolated, C42_all_shortest, C43_disjoint, C44_fractions, C50_relate, C50_partial_order, C50_not_embedded, C50_failed_relate, C52_create, C52_relabel, C52_relabel_errors, C57_LinkCountOf, C59_getColor, C59_schemes, C59_convertColorsInDict, C59_convertColorsInList, C59_idempotent, C59_defaults, C59_hexadecimal, C60_permuted, C60_no_permutation, C60_TypeError, C60_chains, C60_funnel, C62_sortedByLabels, C67_reading_links, C68_add, C68_discard, C71_Position, C71_new, C72_yields, C72_empty_antichain, C72_singleton, C72_single_layer, C72_empty, C72_layeredPermutations, C72_empty_generator, C73_shape, C73_once, C73_best, C73_placement, C73_no_iteration, C73_events_refuted, C73_integers_refuted, C73_returns_refuted, C74_findClosedFences, C74_empty, C74_nothing_found, C84_AntichainPermutations_old, C85_str, C85_repr, C85_repr_effect, C85_causet_repr, C87_order, C87_links, C87_relink, C88_same_state, C88_same_order, C88_disjoin_refuted, C88_add_unlink_refuted, C88_merge_refuted, C90_chain, C90_antichain, C90_simplex, C90_fence, C92_event, C92_sets, C92_layers, C92_paths, C92_distances, C93_event, C93_sets, C93_layers, C93_paths, C93_distances, C93_layer_zero_refuted, C94_reload, C94_file, C94_matrices, C94_permutations, C95_reproducible, C95_mirror, C95_central_refuted, C96_new_event, C96_merge, C96_disjoin, C97_mirrored_program

## `ClassicalDedekindReals.sig_forall_dec`, `FunctionalExtensionality.functional_extensionality_dep` (13 theorems)

C45_NewtonsMethod, C45_iterations, C45_converges, C45_documented_interval_refuted, C53_add_discard, C55_validation, C63_FlatSpacetime, C63_FlatSpacetime_error, C63_curved, C63_curved_results, C63_repr, C69_parameters, C85_spacetime_str

## `ClassicalDedekindReals.sig_forall_dec`, `Classical_Prop.classic`, `FunctionalExtensionality.functional_extensionality_dep` (5 theorems)

C54_diamond_branch_dead, C56_MaxEdgeHalf, C56_MaxEdgeHalf_cuboid, C76_straight, C85_shape_str

## `ClassicalDedekindReals.sig_forall_dec`, `ClassicalDedekindReals.sig_not_dec`, `FunctionalExtensionality.functional_extensionality_dep` (19 theorems)

C57_no_links_untouched, C57_static, C57_repeated, C57_no_links, C58_positions, C58_documented, C58_refuted, C61_negative_depth, C61_other_names, C61_no_fading_refuted, C69_applied, C70_links_off_refuted, C70_cones, C70_cones_first, C71_unset_refuted, C76_EllipseEdge, C76_CircleEdge, C77_functions, C86_options

## `ClassicalDedekindReals.sig_forall_dec`, `ClassicalDedekindReals.sig_not_dec`, `Classical_Prop.classic`, `FunctionalExtensionality.functional_extensionality_dep` (125 theorems)

C44_numbers, C44_threshold_zero, C44_accuracy, C44_default_threshold, C46_exclusive, C46_swap, C46_tolerance_monotone, C47_flat, C47_one_dimension, C47_periodic, C47_beyond_period_refuted, C47_tolerance_not_transitive, C47_tolerance, C47_tolerance_periodic, C48_deSitter, C48_deSitter_light_rays, C48_AntideSitter_light_rays, C48_AntideSitter_reversed, C48_AntideSitter_turning_point, C48_tolerance, C48_AntideSitter_ambient, C49_transitive, C49_Schwarzschild, C49_EddingtonFinkelstein, C49_horizon, C50_spacetimes, C50_minkowski, C50_same_point_refuted, C50_tolerance_refuted, C51_FromPermutation, C51_small_radius_refuted, C53_sprinkle, C53_intensify, C53_intensity_is_card, C53_intensity_sum, C53_nonnegative, C53_errors, C53_constructor, C53_density, C53_failed_call_refuted, C53_parent, C54_in_shape, C54_events, C54_bicone_refuted, C54_default_refuted, C54_diamond_branch, C54_cylinder_dim1, C54_other_dimension, C54_repeated_centre, C56_Limits, C56_volume, C56_volume_positive, C56_volume_cached, C61_fading, C61_half_time_refuted, C61_zero_depth_refuted, C64_Density, C64_LengthScale, C64_inverse_root_refuted, C65_result, C65_default, C65_ValueError, C65_Schwarzschild_refuted, C65_list_not_checked_refuted, C65_chosen, C65_empty_coordinates, C65_succeeds, C66_box_uniform, C66_round_uniform, C69_limits, C69_shape_refuted, C70_dynamic, C75_cut, C75_cylinder_time_first, C75_cylinder_refuted, C75_hollow_disc, C75_index, C77_cut, C77_cylinder_time, C77_bicone_time_refuted, C78_state, C78_shrinks, C79_flat, C79_deSitter, C79_unsupported, C80_time_plane, C80_time_plane_images, C80_space_plane, C81_time_last, C81_space, C81_time_first, C81_time_first_refuted, C81_time_first_equal, C82_space_plane, C82_time_space, C82_time_plane, C82_off_plane_refuted, C83_EddingtonFinkelstein, C83_EF_causal, C83_Schwarzschild_outside, C83_Schwarzschild_inside, C83_Schwarzschild_causal, C83_horizon, C83_horizon_past_refuted, C83_drawn, C83_not_implemented, C83_rays_end, C83_EF_ray_ends, C83_EF_converged, C83_Schwarzschild_converged, C89_relate, C89_create, C89_EmbeddedCauset, C89_history, C89_SprinkledCauset, C89_flat, C89_flat_order, C91_distance, C91_translation, C91_boost, C91_time_translation, C91_AdS_time_translation_refuted, C91_time_reversal, C91_mirror, C91_scaling
