claim("C01","proved",["C01_order_invariant"])
claim("C02","proved",["C02_transitivity_iff","C02_ctor_transitive_refuted"],"The naive expectation is refuted by a witness; the exact condition is proved as an equivalence.")
claim("C03","proved",["C03_ctor_effect"])
claim("C04","proved",["C04_link_queries"])
claim("C05","proved",["C05_disjoin_linked","C05_disjoin_unlinked"])
claim("C06","proved",["C06_disjoin_links_refuted"],"The property states the defect; proved for every heap and every visiting order.")
claim("C07","proved",["C07_comparisons"])
claim("C08","proved",["C08_cardinalities"])
claim("C09","proved",["C09_LinkConeCard","C09_LinkConeCard_refuted"])
claim("C10","proved",["C10_Rank"])
claim("C11","proved",["C11_copy"])
claim("C12","proved",["C12_embedding","C12_fresh_is_embedded"])
claim("C13","proved",["C13_causet_closure"])
claim("C25","proved",["C25_matrices","C25_shape","C25_default_triangular","C25_default_order"])
claim("C26","proved",["C26_sortedByCausality","C26_unlabelled"],"C26_unlabelled: with an unlabelled event among two or more, the label sort raises TypeError.")
claim("C27","proved",["C27_find"])
claim("C28","proved",["C28_set_operators","C28_rsub_refuted"])
claim("C29","proved",["C29_chain_antichain"])
claim("C30","proved",["C30_path_accepted","C30_converse_refuted","C30_isPath_exact","C30_isPath_self"])
claim("C31","proved",["C31_infinities"])
claim("C32","proved",["C32_cones","C32_intersect_refuted"])
claim("C33","proved",["C33_intervals"])
claim("C34","proved",["C34_CentralAntichain"])
claim("C35","proved",["C35_LayerNumbers","C35_LayerNumbers_monotone","C35_Layers"])
claim("C36","proved",["C36_layered","C36_layered_partition","C36_nonconvex_refuted"])
claim("C37","proved",["C37_RankNumbers","C37_Ranks"])
claim("C40","proved",["C40_symmetric","C40_comparable","C40_spacelike","C40_comparable_searching","C40_comparable_outside"])
claim("C43","proved",["C43_disjoint"])
claim("C62","proved",["C62_sortedByLabels"])
claim("C14","proved",["C14_FromPermutation","C14_not_permutation"])
claim("C15","proved",["C15_NewChain","C15_NewAntichain"])
claim("C16","proved",["C16_NewSimplex"])
claim("C17","proved",["C17_NewFence","C17_degenerate"])
claim("C18","proved",["C18_FromPastMatrix","C18_FromFutureMatrix","C18_roundtrip"])
claim("C19","proved",["C19_ValueError_iff","C19_link_matrix_past","C19_future_incomplete_refuted","C19_three_loop_refuted","C19_missing_rows_refuted","C19_future_ValueError_iff","C19_link_roundtrip","C19_link_roundtrip_open_refuted"],"the documented completion of link matrices, loop detection and row extension are refuted by witnesses; the true parts are proved for all matrices")
claim("C20","proved",["C20_csv_round_trip","C20_small","C20_any_file","C20_ragged","C20_thin","C20_written"])
claim("C21","proved",["C21_merge","C21_merge_disjoint","C21_not_closed_refuted"])
claim("C22","proved",["C22_links_without_caches","C22_links_with_caches_refuted"])
claim("C23","proved",["C23_link","C23_link_not_closed","C23_LinkCount","C23_unlink"])
claim("C24","proved",["C24_add_discard","C24_unlink_raises","C24_unlink_effect"])
claim("C38","proved",["C38_Paths","C38_negative_length"],"All link paths exactly once for any/int/list lengths, every iteration order; ValueError/IndexError for wrong arguments; -1 is the internal 'unbounded' mark.")
claim("C39","proved",["C39_Paths_min_max","C39_exists"],"Exactly the shortest / longest link paths, each once, and at least one whenever a <= b.")
claim("C41","proved",["C41_DistanceMatrix","C41_counting_names","C41_ziczac_meaning","C41_shortest","C41_intersection","C41_common_past_refuted"],"Termination, symmetry, diagonal, sign of entries, zero matrix for isolated antichains; meaning of positive ziczac entries as walks.")
claim("C42","proved",["C42_Antipaths","C42_trivial","C42_neighbours","C42_isolated","C42_all_shortest"],"Ends, membership and neighbour relation of every yielded list (also before an exception or the recursion limit); ValueError for isolated events.")
claim("C44","proved",["C44_fractions","C44_numbers","C44_threshold_zero","C44_accuracy","C44_default_threshold"],"Exact fractions over Q; the floating formula over R (std-library Reals axioms); threshold 0 leaves index 0 unassigned.")
claim("C45","proved",["C45_NewtonsMethod","C45_iterations","C45_converges","C45_documented_interval_refuted"],"Over R (std-library Reals axioms).")
claim("C46","proved",["C46_exclusive","C46_swap","C46_tolerance_monotone"],"All spacetimes, any tolerance; std-library Reals axioms for everything about coordinates.")
claim("C47","proved",["C47_flat","C47_one_dimension","C47_periodic","C47_beyond_period_refuted","C47_tolerance_not_transitive","C47_tolerance","C47_tolerance_periodic"])
claim("C48","proved",["C48_deSitter","C48_deSitter_light_rays","C48_AntideSitter_light_rays","C48_AntideSitter_reversed","C48_AntideSitter_turning_point","C48_tolerance","C48_AntideSitter_ambient"])
claim("C49","proved",["C49_transitive","C49_Schwarzschild","C49_EddingtonFinkelstein","C49_horizon"])
claim("C63","proved",["C63_FlatSpacetime","C63_FlatSpacetime_error","C63_curved", "C63_curved_results","C63_repr"])
claim("C55", "proved", ["C55_validation"], "f32 (conversion to numpy.float32) is an arbitrary function: the ranges are checked on the converted values. Values of a wrong Python type are not modelled.")
claim("C56", "proved", ["C56_Limits", "C56_volume", "C56_volume_positive", "C56_volume_cached", "C56_MaxEdgeHalf", "C56_MaxEdgeHalf_cuboid"], "Limits is the exact coordinate range of the region (specified in SpecShape.v); Volume = outer minus inner body with the unit-ball recursion; positive except for the hollow 1-dimensional cylinder, where it is 0 (finding). math.gamma at half integers is defined by its recursion.")
claim("C50","proved",["C50_relate","C50_partial_order","C50_spacetimes","C50_minkowski","C50_not_embedded","C50_same_point_refuted","C50_tolerance_refuted","C50_failed_relate"],"C50_spacetimes / C50_minkowski are about tolerance 0; C50_relate is about every causality function.")
claim("C51","proved",["C51_FromPermutation","C51_small_radius_refuted"])
claim("C52","proved",["C52_create","C52_relabel","C52_relabel_errors"])
claim("C64","proved",["C64_Density","C64_LengthScale","C64_inverse_root_refuted"],"Finding: LengthScale is the root, not the inverse root.")
claim("C65","proved",["C65_result","C65_default","C65_ValueError","C65_Schwarzschild_refuted","C65_list_not_checked_refuted","C65_chosen","C65_empty_coordinates","C65_succeeds"])
claim("C53","proved",["C53_sprinkle","C53_intensify","C53_intensity_is_card","C53_intensity_sum","C53_nonnegative","C53_add_discard","C53_errors","C53_constructor","C53_density","C53_failed_call_refuted","C53_parent"])
claim("C54","proved",["C54_in_shape","C54_events","C54_bicone_refuted","C54_default_refuted","C54_diamond_branch_dead","C54_diamond_branch","C54_cylinder_dim1","C54_other_dimension","C54_repeated_centre"],"Finding: the default shape of flat spacetime is sprinkled with uninitialised memory. Assumes that the normal draws of one direction are not all zero (probability 0).")
claim("C66","proved",["C66_box_uniform","C66_round_uniform"],"Stated per random number (the distribution function of every coordinate/radius), not with measure theory.")
claim("C67","proved",["C67_reading_links"])
claim("C68","proved",["C68_add","C68_discard"])
claim("C59","proved",["C59_getColor","C59_schemes","C59_convertColorsInDict","C59_convertColorsInList","C59_idempotent","C59_defaults","C59_hexadecimal"])
claim("C57","proved",["C57_no_links_untouched","C57_static","C57_repeated","C57_LinkCountOf","C57_no_links"],"static plots without cones (with cones: C70_cones_first); the gaps are exactly the events near the segment (near_segment of SpecPlot, decided in R)")
claim("C58","proved",["C58_positions","C58_documented","C58_refuted"],"the documented placement holds iff the permutation is an involution; refuted by the 3-cycle")
claim("C61","proved",["C61_fading","C61_half_time_refuted","C61_negative_depth","C61_zero_depth_refuted","C61_other_names","C61_no_fading_refuted"],"the documented half-time and the documented conetimefade='' are refuted")
claim("C69","proved",["C69_parameters","C69_limits","C69_applied","C69_shape_refuted"],"axislim='shape' for an EmbeddedCauset is refuted")
claim("C70","proved",["C70_dynamic","C70_links_off_refuted","C70_cones","C70_cones_first"],"cones: which are drawn and with which opacity; their boundary curves are not modelled here")
claim("C71","proved",["C71_Position","C71_new","C71_unset_refuted"],"")
claim("C60","proved",["C60_permuted","C60_no_permutation","C60_TypeError","C60_chains","C60_funnel"],"The documented permutation is refuted for every nonempty set (C60_no_permutation); the exact domain of success is characterised.")
claim("C72","proved",["C72_yields","C72_empty_antichain","C72_singleton","C72_single_layer","C72_empty","C72_layeredPermutations","C72_empty_generator"],"Python's recursion limit is the parameter limit of the model.")
claim("C73","proved",["C73_shape","C73_once","C73_best","C73_placement","C73_no_iteration","C73_events_refuted","C73_integers_refuted","C73_returns_refuted"],"The documented result is refuted by concrete causets; SpecPerm: lex_product, widened, extension_degree, drawn_at (where an event is drawn); try_layers of the model is one attempt.")
claim("C74","proved",["C74_findClosedFences","C74_empty","C74_nothing_found"],"Non-termination is stated as: no amount of fuel suffices.")
claim("C75","proved",["C75_cut","C75_cylinder_time_first","C75_cylinder_refuted","C75_hollow_disc","C75_index"],"painted: non-zero winding rule of SpecOutline; matplotlib itself is not modelled. The claim is refuted for cylinders with the time on the first axis.")
claim("C76","proved",["C76_EllipseEdge","C76_CircleEdge","C76_straight"],"")
claim("C77","proved",["C77_functions","C77_cut","C77_cylinder_time","C77_bicone_time_refuted"],"boundary, cut3, close and on_surface: SpecSurface. The claim is refuted for cylinders and bicones with the time on the first or second axis.")
claim("C78","proved",["C78_state","C78_shrinks"],"The documented behaviour fails for hollow bicones with the time axis; the exact change is proved.")
claim("C79","proved",["C79_flat","C79_deSitter","C79_unsupported"],"in SpecCone: not_drawn, opacity. Black holes: C83.")
claim("C80","proved",["C80_time_plane","C80_time_plane_images","C80_space_plane"],"in SpecCone: in_cone, up_to, place, one_period, image.")
claim("C81","proved",["C81_time_last","C81_space","C81_time_first","C81_time_first_refuted","C81_time_first_equal"],"The claim is refuted for the time on the first or second axis; the exact displaced result is proved.")
claim("C82","proved",["C82_space_plane","C82_time_space","C82_time_plane","C82_off_plane_refuted"],"SpecCone: in_cone (the causality function with tolerance 0), place, up_to, first_light, draws, closed_path; painted: SpecOutline. Refuted for origins off the plotted plane (4 dimensions).")
claim("C83","proved",["C83_EddingtonFinkelstein","C83_EF_causal","C83_Schwarzschild_outside","C83_Schwarzschild_inside","C83_Schwarzschild_causal","C83_horizon","C83_horizon_past_refuted","C83_drawn","C83_not_implemented","C83_rays_end","C83_EF_ray_ends","C83_EF_converged","C83_Schwarzschild_converged"],"SpecBlackHole: traces, on_side, vertex; tortoise and outgoing: Prop_Spacetime (C49). Convergence of Newton's method is proved outside the horizon (Prop_Newton.v); inside, the theorems say what holds whether or not it converges.")
claim("C84","proved",["C84_AntichainPermutations_old"],"The documented claim (all permutations) is false; the theorem says what is yielded for every antichain. Non-termination: every fuel runs out.")
claim("C85","proved",["C85_str","C85_repr","C85_repr_effect","C85_causet_repr","C85_shape_str","C85_spacetime_str"],"How Python prints the coordinates of an event is a parameter.")
claim("C86","proved",["C86_options"],"Documented defaults: documented_2d, documented_3d; overwritten: the options of the drawn artists are the caller's keywords and the defaults for the other names.")
claim("C87","proved",["C87_order","C87_links","C87_relink"],"LibHistory: lib_op (the calls), lib_step (dispatch to the models of the methods), lib_admissible (preconditions); the reads that link lazily are LEvent calls.")
claim("C88","proved",["C88_same_state","C88_same_order","C88_disjoin_refuted","C88_add_unlink_refuted","C88_merge_refuted"],"determined: which calls have a determined effect; ties of coordinates: C50_same_point_refuted.")
claim("C89", "proved", ["C89_relate", "C89_create", "C89_EmbeddedCauset", "C89_history", "C89_SprinkledCauset", "C89_flat", "C89_flat_order"], "faithful (Prop_Faithful.v) is the specification; no assumption on the store besides that the causet's events exist and have coordinates; each call has its own iteration order and random stream.")
claim("C90","proved",["C90_chain","C90_antichain","C90_simplex","C90_fence"],"Built on C15-C17 and the specifications of the queries (C08, C10, C23, C31, C34, C36, C38, C39, C43); GradedFacts: graded orders.")
claim("C91","proved",["C91_distance","C91_translation","C91_boost","C91_time_translation","C91_AdS_time_translation_refuted","C91_time_reversal","C91_mirror","C91_scaling"],"Boosts along other axes: C91_distance (rotations) with C91_boost. Anti-de Sitter time shifts are refuted.")
claim("C92","proved",["C92_event","C92_sets","C92_layers","C92_paths","C92_distances"],"Specification: same_causet and image in Prop_Iso.v. CentralAntichain and the sorted lists depend on the iteration order of sets and on labels and are not claimed; Antipaths is not covered.")
claim("C93","proved",["C93_event","C93_sets","C93_layers","C93_paths","C93_distances","C93_layer_zero_refuted"],"Specification: opposite_causet in Prop_Dual.v. Layers and ranks with a limit 0 are not symmetric in general (C93_layer_zero_refuted for the layers); Antipaths is not covered.")
claim("C94","proved",["C94_reload","C94_file","C94_matrices","C94_permutations"],"Specification: same_causet (Prop_Iso.v), opposite_causet (Prop_Dual.v), inverse_permutation and complement (Prop_Reload.v).")
claim("C95","proved",["C95_reproducible","C95_mirror","C95_central_refuted"],"Specification: reproducible and mirror_symmetric in Prop_Mirror.v, same_causet (Prop_Iso.v), opposite_causet (Prop_Dual.v).")
claim("C96","proved",["C96_new_event","C96_merge","C96_disjoin"],"Specification: same_causet (Prop_Iso.v), opposite_causet (Prop_Dual.v); extended is the correspondence with the two new events added.")
claim("C97","proved",["C97_mirrored_program"],"Specification: mirrored (the call with past and future exchanged) in Prop_MirrorHistory.v, admissible_history in History.v.")
