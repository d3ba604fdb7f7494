{
 "claims": [
  {
   "property": "C01",
   "status": "proved",
   "theorems": [
    "C01_order_invariant"
   ],
   "note": ""
  },
  {
   "property": "C02",
   "status": "proved",
   "theorems": [
    "C02_transitivity_iff",
    "C02_ctor_transitive_refuted"
   ],
   "note": "The naive expectation is refuted by a witness; the exact condition is proved as an equivalence."
  },
  {
   "property": "C03",
   "status": "proved",
   "theorems": [
    "C03_ctor_effect"
   ],
   "note": ""
  },
  {
   "property": "C04",
   "status": "proved",
   "theorems": [
    "C04_link_queries"
   ],
   "note": ""
  },
  {
   "property": "C05",
   "status": "proved",
   "theorems": [
    "C05_disjoin_linked",
    "C05_disjoin_unlinked"
   ],
   "note": ""
  },
  {
   "property": "C06",
   "status": "proved",
   "theorems": [
    "C06_disjoin_links_refuted"
   ],
   "note": "The property states the defect; proved for every heap and every visiting order."
  },
  {
   "property": "C07",
   "status": "proved",
   "theorems": [
    "C07_comparisons"
   ],
   "note": ""
  },
  {
   "property": "C08",
   "status": "proved",
   "theorems": [
    "C08_cardinalities"
   ],
   "note": ""
  },
  {
   "property": "C09",
   "status": "proved",
   "theorems": [
    "C09_LinkConeCard",
    "C09_LinkConeCard_refuted"
   ],
   "note": ""
  },
  {
   "property": "C10",
   "status": "proved",
   "theorems": [
    "C10_Rank"
   ],
   "note": ""
  },
  {
   "property": "C11",
   "status": "proved",
   "theorems": [
    "C11_copy"
   ],
   "note": ""
  },
  {
   "property": "C12",
   "status": "proved",
   "theorems": [
    "C12_embedding",
    "C12_fresh_is_embedded"
   ],
   "note": ""
  },
  {
   "property": "C13",
   "status": "proved",
   "theorems": [
    "C13_causet_closure"
   ],
   "note": ""
  },
  {
   "property": "C14",
   "status": "proved",
   "theorems": [
    "C14_FromPermutation",
    "C14_not_permutation"
   ],
   "note": ""
  },
  {
   "property": "C15",
   "status": "proved",
   "theorems": [
    "C15_NewChain",
    "C15_NewAntichain"
   ],
   "note": ""
  },
  {
   "property": "C16",
   "status": "proved",
   "theorems": [
    "C16_NewSimplex"
   ],
   "note": ""
  },
  {
   "property": "C17",
   "status": "proved",
   "theorems": [
    "C17_NewFence",
    "C17_degenerate"
   ],
   "note": ""
  },
  {
   "property": "C18",
   "status": "proved",
   "theorems": [
    "C18_FromPastMatrix",
    "C18_FromFutureMatrix",
    "C18_roundtrip"
   ],
   "note": ""
  },
  {
   "property": "C19",
   "status": "proved",
   "theorems": [
    "C19_ValueError_iff",
    "C19_link_matrix_past",
    "C19_future_incomplete_refuted",
    "C19_three_loop_refuted",
    "C19_missing_rows_refuted",
    "C19_future_ValueError_iff",
    "C19_link_roundtrip",
    "C19_link_roundtrip_open_refuted"
   ],
   "note": "the documented completion of link matrices, loop detection and row extension are refuted by witnesses; the true parts are proved for all matrices"
  },
  {
   "property": "C20",
   "status": "proved",
   "theorems": [
    "C20_csv_round_trip",
    "C20_small",
    "C20_any_file",
    "C20_ragged",
    "C20_thin",
    "C20_written"
   ],
   "note": ""
  },
  {
   "property": "C21",
   "status": "proved",
   "theorems": [
    "C21_merge",
    "C21_merge_disjoint",
    "C21_not_closed_refuted"
   ],
   "note": ""
  },
  {
   "property": "C22",
   "status": "proved",
   "theorems": [
    "C22_links_without_caches",
    "C22_links_with_caches_refuted"
   ],
   "note": ""
  },
  {
   "property": "C23",
   "status": "proved",
   "theorems": [
    "C23_link",
    "C23_link_not_closed",
    "C23_LinkCount",
    "C23_unlink"
   ],
   "note": ""
  },
  {
   "property": "C24",
   "status": "proved",
   "theorems": [
    "C24_add_discard",
    "C24_unlink_raises",
    "C24_unlink_effect"
   ],
   "note": ""
  },
  {
   "property": "C25",
   "status": "proved",
   "theorems": [
    "C25_matrices",
    "C25_shape",
    "C25_default_triangular",
    "C25_default_order"
   ],
   "note": ""
  },
  {
   "property": "C26",
   "status": "proved",
   "theorems": [
    "C26_sortedByCausality",
    "C26_unlabelled"
   ],
   "note": "C26_unlabelled: with an unlabelled event among two or more, the label sort raises TypeError."
  },
  {
   "property": "C27",
   "status": "proved",
   "theorems": [
    "C27_find"
   ],
   "note": ""
  },
  {
   "property": "C28",
   "status": "proved",
   "theorems": [
    "C28_set_operators",
    "C28_rsub_refuted"
   ],
   "note": ""
  },
  {
   "property": "C29",
   "status": "proved",
   "theorems": [
    "C29_chain_antichain"
   ],
   "note": ""
  },
  {
   "property": "C30",
   "status": "proved",
   "theorems": [
    "C30_path_accepted",
    "C30_converse_refuted",
    "C30_isPath_exact",
    "C30_isPath_self"
   ],
   "note": ""
  },
  {
   "property": "C31",
   "status": "proved",
   "theorems": [
    "C31_infinities"
   ],
   "note": ""
  },
  {
   "property": "C32",
   "status": "proved",
   "theorems": [
    "C32_cones",
    "C32_intersect_refuted"
   ],
   "note": ""
  },
  {
   "property": "C33",
   "status": "proved",
   "theorems": [
    "C33_intervals"
   ],
   "note": ""
  },
  {
   "property": "C34",
   "status": "proved",
   "theorems": [
    "C34_CentralAntichain"
   ],
   "note": ""
  },
  {
   "property": "C35",
   "status": "proved",
   "theorems": [
    "C35_LayerNumbers",
    "C35_LayerNumbers_monotone",
    "C35_Layers"
   ],
   "note": ""
  },
  {
   "property": "C36",
   "status": "proved",
   "theorems": [
    "C36_layered",
    "C36_layered_partition",
    "C36_nonconvex_refuted"
   ],
   "note": ""
  },
  {
   "property": "C37",
   "status": "proved",
   "theorems": [
    "C37_RankNumbers",
    "C37_Ranks"
   ],
   "note": ""
  },
  {
   "property": "C38",
   "status": "proved",
   "theorems": [
    "C38_Paths",
    "C38_negative_length"
   ],
   "note": "All link paths exactly once for any/int/list lengths, every iteration order; ValueError/IndexError for wrong arguments; -1 is the internal 'unbounded' mark."
  },
  {
   "property": "C39",
   "status": "proved",
   "theorems": [
    "C39_Paths_min_max",
    "C39_exists"
   ],
   "note": "Exactly the shortest / longest link paths, each once, and at least one whenever a <= b."
  },
  {
   "property": "C40",
   "status": "proved",
   "theorems": [
    "C40_symmetric",
    "C40_comparable",
    "C40_spacelike",
    "C40_comparable_searching",
    "C40_comparable_outside"
   ],
   "note": ""
  },
  {
   "property": "C41",
   "status": "proved",
   "theorems": [
    "C41_DistanceMatrix",
    "C41_counting_names",
    "C41_ziczac_meaning",
    "C41_shortest",
    "C41_intersection",
    "C41_common_past_refuted"
   ],
   "note": "Termination, symmetry, diagonal, sign of entries, zero matrix for isolated antichains; meaning of positive ziczac entries as walks."
  },
  {
   "property": "C42",
   "status": "proved",
   "theorems": [
    "C42_Antipaths",
    "C42_trivial",
    "C42_neighbours",
    "C42_isolated",
    "C42_all_shortest"
   ],
   "note": "Ends, membership and neighbour relation of every yielded list (also before an exception or the recursion limit); ValueError for isolated events."
  },
  {
   "property": "C43",
   "status": "proved",
   "theorems": [
    "C43_disjoint"
   ],
   "note": ""
  },
  {
   "property": "C44",
   "status": "proved",
   "theorems": [
    "C44_fractions",
    "C44_numbers",
    "C44_threshold_zero",
    "C44_accuracy",
    "C44_default_threshold"
   ],
   "note": "Exact fractions over Q; the floating formula over R (std-library Reals axioms); threshold 0 leaves index 0 unassigned."
  },
  {
   "property": "C45",
   "status": "proved",
   "theorems": [
    "C45_NewtonsMethod",
    "C45_iterations",
    "C45_converges",
    "C45_documented_interval_refuted"
   ],
   "note": "Over R (std-library Reals axioms)."
  },
  {
   "property": "C46",
   "status": "proved",
   "theorems": [
    "C46_exclusive",
    "C46_swap",
    "C46_tolerance_monotone"
   ],
   "note": "All spacetimes, any tolerance; std-library Reals axioms for everything about coordinates."
  },
  {
   "property": "C47",
   "status": "proved",
   "theorems": [
    "C47_flat",
    "C47_one_dimension",
    "C47_periodic",
    "C47_beyond_period_refuted",
    "C47_tolerance_not_transitive",
    "C47_tolerance",
    "C47_tolerance_periodic"
   ],
   "note": ""
  },
  {
   "property": "C48",
   "status": "proved",
   "theorems": [
    "C48_deSitter",
    "C48_deSitter_light_rays",
    "C48_AntideSitter_light_rays",
    "C48_AntideSitter_reversed",
    "C48_AntideSitter_turning_point",
    "C48_tolerance",
    "C48_AntideSitter_ambient"
   ],
   "note": ""
  },
  {
   "property": "C49",
   "status": "proved",
   "theorems": [
    "C49_transitive",
    "C49_Schwarzschild",
    "C49_EddingtonFinkelstein",
    "C49_horizon"
   ],
   "note": ""
  },
  {
   "property": "C50",
   "status": "proved",
   "theorems": [
    "C50_relate",
    "C50_partial_order",
    "C50_spacetimes",
    "C50_minkowski",
    "C50_not_embedded",
    "C50_same_point_refuted",
    "C50_tolerance_refuted",
    "C50_failed_relate"
   ],
   "note": "C50_spacetimes / C50_minkowski are about tolerance 0; C50_relate is about every causality function."
  },
  {
   "property": "C51",
   "status": "proved",
   "theorems": [
    "C51_FromPermutation",
    "C51_small_radius_refuted"
   ],
   "note": ""
  },
  {
   "property": "C52",
   "status": "proved",
   "theorems": [
    "C52_create",
    "C52_relabel",
    "C52_relabel_errors"
   ],
   "note": ""
  },
  {
   "property": "C53",
   "status": "proved",
   "theorems": [
    "C53_sprinkle",
    "C53_intensify",
    "C53_intensity_is_card",
    "C53_intensity_sum",
    "C53_nonnegative",
    "C53_add_discard",
    "C53_errors",
    "C53_constructor",
    "C53_density",
    "C53_failed_call_refuted",
    "C53_parent"
   ],
   "note": ""
  },
  {
   "property": "C54",
   "status": "proved",
   "theorems": [
    "C54_in_shape",
    "C54_events",
    "C54_bicone_refuted",
    "C54_default_refuted",
    "C54_diamond_branch_dead",
    "C54_diamond_branch",
    "C54_cylinder_dim1",
    "C54_other_dimension",
    "C54_repeated_centre"
   ],
   "note": "Finding: the default shape of flat spacetime is sprinkled with uninitialised memory. Assumes that the normal draws of one direction are not all zero (probability 0)."
  },
  {
   "property": "C55",
   "status": "proved",
   "theorems": [
    "C55_validation"
   ],
   "note": "f32 (conversion to numpy.float32) is an arbitrary function: the ranges are checked on the converted values. Values of a wrong Python type are not modelled."
  },
  {
   "property": "C56",
   "status": "proved",
   "theorems": [
    "C56_Limits",
    "C56_volume",
    "C56_volume_positive",
    "C56_volume_cached",
    "C56_MaxEdgeHalf",
    "C56_MaxEdgeHalf_cuboid"
   ],
   "note": "Limits is the exact coordinate range of the region (specified in SpecShape.v); Volume = outer minus inner body with the unit-ball recursion; positive except for the hollow 1-dimensional cylinder, where it is 0 (finding). math.gamma at half integers is defined by its recursion."
  },
  {
   "property": "C57",
   "status": "proved",
   "theorems": [
    "C57_no_links_untouched",
    "C57_static",
    "C57_repeated",
    "C57_LinkCountOf",
    "C57_no_links"
   ],
   "note": "static plots without cones (with cones: C70_cones_first); the gaps are exactly the events near the segment (near_segment of SpecPlot, decided in R)"
  },
  {
   "property": "C58",
   "status": "proved",
   "theorems": [
    "C58_positions",
    "C58_documented",
    "C58_refuted"
   ],
   "note": "the documented placement holds iff the permutation is an involution; refuted by the 3-cycle"
  },
  {
   "property": "C59",
   "status": "proved",
   "theorems": [
    "C59_getColor",
    "C59_schemes",
    "C59_convertColorsInDict",
    "C59_convertColorsInList",
    "C59_idempotent",
    "C59_defaults",
    "C59_hexadecimal"
   ],
   "note": ""
  },
  {
   "property": "C60",
   "status": "proved",
   "theorems": [
    "C60_permuted",
    "C60_no_permutation",
    "C60_TypeError",
    "C60_chains",
    "C60_funnel"
   ],
   "note": "The documented permutation is refuted for every nonempty set (C60_no_permutation); the exact domain of success is characterised."
  },
  {
   "property": "C61",
   "status": "proved",
   "theorems": [
    "C61_fading",
    "C61_half_time_refuted",
    "C61_negative_depth",
    "C61_zero_depth_refuted",
    "C61_other_names",
    "C61_no_fading_refuted"
   ],
   "note": "the documented half-time and the documented conetimefade='' are refuted"
  },
  {
   "property": "C62",
   "status": "proved",
   "theorems": [
    "C62_sortedByLabels"
   ],
   "note": ""
  },
  {
   "property": "C63",
   "status": "proved",
   "theorems": [
    "C63_FlatSpacetime",
    "C63_FlatSpacetime_error",
    "C63_curved",
    "C63_curved_results",
    "C63_repr"
   ],
   "note": ""
  },
  {
   "property": "C64",
   "status": "proved",
   "theorems": [
    "C64_Density",
    "C64_LengthScale",
    "C64_inverse_root_refuted"
   ],
   "note": "Finding: LengthScale is the root, not the inverse root."
  },
  {
   "property": "C65",
   "status": "proved",
   "theorems": [
    "C65_result",
    "C65_default",
    "C65_ValueError",
    "C65_Schwarzschild_refuted",
    "C65_list_not_checked_refuted",
    "C65_chosen",
    "C65_empty_coordinates",
    "C65_succeeds"
   ],
   "note": ""
  },
  {
   "property": "C66",
   "status": "proved",
   "theorems": [
    "C66_box_uniform",
    "C66_round_uniform"
   ],
   "note": "Stated per random number (the distribution function of every coordinate/radius), not with measure theory."
  },
  {
   "property": "C67",
   "status": "proved",
   "theorems": [
    "C67_reading_links"
   ],
   "note": ""
  },
  {
   "property": "C68",
   "status": "proved",
   "theorems": [
    "C68_add",
    "C68_discard"
   ],
   "note": ""
  },
  {
   "property": "C69",
   "status": "proved",
   "theorems": [
    "C69_parameters",
    "C69_limits",
    "C69_applied",
    "C69_shape_refuted"
   ],
   "note": "axislim='shape' for an EmbeddedCauset is refuted"
  },
  {
   "property": "C70",
   "status": "proved",
   "theorems": [
    "C70_dynamic",
    "C70_links_off_refuted",
    "C70_cones",
    "C70_cones_first"
   ],
   "note": "cones: which are drawn and with which opacity; their boundary curves are not modelled here"
  },
  {
   "property": "C71",
   "status": "proved",
   "theorems": [
    "C71_Position",
    "C71_new",
    "C71_unset_refuted"
   ],
   "note": ""
  },
  {
   "property": "C72",
   "status": "proved",
   "theorems": [
    "C72_yields",
    "C72_empty_antichain",
    "C72_singleton",
    "C72_single_layer",
    "C72_empty",
    "C72_layeredPermutations",
    "C72_empty_generator"
   ],
   "note": "Python's recursion limit is the parameter limit of the model."
  },
  {
   "property": "C73",
   "status": "proved",
   "theorems": [
    "C73_shape",
    "C73_once",
    "C73_best",
    "C73_placement",
    "C73_no_iteration",
    "C73_events_refuted",
    "C73_integers_refuted",
    "C73_returns_refuted"
   ],
   "note": "The documented result is refuted by concrete causets; SpecPerm: lex_product, widened, extension_degree, drawn_at (where an event is drawn); try_layers of the model is one attempt."
  },
  {
   "property": "C74",
   "status": "proved",
   "theorems": [
    "C74_findClosedFences",
    "C74_empty",
    "C74_nothing_found"
   ],
   "note": "Non-termination is stated as: no amount of fuel suffices."
  },
  {
   "property": "C75",
   "status": "proved",
   "theorems": [
    "C75_cut",
    "C75_cylinder_time_first",
    "C75_cylinder_refuted",
    "C75_hollow_disc",
    "C75_index"
   ],
   "note": "painted: non-zero winding rule of SpecOutline; matplotlib itself is not modelled. The claim is refuted for cylinders with the time on the first axis."
  },
  {
   "property": "C76",
   "status": "proved",
   "theorems": [
    "C76_EllipseEdge",
    "C76_CircleEdge",
    "C76_straight"
   ],
   "note": ""
  },
  {
   "property": "C77",
   "status": "proved",
   "theorems": [
    "C77_functions",
    "C77_cut",
    "C77_cylinder_time",
    "C77_bicone_time_refuted"
   ],
   "note": "boundary, cut3, close and on_surface: SpecSurface. The claim is refuted for cylinders and bicones with the time on the first or second axis."
  },
  {
   "property": "C78",
   "status": "proved",
   "theorems": [
    "C78_state",
    "C78_shrinks"
   ],
   "note": "The documented behaviour fails for hollow bicones with the time axis; the exact change is proved."
  },
  {
   "property": "C79",
   "status": "proved",
   "theorems": [
    "C79_flat",
    "C79_deSitter",
    "C79_unsupported"
   ],
   "note": "in SpecCone: not_drawn, opacity. Black holes: C83."
  },
  {
   "property": "C80",
   "status": "proved",
   "theorems": [
    "C80_time_plane",
    "C80_time_plane_images",
    "C80_space_plane"
   ],
   "note": "in SpecCone: in_cone, up_to, place, one_period, image."
  },
  {
   "property": "C81",
   "status": "proved",
   "theorems": [
    "C81_time_last",
    "C81_space",
    "C81_time_first",
    "C81_time_first_refuted",
    "C81_time_first_equal"
   ],
   "note": "The claim is refuted for the time on the first or second axis; the exact displaced result is proved."
  },
  {
   "property": "C82",
   "status": "proved",
   "theorems": [
    "C82_space_plane",
    "C82_time_space",
    "C82_time_plane",
    "C82_off_plane_refuted"
   ],
   "note": "SpecCone: in_cone (the causality function with tolerance 0), place, up_to, first_light, draws, closed_path; painted: SpecOutline. Refuted for origins off the plotted plane (4 dimensions)."
  },
  {
   "property": "C83",
   "status": "proved",
   "theorems": [
    "C83_EddingtonFinkelstein",
    "C83_EF_causal",
    "C83_Schwarzschild_outside",
    "C83_Schwarzschild_inside",
    "C83_Schwarzschild_causal",
    "C83_horizon",
    "C83_horizon_past_refuted",
    "C83_drawn",
    "C83_not_implemented",
    "C83_rays_end",
    "C83_EF_ray_ends",
    "C83_EF_converged",
    "C83_Schwarzschild_converged"
   ],
   "note": "SpecBlackHole: traces, on_side, vertex; tortoise and outgoing: Prop_Spacetime (C49). Convergence of Newton's method is proved outside the horizon (Prop_Newton.v); inside, the theorems say what holds whether or not it converges."
  },
  {
   "property": "C84",
   "status": "proved",
   "theorems": [
    "C84_AntichainPermutations_old"
   ],
   "note": "The documented claim (all permutations) is false; the theorem says what is yielded for every antichain. Non-termination: every fuel runs out."
  },
  {
   "property": "C85",
   "status": "proved",
   "theorems": [
    "C85_str",
    "C85_repr",
    "C85_repr_effect",
    "C85_causet_repr",
    "C85_shape_str",
    "C85_spacetime_str"
   ],
   "note": "How Python prints the coordinates of an event is a parameter."
  },
  {
   "property": "C86",
   "status": "proved",
   "theorems": [
    "C86_options"
   ],
   "note": "Documented defaults: documented_2d, documented_3d; overwritten: the options of the drawn artists are the caller's keywords and the defaults for the other names."
  },
  {
   "property": "C87",
   "status": "proved",
   "theorems": [
    "C87_order",
    "C87_links",
    "C87_relink"
   ],
   "note": "LibHistory: lib_op (the calls), lib_step (dispatch to the models of the methods), lib_admissible (preconditions); the reads that link lazily are LEvent calls."
  },
  {
   "property": "C88",
   "status": "proved",
   "theorems": [
    "C88_same_state",
    "C88_same_order",
    "C88_disjoin_refuted",
    "C88_add_unlink_refuted",
    "C88_merge_refuted"
   ],
   "note": "determined: which calls have a determined effect; ties of coordinates: C50_same_point_refuted."
  },
  {
   "property": "C89",
   "status": "proved",
   "theorems": [
    "C89_relate",
    "C89_create",
    "C89_EmbeddedCauset",
    "C89_history",
    "C89_SprinkledCauset",
    "C89_flat",
    "C89_flat_order"
   ],
   "note": "faithful (Prop_Faithful.v) is the specification; no assumption on the store besides that the causet's events exist and have coordinates; each call has its own iteration order and random stream."
  },
  {
   "property": "C90",
   "status": "proved",
   "theorems": [
    "C90_chain",
    "C90_antichain",
    "C90_simplex",
    "C90_fence"
   ],
   "note": "Built on C15-C17 and the specifications of the queries (C08, C10, C23, C31, C34, C36, C38, C39, C43); GradedFacts: graded orders."
  },
  {
   "property": "C91",
   "status": "proved",
   "theorems": [
    "C91_distance",
    "C91_translation",
    "C91_boost",
    "C91_time_translation",
    "C91_AdS_time_translation_refuted",
    "C91_time_reversal",
    "C91_mirror",
    "C91_scaling"
   ],
   "note": "Boosts along other axes: C91_distance (rotations) with C91_boost. Anti-de Sitter time shifts are refuted."
  },
  {
   "property": "C92",
   "status": "proved",
   "theorems": [
    "C92_event",
    "C92_sets",
    "C92_layers",
    "C92_paths",
    "C92_distances"
   ],
   "note": "Specification: same_causet and image in Prop_Iso.v. CentralAntichain and the sorted lists depend on the iteration order of sets and on labels and are not claimed; Antipaths is not covered."
  },
  {
   "property": "C93",
   "status": "proved",
   "theorems": [
    "C93_event",
    "C93_sets",
    "C93_layers",
    "C93_paths",
    "C93_distances",
    "C93_layer_zero_refuted"
   ],
   "note": "Specification: opposite_causet in Prop_Dual.v. Layers and ranks with a limit 0 are not symmetric in general (C93_layer_zero_refuted for the layers); Antipaths is not covered."
  },
  {
   "property": "C94",
   "status": "proved",
   "theorems": [
    "C94_reload",
    "C94_file",
    "C94_matrices",
    "C94_permutations"
   ],
   "note": "Specification: same_causet (Prop_Iso.v), opposite_causet (Prop_Dual.v), inverse_permutation and complement (Prop_Reload.v)."
  },
  {
   "property": "C95",
   "status": "proved",
   "theorems": [
    "C95_reproducible",
    "C95_mirror",
    "C95_central_refuted"
   ],
   "note": "Specification: reproducible and mirror_symmetric in Prop_Mirror.v, same_causet (Prop_Iso.v), opposite_causet (Prop_Dual.v)."
  },
  {
   "property": "C96",
   "status": "proved",
   "theorems": [
    "C96_new_event",
    "C96_merge",
    "C96_disjoin"
   ],
   "note": "Specification: same_causet (Prop_Iso.v), opposite_causet (Prop_Dual.v); extended is the correspondence with the two new events added."
  },
  {
   "property": "C97",
   "status": "proved",
   "theorems": [
    "C97_mirrored_program"
   ],
   "note": "Specification: mirrored (the call with past and future exchanged) in Prop_MirrorHistory.v, admissible_history in History.v."
  }
 ]
}