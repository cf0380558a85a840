{
 "claims": [
  {
   "property": "C01",
   "status": "proved",
   "theorems": [
    "C01_union_find_is_connectivity",
    "C01_union_find_by_size_is_connectivity"
   ],
   "note": ""
  },
  {
   "property": "C02",
   "status": "proved",
   "theorems": [
    "C02_find_is_read_only",
    "C02_find_depth_logarithmic",
    "C02_find_depth_logarithmic_by_size",
    "C02_concurrent_finds_schedule_independent"
   ],
   "note": ""
  },
  {
   "property": "C03",
   "status": "proved",
   "theorems": [
    "C03_kruskal_min_spanning_forest",
    "C03_kruskal_total_weight_minimal",
    "C03_argsort_sorts",
    "C03_brute_force_minimum_spanning_tree"
   ],
   "note": ""
  },
  {
   "property": "C04",
   "status": "proved",
   "theorems": [
    "C04_component_labels"
   ],
   "note": ""
  },
  {
   "property": "C05",
   "status": "proved",
   "theorems": [
    "C05_constrained_forest",
    "C05_constrained_forest_unvalidated",
    "C05_rejected_edges_are_forbidden",
    "C05_signed_matrix_refuted",
    "C05_one_triangle_unvalidated_refuted"
   ],
   "note": "Proved for matrices with non-negative entries; the refuted theorems show that signed matrices (with validation) and one-triangle matrices (without validation) are not enforced."
  },
  {
   "property": "C06",
   "status": "proved",
   "theorems": [
    "C05_constrained_forest",
    "C06_groups_equal_pairwise"
   ],
   "note": "C05_constrained_forest covers group labels as well."
  },
  {
   "property": "C07",
   "status": "proved",
   "theorems": [
    "C07_vacuous_constraints",
    "C07_kernels_agree"
   ],
   "note": ""
  },
  {
   "property": "C08",
   "status": "proved",
   "theorems": [
    "C08_clusters_are_connected",
    "C08_cannot_link_reaches_the_labels",
    "C08_weighted_cannot_link_reaches_the_labels",
    "C08_precomputed",
    "C08_brute_force",
    "C08_nearest_neighbours"
   ],
   "note": "From the user's arguments to the labels in exact arithmetic (precomputed, brute force, nearest neighbours, sample weights on any bridged tree); for any arithmetic obeying ScoreLaws on any bridged tree. Without a persistence threshold; with one see C44."
  },
  {
   "property": "C09",
   "status": "proved",
   "theorems": [
    "C09_bridge_spanning_tree",
    "C09_bridges_invisible_below_infinity",
    "C09_precomputed_returns_bridged_tree",
    "C09_brute_force_returns_bridged_tree",
    "C09_knn_returns_bridged_tree",
    "C09_constraints_hold_below_infinity"
   ],
   "note": ""
  },
  {
   "property": "C10",
   "status": "proved",
   "theorems": [
    "C10_unbridge",
    "C10_unbridge_after_bridge",
    "C10_numbered_by_smallest_sample_refuted"
   ],
   "note": "The documented numbering by smallest sample is refuted."
  },
  {
   "property": "C11",
   "status": "proved",
   "theorems": [
    "C11_symmetrise_keeps_lighter_direction"
   ],
   "note": ""
  },
  {
   "property": "C12",
   "status": "proved",
   "theorems": [
    "C12_core_distances",
    "C12_neighbors",
    "C12_core_distances_brute_force"
   ],
   "note": ""
  },
  {
   "property": "C13",
   "status": "proved",
   "theorems": [
    "C13_mutual_reachability_csr",
    "C13_mutual_reachability_brute_force",
    "C13_mutual_reachability_knn",
    "C13_symmetric"
   ],
   "note": ""
  },
  {
   "property": "C14",
   "status": "proved",
   "theorems": [
    "C14_boruvka_spanning_forest",
    "C14_precomputed_graph_is_suitable",
    "C14_precomputed_boruvka",
    "C14_isolated_sample_refuted",
    "C14_directed_graph_refuted",
    "C14_self_loops_refuted"
   ],
   "note": "Boruvka on stored graphs, any tie pattern, and the precomputed entry point with the float32 conversion as an arbitrary monotone map. Refuted outside the stated conditions: isolated sample before others, directed graphs, self loops."
  },
  {
   "property": "C15",
   "status": "proved",
   "theorems": [
    "C15_backends_agree",
    "C15_bridged_results_agree",
    "C15_space_tree_agrees_with_kruskal",
    "C18_boruvka_of_data",
    "C15_rounding_refuted"
   ],
   "note": "Stored graphs: Kruskal and Boruvka agree when the float32 conversion keeps distinct weights apart and isolated samples come last; refuted for conversions that merge two distances. Data matrices: Boruvka on space trees agrees with exhaustive Kruskal under every schedule."
  },
  {
   "property": "C16",
   "status": "proved",
   "theorems": [
    "C16_round_finds_lightest_edges",
    "C16_blocks_find_lightest_edges",
    "C16_stale_reads_are_harmless"
   ],
   "note": "Small-step interleaving of the threads; every schedule and block size, including stale reads."
  },
  {
   "property": "C17",
   "status": "partial",
   "theorems": [
    "C17_schedules_agree_partial",
    "C17_same_edges_without_ties",
    "C17_reproducible_refuted"
   ],
   "note": "Equality of clusterings (components at every threshold, sorted weights, core distances) is proved for any two schedules, thread counts and trees, and equality of the edges if no two pairs of samples have the same mutual reachability distance; with ties equality of the edges is refuted by two schedules."
  },
  {
   "property": "C18",
   "status": "proved",
   "theorems": [
    "C18_boruvka_minimum_spanning_tree",
    "C18_boruvka_of_data",
    "C18_min_samples_refuted",
    "C18_own_neighbour_refuted"
   ],
   "note": "For min_samples < n and every schedule; the case min_samples >= n and the self-neighbour report are refuted. Sample weights are not modelled."
  },
  {
   "property": "C19",
   "status": "proved",
   "theorems": [
    "C19_selection_splits",
    "C19_space_tree_well_formed",
    "C19_refuses_exactly_leaf_size_zero",
    "C19_each_sample_in_one_leaf",
    "C19_lower_bounds_valid"
   ],
   "note": "Selection, construction, boxes, median cuts, leaf sizes and lower bounds, for arithmetic with monotone rounding."
  },
  {
   "property": "C20",
   "status": "proved",
   "theorems": [
    "C20_nearest_neighbours_exact",
    "C20_nearest_neighbours_of_data"
   ],
   "note": "For every well formed tree, and from the data matrix."
  },
  {
   "property": "C21",
   "status": "proved",
   "theorems": [
    "C21_single_linkage_tree",
    "C21_single_linkage_tree_weighted"
   ],
   "note": "mst_to_linkage_tree with path-compressing find, weighted and unweighted"
  },
  {
   "property": "C22",
   "status": "proved",
   "theorems": [
    "C22_cut_is_dbscan"
   ],
   "note": "get_cluster_labelling_at_cut with the rank disjoint set"
  },
  {
   "property": "C23",
   "status": "proved",
   "theorems": [
    "C23_every_sample_exactly_once",
    "C23_min_cluster_size_one_refuted"
   ],
   "note": "Every dendrogram, any weights, any antitone lambda, any maximum size; the hypothesis that no single sample reaches the minimum size is needed (refuted for minimum size 1)."
  },
  {
   "property": "C24",
   "status": "proved",
   "theorems": [
    "C24_condensed_tree_well_formed",
    "C24_hdbscan_lambda_antitone",
    "C24_rows_in_order_of_density"
   ],
   "note": "Well-formedness plus agreement with the dendrogram."
  },
  {
   "property": "C25",
   "status": "proved",
   "theorems": [
    "C25_selection_is_disjoint_and_covers",
    "C25_selection_is_optimal",
    "C25_unweighted_excess_of_mass",
    "C25_max_cluster_size_refuted"
   ],
   "note": "Disjointness and coverage for every score arithmetic; optimality and tie-breaking in exact arithmetic with finite lambdas; textbook excess of mass without weights. The root ignores max_cluster_size = n-1 (refuted)."
  },
  {
   "property": "C26",
   "status": "proved",
   "theorems": [
    "C26_leaf_selection",
    "C26_extract_leaves"
   ],
   "note": "Both leaf extractions return exactly the clusters that do not split."
  },
  {
   "property": "C27",
   "status": "proved",
   "theorems": [
    "C27_labels_follow_the_hierarchy",
    "C27_condensed_trees_are_ordered",
    "C27_members_are_the_samples_below",
    "C27_single_cluster_refuted"
   ],
   "note": "Labels for every ordered tree and selection; the members of disjoint clusters are the samples below them. A sole non-root cluster makes labelling fail (refuted)."
  },
  {
   "property": "C28",
   "status": "proved",
   "theorems": [
    "C28_runs_report_large_clusters",
    "C28_weighted_clusters_are_heavy",
    "C28_exact_clusters_are_large",
    "C28_exact_weighted_clusters_are_heavy",
    "C28_reported_clusters_are_large",
    "C28_infinite_distances_refuted"
   ],
   "note": "From any spanning tree to the labels, with and without sample weights, any arithmetic; with infinite distances clusters may be smaller (refuted)."
  },
  {
   "property": "C29",
   "status": "proved",
   "theorems": [
    "C29_membership_strengths",
    "C29_exact_laws",
    "C29_strengths_are_relative_densities"
   ],
   "note": "For every arithmetic with the division laws, which exact arithmetic has."
  },
  {
   "property": "C30",
   "status": "proved",
   "theorems": [
    "C30_epsilon_search",
    "C30_clusters_are_born_above_epsilon"
   ],
   "note": "Generic in the threshold test and the order of rows with equal parent; exact-arithmetic corollary."
  },
  {
   "property": "C31",
   "status": "proved",
   "theorems": [
    "C31_persistence_simplification",
    "C31_exact_comparison",
    "C31_higher_threshold_keeps_fewer"
   ],
   "note": "persistence threshold simplification, all condensed trees with a split"
  },
  {
   "property": "C32",
   "status": "proved",
   "theorems": [
    "C32_other_rows_are_noise",
    "C32_weighted_other_rows_are_noise",
    "C32_exact_other_rows_are_noise",
    "C32_finite_data_unchanged",
    "C32_two_finite_rows_refuted",
    "C32_one_finite_row_refuted",
    "C32_spanning_tree_refuted"
   ],
   "note": "For three or more finite rows, any back end returning a spanning tree, with and without weights. Two, one finite rows and the unrenumbered spanning tree are refuted."
  },
  {
   "property": "C33",
   "status": "proved",
   "theorems": [
    "C33_accepted_iff_rules_hold",
    "C33_small_data",
    "C33_constraints_reach_algorithm",
    "C33_plan_follows_request",
    "C33_constraints_dropped_refuted",
    "C33_constraints_accepted_exactly"
   ],
   "note": "Acceptance characterised exactly; 'constraints are never ignored' is refuted and the exact condition proved."
  },
  {
   "property": "C34",
   "status": "proved",
   "theorems": [
    "C34_alive_clusters_are_leaf_clusters",
    "C34_layers",
    "C34_layers_for_a_number_of_clusters"
   ],
   "note": "From the linkage tree on, for minimum sizes of at least two, exact sizes, any antitone lambda and any sorting function; the barcode, the alive clusters, their agreement with condensing again, labels, strengths and the choice of layers."
  },
  {
   "property": "C35",
   "status": "proved",
   "theorems": [
    "C35_peaks",
    "C35_persistence_curve"
   ],
   "note": "Any totally preordered values; also what the curve contains."
  },
  {
   "property": "C36",
   "status": "proved",
   "theorems": [
    "C36_selection_is_diverse",
    "C36_similarity"
   ],
   "note": "Similarity is an exact quotient here; any sorting function."
  },
  {
   "property": "C37",
   "status": "proved",
   "theorems": [
    "C37_layer_tree",
    "C37_tree_of_a_run",
    "C37_tree_for_a_number_of_clusters",
    "C37_gaps_refuted",
    "C37_empty_cluster_refuted"
   ],
   "note": "For label stacks without gaps, and for the layers of an actual run when no merge has density zero. With gaps (samples that meet only at infinite distance) it is false of the code: C37_gaps_refuted, C37_empty_cluster_refuted."
  },
  {
   "property": "C38",
   "status": "proved",
   "theorems": [
    "C38_joined_labels",
    "C38_branches",
    "C38_infinite_lens_refuted",
    "C38_missing_neighbour_refuted",
    "C38_branch_function_refuted",
    "C47_probabilities"
   ],
   "note": "Proved for sub-labels without gaps, which runs produce under the conditions of C47. Refuted for infinite lens values and missing neighbours; find_branch_sub_clusters itself never returns."
  },
  {
   "property": "C39",
   "status": "proved",
   "theorems": [
    "C39_propagation_in_a_cluster",
    "C39_propagation_never_ends",
    "C39_propagation",
    "C39_clusters_stay_apart_refuted",
    "C39_zero_lens_refuted",
    "C39_isolated_sample_refuted"
   ],
   "note": "Termination characterised exactly: it ends if and only if every sample is connected to a labelled one. Refuted for clusters without sub-clusters, zero lens values and isolated samples."
  },
  {
   "property": "C40",
   "status": "proved",
   "theorems": [
    "C40_selection_is_disjoint_and_covers",
    "C40_selection_is_optimal",
    "C40_unweighted_selection_covers",
    "C40_no_labels_no_difference",
    "C40_max_cluster_size_ignored_refuted"
   ],
   "note": "Every condensed tree, partial labelling and both modes (with and without virtual nodes); optimality in exact arithmetic. The code ignores max_cluster_size in this mode."
  },
  {
   "property": "C41",
   "status": "partial",
   "theorems": [
    "C30_no_cluster_is_lost_refuted",
    "C30_epsilon_search",
    "C41_lost_clusters_partial",
    "C41_none_lost_with_one_merge",
    "C41_none_lost_when_splits_come_first",
    "C41_none_lost_in_two_levels"
   ],
   "note": "False of the code in full: segments_in_branch marks children of an unrelated cluster (machine-checked counterexamples, C30_no_cluster_is_lost_refuted and C81_no_new_noise_refuted at the level of a fit). Proved: exactly which clusters can be lost, and that none is if epsilon merges into one cluster only, if splitting clusters have lower numbers than leaves, or if only the root and its parts split."
  },
  {
   "property": "C42",
   "status": "partial",
   "theorems": [
    "C31_unsplit_tree_refuted",
    "C42_fails_exactly_without_splits",
    "C42_fit_fails_on_one_group"
   ],
   "note": "False of the code: a persistence threshold fails on a hierarchy without splits (C31_unsplit_tree_refuted). C42_fails_exactly_without_splits proves that this is the only failure: with at least one split the run ends with a clustering. C42_fit_fails_on_one_group says for which data this happens."
  },
  {
   "property": "C43",
   "status": "proved",
   "theorems": [
    "C43_runs_complete",
    "C43_weighted_runs_complete",
    "C43_exact_runs_complete"
   ],
   "note": "Any arithmetic; minimum size above one sample, no maximum size, 'eom' and 'leaf'."
  },
  {
   "property": "C44",
   "status": "partial",
   "theorems": [
    "C44_cannot_link_with_persistence_refuted",
    "C44_labels_follow_finite_edges",
    "C44_labels_follow_finite_edges_weighted",
    "C44_cannot_link_with_short_edges"
   ],
   "note": "False of the code in general: refuted by a witness from the user's arguments to the labels. Proved under the condition that the density 1/d of every finite spanning-tree edge reaches the threshold: then samples with one label are joined by finite edges and cannot-link pairs share no cluster."
  },
  {
   "property": "C45",
   "status": "proved",
   "theorems": [
    "C45_runs_are_explained",
    "C45_weighted_runs_are_explained",
    "C45_exact_runs_are_optimal"
   ],
   "note": "Any arithmetic; minimum size above one sample, no maximum size, 'eom' and 'leaf'. Optimality of 'eom' in exact arithmetic."
  },
  {
   "property": "C46",
   "status": "proved",
   "theorems": [
    "C46_fewer_leaves_for_larger_sizes",
    "C46_search_finds_the_closest_number",
    "C46_choice_of_the_search"
   ],
   "note": "At least four samples; lambda antitone."
  },
  {
   "property": "C47",
   "status": "proved",
   "theorems": [
    "C47_sub_clusters_of_a_run",
    "C47_probabilities",
    "C47_propagated_labels_of_a_run",
    "C47_branches_of_a_run"
   ],
   "note": "No persistence threshold. Lens values must have positive density. sklearn validation and plotting are not modelled."
  },
  {
   "property": "C48",
   "status": "proved",
   "theorems": [
    "C48_labelled_runs_complete",
    "C48_labelled_runs_report_large_clusters",
    "C48_labels_follow_the_selection",
    "C48_exact_labelled_runs_complete",
    "C48_exact_clusters_are_large",
    "C48_no_labels_same_run",
    "C48_cannot_link_with_labels_refuted"
   ],
   "note": "Unweighted runs. The general theorems ask that the computed stability of a leaf is not below zero, which exact arithmetic always meets."
  },
  {
   "property": "C49",
   "status": "proved",
   "theorems": [
    "C49_condensed_tree_unique",
    "C49_clusters_depend_on_hierarchy_only",
    "C49_leaf_clusters_depend_on_hierarchy_only",
    "C49_weighted_leaf_clusters_depend_on_hierarchy_only",
    "C49_any_minimum_spanning_tree",
    "C49_order_of_samples_brute_force",
    "C49_order_tree_schedule_and_algorithm",
    "C49_ties_refuted"
   ],
   "note": "Exact arithmetic for both selection methods; leaf selection in any arithmetic, also weighted. Hypothesis: no two tree edges of equal weight (refuted otherwise). Epsilon and persistence are not covered."
  },
  {
   "property": "C50",
   "status": "proved",
   "theorems": [
    "C50_tree_over_neighbour_graph",
    "C50_short_rows_rejected",
    "C50_runs_complete",
    "C50_complete_neighbour_graph_is_exact",
    "C50_complete_neighbour_graph_same_hierarchy",
    "C50_all_neighbours_same_hierarchy",
    "C50_all_neighbours_same_clusters",
    "C50_identical_samples_refuted"
   ],
   "note": "Exactness excludes identical samples, for which it is refuted; pynndescent itself is a parameter."
  },
  {
   "property": "C51",
   "status": "proved",
   "theorems": [
    "C51_weighted_kruskal",
    "C51_half_the_mean_is_enough",
    "C51_weights_are_copies",
    "C51_unit_weights",
    "C51_weighted_boruvka",
    "C51_weighted_clusters",
    "C51_units_refuted",
    "C51_order_refuted",
    "C51_light_neighbours_refuted",
    "C51_unit_weights_refuted",
    "C51_heavy_weights_fail"
   ],
   "note": "Weights and averages are exact rationals. Weighted Boruvka is proved to give a spanning tree and its reported values are described exactly; that they are mutual reachability distances is refuted."
  },
  {
   "property": "C52",
   "status": "proved",
   "theorems": [
    "C52_missing_rows_left_out",
    "C52_weighted_missing_rows_left_out",
    "C52_finite_data_unchanged",
    "C52_zero_density_fails",
    "C52_cannot_link_refuted",
    "C52_sub_strength_of_samples_in_no_cluster_refuted"
   ],
   "note": "all detectors, with and without sample weights in the clustering; the code violates it for finite data with density-zero samples (refuted)"
  },
  {
   "property": "C53",
   "status": "proved",
   "theorems": [
    "C53_propagating_later",
    "C53_branches_later"
   ],
   "note": "SubClusterDetector and BranchDetector, any tree and labels"
  },
  {
   "property": "C54",
   "status": "proved",
   "theorems": [
    "C54_result_is_determined",
    "C54_weighted_result_is_determined",
    "C54_labelled_result_is_determined"
   ],
   "note": "Exact in every arithmetic; the list order of python sets is kept as a parameter that must be the same in both runs of the labelled variant."
  },
  {
   "property": "C55",
   "status": "proved",
   "theorems": [
    "C55_units_do_not_matter",
    "C55_weighted_units_do_not_matter",
    "C55_units_do_not_matter_from_distances",
    "C55_units_do_not_matter_at_a_cut"
   ],
   "note": "Exact rational arithmetic (rounding can break it in floats, except for powers of two). Spanning trees from distances: brute force."
  },
  {
   "property": "C56",
   "status": "proved",
   "theorems": [
    "C56_leaf_clusters_depend_on_order_only",
    "C56_leaf_clusters_from_distances",
    "C56_not_for_excess_of_mass"
   ],
   "note": "Exact arithmetic; the restriction to leaf selection is needed (C56_not_for_excess_of_mass)."
  },
  {
   "property": "C57",
   "status": "proved",
   "theorems": [
    "C57_from_distances_to_labels",
    "C57_layers_with_constraints",
    "C57_for_a_number_of_clusters",
    "C57_size_one_refuted",
    "C57_single_sample_refuted"
   ],
   "note": "Composes brute-force Kruskal, normalisation, linkage, layers and the tree over the layers; also with constraints and for base_n_clusters. Two refutations delimit the claim."
  },
  {
   "property": "C58",
   "status": "proved",
   "theorems": [
    "C58_units_do_not_matter",
    "C58_units_of_a_tree",
    "C58_unit"
   ],
   "note": "Exact arithmetic; for brute-force spanning trees and for any tree and core distances."
  },
  {
   "property": "C59",
   "status": "proved",
   "theorems": [
    "C59_accepted_exactly",
    "C59_precomputed_graphs"
   ],
   "note": "What scikit-learn's validate_data and the sample-weight check reject is not modelled."
  },
  {
   "property": "C60",
   "status": "proved",
   "theorems": [
    "C60_reported_graph",
    "C60_reported_trees",
    "C60_missing_rows",
    "C60_distances",
    "C60_distances_after_kruskal",
    "C60_single_sample",
    "C60_min_samples_one_refuted",
    "C60_spanning_trees_refuted"
   ],
   "note": "Graphs reported by detectors, with and without missing rows, and their spanning trees; two defects refuted (min_samples=1 distances, spanning_trees_ row numbers)."
  },
  {
   "property": "C61",
   "status": "proved",
   "theorems": [
    "C61_hdbscan_weights",
    "C61_plscan_weights",
    "C61_negative_weights_refuted",
    "C61_nan_weight_refuted",
    "C61_nan_weight_rejected"
   ],
   "note": "the rule as the code has it; negative weights and NaN for PLSCAN are accepted (see the refuted theorems)"
  },
  {
   "property": "C62",
   "status": "proved",
   "theorems": [
    "C62_detector_parameters",
    "C62_size_one_refuted"
   ],
   "note": "both directions; C62_size_one_refuted records a defect"
  },
  {
   "property": "C63",
   "status": "proved",
   "theorems": [
    "C63_inverse_distance_to_centre",
    "C63_fails_without_strengths",
    "C63_fitted_clusters_have_centres",
    "C63_moving_keeps_clusters",
    "C63_moving_keeps_branches",
    "C63_spanning_tree_of_points",
    "C63_reported_lens",
    "C63_reported_lens_missing"
   ],
   "note": "exact arithmetic, Kruskal on all pairs; square roots as parameters"
  },
  {
   "property": "C64",
   "status": "proved",
   "theorems": [
    "C64_machine_distances",
    "C64_machine_neighbours",
    "C64_machine_tree",
    "C64_machine_clusters",
    "C64_machine_settings",
    "C64_machine_scores",
    "C64_machine_constraints",
    "C64_machine_constraints_precomputed",
    "C64_machine_stored_graph",
    "C64_overflow_refuted",
    "C64_underflow_refuted",
    "C64_core_distance_refuted",
    "C64_scale_refuted"
   ],
   "note": "IEEE float32/float64 via Flocq, round to nearest even, without fastmath reordering; depends on four standard library axioms (real numbers, functional extensionality, excluded middle) listed in DESIGN.md section 6"
  },
  {
   "property": "C65",
   "status": "proved",
   "theorems": [
    "C65_exhaustive_neighbours",
    "C65_boruvka_neighbours",
    "C65_graph_neighbours",
    "C65_own_neighbour_refuted"
   ],
   "note": "Exhaustive search, space tree under every schedule, neighbour graph; with coincident samples the skipped entry may be another one (refuted separately)."
  },
  {
   "property": "C66",
   "status": "proved",
   "theorems": [
    "C66_clusters_at_a_distance",
    "C66_clusters_are_nested",
    "C66_missing_rows_are_noise",
    "C66_clusters_at_a_distance_boruvka",
    "C66_cannot_link_at_every_distance",
    "C66_missing_row_cluster_refuted",
    "C66_core_samples_as_noise_refuted"
   ],
   "note": "Theorems for fit (brute force distances, missing rows), for the space tree search under every schedule, and for constraints. Two deviations from DBSCAN* are refuted."
  },
  {
   "property": "C67",
   "status": "proved",
   "theorems": [
    "C67_clusters_are_dense_groups",
    "C67_clusters_against_cuts",
    "C67_clusters_are_dense_groups_boruvka",
    "C67_clusters_of_a_spanning_tree",
    "C67_weighted_clusters_of_a_spanning_tree",
    "C67_single_cluster_with_epsilon_refuted"
   ],
   "note": "For fit (Kruskal on all pairs), for Boruvka in a space tree under every schedule, and for any spanning tree with or without sample weights. Settings with one_root: not (allow_single_cluster, 'eom' and epsilon or persistence), and not both epsilon and persistence; the first exclusion is necessary (refuted). All distances must have a positive density."
  },
  {
   "property": "C68",
   "status": "proved",
   "theorems": [
    "C68_leaving_density",
    "C68_distance_unique",
    "C68_strengths",
    "C68_leaving_density_boruvka",
    "C68_leaving_density_of_a_spanning_tree",
    "C68_weighted_leaving_density_of_a_spanning_tree",
    "C68_strengths_of_a_spanning_tree"
   ],
   "note": "Leaving densities for any spanning tree (plain and weighted), the parallel search and the complete fit; strengths for the plain pipeline and fit without persistence, epsilon and single cluster."
  },
  {
   "property": "C69",
   "status": "proved",
   "theorems": [
    "C69_identical_samples_cut",
    "C69_identical_samples_leave_together",
    "C69_identical_samples_apart",
    "C69_identical_samples_same_label_refuted"
   ],
   "note": "Cuts and leaving densities agree; labels can differ only at a tie, and such a case is exhibited."
  },
  {
   "property": "C70",
   "status": "proved",
   "theorems": [
    "C70_densities_rise",
    "C70_cuts_grow",
    "C70_densities_near",
    "C70_exact_distances_near"
   ],
   "note": "For the complete fit with the exact spanning tree, without persistence threshold."
  },
  {
   "property": "C71",
   "status": "proved",
   "theorems": [
    "C71_stored_distance",
    "C71_cuts_of_a_stored_graph",
    "C71_leaving_density_of_a_stored_graph",
    "C71_clusters_of_a_stored_graph",
    "C71_clusters_of_a_tree_with_bridges"
   ],
   "note": "Cuts, leaving densities and reported clusters of sparse precomputed distances; the last for settings without persistence."
  },
  {
   "property": "C72",
   "status": "proved",
   "theorems": [
    "C72_sub_clusters_reported",
    "C72_branches_reported"
   ],
   "note": "rows without missing values; rows with missing values follow with C52"
  },
  {
   "property": "C73",
   "status": "proved",
   "theorems": [
    "C73_constraints_of_the_finite_rows",
    "C73_constraints_of_the_finite_rows_knn",
    "C73_constraints_of_all_rows_raise",
    "C73_unvalidated_constraints_refuted"
   ],
   "note": "Proved for constraints that number the complete rows, for both Kruskal variants; constraints that number all rows raise (theorem) or, unvalidated, hit other rows (refuted)."
  },
  {
   "property": "C74",
   "status": "proved",
   "theorems": [
    "C74_labels_of_missing_rows_do_not_matter",
    "C74_label_names_do_not_matter",
    "C74_no_label_is_refused",
    "C74_wrong_number_of_labels_is_refused",
    "C74_rows_keep_their_own_labels",
    "C74_labels_on_missing_rows_only",
    "C74_labels_below_minus_one_refuted"
   ],
   "note": "Semi-supervised fit with missing rows: own labels, irrelevance of labels of missing rows and of label names, refusals, agreement with the unsupervised fit; labels below -1 refuted."
  },
  {
   "property": "C75",
   "status": "proved",
   "theorems": [
    "C75_two_clusters",
    "C75_all_noise",
    "C75_never_one",
    "C75_two_clusters_of_a_spanning_tree",
    "C75_all_noise_of_a_spanning_tree",
    "C75_weighted_two_clusters_of_a_spanning_tree",
    "C75_weighted_all_noise_of_a_spanning_tree",
    "C75_clusters_boruvka",
    "C75_allow_single_cluster_refuted",
    "C75_single_cluster_not_allowed_refuted",
    "C75_ties_refuted"
   ],
   "note": "At least two clusters exactly when (and without ties only when) two large enough groups are apart at some distance, at fit level, for any spanning tree, weighted and Boruvka; never exactly one cluster; three expectations refuted."
  },
  {
   "property": "C76",
   "status": "proved",
   "theorems": [
    "C76_no_cluster_exceeds_the_maximum",
    "C76_no_cluster_outweighs_the_maximum",
    "C76_fit_with_a_maximum",
    "C76_missing_rows_with_a_maximum",
    "C76_weighted_clusters_with_a_maximum",
    "C76_fit_fails_refuted",
    "C76_root_off_by_one_refuted",
    "C76_epsilon_ignores_the_maximum_refuted",
    "C76_leaf_ignores_the_maximum_refuted"
   ],
   "note": "size bound at fit level and with sample weights; which outcome a maximum leads to (no epsilon, no persistence for this part), also with missing rows; four code defects refuted"
  },
  {
   "property": "C77",
   "status": "proved",
   "theorems": [
    "C77_clusters_never_cross",
    "C77_leaf_clusters",
    "C77_runs_never_cross",
    "C77_runs_with_leaf",
    "C77_hierarchy",
    "C77_stricter_hierarchy",
    "C77_weighted_runs_never_cross",
    "C77_weighted_runs_with_leaf",
    "C77_weighted_hierarchy",
    "C77_weighted_stricter_hierarchy",
    "C77_larger_settings_are_stricter",
    "C77_excess_of_mass_refuted",
    "C77_default_min_samples_refuted",
    "C77_single_cluster_with_epsilon_refuted"
   ],
   "note": "Two fits of the same data with the same min_samples: clusters nested or apart; effect of a larger min_cluster_size and persistence threshold on the hierarchy and on leaf clusters. Missing rows included; spanning-tree versions with and without sample weights. Three refuted variants are findings."
  },
  {
   "property": "C78",
   "status": "proved",
   "theorems": [
    "C78_layers_of_rows",
    "C78_layers_are_leaf_clusterings",
    "C78_layers_for_a_number_of_clusters",
    "C78_sorting_alike",
    "C78_no_split_refuted",
    "C78_ties_refuted"
   ],
   "note": "Layers of PLSCAN against 'leaf' clusterings of HDBSCAN, for all rows, any spanning tree, and base_n_clusters; refuted for unsplit hierarchies and for ties."
  },
  {
   "property": "C79",
   "status": "proved",
   "theorems": [
    "C79_fit_does_not_depend_on_the_past",
    "C79_failed_fit_keeps_results",
    "C79_results_of_the_last_success",
    "C79_answers_after_a_history",
    "C79_successful_fit_forgets_the_past",
    "C79_spanning_tree_with_its_data",
    "C79_the_algorithm_is_complete",
    "C79_what_a_lone_row_leaves",
    "C79_failed_fit_destroys_results_refuted",
    "C79_spanning_tree_of_other_data_refuted",
    "C79_plscan_parameters_refuted"
   ],
   "note": "All histories of calls on one object. The refuted theorems record three defects."
  },
  {
   "property": "C80",
   "status": "proved",
   "theorems": [
    "C80_scores_of_the_layers",
    "C80_scores_for_a_number_of_clusters",
    "C80_living_clusters_add_to_the_score",
    "C80_denser_clusters_score_lower",
    "C80_denser_clusters_refuted"
   ],
   "note": "Whole PLSCAN runs on any spanning tree with finite distances, exact arithmetic."
  },
  {
   "property": "C81",
   "status": "proved",
   "theorems": [
    "C81_epsilon_merges",
    "C81_epsilon_merges_weighted",
    "C81_fit_with_epsilon",
    "C81_no_new_noise_refuted"
   ],
   "note": "Two runs on any spanning tree, with or without weights, and two fits of any data. The stronger wish that no clustered sample becomes noise is proved for hierarchies of two levels and refuted in general."
  },
  {
   "property": "C82",
   "status": "proved",
   "theorems": [
    "C82_leaf_clusters",
    "C82_clusters_are_parts",
    "C82_hierarchy_of_a_spanning_tree",
    "C82_clusters_of_a_spanning_tree",
    "C82_weighted_clusters_of_a_spanning_tree",
    "C82_clusters_boruvka"
   ],
   "note": "The reported leaf clusters are exactly the smallest parts, at the level of fit (missing rows allowed), of any spanning tree, with sample weights, and for the tree of the parallel search; all without ties. The clusters of the condensed tree are exactly the parts."
  },
  {
   "property": "C83",
   "status": "proved",
   "theorems": [
    "C83_far_data_sets",
    "C83_excess_of_mass_refuted"
   ],
   "note": "Proved from C82 and C75: below the gap, density-connection does not leave a set; beyond it, each set is in one piece. Rows without missing values; with 'eom' it is false (C83_excess_of_mass_refuted)."
  },
  {
   "property": "C84",
   "status": "proved",
   "theorems": [
    "C84_sparse_graph_of_neighbours",
    "C84_sparse_graph_same_tree",
    "C84_wrong_number_of_rows",
    "C84_unknown_sample",
    "C84_connecting_answers_truly",
    "C84_answer_of_connect_graph_not_used"
   ],
   "note": "Both helpers complete; pynndescent's own functions are parameters."
  },
  {
   "property": "C85",
   "status": "proved",
   "theorems": [
    "C85_unit_of_weights_kruskal",
    "C85_unit_of_weights_boruvka",
    "C85_unit_of_weights_leaf",
    "C85_excess_of_mass_refuted",
    "C85_weights_of_one"
   ],
   "note": "Whole runs from weights to labels; weights of one refer to the clusters of a given spanning tree (core distances differ, see C51_unit_weights_refuted)."
  },
  {
   "property": "C86",
   "status": "proved",
   "theorems": [
    "C86_fit_does_not_depend_on_the_past",
    "C86_failed_fit_keeps_results",
    "C86_results_of_the_last_success",
    "C86_answers_after_a_history",
    "C86_successful_fit_forgets_the_past",
    "C86_fit_without_labels_is_refused",
    "C86_one_label_is_enough",
    "C86_one_label_is_enough_for_graphs",
    "C86_labelled_rows_are_complete",
    "C86_graphs_are_complete",
    "C86_spanning_tree_withheld_refuted",
    "C86_tree_of_a_graph_with_features_refuted"
   ],
   "note": "Histories of calls of all three kinds of fit. The results are always those of the last success; the two _refuted theorems record that the data shown with the spanning tree need not be those it was made from. Sample weights enter as part of the rows; scikit-learn's validators are parameters."
  },
  {
   "property": "C87",
   "status": "proved",
   "theorems": [
    "C87_layer_tree_never_fails",
    "C87_layers_are_proper",
    "C87_fit_does_not_depend_on_the_past",
    "C87_fit_and_fit_predict",
    "C87_results_of_the_last_success",
    "C87_one_label_for_every_sample",
    "C87_successful_fit_forgets_the_past"
   ],
   "note": "Histories of PLSCAN objects; the history theorems need proper_layers of the algorithm, which C87_layers_are_proper proves of build_cluster_layers for every spanning tree back end."
  },
  {
   "property": "C88",
   "status": "proved",
   "theorems": [
    "C88_results_of_the_last_success",
    "C88_failed_fit_changes_nothing",
    "C88_successful_fit_forgets_the_past",
    "C88_propagated_labels_of_the_last_success",
    "C88_propagating_later_or_fitting_again",
    "C88_labels_and_strengths_given",
    "C88_what_is_refused",
    "C88_detector_sees_the_latest_fit",
    "C88_detection_on_other_data_refuted"
   ],
   "note": "all histories of calls, all clusterers; the statement about data after a failing HDBSCAN.fit is false of the code and refuted by a concrete run"
  },
  {
   "property": "C89",
   "status": "proved",
   "theorems": [
    "C89_reported_hierarchies",
    "C89_missing_rows",
    "C89_branch_detector"
   ],
   "note": "linkage_trees_ and condensed_trees_ of detectors, with and without missing rows; the plotting wrappers of the hdbscan package are not modelled."
  }
 ]
}
