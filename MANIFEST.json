{
 "claims": [
  {
   "property": "C01",
   "status": "proved",
   "theorems": [
    "C01_sorted_tuple_keeps_partition"
   ],
   "note": ""
  },
  {
   "property": "C02",
   "status": "proved",
   "theorems": [
    "C02_sorted_tuple_is_canonical"
   ],
   "note": ""
  },
  {
   "property": "C03",
   "status": "proved",
   "theorems": [
    "C03_sorted_tuple_complete_invariant",
    "C03_sorted_tuple_idempotent"
   ],
   "note": ""
  },
  {
   "property": "C04",
   "status": "proved",
   "theorems": [
    "C04_memoisation_unobservable"
   ],
   "note": ""
  },
  {
   "property": "C05",
   "status": "proved",
   "theorems": [
    "C05_parallel_gammas",
    "C05_serial_gammas",
    "C05_parallel_equals_serial"
   ],
   "note": "Every scheduler order, optimiser answer (indexed by run) and core count. Workers' pickled copies modelled as a graph value shared within a chunk."
  },
  {
   "property": "C06",
   "status": "proved",
   "theorems": [
    "C06_parallel_grid",
    "C06_serial_grid",
    "C06_parallel_equals_serial",
    "C06_grid_positions",
    "C06_fresh_copies"
   ],
   "note": "Workers may start with any split cache whose entries for the worker's own copies are correct (automatic for new objects with edges)."
  },
  {
   "property": "C07",
   "status": "proved",
   "theorems": [
    "C07_chunk_dispatch",
    "C07_serial",
    "C07_package_required",
    "C07_capability_check"
   ],
   "note": "For nonempty grids of at most 2^53 pairs (the chunk count is computed through a binary64 division); low-memory answers and completion orders are oracles."
  },
  {
   "property": "C08",
   "status": "proved",
   "theorems": [
    "C08_nonempty_grid",
    "C08_empty_grid"
   ],
   "note": "The unrestricted claim is false of the code: empty grids with the bar raise ZeroDivisionError (C08_empty_grid is exact); proved for nonempty grids."
  },
  {
   "property": "C09",
   "status": "proved",
   "theorems": [
    "C09_split_by_layer",
    "C09_errors"
   ],
   "note": ""
  },
  {
   "property": "C10",
   "status": "proved",
   "theorems": [
    "C10_cache_is_current",
    "C10_stale_after_reweighting"
   ],
   "note": "The unrestricted claim is false of the code; proved for histories without same-size in-place changes, and the counterexample is proved."
  },
  {
   "property": "C100",
   "status": "proved",
   "theorems": [
    "C100_trial",
    "C100_skipped",
    "C100_shares",
    "C100_probabilities",
    "C100_grid",
    "C100_planted",
    "C100_file",
    "C100_complete_run",
    "C100_realizations_swapped"
   ],
   "note": "Exact reals. igraph's SBM and is_connected, leidenalg and scipy are oracles with their contracts; a line is printed as a whole."
  },
  {
   "property": "C101",
   "status": "proved",
   "theorems": [
    "C101_hierarchical_raises",
    "C101_hierarchical_stable",
    "C101_bars",
    "C101_not_a_probability",
    "C101_twenty_communities",
    "C101_accepted",
    "C101_pictures",
    "C101_karate"
   ],
   "note": "Exact reals. C101_hierarchical_raises, C101_not_a_probability and C101_pictures record defects. Drawing is not modelled."
  },
  {
   "property": "C102",
   "status": "proved",
   "theorems": [
    "C102_consistent",
    "C102_both_scripts",
    "C102_kept",
    "C102_figures",
    "C102_truncated",
    "C102_can_be_truncated",
    "C102_resume",
    "C102_remove_with_dependents",
    "C102_stale_results"
   ],
   "note": "A dump is modelled as truncation followed by the complete content; a process is killed between two changes of the directory; one process at a time. The last three theorems record limits."
  },
  {
   "property": "C103",
   "status": "proved",
   "theorems": [
    "C103_movements",
    "C103_differences",
    "C103_arrows",
    "C103_both_scripts"
   ],
   "note": "Exact reals. The optimiser is an oracle; the estimates are those of C30-C38."
  },
  {
   "property": "C104",
   "status": "proved",
   "theorems": [
    "C104_domains",
    "C104_partitions",
    "C104_stored_domains",
    "C104_both_scripts"
   ],
   "note": "Exact reals. leidenalg, the pool, the linear programs and the half-space intersection are oracles with their contracts."
  },
  {
   "property": "C105",
   "status": "proved",
   "theorems": [
    "C105_consistent",
    "C105_kept",
    "C105_figures",
    "C105_truncated",
    "C105_unread",
    "C105_partitions_truncated",
    "C105_can_be_truncated",
    "C105_resume",
    "C105_remove_with_dependents",
    "C105_stale_results"
   ],
   "note": "A dump is modelled as truncation followed by the complete content; one process at a time. Example (Properties_lawrun.v): a whole run for a firm of 71 persons."
  },
  {
   "property": "C106",
   "status": "proved",
   "theorems": [
    "C106_partitions",
    "C106_domains",
    "C106_script",
    "C106_estimates",
    "C106_margins",
    "C106_margins_differ",
    "C106_order",
    "C106_matrix",
    "C106_draws"
   ],
   "note": "Exact reals. leidenalg, the pool, the linear programs, the half-space intersection, fsolve and matplotlib are oracles. print_metadata_nmis, which nothing calls, is C111."
  },
  {
   "property": "C107",
   "status": "proved",
   "theorems": [
    "C107_probabilities",
    "C107_true_gamma",
    "C107_estimate",
    "C107_gap",
    "C107_test_passes",
    "C107_test_sound",
    "C107_points"
   ],
   "note": "Exact reals. igraph's SBM generator and leidenalg are oracles: the networks drawn and the partitions found are arbitrary, or as each theorem says. Example for every q: a ring of 250-vertex communities (C107_example)."
  },
  {
   "property": "C108",
   "status": "proved",
   "theorems": [
    "C108_pairs",
    "C108_points",
    "C108_arrows",
    "C108_one_run",
    "C108_histograms",
    "C108_total"
   ],
   "note": "Exact reals. The optimisers and numpy's histogram are oracles; titles, limits and colours are not modelled. Examples: two triangles joined by an edge; a histogram of three estimates."
  },
  {
   "property": "C109",
   "status": "proved",
   "theorems": [
    "C109_exact_2D",
    "C109_passes_2D",
    "C109_per_layer",
    "C109_exact_3D",
    "C109_passes_3D"
   ],
   "note": "Exact reals; unittest's assertAlmostEqual is its documented inequality (ties included). The quality functions of leidenalg are their documented formulas. Examples: C109_example_2D, C109_example_3D."
  },
  {
   "property": "C11",
   "status": "proved",
   "theorems": [
    "C11_singlelayer",
    "C11_multilayer",
    "C11_vertex_count_list",
    "C11_gamma_estimate",
    "C11_estimate_multilayer",
    "C11_gamma_omega_estimate",
    "C11_iterative_monolayer",
    "C11_iterative_multilayer",
    "C11_prune",
    "C11_prune_multilayer"
   ],
   "note": "The answer of 'weight' in G.es is an oracle (igraph iterates over edges there, so in practice it is always False and existing weights are overwritten)."
  },
  {
   "property": "C110",
   "status": "proved",
   "theorems": [
    "C110_sampled",
    "C110_points_and_lines",
    "C110_right_panel",
    "C110_envelope"
   ],
   "note": "Exact reals; the louvain package's runs and CHAMP's solvers are oracles. Colours, labels and limits are not modelled. Example: a path of three vertices, corners at 4/3 and 2 (C110_example)."
  },
  {
   "property": "C111",
   "status": "proved",
   "theorems": [
    "C111_printed",
    "C111_outcomes"
   ],
   "note": "sklearn's nmi and the reading of the file into numbers are oracles; the rounding to three decimals is not modelled. Example: C111_example."
  },
  {
   "property": "C112",
   "status": "proved",
   "theorems": [
    "C112_documented_network",
    "C112_refuted_size"
   ],
   "note": "The random numbers are arbitrary. Example: C112_documented_network_example (the ground truth of the plotting example, too)."
  },
  {
   "property": "C113",
   "status": "proved",
   "theorems": [
    "C113_documented_stable",
    "C113_returns",
    "C113_passes",
    "C113_passing",
    "C113_passes_exactly"
   ],
   "note": "Exact reals; leidenalg and the routines behind CHAMP are oracles within their contracts. Examples: C113_documented_stable_example (a ring), C113_returns_example."
  },
  {
   "property": "C114",
   "status": "proved",
   "theorems": [
    "C114_checks",
    "C114_documented_stable",
    "C114_returns",
    "C114_passes",
    "C114_refuted_blocks"
   ],
   "note": "Exact reals; leidenalg and the routines behind CHAMP_3D are oracles within their contracts. Examples: C114_checks_example, C114_documented_stable_example."
  },
  {
   "property": "C115",
   "status": "proved",
   "theorems": [
    "C115_singlelayer",
    "C115_exact",
    "C115_exact_multilayer",
    "C115_passes",
    "C115_temporal",
    "C115_multiplex",
    "C115_first_only",
    "C115_refuted_coverage"
   ],
   "note": "Exact reals; Leiden's partitions are arbitrary lists. Examples: C115_passes_example, C115_temporal_example."
  },
  {
   "property": "C116",
   "status": "proved",
   "theorems": [
    "C116_truth",
    "C116_estimate",
    "C116_gap",
    "C116_temporal_passes",
    "C116_multiplex_passes",
    "C116_temporal_sound",
    "C116_multiplex_sound"
   ],
   "note": "Exact reals; the optimiser and (for multiplex) the root finder are oracles within the stated contracts. Example: C116_temporal_passes_example (two layers of two communities of 50), C116_multiplex_passes_example."
  },
  {
   "property": "C117",
   "status": "proved",
   "theorems": [
    "C117_arrays",
    "C117_undirected",
    "C117_balanced",
    "C117_to_directed",
    "C117_edgeless",
    "C117_same_domains"
   ],
   "note": "Exact reals; the champ package's summation over communities and igraph's adjacency matrix are environment models (self-loops counted once or twice). Examples: C117_example, C117_example_directed, C117_example_edgeless."
  },
  {
   "property": "C118",
   "status": "proved",
   "theorems": [
    "C118_type_error",
    "C118_never_stored",
    "C118_repaired",
    "C118_repaired_returns"
   ],
   "note": "Exact reals; measured durations and leidenalg are oracles, the routines behind CHAMP within their contracts. Example: C118_example (a ring, 0 and 20 resolutions)."
  },
  {
   "property": "C119",
   "status": "proved",
   "theorems": [
    "C119_benchmark",
    "C119_ends",
    "C119_never_ends"
   ],
   "note": "Measured durations are oracles. Example: C119_example (as called: 100 iterations, 60 seconds)."
  },
  {
   "property": "C12",
   "status": "proved",
   "theorems": [
    "C12_coefficients_are_modularity_undirected"
   ],
   "note": ""
  },
  {
   "property": "C120",
   "status": "proved",
   "theorems": [
    "C120_singlelayer",
    "C120_multilayer",
    "C120_passes_singlelayer",
    "C120_passes_multilayer"
   ],
   "note": "Exact reals; durations and utilization are oracles that scale linearly. Example: C120_example."
  },
  {
   "property": "C121",
   "status": "proved",
   "theorems": [
    "C121_scales",
    "C121_nested",
    "C121_densities",
    "C121_three_blocks",
    "C121_three_block_densities"
   ],
   "note": "igraph's sampler is an oracle; layout and rendering are not modelled. Example: C121_example."
  },
  {
   "property": "C13",
   "status": "proved",
   "theorems": [
    "C13_coefficients_are_modularity_directed"
   ],
   "note": ""
  },
  {
   "property": "C14",
   "status": "proved",
   "theorems": [
    "C14_coefficients_are_multilayer_modularity"
   ],
   "note": ""
  },
  {
   "property": "C15",
   "status": "proved",
   "theorems": [
    "C15_parallel_coefficients_equal_serial"
   ],
   "note": "floor(i*len/cpus) is computed with binary64 rounding (Flocq); len <= 2^53"
  },
  {
   "property": "C16",
   "status": "proved",
   "theorems": [
    "C16_coefficients_ignore_labels",
    "C16_coefficients_bounded"
   ],
   "note": ""
  },
  {
   "property": "C17",
   "status": "proved",
   "theorems": [
    "C17_halfspaces_encode_quality_2D",
    "C17_halfspaces_encode_quality_3D"
   ],
   "note": ""
  },
  {
   "property": "C18",
   "status": "proved",
   "theorems": [
    "C18_box_keeps_envelope_2D",
    "C18_box_keeps_envelope_3D"
   ],
   "note": ""
  },
  {
   "property": "C19",
   "status": "proved",
   "theorems": [
    "C19_interior_exists_iff_2D",
    "C19_interior_exists_iff_3D",
    "C19_interior_exists_undirected",
    "C19_interior_exists_undirected_3D"
   ],
   "note": ""
  },
  {
   "property": "C20",
   "status": "proved",
   "theorems": [
    "C20_interior_point_sound",
    "C20_interior_point_stops",
    "C20_zero_sample_diverges"
   ],
   "note": ""
  },
  {
   "property": "C21",
   "status": "proved",
   "theorems": [
    "C21_ranges_are_optimal",
    "C21_C22_C23_realisable"
   ],
   "note": "scipy's HalfspaceIntersection is assumed exact (exact_hsi); the contract is proved satisfiable for every input"
  },
  {
   "property": "C22",
   "status": "proved",
   "theorems": [
    "C22_ranges_cover",
    "C22_strictly_best_is_returned"
   ],
   "note": "relative to exact_hsi"
  },
  {
   "property": "C23",
   "status": "proved",
   "theorems": [
    "C23_ranges_well_formed",
    "C23_empty_input",
    "C23_returns"
   ],
   "note": "relative to exact_hsi"
  },
  {
   "property": "C24",
   "status": "proved",
   "theorems": [
    "C24_domains_are_optimal",
    "C24_C25_C26_realisable"
   ],
   "note": "relative to exact_hsi"
  },
  {
   "property": "C25",
   "status": "proved",
   "theorems": [
    "C25_domains_cover",
    "C25_strictly_best_is_returned",
    "C25_each_input_at_most_once",
    "C25_returns"
   ],
   "note": "relative to exact_hsi"
  },
  {
   "property": "C26",
   "status": "proved",
   "theorems": [
    "C26_corners_only",
    "C26_corners_realisable",
    "C26_domain_is_facet",
    "C26_sorted_by_angle",
    "C26_turns_clockwise",
    "C26_consecutive_are_edges"
   ],
   "note": ""
  },
  {
   "property": "C27",
   "status": "proved",
   "theorems": [
    "C27_estimates",
    "C27_balance",
    "C27_unit_weights"
   ],
   "note": "Any real weights, whenever the divisions are defined (C30 says when)."
  },
  {
   "property": "C28",
   "status": "proved",
   "theorems": [
    "C28_adjacency_and_partition",
    "C28_representation",
    "C28_gamma_estimate"
   ],
   "note": ""
  },
  {
   "property": "C29",
   "status": "proved",
   "theorems": [
    "C29_log_mean",
    "C29_symmetric_homogeneous",
    "C29_degenerate"
   ],
   "note": "Exact real logarithm; equal parameters give nan in the code, NonFinite in the model."
  },
  {
   "property": "C30",
   "status": "proved",
   "theorems": [
    "C30_exact",
    "C30_refuted"
   ],
   "note": "The unrestricted claim is false of the code; C30_exact says exactly when it fails, C30_refuted is the counterexample."
  },
  {
   "property": "C31",
   "status": "proved",
   "theorems": [
    "C31_estimates",
    "C31_positive_weights",
    "C31_given_values",
    "C31_given_own"
   ],
   "note": "Given N, Nt and m_t are used as given (C31_given_values). Any real weights on valid networks, whenever the expected weight within communities is not zero; with positive weights that always holds."
  },
  {
   "property": "C32",
   "status": "proved",
   "theorems": [
    "C32_persistence"
   ],
   "note": ""
  },
  {
   "property": "C33",
   "status": "proved",
   "theorems": [
    "C33_probability",
    "C33_multiplex"
   ],
   "note": "Multiplex: assumes the answer of fsolve to this very equation is a root of it."
  },
  {
   "property": "C34",
   "status": "proved",
   "theorems": [
    "C34_unique_solution",
    "C34_increasing",
    "C34_small_persistence",
    "C34_equation",
    "C34_no_solution"
   ],
   "note": "C34_no_solution: below 1/K there may be no real root at all."
  },
  {
   "property": "C35",
   "status": "proved",
   "theorems": [
    "C35_formula",
    "C35_increasing",
    "C35_layers",
    "C35_no_between"
   ],
   "note": "Multiplex with theta_in = 1 exactly is special-cased by the code to omega_max and excluded."
  },
  {
   "property": "C36",
   "status": "proved",
   "theorems": [
    "C36_refuted",
    "C36_exact"
   ],
   "note": "The bound is false of the code: C36_refuted shows it for all parameters; C36_exact says which values are returned."
  },
  {
   "property": "C37",
   "status": "proved",
   "theorems": [
    "C37_exact",
    "C37_refuted_log",
    "C37_refuted_division"
   ],
   "note": "The unrestricted claim is false of the code; C37_exact says exactly when it fails, the other two are counterexamples."
  },
  {
   "property": "C38",
   "status": "proved",
   "theorems": [
    "C38_single_layer_filter",
    "C38_determined"
   ],
   "note": ""
  },
  {
   "property": "C39",
   "status": "proved",
   "theorems": [
    "C39_point_in_polygon",
    "C39_boundary_is_not_interior",
    "C39_interior_is_inside",
    "C39_kept_is_inside",
    "C39_nan_is_kept",
    "C39_degenerate"
   ],
   "note": "nan estimates and domains with no area are always kept by the code: C39_nan_is_kept and C39_degenerate."
  },
  {
   "property": "C40",
   "status": "proved",
   "theorems": [
    "C40_prune_sound",
    "C40_realisable"
   ],
   "note": "Assumes the LP solver and halfspace intersection work as documented."
  },
  {
   "property": "C41",
   "status": "proved",
   "theorems": [
    "C41_prune_complete",
    "C41_prune_returns"
   ],
   "note": "Assumes the LP solver and halfspace intersection work as documented."
  },
  {
   "property": "C42",
   "status": "proved",
   "theorems": [
    "C42_guarantees_transfer",
    "C42_same_outcome",
    "C42_nothing_considered",
    "C42_relabelled"
   ],
   "note": ""
  },
  {
   "property": "C43",
   "status": "proved",
   "theorems": [
    "C43_multilayer_prune_sound",
    "C43_nan_is_returned",
    "C43_refuted",
    "C43_realisable"
   ],
   "note": "Unconditional soundness is false of the code (nan estimates, degenerate domains): proved for numeric estimates and domains with area; C43_nan_is_returned is the exception."
  },
  {
   "property": "C44",
   "status": "proved",
   "theorems": [
    "C44_single_threaded",
    "C44_warnings",
    "C44_warnings_do_not_matter",
    "C44_partition_objects"
   ],
   "note": ""
  },
  {
   "property": "C45",
   "status": "proved",
   "theorems": [
    "C45_outcome",
    "C45_determined",
    "C45_returned",
    "C45_calls_bounded",
    "C45_degenerate"
   ],
   "note": "For every optimiser oracle; exact outcome incl. exceptions, and the caller's view."
  },
  {
   "property": "C46",
   "status": "proved",
   "theorems": [
    "C46_outcome",
    "C46_rejected",
    "C46_determined",
    "C46_returned",
    "C46_estimates"
   ],
   "note": "For every optimiser oracle; the valid/rejected split is exact (structural rules and known model)."
  },
  {
   "property": "C47",
   "status": "proved",
   "theorems": [
    "C47_independent",
    "C47_history",
    "C47_refuted"
   ],
   "note": "Holds for max_iter >= 1; for max_iter <= 0 the exact leaked value over any sequence of calls is characterised (finding)."
  },
  {
   "property": "C48",
   "status": "proved",
   "theorems": [
    "C48_exact",
    "C48_accepted",
    "C48_missing_counts",
    "C48_short_layer_vector",
    "C48_valid"
   ],
   "note": ""
  },
  {
   "property": "C49",
   "status": "proved",
   "theorems": [
    "C49_communities_partition_nodes",
    "C49_layered_communities_partition_nodes"
   ],
   "note": ""
  },
  {
   "property": "C50",
   "status": "proved",
   "theorems": [
    "C50_num_communities_exact",
    "C50_num_communities_errors",
    "C50_num_communities_of_canonical"
   ],
   "note": ""
  },
  {
   "property": "C51",
   "status": "proved",
   "theorems": [
    "C51_multilayer_objective",
    "C51_singlelayer_objective",
    "C51_objective_equals_coefficients",
    "C51_multilayer_leiden_optimises",
    "C51_singlelayer_leiden_optimises"
   ],
   "note": "leidenalg's quality functions are specified from its documentation in Spec_leiden.v."
  },
  {
   "property": "C52",
   "status": "proved",
   "theorems": [
    "C52_bar",
    "C52_monotone",
    "C52_lifecycle",
    "C52_rejects"
   ],
   "note": "The quotient length*i/total is a binary64 division; the floor is exact while length*i < 2^53."
  },
  {
   "property": "C53",
   "status": "proved",
   "theorems": [
    "C53_cut",
    "C53_deprecated_names",
    "C53_missing_name_is_None"
   ],
   "note": "The last part of the claim is false of the code: other missing names evaluate to None, which is what is proved."
  },
  {
   "property": "C54",
   "status": "proved",
   "theorems": [
    "C54_colours",
    "C54_raises",
    "C54_every_colouring",
    "C54_every_dead_end",
    "C54_enough_colours",
    "C54_too_few_colours"
   ],
   "note": "For every fair environment (a sample lies in its population, orders are permutations). The exact outcomes are characterised: proper colourings from the palette, or ValueError at a dead end; both occur for some choices whenever possible."
  },
  {
   "property": "C55",
   "status": "proved",
   "theorems": [
    "C55_arrays",
    "C55_unequal_layers",
    "C55_refuted",
    "C55_rejected"
   ],
   "note": "Proved for numpy arrays (exact outcome for every pair of arrays). Finding: for the documented tuple/list types every cell shows the community of vertex 0 (C55_refuted)."
  },
  {
   "property": "C56",
   "status": "proved",
   "theorems": [
    "C56_omega_function",
    "C56_persistence_function",
    "C56_method",
    "C56_estimates"
   ],
   "note": "All strings; note the multilevel model needs Nt, T and layer_vec."
  },
  {
   "property": "C57",
   "status": "proved",
   "theorems": [
    "C57_multilayer_prune_complete",
    "C57_multilayer_prune_returns"
   ],
   "note": "Assumes the intersection routine reports each corner of a facet exactly once (irredundant_hsi), which C43_realisable shows satisfiable."
  },
  {
   "property": "C58",
   "status": "proved",
   "theorems": [
    "C58_weights_are_ignored",
    "C58_weights_are_ignored_multilayer",
    "C58_refuted"
   ],
   "note": "Proved for graphs where 'weight' in G.es answers False (what igraph does); C58_refuted shows it fails when it answers True."
  },
  {
   "property": "C59",
   "status": "proved",
   "theorems": [
    "C59_single_threaded_CHAMP",
    "C59_single_threaded_prune"
   ],
   "note": ""
  },
  {
   "property": "C60",
   "status": "proved",
   "theorems": [
    "C60_estimates",
    "C60_same_figure"
   ],
   "note": "Domains are non-empty polygons, windows are not inverted."
  },
  {
   "property": "C61",
   "status": "proved",
   "theorems": [
    "C61_values",
    "C61_raises"
   ],
   "note": "Finding: C61_refuted_example, a domain containing the whole window is not drawn."
  },
  {
   "property": "C62",
   "status": "proved",
   "theorems": [
    "C62_values"
   ],
   "note": "AMI is an arbitrary function (sklearn is not modelled)."
  },
  {
   "property": "C63",
   "status": "proved",
   "theorems": [
    "C63_figure"
   ],
   "note": "Contract: matplotlib's axis limits contain the lines drawn. nan estimates give an arrow to (nan, top)."
  },
  {
   "property": "C64",
   "status": "proved",
   "theorems": [
    "C64_leiden_part",
    "C64_multilayer_leiden_parts",
    "C64_return_partition",
    "C64_multilayer_louvain_parts"
   ],
   "note": "leidenalg's quality functions are specified in Spec_leiden.v; set_membership rejecting a wrong length is an environment assumption."
  },
  {
   "property": "C65",
   "status": "proved",
   "theorems": [
    "C65_run_is_optimal",
    "C65_multilayer_run_is_optimal",
    "C65_ranges_globally_optimal_at_samples",
    "C65_ranges_globally_optimal_between_samples",
    "C65_domains_globally_optimal"
   ],
   "note": "Conditional on a maximising optimiser (Spec_pipeline.v; exhaustive search is shown to be one)."
  },
  {
   "property": "C66",
   "status": "proved",
   "theorems": [
    "C66_range_is_where_optimal",
    "C66_range_is_proper",
    "C66_returned_iff_optimal_twice",
    "C66_C67_C68_realisable"
   ],
   "note": "Contract on the intersection routine as in C21; properness and the equivalence also need each corner of a facet to be reported once (irredundant_hsi)."
  },
  {
   "property": "C67",
   "status": "proved",
   "theorems": [
    "C67_ranges_tile",
    "C67_ranges_do_not_overlap",
    "C67_order_of_partitions"
   ],
   "note": "As C66."
  },
  {
   "property": "C68",
   "status": "proved",
   "theorems": [
    "C68_same_ranges",
    "C68_same_list",
    "C68_same_domains",
    "C68_same_domain_list",
    "C68_C69_realisable"
   ],
   "note": "The two runs may use different oracles that each meet the contract (irredundant, in 3D full facets only)."
  },
  {
   "property": "C69",
   "status": "proved",
   "theorems": [
    "C69_domain_is_where_optimal",
    "C69_domain_is_convex_polygon",
    "C69_strictly_best_inside",
    "C69_domains_do_not_overlap"
   ],
   "note": "Convexity and inner points need irredundant_hsi and full_facets_hsi."
  },
  {
   "property": "C70",
   "status": "proved",
   "theorems": [
    "C70_prune_characterised",
    "C70_multilayer_prune_characterised",
    "C70_multilayer_prune_sound",
    "C70_C71_realisable",
    "C70_C71_realisable_3D"
   ],
   "note": "Multilayer partitions with a nan gamma estimate are treated in C43_nan_is_returned."
  },
  {
   "property": "C71",
   "status": "proved",
   "theorems": [
    "C71_prune_reproducible",
    "C71_multilayer_prune_reproducible"
   ],
   "note": "Both runs return; same fsolve, connectivity test and weight test."
  },
  {
   "property": "C72",
   "status": "proved",
   "theorems": [
    "C72_finds_interior_point",
    "C72_reports_degenerate",
    "C72_chebyshev_centre",
    "C72_champ_systems_end_with_box",
    "C72_working_routines_exist",
    "C72_CHAMP_2D_total",
    "C72_CHAMP_3D_total",
    "C72_prune_total",
    "C23_returns",
    "C25_returns",
    "C41_prune_returns",
    "C57_multilayer_prune_returns"
   ],
   "note": "The last four are stated with the solver-level contract working_solver; C72_working_routines_exist realises it (Fourier-Motzkin elimination)."
  },
  {
   "property": "C73",
   "status": "proved",
   "theorems": [
    "C73_possible_parameters",
    "C73_gamma_bound",
    "C73_two_communities",
    "C73_equal_volumes",
    "C73_attained",
    "C73_multilayer",
    "C73_beats_one_community",
    "C73_guarded",
    "C73_gamma_max",
    "C73_gamma_max_bounds"
   ],
   "note": "C73_beats_one_community is stated for undirected graphs whose weights are absent or all 1."
  },
  {
   "property": "C74",
   "status": "proved",
   "theorems": [
    "C74_contour",
    "C74_boundary",
    "C74_involution",
    "C74_bands",
    "C74_branches_exist"
   ],
   "note": "lambertw is a parameter with the contract Spec_lambert.lambert, which C74_branches_exist realises."
  },
  {
   "property": "C75",
   "status": "proved",
   "theorems": [
    "C75_crossing",
    "C75_limit",
    "C75_estimates"
   ],
   "note": "Formulas over the reals; the delta of the plot is d here."
  },
  {
   "property": "C76",
   "status": "proved",
   "theorems": [
    "C76_coefficients_2D",
    "C76_modularity"
   ],
   "note": "Flocq binary64 (gradual underflow; overflow excluded by the size bound)."
  },
  {
   "property": "C77",
   "status": "proved",
   "theorems": [
    "C77_coefficients_3D"
   ],
   "note": "Same rounding model; sums from left to right."
  },
  {
   "property": "C78",
   "status": "proved",
   "theorems": [
    "C78_parameters",
    "C78_gamma_estimate"
   ],
   "note": "Unit weights; the logarithm is a parameter with a relative error bound, met by a correctly rounded one (C78_log)."
  },
  {
   "property": "C79",
   "status": "proved",
   "theorems": [
    "C79_ranges",
    "C79_ranges_double",
    "C79_domains_double",
    "C79_ranges_cover",
    "C79_domains_cover",
    "C79_exact_contract",
    "C79_ranges_realisable",
    "C79_domains_realisable"
   ],
   "note": "Rounding in forming and normalising the halfspace rows is part of the tolerance eps of the intersection, not modelled separately; no completeness is claimed for eps > 0."
  },
  {
   "property": "C80",
   "status": "proved",
   "theorems": [
    "C80_prune_sound",
    "C80_prune_complete",
    "C80_realisable"
   ],
   "note": "Single-layer graphs; label vectors as input; the logarithm and the intersection are parameters with error bounds; completeness for an exact intersection only."
  },
  {
   "property": "C81",
   "status": "proved",
   "theorems": [
    "C81_check_is_exact",
    "C81_champ_passes"
   ],
   "note": "Exact reals; CHAMP_2D with an exact intersection routine (C21, C22)."
  },
  {
   "property": "C82",
   "status": "proved",
   "theorems": [
    "C82_inside_test",
    "C82_check_is_exact",
    "C82_champ_passes"
   ],
   "note": "Exact reals; CHAMP_3D with an intersection routine that reports full facets by their corners (C68_C69_realisable)."
  },
  {
   "property": "C83",
   "status": "proved",
   "theorems": [
    "C83_manual_plot_is_argmax",
    "C83_agrees_with_champ",
    "C83_no_partitions"
   ],
   "note": "The quality of louvain's layered partition object is assumed to be its documented formula."
  },
  {
   "property": "C84",
   "status": "proved",
   "theorems": [
    "C84_multilayer_connectivity_warning",
    "C84_single_layer_warnings"
   ],
   "note": "igraph's is_connected is an environment contract (graphs with at least one vertex)."
  },
  {
   "property": "C85",
   "status": "proved",
   "theorems": [
    "C85_same_network",
    "C85_coefficients",
    "C85_CHAMP",
    "C85_gamma_estimate",
    "C85_gamma_omega_estimate",
    "C85_prune"
   ],
   "note": "Exact reals; estimates and pruning for unweighted graphs (or all weights 1); the multilayer estimates for networks that pass the structural check."
  },
  {
   "property": "C86",
   "status": "proved",
   "theorems": [
    "C86_coefficients_decrease",
    "C86_multilayer",
    "C86_experiment_exact",
    "C86_communities_can_decrease"
   ],
   "note": "Exact reals. The last theorem is the counterexample that the experiment looks for, with global optimality over all partitions."
  },
  {
   "property": "C87",
   "status": "proved",
   "theorems": [
    "C87_loop_detection_exact",
    "C87_stable_or_loop",
    "C87_pruned_to_nothing",
    "C87_loop_pair",
    "C87_loop_pair_detected"
   ],
   "note": "Exact reals; unweighted modularity. C87_example: a four-vertex path where pruning two partitions on [0, 2] returns []."
  },
  {
   "property": "C88",
   "status": "proved",
   "theorems": [
    "C88_narrower_interval",
    "C88_fewer_inputs",
    "C88_batches",
    "C88_twice",
    "C88_smaller_rectangle",
    "C88_multilayer_batches",
    "C88_prune_fewer_inputs",
    "C88_multilayer_prune_fewer_inputs",
    "C88_prune_after_CHAMP"
   ],
   "note": "Exact reals; partitions pairwise distinguishable by modularity (no two with the same quality everywhere). CHAMP_3D results up to order of the list."
  },
  {
   "property": "C89",
   "status": "proved",
   "theorems": [
    "C89_modularity",
    "C89_CHAMP",
    "C89_gamma_estimate",
    "C89_gamma_omega_estimate",
    "C89_prune",
    "C89_multilayer_prune"
   ],
   "note": "Exact reals; multilayer estimates for networks that pass the structural check, with positive weights; pruning for distinguishable partitions (multilayer: whose gamma estimate is a number)."
  },
  {
   "property": "C90",
   "status": "proved",
   "theorems": [
    "C90_sum",
    "C90_thetas",
    "C90_persistence",
    "C90_probability",
    "C90_multiplex"
   ],
   "note": "Unit weights, at most 2^24 intralayer edges and 2^51 interlayer edges. In the multiplex model the probability is the root finder's answer to the equation of the rounded persistence (C90_multiplex), as the root finder is not modelled."
  },
  {
   "property": "C91",
   "status": "proved",
   "theorems": [
    "C91_gamma_omega",
    "C91_temporal_extremes",
    "C91_multiplex",
    "C91_multiplex_extremes"
   ],
   "note": "Unit weights and the sizes of C90. theta_in > 0 and both parameters further from 1 than their rounding error, as rounding could otherwise change their order; in the multiplex model the omega estimate is compared with the formula at the probability the root finder returned."
  },
  {
   "property": "C92",
   "status": "proved",
   "theorems": [
    "C92_layered_network",
    "C92_errors",
    "C92_temporal",
    "C92_multiplex",
    "C92_refuted_size",
    "C92_synthetic_returned",
    "C92_synthetic_network",
    "C92_mean_degree"
   ],
   "note": "Draws are universally quantified functions; no probabilities. C92_refuted_size is the counterexample with an isolated last vertex. The synthetic loop may run forever; the statement is about what it returns."
  },
  {
   "property": "C93",
   "status": "proved",
   "theorems": [
    "C93_network",
    "C93_assertions",
    "C93_accepted",
    "C93_refuted_couplings",
    "C93_persistence"
   ],
   "note": "From the adjacency matrices on; reading the data files is not modelled. N is a parameter (71 in the code). C93_refuted_couplings: the couplings are not those of a multiplex network."
  },
  {
   "property": "C94",
   "status": "proved",
   "theorems": [
    "C94_expected_degrees",
    "C94_densities",
    "C94_network",
    "C94_errors"
   ],
   "note": "igraph's SBM and is_connected are arbitrary (environment); igraph's rejection of its arguments is modelled as ValueError."
  },
  {
   "property": "C95",
   "status": "proved",
   "theorems": [
    "C95_multilayer",
    "C95_connected",
    "C95_partition",
    "C95_partition_runs",
    "C95_partitions"
   ],
   "note": "igraph's graphs and connectedness test are arbitrary; draws are universally quantified."
  },
  {
   "property": "C96",
   "status": "proved",
   "theorems": [
    "C96_between_propensity",
    "C96_gamma_estimates",
    "C96_nan",
    "C96_multilayer",
    "C96_maxmean",
    "C96_points",
    "C96_one_community",
    "C96_maximum_gammas",
    "C96_figure",
    "C96_boxplot_results",
    "C96_giant_component",
    "C96_run_louvain"
   ],
   "note": "Exact reals. Reading the data files, the process pool and drawing are not modelled; louvain is an arbitrary function of the resolution whose answers use each label."
  },
  {
   "property": "C97",
   "status": "proved",
   "theorems": [
    "C97_repeated",
    "C97_modularity",
    "C97_CHAMP_2D",
    "C97_CHAMP_3D",
    "C97_CHAMP_3D_alike",
    "C97_gamma_estimate",
    "C97_gamma_omega_estimate",
    "C97_prune",
    "C97_reweighted",
    "C97_isolated_modularity",
    "C97_isolated_CHAMP",
    "C97_isolated_gamma_estimate"
   ],
   "note": "Exact reals. CHAMP comparisons assume the intersection routine's contract and, for equal lists, partitions that modularity tells apart."
  },
  {
   "property": "C98",
   "status": "proved",
   "theorems": [
    "C98_consistent",
    "C98_never_lost",
    "C98_resume",
    "C98_truncated_for_ever",
    "C98_crash_window",
    "C98_file_names"
   ],
   "note": "A save is modelled as truncation followed by the complete content; a process dies between two changes of the directory. One process at a time."
  },
  {
   "property": "C99",
   "status": "proved",
   "theorems": [
    "C99_benchmark",
    "C99_benchmark_failures",
    "C99_methods",
    "C99_degenerate",
    "C99_panel",
    "C99_panel_no_graphs",
    "C99_places"
   ],
   "note": "Exact reals. networkx' generator, leidenalg, the similarity measure and drawing are oracles."
  }
 ]
}