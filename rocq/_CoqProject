-Q theories Verif
theories/PyBase.v
theories/PyGraph.v
theories/Spec.v
theories/M_partition.v
theories/L_base.v
theories/L_canon.v
theories/Properties_partition.v
theories/M_pool.v
theories/Spec_graph.v
theories/M_champ.v
theories/L_modularity.v
theories/L_modularity3.v
theories/L_parallel.v
theories/L_bounds.v
theories/Properties_coefficients.v
theories/Spec_champ.v
theories/Spec_tiling.v
theories/Spec_lp.v
theories/L_halfspace.v
theories/Properties_halfspaces.v
theories/L_sort.v
theories/L_champ.v
theories/L_champ2.v
theories/L_champ3.v
theories/Spec_polygon.v
theories/L_minkowski.v
theories/L_lp.v
theories/L_chebyshev.v
theories/L_world.v
theories/L_tiling.v
theories/L_facets.v
theories/L_tiling3.v
theories/L_champ_total.v
theories/L_angular.v
theories/L_convex.v
theories/Properties_champ.v
theories/M_leiden.v
theories/Spec_leiden.v
theories/L_leiden.v
theories/L_split.v
theories/L_multileiden.v
theories/Spec_objective.v
theories/L_objective.v
theories/Properties_leiden.v
theories/M_progress.v
theories/L_progress.v
theories/Spec_text.v
theories/M_louvain.v
theories/L_louvain.v
theories/Properties_louvain.v
theories/M_parts.v
theories/Properties_parts.v
theories/Spec_pipeline.v
theories/Properties_pipeline.v
theories/M_estimation_utils.v
theories/Spec_sbm.v
theories/L_sbm.v
theories/L_logmean.v
theories/L_sbm2.v
theories/Properties_sbm.v
theories/M_estimation.v
theories/Spec_multisbm.v
theories/L_multisbm.v
theories/Spec_check.v
theories/L_check.v
theories/Properties_check.v
theories/L_copying.v
theories/L_accepted.v
theories/Spec_valid.v
theories/L_omega.v
theories/Spec_given.v
theories/L_given.v
theories/Properties_given.v
theories/Properties_multisbm.v
theories/Spec_stability.v
theories/Spec_prune.v
theories/L_stability.v
theories/L_prune.v
theories/L_complete.v
theories/Properties_stability.v
theories/Properties_prune.v
theories/Properties_multiprune.v
theories/Properties_interior.v
theories/Properties_tiling.v
theories/Properties_reproducible.v
theories/Properties_options.v
theories/Spec_iteration.v
theories/L_iteration.v
theories/Properties_iteration.v
theories/M_plotting.v
theories/Spec_plotting.v
theories/L_plotting.v
theories/Properties_plotting.v
theories/M_experiments.v
theories/Spec_limits.v
theories/L_limits.v
theories/Properties_limits.v
theories/Spec_lambert.v
theories/L_lambert.v
theories/Properties_lambert.v
theories/Spec_bistable.v
theories/L_bistable.v
theories/Properties_bistable.v
theories/Properties_defaults.v
theories/M_float.v
theories/M_multifloat.v
theories/Spec_float.v
theories/Spec_multifloat.v
theories/L_float.v
theories/L_float2.v
theories/L_float3.v
theories/L_float4.v
theories/L_float5.v
theories/L_float6.v
theories/L_multifloat.v
theories/L_multifloat2.v
theories/L_multifloat3.v
theories/L_multifloat4.v
theories/L_multifloat5.v
theories/L_multifloat6.v
theories/Properties_multifloat.v
theories/Properties_omegafloat.v
theories/Properties_float.v
theories/Properties_prunefloat.v
theories/M_checks.v
theories/Spec_checks.v
theories/L_checks.v
theories/L_checks2.v
theories/Properties_checks.v
theories/Spec_connected.v
theories/Properties_warn.v
theories/Spec_adjacency.v
theories/L_adjacency.v
theories/Properties_adjacency.v
theories/M_loops.v
theories/Spec_loops.v
theories/Spec_compose.v
theories/Spec_renumber.v
theories/L_compose.v
theories/L_renumber.v
theories/L_loops.v
theories/Properties_compose.v
theories/Properties_renumber.v
theories/Properties_loops.v
theories/M_generators.v
theories/Spec_generators.v
theories/L_generators.v
theories/L_generators2.v
theories/L_generators3.v
theories/Properties_generators.v
theories/Spec_lazega.v
theories/L_lazega.v
theories/Properties_lazega.v
theories/L_blocks.v
theories/Properties_blocks.v
theories/M_snap.v
theories/Spec_snap.v
theories/L_snap.v
theories/Properties_snap.v
theories/Spec_scale.v
theories/L_scale.v
theories/Properties_scale.v
theories/M_lfr.v
theories/Spec_lfr.v
theories/L_lfr.v
theories/L_lfr2.v
theories/Properties_lfrfiles.v
theories/Properties_lfr.v
theories/M_sbmtests.v
theories/Spec_sbmtests.v
theories/L_sbmtests.v
theories/Properties_sbmtests.v
theories/M_staged.v
theories/Spec_staged.v
theories/L_staged.v
theories/Properties_staged.v
theories/Properties_movements.v
theories/Properties_stageddata.v
theories/Spec_lawfirm.v
theories/L_lawfirm.v
theories/Properties_lawfirm.v
theories/Properties_lawdata.v
theories/Properties_lawrun.v
theories/M_studies.v
theories/Spec_newman.v
theories/L_newman.v
theories/Properties_newman.v
theories/Spec_karate.v
theories/L_karate.v
theories/Properties_karate.v
theories/L_coefcheck.v
theories/Properties_coefcheck.v
theories/Properties_champfig.v
theories/Properties_metadata.v
theories/M_docs.v
theories/Spec_docs.v
theories/Properties_docs.v
theories/Properties_docs2.v
theories/M_esttests.v
theories/Properties_directed.v
theories/Spec_layered.v
theories/L_layered.v
theories/Properties_layered.v
theories/Properties_layered2.v
theories/M_theircoef.v
theories/Spec_theircoef.v
theories/L_theircoef.v
theories/Properties_theircoef.v
theories/L_theircoef2.v
theories/Properties_theircoef2.v
theories/M_bench.v
theories/Spec_bench.v
theories/L_bench.v
theories/Properties_bench.v
theories/Properties_runtime.v
theories/M_figures.v
theories/Properties_figures.v
