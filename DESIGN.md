# Formal model of ragibson/ModularityPruning in Rocq (Coq 8.16.1)

## Layout (rocq/theories)

* `PyBase.v`      Python-level notions: exceptions as values (`res`), indexing, sums, stable sort, dicts.
* `PyGraph.v`     the part of igraph the code uses (vertex count, directedness, edges, `weight` attribute, degrees).
* `M_*.v`         the model, one file per Python module, each definition citing file and lines.
* `Spec*.v`       specifications that do not mention the model's helpers (textbook modularity, canonical form, convex hull, ...).
* `L_*.v`         lemmas and proofs.
* `Properties*.v` the property theorems, each followed by `Print Assumptions` and by an `Example` (or a `_realisable` theorem
                  and an `Example`) showing that its hypotheses are met by a concrete, non-trivial case.

## Modelling decisions

* Python ints are `nat`/`Z`; Python/numpy floats are exact reals `R`, except where a property is about rounding
  (chunk boundaries in C15, chunk counts in C07, the progress bar in C52, and `M_float.v`, `M_multifloat.v` for C76 to C80, C90 and C91), where Flocq's binary64 rounding is written into the
  model.
* Exceptions are values (`Raise e`); numpy non-finite results are a separate value (`NonFinite`), since numpy
  division does not raise but Python float division does.
* Side effects on the caller's graph (`G.es['weight'] = ...`), warnings, the LRU caches and the mutable default argument of the
  multilayer iteration are part of the model's state and results.
* External code is an oracle (an explicit argument of the model function). Theorems quantify over all oracles, or over
  all oracles meeting a contract stated in a `Spec` file:

| external routine | contract assumed, where | where the contract is shown satisfiable |
|---|---|---|
| leidenalg / louvain optimisers | none (any membership vector, per run); C65 only: answers of maximal quality | exhaustive search (C65) |
| leidenalg quality functions | equal RBConfiguration / CPM formulas of its documentation (`Spec_leiden.v`) | definitional |
| scipy `linprog` | for soundness: answers have one entry per variable (`lp_answers_all_variables`); for "the search succeeds" (C72, the *_returns theorems): `solves_lps`, an optimal solution with status 0, else status 2 or 3 | C72_working_routines_exist (Fourier-Motzkin elimination) |
| scipy `HalfspaceIntersection` (Qhull) | `exact_hsi`: reported points are exactly the vertices of the region with their tight halfspaces; stronger claims: `irredundant_hsi` (each corner once), `full_facets_hsi` (only halfspaces with a facet of full dimension) | for every bounded system with an interior point (`L_minkowski.v`, `L_facets.v`) |
| the same, inexact (C79) | `near_hsi eps`: reported points violate no normalised halfspace by more than eps and are within eps of those they are reported with | C79_exact_contract, C79_ranges_realisable |
| `numpy.log` in double precision (C78) | `accurate_log e`: relative error at most e | C78_log (correct rounding) |
| Python's `sum` on floats (C90, C91) | `python_sum` (`Spec_multifloat.v`): exact on integers up to 2^53, relative error at most 2k 2^-53 for k summands that are 0 or at least 2^-53 | C90_sum (left to right, Python up to 3.11) |
| `numpy.random.choice` in get_interior_point | none (any index lists); only for "the search succeeds" (C72, *_returns): `fair_sampler`, distinct numbers in range | C72_working_routines_exist |
| scipy `fsolve` (MINPACK) | none, or (C33, C34) its answer to this equation is a root | C34 (unique root exists) |
| `multiprocessing.Pool` | completes the chunks in any order, `starmap` ordered, `imap_unordered` arbitrary | definitional |
| iteration order of Python sets, `random.sample`, matplotlib axis limits | a permutation; a sample lies in its population; limits contain the drawn data | identity order |
| `'weight' in G.es` | none (an oracle `contains`; igraph's answers False even for weighted graphs, so weights get overwritten: see C11, C58) | - |
| scipy `lambertw` (figures only) | `lambert` (`Spec_lambert.v`): the two real branches on [-1/e, 0) | C74_branches_exist (intermediate values) |
| quality of louvain's layered partition object (C83) | `layered_quality_documented`: intralayer part of multilayer modularity | C83_example |
| `Graph.is_connected` | none; C84 only: `is_connected_contract` (`Spec_connected.v`), every two vertices linked, strongly if directed | `true_connected` (`Properties_warn.v`) |
| available memory, sklearn AMI | none | - |

## Trusted base

* Coq 8.16.1's kernel (`coqc`; no `vm_compute`-only or native trust beyond the kernel's own reduction, no plugins, no flags
  that relax checks), and the standard library with the axioms listed under "Print Assumptions" below. Flocq is used for
  binary64 rounding in C07, C15, C52, C76 to C80, C90 and C91; its theorems rest on the same real-number axioms.
* That the `M_*` definitions say what the Python code does (each cites its lines); that `Spec_*` says what the English property
  says; and the oracle contracts of the table above.
* Floats as reals, except for the theorems C76 to C80, C90 and C91, which are about `M_float.v` and `M_multifloat.v`: the same functions with IEEE 754 rounding
  to nearest after every operation, for coefficients, SBM parameters and gamma estimates, and CHAMP on the rounded coefficients with
  an inexact intersection (`near_hsi`), and the single-layer prune_to_stable_partitions on top of them (C80), the multilayer SBM parameters (C90) and gamma_omega_estimate (C91; one accurate logarithm `flog` for numpy and math). There the sizes are bounded so that nothing overflows; NaN and infinities of a division by
  zero are the value `NonFinite`; `np.log` is a parameter with a relative error bound. Rounding errors elsewhere (omega estimates,
  plots, CHAMP's multilayer domains beyond C79, the multilayer pruning) are not covered by any theorem.

## What is modelled and what is not

Modelled, function by function: all of `utilities/partition_utilities.py` except `ami`/`nmi` (calls of sklearn);
`leiden_utilities.py`, `louvain_utilities.py`, `champ_utilities.py`, `parameter_estimation_utilities.py`,
`parameter_estimation.py`, `progress.py` completely (the `_wrapped_*` argument-unpacking helpers are inlined); of `plotting.py`
everything that decides what is drawn where and in which colour, except `plot_adjacency` (one call of `imshow`). From
`experiments/`, the closed formulas of `plot_duality_details/*.py` and `bistable_SBM/plot_bistable_SBM_analytic.py`
(`M_experiments.v`, C73-C75), the brute-force plot of
`manual_CHAMP_test` (`M_checks.v`, C83; its coefficient arrays `M_theircoef.v`, C117), and the tests of `modularity_nonmonotonic_K` and `estimation_loop_test` (`M_loops.v`, C86, C87), `social_networks/SNAP_boxplot.py` except for reading files and drawing (`M_snap.v`, C96),
`bistable_SBM`, `hierarchical_SBM_test` and `karate_club_test` except for drawing (`M_sbmtests.v`, C100, C101), `lfr_benchmark_test` including its files and crashes, except for progress messages, axis limits and networkx' generator (`M_lfr.v`, C98, C99),
the two drivers of `pamfil_synthetic_networks` with their files and crashes (`M_staged.v`, C102-C104), `lazega_figures.py` with its files, crashes and figures (C105, C106; `print_metadata_nmis`, which nothing calls, in `M_studies.v`, C111), `example_figures/plot_champ_example.py` (`M_studies.v`, C110), `hierarchical_sbm_plot.py` and `example_sbm.py` except for layout and rendering (`M_figures.v`, C121),
`miscellaneous_tests/gamma_estimation_test.py` with its unit test and `karate_club_gamma_estimates/*.py` except for titles and axis limits (`M_studies.v`, C107, C108), `miscellaneous_tests/runtime_comparison_with_louvain.py` and `simple_benchmark.py` with measured durations as oracles (`M_bench.v`, C118, C119),
and the network generators of `pamfil_synthetic_networks`, `lazega_law_firm` and `hierarchical_SBM_test` (`M_generators.v`, C92-C94). From
`tests/`, the two exhaustive checks of CHAMP (`M_checks.v`, C81, C82), the tests of its coefficients (`M_studies.v`, C109), `test_documentation_examples.py` except drawing (`M_docs.v`, C112-C114), the tests of directed consistency (`M_esttests.v`, C115) and of convergence to a temporal or multiplex SBM (C116), of parallel performance (`M_bench.v`, C120) and the generators of random networks and partitions (`M_generators.v`, C92, C95).

Not modelled: the internals of leidenalg, louvain, igraph, Qhull, HiGHS, MINPACK, sklearn and matplotlib; rendering; wall-clock
time (the progress bar's elapsed time and the durations in M_bench.v are oracles); memory use; `tests/test_deprecated_louvain_names.py` (its subject is C53), `docs/`,
`setup.py`; the text of printed messages except where a property mentions it.

## Findings (claims that are false of the code, each with a machine-checked counterexample)

C08 (empty grids), C10 (stale split cache after in-place changes), C30/C37 (ZeroDivisionError / domain errors on some
partitions), C36 (omega_max is not a bound), C39/C43 (nan estimates are kept as stable), C47 (results leak between calls when
max_iter <= 0), C53 (missing names evaluate to None), C55 (tuples and lists are plotted wrongly), C58 (weights are not ignored
when `'weight' in G.es` answers True), C61 (domains that cover the window are not drawn). Also noted: the omega estimate can be negative when
theta_out > theta_in (C35/C37). The figure of the bistable experiment (C75) draws the
estimate curves for blocks of 100 nodes but the crossing curve for infinitely large blocks, while the simulation uses blocks of 800.
The number of communities along CHAMP's ranges can go down (C86), and pruning partitions that all have estimates within the
interval can return nothing (C87). The random networks of the tests and experiments are built without a vertex count, so they are
too small for every model when the last vertex is isolated (C92). The law-firm network couples only the first layer with the others and
with itself, which the structural check cannot tell from a multiplex coupling, and its persistences come out too large (C93). Isolated vertices make some of the
computations divide by zero (C97). The LFR experiment saves its progress by truncating the file in place: a crash during a save
loses all of it and every later run fails (C98); the test for a missing estimate comes after a comparison that raises TypeError (C99). The realizations of the bistable model are
named the wrong way round, and an output file cut off by a crash is never repaired (C100). The hierarchical experiment (and `runtime_comparison_with_louvain.py`)
passes a keyword that does not exist, and its "probabilities" are average numbers (C101). Figures 5.8 and 5.9/5.10 of the law firm cut omega at different values and can disagree on which partitions are stable (C106). The staged experiments (C102, C105) never repair a truncated
intermediate file, and removing only the network's file makes them mix an old network's results with a new network. The "true" gamma of Newman's benchmark uses 249 possible
neighbours where the estimate converges to 250, and a comment promises 8 out-edges to each community where there are 8 in all (C107). The right panel of the CHAMP example assigns
the three ranges to fixed partitions without looking: C110 says when it is right, and an IndexError with fewer than three ranges. The documentation's network also gets no vertex count (C112),
and the test of its multilayer example never compares the first block with the third, although its comment says that all three differ (C114). The multilayer tests of directed consistency
replace the graph by its directed version inside the loop, so that only their first comparison compares anything (C115). The "true" gamma of the temporal and multiplex
tests, too, counts s possible neighbours where a vertex has s - 1 (C116).

## Plan per property

Model files (`M_*`) and proof method for each property; the statements are in `properties.jsonl`, the theorem names and remarks in `MANIFEST.json`.

* **C01** sorted_tuple keeps the partition. M_partition.sorted_tuple (np.unique with indices, two stable sorts, a dict); induction over the label vector.
* **C02** sorted_tuple is in first-occurrence canonical form. same model; restricted-growth characterisation of the output.
* **C03** sorted_tuple is a complete invariant of the partition. canonical forms are unique per partition (induction on prefixes), with C01 and C02.
* **C04** Memoising sorted_tuple is unobservable. the LRU cache as a step machine over arbitrary call histories with an arbitrary eviction oracle; invariant: cached entries are correct.
* **C05** Parallel single-layer Leiden runs every gamma exactly once. M_leiden drivers over a pool whose chunks complete in any order; membership in the result set, multiset of executed runs.
* **C06** Parallel multilayer Leiden covers the whole grid. as C05 over the gamma-omega grid, with per-worker split caches as part of the state.
* **C07** Legacy Louvain chunk dispatch covers the whole grid. M_louvain chunk dispatch as a loop over available memory answers; ceil of a binary64 quotient (Flocq).
* **C08** Legacy Louvain driver returns on every nonempty grid. same loop; exact outcome for empty and nonempty grids.
* **C09** Splitting by layer is lossless. M_leiden.split_layers as folds over edge handles; every edge accounted for once.
* **C10** The layer-split cache returns the current graph's layers unless a graph was changed in place. the split cache as a state machine over a heap of mutable graphs keyed by edge handles; invariant over histories, and a counterexample history.
* **C11** Weight defaulting. default_weights with an arbitrary answer of the membership test; all three call sites.
* **C12** Single-layer coefficients are modularity (undirected). M_champ.partition_coefficients_2D_serial; exchange of finite sums, degree sums.
* **C13** Single-layer coefficients are modularity (directed). as C12 for directed graphs.
* **C14** Multilayer coefficients are multilayer modularity. as C12 with per-layer null models and the interlayer term.
* **C15** Parallel coefficients equal serial coefficients. chunk bounds with binary64 rounding (Flocq monotonicity and exactness of endpoints); starmap returns in order.
* **C16** Coefficients depend only on the partition and are bounded. label independence through C12-C14; bounds by nonnegative sums.
* **C17** Halfspaces encode 'Q is at least the partition quality'. halfspace rows, linear arithmetic.
* **C18** The bounding box never cuts the quality envelope. box rows; the envelope is inside the box by the bounds of C16 and monotonicity.
* **C19** CHAMP's interior-point problem is solvable on valid input. explicit interior point; converse from the box rows.
* **C20** get_interior_point only returns interior points and always stops. interior_loop with fuel over arbitrary solver and sampler answers; decreasing measure on (retries, sample size).
* **C21** CHAMP_2D ranges are optimal. CHAMP_2D over an exact_hsi oracle; a facet lies on its partition's line, convexity of affine functions.
* **C22** CHAMP_2D ranges cover [gamma_0,gamma_f]. every gamma has a highest point of the region; a vertex enumeration of the region (Minkowski) gives the covering facet.
* **C23** CHAMP_2D output is well formed. sortedness, bounds, distinctness, and totality given answering oracles.
* **C24** CHAMP_3D domains are optimal. as C21 in three dimensions, with projection and convex hulls.
* **C25** CHAMP_3D domains cover the rectangle. as C22 in three dimensions.
* **C26** CHAMP_3D domain vertices are given in angular order. angular sort around the centroid; orientation of consecutive vertices, corners only under irredundant_hsi.
* **C27** Single-layer SBM estimates match their definition. estimate_singlelayer_SBM_parameters against double sums over vertex pairs.
* **C28** SBM estimates are representation independent. permutation of edges, swapping of end points and relabelling leave the sums of C27 unchanged.
* **C29** The gamma estimate is the logarithmic mean. logarithmic mean: strict bounds by calculus (ln inequalities via derivatives).
* **C30** gamma_estimate fails exactly on degenerate partitions. exact characterisation of the ZeroDivisionError, counterexample.
* **C31** Multilayer SBM estimates match their definition. multilayer sums, layer by layer, against double sums; with given N, Nt, m_t the expected weight is rescaled layer by layer.
* **C32** Persistence is a fraction. persistence counts over kept interlayer edges.
* **C33** The copying probability estimate is a probability. case analysis of the p formula and the root assumption.
* **C34** The multiplex p equation has a unique solution. monotonicity by derivative, intermediate value theorem.
* **C35** Omega estimates behave as documented. closed formulas, monotonicity of logarithms and quotients.
* **C36** omega_max is a default, not a bound. exact set of returned values and a parametric counterexample.
* **C37** gamma_omega_estimate fails exactly on two kinds of partitions. exact characterisation of failures, counterexamples.
* **C38** Single-layer stability filter is exact. filter as the inductive relation `selects`.
* **C39** Multilayer stability filter is point-in-polygon. sign test against interior points of convex polygons (separating lines, both directions).
* **C40** Single-layer pruning is sound. composition of C21 with the estimate model and the filter.
* **C41** Single-layer pruning is complete. composition of C22 with the filter; totality.
* **C42** Pruning ignores representation of the input. considered partitions depend on the described partitions only; outcome equality for set-determined orders.
* **C43** Multilayer pruning is sound. composition of C24, C26, C39; nan counterexample.
* **C44** Multilayer pruning option handling. warnings and option checks as part of the outcome; objects versus tuples.
* **C45** Monolayer iteration stops and reports its last step. loop as an inductive run relation with determinism; calls bounded by max_iter.
* **C46** Multilayer iteration stops and reports its last step. same, after the consistency check.
* **C47** Multilayer iteration results leak between calls only for max_iter <= 0. the mutable default as state threaded through a call history.
* **C48** Consistency check is exact. decision table as a list of rules; exact outcome of the check.
* **C49** Community grouping is a partition of the nodes. grouping by first occurrence; partition of positions.
* **C50** num_communities counts communities. length of set of labels.
* **C51** Optimised objective and CHAMP coefficients agree. leidenalg quality (Spec_leiden) of the layer graphs against CHAMP coefficients.
* **C52** Progress bar geometry. floor of a binary64 quotient; printed counts.
* **C53** Deprecated Louvain names resolve to their Leiden counterparts. string replacement model with exact cut of names.
* **C54** Adjacent plotted domains get different colours. greedy colouring with a random choice oracle; exact set of outcomes.
* **C55** plot_multiplex_community shows each layer's memberships for numpy arrays. column assignment with numpy and list indexing semantics.
* **C56** Unsupported models and methods are rejected. string dispatch, exact exceptions.
* **C57** Multilayer pruning is complete. strict optimality gives an interior point of the domain (C25 + linear perturbation), then C39.
* **C58** Weighted graphs are pruned as unweighted when the weight test answers False. estimates after weights are overwritten.
* **C59** single_threaded never changes a single-layer result. C15 lifted to CHAMP_2D and the pipeline.
* **C60** plot_2d_domains_with_estimates draws every domain and exactly the visible estimates. drawn arrows as the `selects` relation with clamped centroids.
* **C61** plot_2d_domains_with_num_communities colours each domain by its number of communities. drawn values and ticks; counterexample.
* **C62** plot_2d_domains_with_ami colours each domain by its AMI. drawn values over an arbitrary AMI function.
* **C63** plot_estimates points each range at the partition that is optimal at its estimate. last containing range, clamping.
* **C64** Partition objects score their membership with modularity. partition objects (M_parts) with leidenalg qualities.
* **C65** With an optimiser that finds maxima the pipeline's domains are globally optimal where sampled. maximising optimiser contract; convexity between samples, C21/C24.
* **C66** A CHAMP_2D range is exactly where its partition is optimal. from C21 and C22: optimality at a point of a neighbouring range forces equal lines; properness from two different corners.
* **C67** CHAMP_2D ranges tile the interval. induction over the sorted ranges; crossing of two lines.
* **C68** CHAMP results are reproducible. ranges and domains are determined by optimality sets (C66, C69); extreme points of a polygon are determined by its hull, and the angular order by the corners.
* **C69** A CHAMP_3D domain is exactly where its partition is optimal. exact domains from strict convexity of the region (L_tiling3, L_facets); inner points from three non-collinear corners.
* **C70** Pruning returns exactly the partitions that are optimal at their own estimate. composition of C66/C69 with the filters.
* **C71** Pruning is reproducible. composition of C68 with the pipelines.
* **C72** With a working LP solver the interior point search succeeds exactly when an interior point exists. Chebyshev LP of get_interior_point modelled as data (c, A, b); optimal radius positive iff an interior point exists; Cauchy-Schwarz for balls; Fourier-Motzkin elimination as a solver meeting the contract.
* **C73** Possible SBM parameters and the largest resolution a K-community partition can be assigned. expected_within >= S/K by Cauchy-Schwarz (L_limits), logarithmic mean increasing in both arguments, attained by planted graphs.
* **C74** Contours of constant gamma are the parameters with that gamma estimate. w exp w = z rewritten as logarithmic mean = gamma; uniqueness from strict monotonicity of the logarithmic mean; branches constructed by the intermediate value theorem.
* **C75** Closed formulas of the bistable block model agree with the library. modularity of the three-vertex block graph computed; field identities between the formulas and the library's estimates.
* **C76** Single-layer coefficients are stable under double precision rounding. M_float repeats the coefficient functions with Flocq's rounding after each operation; numerators are exact ints; two different fractions x/d, y/d with x,y <= d^2, d <= 2^25 are further apart than the rounding error.
* **C77** Multilayer coefficients are stable under double precision rounding. as C76; a sum of k rounded terms has relative error (1+u)^k - 1, since all terms are nonnegative.
* **C78** Gamma estimates are stable under double precision rounding. counts are exact integers below 2^53; forward error analysis of the quotients, of the difference 2m - e_in (bounded below since sum of squares differs from (2m)^2 by at least 2m or not at all) and of the logarithmic mean (Lipschitz in relative error); parameters on the two sides of 1 stay at least 4u away from it.
* **C79** CHAMP degrades gracefully with inexact geometry and rounded coefficients. near_hsi contract; row norms bounded by the sum of absolute values; optimality up to eps at two end points extends to the segment (hull) by affinity; coverage from the exact contract on the rounded rows.
* **C80** Single-layer pruning is robust to rounding and inexact geometry. composition of C78 and C79: the error of the estimate moves the modularity by at most 2 m gamma r.
* **C81** The exhaustive single-layer check accepts every CHAMP_2D result and nothing worse than its tolerance. model the loop of the check; the dict holds objects whose quality is modularity (C64), so the maximum is the best modularity; first range found vs C21/C22.
* **C82** The exhaustive multilayer check accepts every CHAMP_3D result and its point-in-domain test is exact. fan triangulation of a convex polygon from its first vertex gives: all closed side tests hold iff in the hull; the centroid is strictly on the inner side of every edge; then as C81 with C24/C25 and the threaded split cache (C10).
* **C83** The brute-force plot of the manual CHAMP experiment shows the optimal partitions and agrees with CHAMP_3D. the fold over the partitions with strict improvement keeps the first maximiser per cell; grid positions by flattening; agreement from C24.
* **C84** The connectivity warning is exact. the combined graph has all n vertices iff the last one has an edge; then the contract of is_connected on it is reachability over the union of the edges.
* **C85** Results depend on a graph only through its adjacency matrix. all formulas are rewritten as sums over the adjacency matrix; the directed and undirected normalisations differ by the factor side(g), which cancels.
* **C86** What changes along CHAMP's ranges. adding the two optimality inequalities at gamma and gamma'; the counterexample by evaluating all canonical labellings of nine vertices in the kernel.
* **C87** Estimates either settle or lead in circles. following estimates is a walk in a finite set (pigeonhole); C22 gives the next range, C21 its optimality.
* **C88** CHAMP and pruning can be done in steps. CHAMP's result is determined by the upper envelope (C66, C68); each kind of step leaves the envelope (restricted to the interval) unchanged; pruning by C70 and C57.
* **C89** The numbering of the vertices does not matter. all sums over vertices are invariant under a bijection of the vertices; the code's coefficients and estimates are such sums (C17, C27, C31), CHAMP looks partitions up by index only, and pruning is characterised by C70.
* **C90** The multilayer SBM estimates survive double precision. with unit weights the edge loops are exact integer loops; the layer sums and quotients get a running relative error analysis, using that every nonzero expected weight between communities is at least 1; the copying probability by monotonicity of rounding and the gap of 2^-53 relative size below every double.
* **C91** gamma_omega_estimate in double precision is close to the exact estimate. the parameters are on opposite sides of 1 or both 1 (observed and expected weights have the same sum), so the logarithmic mean is monotone in each and keeps relative errors; the coupling logarithm by ln(1+q) >= q/(1+q), so relative errors of q stay relative errors; then quotient bounds.
* **C92** The generated layered networks are what their draws describe. the draws are functions from the places where a number is drawn (each is drawn at most once per call), so the nested loops become list comprehensions over them; edges by membership in flat_map; the check by the rules of C19 with unit weights.
* **C93** The law-firm network: layers, couplings and the persistence computed on it. ties by membership in nested enumerations; couplings by membership and counting; the persistence by counting kept labels over the comprehension, compared with the full coupling.
* **C94** The hierarchical block model has the densities and ground truths it promises. entries of the comprehension matrix, counting the vertices of a block by division, and the retry loop as a fuelled recursion over igraph's answers.
* **C95** The random graphs and partitions of the tests are of the announced kind. the retry loop again; a list with K distinct values below K takes every value below K.
* **C96** Single estimates stay in the range the social-network study asserts, and its tables are right. cutting the expected between-weight by community shows the observed one is at most twice it; the bound 15 from ln 50 > 7/2 and ln 200 > 5; the nested grid loops are folds over the filtered product of the two axes (the early exit by monotonicity); the plotted curve bounds each grid point by homogeneity of the logarithmic mean; the box-plot loop by induction with the graph state (weights) threaded.
* **C97** Only relative connection strengths matter, and isolated vertices do not. the adjacency-matrix sums of C85 with a factor; the optimal set at every resolution is the same, so the tiling arguments of C66-C69 carry over to a second graph with corresponding objectives; sums over padded vertices vanish.
* **C98** The LFR experiment's files survive crashes, except a crash during a save. a file is absent, truncated or complete and an action is the list of contents it makes of the directory; Hoare-style rules for every intermediate content give an invariant of all histories; termination rules for undisturbed runs.
* **C99** What the LFR experiment measures. the community-vector loop by induction over the communities; methods reduce to C05 (all answers, once) and C40-C42 (pruning); percentiles as linear interpolation in a sorted list, monotone in the fraction.
* **C100** What the bistable block model experiment counts, writes and draws. trials reduce to C05 (all answers, once), C21-C23 (CHAMP) and the specification of stability used for C99; the counting loop by induction over the list of trials with skipped ones; the output file as the list of its prefixes, an invariant of all histories; the grid and the planted partitions by arithmetic.
* **C101** The hierarchical and karate club experiments. the keyword test is computed; the counting loop by induction; pictures as a fold over the writes; karate club candidates by the number of communities, then as for C100.
* **C102** The synthetic-network experiments keep their intermediate files consistent over every history of killed runs. the working directory as a function from names to absent/truncated/complete; programs as lists of directories they pass through; Hoare-style rules for `ensure`, then induction over the history.
* **C103** The movement plot averages the one-step estimates of each grid point's own calls. one step of the iteration reduces to C45-C47 with max_iter = 1; two nested loops by induction with the call counter as ghost state.
* **C104** The stored partitions and domains of the synthetic-network experiments are complete and optimal. C102's invariant combined with C05/C06 (Leiden on grids), C24/C65 (CHAMP) and C92 (generator).
* **C105** The law-firm script survives being killed: every complete file belongs to the partitions that are stored now. the directory model and the rules of C102; `for_all` over the seven files of domains; the figures read back as one characterisation (`firm_draw_done`).
* **C106** What the law-firm script stores and shows. C105's invariant with C05/C06 (Leiden on grids), C24/C65 (CHAMP), C93 (the network), C54/C55/C60/C61 (plots); the two margins by an explicit strip; the order of persons by computation on the 71-element list.
* **C107** The estimate on Newman's synthetic networks. the iteration on evenly connected networks through C45 (constant answers) and C26-C29 (SBM parameters of q communities); the gap by the monotone logarithmic mean (`L_logmean.v`).
* **C108** The karate-club figures show exactly the runs that returned. folds over trials with an invariant (`foldM_trials`); a call on the network with defaulted weights is the call on the original (C45_determined); bins as a partition of the interval (`bins_partition`); totality by C30.
* **C109** The tests of CHAMP's coefficients accept exactly the modularity coefficients. the objects' qualities through C51/C64; a layer's subgraph modularity is the layer's term of multilayer modularity (`L_coefcheck.v`); loop over the cases with the split cache threaded through; passing by C12-C14.
* **C110** The figure that explains CHAMP shows modularity and its upper envelope. first extreme element by induction; lines by affinity of modularity; the right panel from C21-C23, uniqueness of ranges by NoDup positions and the gaps by covering and linearity.
* **C111** The printed agreement with the law firm's metadata. positions in lists; errors by case analysis of the first failing row or partition.
* **C112** The documentation's multilayer network. membership in the list of pairs (`sbm_edges`), couplings from `next_copies` (C92's lemmas); validity by the structural rules; counterexample: draws that leave only vertex 89 without edges.
* **C113** The documentation's single-layer example. composition of C24-C26 (runs on a grid) with the pruning theorems (C41-C44); totality from C30; exactness from the irredundancy of the halfspace intersection.
* **C114** The documentation's multilayer example. counting by an invariant of the dictionary (`collected_count`), first maximum (`most_common_spec`); composition of the multilayer runs with the multilayer pruning; counterexample with merged blocks.
* **C115** The tests that compare undirected and directed networks. C85 (same adjacency, same estimates) along the loop: the graph left by each comparison is again unit-weighted with the same adjacency; counterexample: an estimate that reads the direction and the largest label.
* **C116** The ground truth of the multilayer convergence tests. sums over layers of C31's observed and expected weights (`even_sums`), C34's unique solution for the copying probability, C35's formula, C46 with constant answers (`multi_constant`); the gap by monotonicity of the logarithmic mean and elementary bounds on ln.
* **C117** Both coefficient arrays of the manual CHAMP experiment agree on undirected networks, and the directed switch doubles every P. the matrix P as a function (each layer write updates one block), sums over communities as sums over pairs with equal label (`communities_pair_sum`), degree sums of a layer = 2 x its edges; then C14 and C85; concrete arrays by computation.
* **C118** The runtime comparison never stores a result; without its wrong argument it records each round. the call's keywords are checked against the shimmed signature (computation); the repaired driver by induction over the rounds, composing C25 with the pruning theorems (C41; totality from C30), the graph staying itself or getting unit weights.
* **C119** The benchmark's three lists, and when it ends. invariant of the loop (the lists as maps over the rounds so far, CHAMP's stopped or not); growth `x + x/2 = 3x/2 >= x + 1` for x >= 2.
* **C120** What the parallel performance tests measure. field arithmetic over the oracles' linear scaling; minimum, maximum and end points of evenly spaced points; floor of n sqrt(cpus) is at least n.
* **C121** The example figures of block models show the communities that the graphs were drawn with. arithmetic of blocks (labels as quotients, counts of a block by splitting the range), the 64 entries of the density matrix by cases.

## Print Assumptions

Every theorem named in MANIFEST.json is followed by `Print Assumptions` in its file, so a build prints the list. Abbreviations:
D1 = `ClassicalDedekindReals.sig_forall_dec`, D2 = `ClassicalDedekindReals.sig_not_dec`,
FE = `FunctionalExtensionality.functional_extensionality_dep`, CL = `Classical_Prop.classic`,
CE = `ClassicalEpsilon.constructive_indefinite_description`: the axioms of the standard library's real numbers, classical
logic and choice (CE is used only to exhibit an ideal LP solver and hull routine, in the C72 existence theorems). No other axiom occurs. "closed" = no axiom at all.

* CE, CL, D1, D2, FE: C72_CHAMP_2D_total, C72_CHAMP_3D_total, C72_prune_total.
* CE, CL, D1, FE: C72_working_routines_exist.
* CL, D1, D2, FE: C07_chunk_dispatch, C07_package_required, C08_nonempty_grid, C08_empty_grid, C100_trial, C100_skipped, C101_hierarchical_raises, C101_hierarchical_stable, C101_karate, C102_consistent, C102_both_scripts, C102_kept, C102_figures, C102_truncated, C102_can_be_truncated, C102_resume, C102_remove_with_dependents, C102_stale_results, C103_movements, C103_differences, C103_both_scripts, C104_domains, C104_partitions, C104_stored_domains, C104_both_scripts, C105_consistent, C105_kept, C105_figures, C105_truncated, C105_unread, C105_partitions_truncated, C105_can_be_truncated, C105_resume, C105_remove_with_dependents, C105_stale_results, C106_partitions, C106_domains, C106_estimates, C106_margins, C106_draws, C107_true_gamma, C107_estimate, C107_gap, C107_test_passes, C107_test_sound, C107_points, C108_pairs, C108_points, C108_arrows, C108_one_run, C108_total, C109_passes_2D, C109_passes_3D, C11_gamma_estimate, C11_gamma_omega_estimate, C11_iterative_monolayer, C11_iterative_multilayer, C11_prune, C11_prune_multilayer, C110_right_panel, C110_envelope, C113_documented_stable, C113_returns, C113_passes, C113_passing, C113_passes_exactly, C114_documented_stable, C114_returns, C114_passes, C115_singlelayer, C115_passes, C115_temporal, C115_multiplex, C116_truth, C116_estimate, C116_gap, C116_temporal_passes, C116_multiplex_passes, C116_temporal_sound, C116_multiplex_sound, C117_arrays, C117_undirected, C117_balanced, C117_to_directed, C117_edgeless, C117_same_domains, C118_never_stored, C118_repaired, C118_repaired_returns, C12_coefficients_are_modularity_undirected, C13_coefficients_are_modularity_directed, C14_coefficients_are_multilayer_modularity, C15_parallel_coefficients_equal_serial, C19_interior_exists_undirected, C19_interior_exists_undirected_3D, C21_ranges_are_optimal, C21_C22_C23_realisable, C22_ranges_cover, C22_strictly_best_is_returned, C23_ranges_well_formed, C23_returns, C24_domains_are_optimal, C24_C25_C26_realisable, C25_domains_cover, C25_strictly_best_is_returned, C25_each_input_at_most_once, C25_returns, C26_corners_only, C26_corners_realisable, C26_domain_is_facet, C26_sorted_by_angle, C26_turns_clockwise, C26_consecutive_are_edges, C28_gamma_estimate, C29_log_mean, C29_symmetric_homogeneous, C29_degenerate, C30_exact, C30_refuted, C35_formula, C35_increasing, C35_layers, C35_no_between, C36_refuted, C36_exact, C37_exact, C37_refuted_log, C37_refuted_division, C40_prune_sound, C40_realisable, C41_prune_complete, C41_prune_returns, C42_guarantees_transfer, C42_same_outcome, C42_nothing_considered, C43_multilayer_prune_sound, C43_nan_is_returned, C43_refuted, C43_realisable, C44_warnings, C44_warnings_do_not_matter, C44_partition_objects, C45_outcome, C45_determined, C45_returned, C45_calls_bounded, C45_degenerate, C46_outcome, C46_rejected, C46_determined, C46_returned, C46_estimates, C47_independent, C47_history, C47_refuted, C52_bar, C52_monotone, C52_lifecycle, C52_rejects, C56_omega_function, C56_method, C56_estimates, C57_multilayer_prune_complete, C57_multilayer_prune_returns, C58_weights_are_ignored, C58_weights_are_ignored_multilayer, C58_refuted, C59_single_threaded_CHAMP, C59_single_threaded_prune, C65_ranges_globally_optimal_at_samples, C65_ranges_globally_optimal_between_samples, C65_domains_globally_optimal, C66_range_is_where_optimal, C66_range_is_proper, C66_returned_iff_optimal_twice, C66_C67_C68_realisable, C67_ranges_tile, C67_ranges_do_not_overlap, C67_order_of_partitions, C68_same_ranges, C68_same_list, C68_same_domains, C68_same_domain_list, C68_C69_realisable, C69_domain_is_where_optimal, C69_domain_is_convex_polygon, C69_strictly_best_inside, C69_domains_do_not_overlap, C70_prune_characterised, C70_multilayer_prune_characterised, C70_multilayer_prune_sound, C70_C71_realisable, C70_C71_realisable_3D, C71_prune_reproducible, C71_multilayer_prune_reproducible, C72_chebyshev_centre, C73_gamma_bound, C73_two_communities, C73_equal_volumes, C73_attained, C73_multilayer, C73_beats_one_community, C73_guarded, C73_gamma_max, C73_gamma_max_bounds, C74_contour, C74_boundary, C74_involution, C74_bands, C74_branches_exist, C75_estimates, C76_coefficients_2D, C76_modularity, C77_coefficients_3D, C78_parameters, C78_gamma_estimate, C79_ranges, C79_ranges_double, C79_domains_double, C79_ranges_cover, C79_domains_cover, C79_ranges_realisable, C79_domains_realisable, C80_prune_sound, C80_prune_complete, C80_realisable, C81_champ_passes, C82_champ_passes, C83_agrees_with_champ, C84_multilayer_connectivity_warning, C84_single_layer_warnings, C85_CHAMP, C85_gamma_estimate, C85_gamma_omega_estimate, C85_prune, C86_coefficients_decrease, C86_multilayer, C86_communities_can_decrease, C87_pruned_to_nothing, C87_loop_pair, C87_loop_pair_detected, C88_narrower_interval, C88_fewer_inputs, C88_batches, C88_twice, C88_smaller_rectangle, C88_multilayer_batches, C88_prune_fewer_inputs, C88_multilayer_prune_fewer_inputs, C88_prune_after_CHAMP, C89_CHAMP, C89_gamma_estimate, C89_gamma_omega_estimate, C89_prune, C89_multilayer_prune, C90_sum, C90_thetas, C90_persistence, C90_probability, C90_multiplex, C91_gamma_omega, C91_temporal_extremes, C91_multiplex, C91_multiplex_extremes, C92_synthetic_returned, C92_synthetic_network, C96_gamma_estimates, C96_nan, C96_multilayer, C96_maxmean, C96_points, C96_one_community, C96_maximum_gammas, C96_figure, C96_boxplot_results, C96_giant_component, C97_CHAMP_2D, C97_CHAMP_3D, C97_CHAMP_3D_alike, C97_gamma_estimate, C97_gamma_omega_estimate, C97_prune, C97_reweighted, C97_isolated_CHAMP, C97_isolated_gamma_estimate, C98_consistent, C98_never_lost, C98_resume, C98_truncated_for_ever, C98_crash_window, C99_methods, C99_degenerate.
* CL, D1, FE: C101_twenty_communities, C31_positive_weights, C54_colours, C54_raises, C54_enough_colours, C54_too_few_colours, C73_possible_parameters, C96_between_propensity.
* D1: C05_parallel_gammas, C05_serial_gammas, C05_parallel_equals_serial, C06_parallel_grid, C06_serial_grid, C06_parallel_equals_serial, C07_serial, C07_capability_check, C11_singlelayer, C11_multilayer, C11_vertex_count_list, C64_return_partition, C64_multilayer_louvain_parts.
* D1, D2, FE: C120_multilayer, C120_passes_multilayer, C17_halfspaces_encode_quality_2D, C17_halfspaces_encode_quality_3D, C18_box_keeps_envelope_2D, C18_box_keeps_envelope_3D, C19_interior_exists_iff_2D, C19_interior_exists_iff_3D, C20_interior_point_sound, C20_interior_point_stops, C20_zero_sample_diverges, C34_unique_solution, C72_finds_interior_point, C72_reports_degenerate, C72_champ_systems_end_with_box.
* D1, FE: C10_stale_after_reweighting, C100_shares, C100_probabilities, C100_grid, C100_planted, C100_file, C100_complete_run, C100_realizations_swapped, C101_bars, C101_not_a_probability, C103_arrows, C106_script, C106_margins_differ, C107_probabilities, C108_histograms, C109_exact_2D, C109_per_layer, C109_exact_3D, C11_estimate_multilayer, C110_sampled, C110_points_and_lines, C112_documented_network, C112_refuted_size, C114_checks, C114_refuted_blocks, C115_exact, C115_exact_multilayer, C115_first_only, C115_refuted_coverage, C119_benchmark, C119_ends, C119_never_ends, C120_singlelayer, C120_passes_singlelayer, C121_scales, C121_densities, C121_three_blocks, C121_three_block_densities, C16_coefficients_ignore_labels, C16_coefficients_bounded, C27_estimates, C27_balance, C27_unit_weights, C28_adjacency_and_partition, C28_representation, C31_estimates, C31_given_values, C31_given_own, C32_persistence, C33_probability, C33_multiplex, C34_increasing, C34_small_persistence, C34_equation, C34_no_solution, C38_single_layer_filter, C39_point_in_polygon, C39_boundary_is_not_interior, C39_interior_is_inside, C39_kept_is_inside, C39_nan_is_kept, C39_degenerate, C48_exact, C48_accepted, C48_missing_counts, C48_short_layer_vector, C48_valid, C51_multilayer_objective, C51_singlelayer_objective, C51_objective_equals_coefficients, C51_multilayer_leiden_optimises, C51_singlelayer_leiden_optimises, C54_every_colouring, C54_every_dead_end, C56_persistence_function, C60_estimates, C60_same_figure, C61_values, C61_raises, C62_values, C63_figure, C64_leiden_part, C64_multilayer_leiden_parts, C65_run_is_optimal, C65_multilayer_run_is_optimal, C75_crossing, C75_limit, C79_exact_contract, C81_check_is_exact, C82_inside_test, C82_check_is_exact, C83_manual_plot_is_argmax, C83_no_partitions, C85_same_network, C85_coefficients, C87_loop_detection_exact, C87_stable_or_loop, C89_modularity, C92_layered_network, C92_errors, C92_temporal, C92_multiplex, C92_refuted_size, C92_mean_degree, C93_accepted, C93_persistence, C94_expected_degrees, C94_densities, C94_network, C94_errors, C96_run_louvain, C97_repeated, C97_modularity, C97_isolated_modularity, C98_file_names, C99_panel, C99_panel_no_graphs.
* closed: C01_sorted_tuple_keeps_partition, C02_sorted_tuple_is_canonical, C03_sorted_tuple_complete_invariant, C03_sorted_tuple_idempotent, C04_memoisation_unobservable, C06_grid_positions, C06_fresh_copies, C09_split_by_layer, C09_errors, C10_cache_is_current, C101_accepted, C101_pictures, C106_order, C106_matrix, C111_printed, C111_outcomes, C118_type_error, C121_nested, C23_empty_input, C38_determined, C42_relabelled, C44_single_threaded, C49_communities_partition_nodes, C49_layered_communities_partition_nodes, C50_num_communities_exact, C50_num_communities_errors, C50_num_communities_of_canonical, C53_cut, C53_deprecated_names, C53_missing_name_is_None, C55_arrays, C55_unequal_layers, C55_refuted, C55_rejected, C86_experiment_exact, C93_network, C93_assertions, C93_refuted_couplings, C95_multilayer, C95_connected, C95_partition, C95_partition_runs, C95_partitions, C99_benchmark, C99_benchmark_failures, C99_places.
