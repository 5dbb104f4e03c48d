{"id": "C01", "title": "sorted_tuple keeps the partition", "statement": "sorted_tuple(t) has the length of t and puts two positions under the same label exactly when t did; it never raises.", "quantifier": "every finite tuple of integers (any length, negative labels and gaps included)", "why_tests_cant": "needs all tuples of all lengths and all pairs of positions", "anchors": ["utilities/leiden_utilities.py:sorted_tuple"]}
{"id": "C02", "title": "sorted_tuple is in first-occurrence canonical form", "statement": "In sorted_tuple(t), if label b occurs then every label a<b occurs too, and first occurs strictly earlier; so the labels used are exactly 0..K-1 in order of first appearance.", "quantifier": "every finite tuple of integers", "why_tests_cant": "tests sample a few tuples; the claim is about every tuple and label", "anchors": ["utilities/leiden_utilities.py:sorted_tuple"]}
{"id": "C03", "title": "sorted_tuple is a complete invariant of the partition", "statement": "sorted_tuple(s)==sorted_tuple(t) exactly when s and t are equal up to renaming labels; sorted_tuple is idempotent. Hence sets of canonical tuples deduplicate partitions exactly.", "quantifier": "every pair of finite tuples", "why_tests_cant": "quantifies over pairs of arbitrary tuples and all renamings", "anchors": ["utilities/leiden_utilities.py:sorted_tuple"]}
{"id": "C04", "title": "Memoising sorted_tuple is unobservable", "statement": "Through the LRU cache (maxsize 1000), every call in every history of calls returns what an uncached call would return, and the cache never holds more than 1000 entries.", "quantifier": "every finite history of calls", "why_tests_cant": "history dependent: evictions only occur after >1000 distinct keys in arbitrary orders", "anchors": ["utilities/leiden_utilities.py:sorted_tuple"]}
{"id": "C05", "title": "Parallel single-layer Leiden runs every gamma exactly once", "statement": "repeated_parallel_leiden_from_gammas submits every provided gamma exactly once and returns the set {sorted_tuple(result)} over all of them, whatever the number of cores, the pool chunk size and the completion order; with a deterministic optimiser this is the set returned by the serial repeated_leiden_from_gammas.", "quantifier": "every list of gammas, cpu count >= 1, schedule (completion order) and optimiser behaviour", "why_tests_cant": "schedules and core counts cannot be enumerated by tests", "anchors": ["utilities/leiden_utilities.py:repeated_parallel_leiden_from_gammas", "utilities/leiden_utilities.py:repeated_leiden_from_gammas"]}
{"id": "C06", "title": "Parallel multilayer Leiden covers the whole grid", "statement": "repeated_parallel_leiden_from_gammas_omegas runs each (gamma, omega) pair of the product grid exactly once and returns exactly the set of canonical results, independent of cores, chunking and completion order; equals the serial version for a deterministic optimiser.", "quantifier": "every pair of lists, cpu count and schedule", "why_tests_cant": "schedules and core counts cannot be enumerated by tests", "anchors": ["utilities/leiden_utilities.py:repeated_parallel_leiden_from_gammas_omegas", "utilities/leiden_utilities.py:repeated_leiden_from_gammas_omegas"]}
{"id": "C07", "title": "Legacy Louvain chunk dispatch covers the whole grid", "statement": "repeated_parallel_louvain_from_gammas_omegas with chunk_dispatch True or False, and with any pattern of low-memory pool restarts, runs each (gamma, omega) pair exactly once and returns the same set of canonical results.", "quantifier": "every grid, every chunk_dispatch flag, every memory history", "why_tests_cant": "memory conditions and grid sizes around multiples of 99 cannot all be tested", "anchors": ["utilities/louvain_utilities.py:repeated_parallel_louvain_from_gammas_omegas"]}
{"id": "C08", "title": "Legacy Louvain driver returns on every nonempty grid", "statement": "repeated_parallel_louvain_from_gammas_omegas returns a nonempty set for every nonempty grid (up to 2^53 points), with and without the progress bar and chunk dispatch; on an empty grid it returns the empty set without the bar and raises ZeroDivisionError with it. (Finding: the docstring promises a set for every grid.)", "quantifier": "every grid and flag combination", "why_tests_cant": "claims absence of failures over all sizes", "anchors": ["utilities/louvain_utilities.py:repeated_parallel_louvain_from_gammas_omegas", "utilities/progress.py:Progress"]}
{"id": "C09", "title": "Splitting by layer is lossless", "statement": "Splitting an intralayer graph yields one graph per layer, each with all the original vertices and directedness; every edge (with its own weight) appears in exactly one layer, that of its source, in original order, and nothing is added.", "quantifier": "every graph with weights and every layer vector covering it", "why_tests_cant": "all graphs and layer assignments", "anchors": ["utilities/leiden_utilities.py:split_intralayer_leiden_graph", "utilities/leiden_utilities.py:_split_leiden_graph_layers_cached"]}
{"id": "C10", "title": "The layer-split cache returns the current graph's layers unless a graph was changed in place", "statement": "A call to split_intralayer_leiden_graph returns the split of the graph as it is at the time of the call, in every history of calls and mutations in which no graph object is changed in place to another graph with the same number of vertices and edges, directedness and layer vector between two calls. (Finding: after such a change, e.g. of the weights, it returns the old layers, since cache keys are igraph edge handles; proved too.)", "quantifier": "every history of calls interleaved with graph mutations", "why_tests_cant": "history dependent", "anchors": ["utilities/leiden_utilities.py:split_intralayer_leiden_graph", "utilities/leiden_utilities.py:_split_leiden_graph_layers_cached"]}
{"id": "C11", "title": "Weight defaulting", "statement": "An entry point given a graph without edge weights gives every edge weight 1.0 and changes nothing else; a graph the membership test reports as weighted is left alone. This includes gamma_estimate, which builds the default list with the number of vertices.", "quantifier": "every graph", "why_tests_cant": "all graphs, including those where vertex and edge counts differ", "anchors": ["utilities/leiden_utilities.py:singlelayer_leiden", "utilities/parameter_estimation_utilities.py:gamma_estimate", "utilities/parameter_estimation.py:iterative_monolayer_resolution_parameter_estimation"]}
{"id": "C12", "title": "Single-layer coefficients are modularity (undirected)", "statement": "For an undirected graph with at least one edge, A_hat - gamma*P_hat of a partition equals sum_ij [A_ij - gamma k_i k_j/2m] delta(c_i,c_j) for every gamma.", "quantifier": "every undirected multigraph (self-loops included), partition and real gamma", "why_tests_cant": "tests compare numerically on random graphs only", "anchors": ["utilities/champ_utilities.py:partition_coefficients_2D_serial", "utilities/champ_utilities.py:partition_coefficients_2D"]}
{"id": "C13", "title": "Single-layer coefficients are modularity (directed)", "statement": "For a directed graph with at least one edge, A_hat - gamma*P_hat equals sum_ij [A_ij - gamma kin_i kout_j/m] delta(c_i,c_j) (Leicht-Newman).", "quantifier": "every directed multigraph, partition and gamma", "why_tests_cant": "tests compare numerically on random graphs only", "anchors": ["utilities/champ_utilities.py:partition_coefficients_2D_serial"]}
{"id": "C14", "title": "Multilayer coefficients are multilayer modularity", "statement": "For an intralayer graph whose layers all contain edges, A_hat - gamma P_hat + omega C_hat equals sum_ij [A_ij - gamma k_i k_j/(2 m_l) delta(l_i,l_j)] delta(c_i,c_j) + omega sum_ij C_ij delta(c_i,c_j), in the directed and undirected case.", "quantifier": "every intralayer/interlayer graph pair, layer vector, partition, gamma, omega", "why_tests_cant": "tests compare numerically on random graphs only", "anchors": ["utilities/champ_utilities.py:partition_coefficients_3D_serial"]}
{"id": "C15", "title": "Parallel coefficients equal serial coefficients", "statement": "Splitting the partitions over cores at floor(i*len/cpus), computed in binary64, and gathering the results gives exactly the serial coefficients in input order, for the 2D and 3D versions.", "quantifier": "every list of at most 2^53 partitions and cpu count >= 1, every schedule", "why_tests_cant": "rounding of i*len/cpus over all sizes and core counts", "anchors": ["utilities/champ_utilities.py:partition_coefficients_2D", "utilities/champ_utilities.py:partition_coefficients_3D"]}
{"id": "C16", "title": "Coefficients depend only on the partition and are bounded", "statement": "A_hat, P_hat and C_hat are unchanged by renaming communities; 0<=A_hat<=2m (m if directed); 0<P_hat<=2m for undirected graphs with an edge and 0<=P_hat<=m for directed.", "quantifier": "every graph, partition and injective renaming", "why_tests_cant": "all renamings and graphs", "anchors": ["utilities/champ_utilities.py:partition_coefficients_2D_serial", "utilities/champ_utilities.py:partition_coefficients_3D_serial"]}
{"id": "C17", "title": "Halfspaces encode 'Q is at least the partition quality'", "statement": "A point (gamma,Q) satisfies the i-th generated halfspace exactly when Q >= A_i - gamma P_i (3D: Q >= A_i - gamma P_i + omega C_i), it is on its boundary exactly on equality, and row normalisation never changes either.", "quantifier": "every list of coefficients and every point", "why_tests_cant": "all real coefficients and points", "anchors": ["utilities/champ_utilities.py:halfspaces_from_coefficients_2D", "utilities/champ_utilities.py:halfspaces_from_coefficients_3D", "utilities/champ_utilities.py:CHAMP_2D", "utilities/champ_utilities.py:CHAMP_3D"]}
{"id": "C18", "title": "The bounding box never cuts the quality envelope", "statement": "With P_i>=0 (and C_i>=0), for every gamma in [gamma_0,gamma_f] (omega in [omega_0,omega_f]) the point on the upper envelope satisfies every halfspace passed to the intersection, including the four/six box halfspaces.", "quantifier": "every coefficient list and parameter point", "why_tests_cant": "continuum of parameter points", "anchors": ["utilities/champ_utilities.py:CHAMP_2D", "utilities/champ_utilities.py:CHAMP_3D"]}
{"id": "C19", "title": "CHAMP's interior-point problem is solvable on valid input", "statement": "For an undirected graph with an edge, a nonempty partition list and gamma_0<gamma_f (omega_0<omega_f), a point strictly inside every halfspace exists, so the 'impossible or degenerate' error is never legitimate. For directed graphs it exists exactly when every partition with P=0 has A below the top.", "quantifier": "every graph, partition list and parameter range", "why_tests_cant": "existence over all inputs", "anchors": ["utilities/champ_utilities.py:CHAMP_2D", "utilities/champ_utilities.py:CHAMP_3D", "utilities/champ_utilities.py:get_interior_point"]}
{"id": "C20", "title": "get_interior_point only returns interior points and always stops", "statement": "Whatever the LP solver and the random sampler answer, get_interior_point either raises or returns a point strictly inside every halfspace, and makes a bounded number of LP calls when initial_num_sampled>=1.", "quantifier": "every halfspace list, solver behaviour and sampler behaviour", "why_tests_cant": "adversarial solver answers and unbounded retry loops", "anchors": ["utilities/champ_utilities.py:get_interior_point"]}
{"id": "C21", "title": "CHAMP_2D ranges are optimal", "statement": "For every returned (start,end,partition) and every gamma in [start,end], no input partition has larger modularity at gamma than the returned one.", "quantifier": "every graph, partition list, range and gamma in the continuum", "why_tests_cant": "continuum of gammas; tests sample 100", "anchors": ["utilities/champ_utilities.py:CHAMP_2D"]}
{"id": "C22", "title": "CHAMP_2D ranges cover [gamma_0,gamma_f]", "statement": "Every gamma in [gamma_0,gamma_f] lies in some returned range, so the upper envelope of all inputs is represented; a partition that is strictly best at some gamma in the range is returned.", "quantifier": "every graph, partition list and gamma", "why_tests_cant": "continuum of gammas", "anchors": ["utilities/champ_utilities.py:CHAMP_2D"]}
{"id": "C23", "title": "CHAMP_2D output is well formed", "statement": "Returned ranges satisfy gamma_0<=start<=end<=gamma_f, are sorted by start, each names an input partition at most once, and an empty input gives an empty output.", "quantifier": "every input", "why_tests_cant": "all inputs", "anchors": ["utilities/champ_utilities.py:CHAMP_2D"]}
{"id": "C24", "title": "CHAMP_3D domains are optimal", "statement": "For every returned domain and every (gamma,omega) in the convex hull of its vertices, no input partition has larger multilayer modularity there; vertices lie in the requested rectangle.", "quantifier": "every multilayer graph, partition list, and point of the continuum", "why_tests_cant": "continuum of points", "anchors": ["utilities/champ_utilities.py:CHAMP_3D"]}
{"id": "C25", "title": "CHAMP_3D domains cover the rectangle", "statement": "Every (gamma,omega) in the requested rectangle is in the convex hull of the vertices of some returned domain; a partition strictly best somewhere is returned.", "quantifier": "every input and point", "why_tests_cant": "continuum of points", "anchors": ["utilities/champ_utilities.py:CHAMP_3D"]}
{"id": "C26", "title": "CHAMP_3D domain vertices are given in angular order", "statement": "The vertex list of a domain is a permutation of its facet's vertices sorted by angle around their centroid; for vertices of a convex polygon consecutive vertices therefore form the polygon's edges (constant turning direction about the centroid).", "quantifier": "every set of facet vertices", "why_tests_cant": "all real configurations", "anchors": ["utilities/champ_utilities.py:CHAMP_3D"]}
{"id": "C27", "title": "Single-layer SBM estimates match their definition", "statement": "estimate_singlelayer_SBM_parameters returns omega_in = (weight inside communities)/(expected weight inside under the configuration model) and omega_out the same ratio for pairs across communities; on unit weights omega_in = A_hat/P_hat and omega_out=(2m-A_hat)/(2m-P_hat), and omega_in*P+omega_out*(2m-P)=2m.", "quantifier": "every nonnegatively weighted graph and partition", "why_tests_cant": "all graphs", "anchors": ["utilities/parameter_estimation_utilities.py:estimate_singlelayer_SBM_parameters"]}
{"id": "C28", "title": "SBM estimates are representation independent", "statement": "omega_in, omega_out and the gamma estimate do not depend on edge order, edge orientation, community names (keeping 0..K-1), a common positive factor on all weights, or on replacing each undirected edge by its two arcs.", "quantifier": "every graph, permutation, renaming and factor", "why_tests_cant": "all permutations and renamings", "anchors": ["utilities/parameter_estimation_utilities.py:estimate_singlelayer_SBM_parameters", "utilities/parameter_estimation_utilities.py:gamma_estimate"]}
{"id": "C29", "title": "The gamma estimate is the logarithmic mean", "statement": "For distinct positive omega_in, omega_out the gamma estimate lies strictly between them, strictly above their geometric mean and strictly below their arithmetic mean, is symmetric and homogeneous; None is returned exactly when one of them is 0.", "quantifier": "all positive reals", "why_tests_cant": "continuum of parameters", "anchors": ["utilities/parameter_estimation_utilities.py:gamma_estimate_from_parameters"]}
{"id": "C30", "title": "gamma_estimate fails exactly on degenerate partitions", "statement": "For every graph with positive weights and every membership vector, gamma_estimate raises ZeroDivisionError exactly if the graph has no edges, or if some label is positive although all vertices with an edge are in one community; otherwise it returns a value (possibly None). (Finding: so it can raise on a valid partition of a graph with isolated vertices; proved too.)", "quantifier": "every graph and partition", "why_tests_cant": "claims absence of failures over all graphs", "anchors": ["utilities/parameter_estimation_utilities.py:gamma_estimate", "utilities/parameter_estimation_utilities.py:estimate_singlelayer_SBM_parameters"]}
{"id": "C31", "title": "Multilayer SBM estimates match their definition", "statement": "theta_in and theta_out are the ratios of observed to expected within/between-community weight summed over layers; the automatic N,T,Nt,m_t arguments equal the explicitly computed ones, and values of N,Nt,m_t that are given are used as given; theta_out is 0 when nothing is expected between communities.", "quantifier": "every multilayer graph and partition", "why_tests_cant": "all graphs", "anchors": ["utilities/parameter_estimation_utilities.py:estimate_multilayer_SBM_parameters"]}
{"id": "C32", "title": "Persistence is a fraction", "statement": "On inputs accepted by the consistency check, temporal and multiplex persistence are in [0,1]; multilevel persistence is in [0, T/(T-1)], and in [0,1] when no interlayer edge enters the first layer; all are 1 when every node keeps its label (temporal, multiplex).", "quantifier": "every accepted multilayer graph and partition", "why_tests_cant": "all graphs", "anchors": ["utilities/parameter_estimation_utilities.py:ordinal_persistence", "utilities/parameter_estimation_utilities.py:multilevel_persistence", "utilities/parameter_estimation_utilities.py:categorical_persistence"]}
{"id": "C33", "title": "The copying probability estimate is a probability", "statement": "p is in [0,1] for every persistence value and number of communities: unconditionally for temporal and multilevel, and for multiplex whenever the root finder returns a root; hence the 'impossible estimate' error cannot fire there.", "quantifier": "all persistence values, K>=1, T>=2 and all exact roots", "why_tests_cant": "continuum, and all roots of polynomials of any degree", "anchors": ["utilities/parameter_estimation_utilities.py:estimate_multilayer_SBM_parameters", "utilities/parameter_estimation.py:iterative_multilayer_resolution_parameter_estimation"]}
{"id": "C34", "title": "The multiplex p equation has a unique solution", "statement": "For K>1, T>1 and persistence in [1/K,1) the polynomial equation solved for p has exactly one solution in [0,1], and it is increasing in the persistence; below 1/K every nonnegative root is excluded.", "quantifier": "all K, T and persistence values", "why_tests_cant": "polynomials of every degree", "anchors": ["utilities/parameter_estimation_utilities.py:estimate_multilayer_SBM_parameters"]}
{"id": "C35", "title": "Omega estimates behave as documented", "statement": "For theta_in>theta_out>0 the omega estimate is 0 at p=0, omega_max at p=1, positive and strictly increasing in p in between, and decreasing in the number of layers for multiplex.", "quantifier": "continuum of parameters", "why_tests_cant": "continuum", "anchors": ["utilities/parameter_estimation_utilities.py:temporal_multilevel_omega_estimate_from_parameters", "utilities/parameter_estimation_utilities.py:multiplex_omega_estimate_from_parameters"]}
{"id": "C36", "title": "omega_max is a default, not a bound", "statement": "For theta_in > theta_out > 0 an omega estimate is omega_max, or 0 (only for p = 0), or, for 0 < p < 1, the value of the formula, which is not clamped. (Finding: although omega_max is documented as the maximum allowed value, for every omega_max and all such theta's some p gives a larger estimate; proved too.)", "quantifier": "continuum of parameters", "why_tests_cant": "continuum", "anchors": ["utilities/parameter_estimation_utilities.py:temporal_multilevel_omega_estimate_from_parameters", "utilities/parameter_estimation_utilities.py:multiplex_omega_estimate_from_parameters"]}
{"id": "C37", "title": "gamma_omega_estimate fails exactly on two kinds of partitions", "statement": "For every accepted multilayer graph and every membership vector, gamma_omega_estimate returns a pair (with the documented gamma and omega), except that, for a copying probability strictly between 0 and 1, it raises ValueError if no edge is inside a community and, for temporal and multilevel models, ZeroDivisionError if the observed weight inside communities equals the expected one. (Finding: both happen for valid unit-weight inputs; proved too.)", "quantifier": "every accepted multilayer graph and partition", "why_tests_cant": "absence of failure over all graphs", "anchors": ["utilities/parameter_estimation_utilities.py:gamma_omega_estimate", "utilities/parameter_estimation_utilities.py:temporal_multilevel_omega_estimate_from_parameters"]}
{"id": "C38", "title": "Single-layer stability filter is exact", "statement": "gamma_estimates_to_stable_partitions keeps exactly the memberships whose estimate is a number within their closed range, in input order.", "quantifier": "every list of estimates", "why_tests_cant": "all lists", "anchors": ["utilities/parameter_estimation_utilities.py:gamma_estimates_to_stable_partitions", "utilities/parameter_estimation_utilities.py:ranges_to_gamma_estimates"]}
{"id": "C39", "title": "Multilayer stability filter is point-in-polygon", "statement": "For domains given as convex polygons in cyclic order with numeric (or missing) estimates, exactly the partitions whose (gamma,omega) estimate is strictly inside their polygon are kept, in order; a kept estimate is a convex combination of the domain's vertices, and boundary points are rejected. A nan gamma estimate is always kept, and domains with one or two vertices are kept exactly if the estimate is on them (collinear) or they are single points. (The nan and single-point cases are findings.)", "quantifier": "every convex polygon with any number of vertices and every point", "why_tests_cant": "continuum of points and all vertex counts", "anchors": ["utilities/parameter_estimation_utilities.py:gamma_omega_estimates_to_stable_partitions"]}
{"id": "C40", "title": "Single-layer pruning is sound", "statement": "Every partition returned by prune_to_stable_partitions is the canonical form of an input partition, has the requested number of communities, has a gamma estimate within [gamma_start,gamma_end], and no considered input partition has larger modularity at that estimate.", "quantifier": "every graph, input set, range and restriction", "why_tests_cant": "end to end over all inputs", "anchors": ["utilities/parameter_estimation_utilities.py:prune_to_stable_partitions"]}
{"id": "C41", "title": "Single-layer pruning is complete", "statement": "An input partition (with the requested number of communities) that is strictly the best considered one at its own gamma estimate, with the estimate in [gamma_start,gamma_end], is returned.", "quantifier": "every graph, input set and range", "why_tests_cant": "end to end over all inputs", "anchors": ["utilities/parameter_estimation_utilities.py:prune_to_stable_partitions"]}
{"id": "C42", "title": "Pruning ignores representation of the input", "statement": "The considered set of partitions (hence the result's guarantees) is unchanged by duplicating, reordering or relabelling input partitions; no two returned partitions are equal; an input with no partition of the requested size gives [].", "quantifier": "every input collection and renaming", "why_tests_cant": "all renamings and permutations", "anchors": ["utilities/parameter_estimation_utilities.py:prune_to_stable_partitions", "utilities/parameter_estimation_utilities.py:prune_to_multilayer_stable_partitions"]}
{"id": "C43", "title": "Multilayer pruning is sound", "statement": "Every partition returned by prune_to_multilayer_stable_partitions is the canonical form of an input and has the requested number of communities, no partition is returned twice, and, if its gamma estimate is a number and its domain has an area, no considered partition has larger multilayer modularity at (gamma estimate, min(omega estimate, omega_end-0.001)), which is a point of its domain and of the requested rectangle. (Finding: a partition with a nan estimate is returned whenever it has a domain; proved too.)", "quantifier": "every multilayer graph, input set, rectangle and restriction", "why_tests_cant": "end to end over all inputs", "anchors": ["utilities/parameter_estimation_utilities.py:prune_to_multilayer_stable_partitions"]}
{"id": "C44", "title": "Multilayer pruning option handling", "statement": "single_threaded=True always raises NotImplementedError before anything else; omega truncation is to omega_end-0.001 and the truncation warning is issued exactly when some finite-gamma domain's omega estimate reaches omega_end; weight/connectivity warnings never change the result.", "quantifier": "every input", "why_tests_cant": "all inputs", "anchors": ["utilities/parameter_estimation_utilities.py:prune_to_multilayer_stable_partitions"]}
{"id": "C45", "title": "Monolayer iteration stops and reports its last step", "statement": "iterative_monolayer_resolution_parameter_estimation calls the optimiser at most max_iter times; if it returns, the partition is the last one computed, gamma is the estimate from that partition, and either the last move was below tol or exactly max_iter steps were made; a degenerate partition raises ValueError.", "quantifier": "every optimiser behaviour, start, tolerance and max_iter", "why_tests_cant": "adversarial optimiser histories", "anchors": ["utilities/parameter_estimation.py:iterative_monolayer_resolution_parameter_estimation"]}
{"id": "C46", "title": "Multilayer iteration stops and reports its last step", "statement": "Same for iterative_multilayer_resolution_parameter_estimation with both gamma and omega tolerances; it raises ValueError on malformed graphs before any optimisation.", "quantifier": "every optimiser behaviour and input", "why_tests_cant": "adversarial optimiser histories", "anchors": ["utilities/parameter_estimation.py:iterative_multilayer_resolution_parameter_estimation"]}
{"id": "C47", "title": "Multilayer iteration results leak between calls only for max_iter <= 0", "statement": "With max_iter >= 1 the outcome of iterative_multilayer_resolution_parameter_estimation does not depend on earlier calls. (Finding: with max_iter <= 0 on a valid graph it returns the partitions computed last by any earlier call, or raises NameError if there are none, since they are kept in a module-level variable; proved for every sequence of earlier calls.)", "quantifier": "every sequence of calls", "why_tests_cant": "history dependent", "anchors": ["utilities/parameter_estimation.py:iterative_multilayer_resolution_parameter_estimation"]}
{"id": "C48", "title": "Consistency check is exact", "statement": "check_multilayer_graph_consistency raises ValueError exactly when at least one listed structural rule is violated and its message lists exactly the violated rules in order.", "quantifier": "every graph pair, layer vector and model", "why_tests_cant": "2^13 rule combinations over all graphs", "anchors": ["utilities/parameter_estimation.py:check_multilayer_graph_consistency"]}
{"id": "C49", "title": "Community grouping is a partition of the nodes", "statement": "membership_to_communities maps each used label to exactly the increasing list of its nodes, in order of first appearance, and nothing else; the layered version likewise for (label,layer).", "quantifier": "every membership and layer vector", "why_tests_cant": "all lists", "anchors": ["utilities/partition_utilities.py:membership_to_communities", "utilities/partition_utilities.py:membership_to_layered_communities"]}
{"id": "C50", "title": "num_communities counts communities", "statement": "num_communities returns K exactly when the labels used are 0..K-1 (K>=1) and fails otherwise; it never fails on the canonical form of a nonempty membership.", "quantifier": "every membership", "why_tests_cant": "all lists", "anchors": ["utilities/partition_utilities.py:num_communities"]}
{"id": "C51", "title": "Optimised objective and CHAMP coefficients agree", "statement": "The objective handed to the multilayer optimiser (sum of per-layer RB qualities at gamma plus omega times the CPM(0) quality) equals A_hat - gamma P_hat + omega C_hat on unit-weight graphs without cross-layer intralayer edges; the single-layer objective equals A_hat-gamma P_hat.", "quantifier": "every graph, partition, gamma, omega", "why_tests_cant": "all graphs", "anchors": ["utilities/leiden_utilities.py:multilayer_leiden", "utilities/leiden_utilities.py:multilayer_leiden_part_with_membership", "utilities/champ_utilities.py:partition_coefficients_3D_serial"]}
{"id": "C52", "title": "Progress bar geometry", "statement": "For 0<=i<=total (total>0) the bar shows exactly length characters, floor(length*i/total) of them filled, never decreasing in i, all filled at done(). Creating a bar of length 0, or updating one with total 0, raises ZeroDivisionError instead.", "quantifier": "every total, length and i", "why_tests_cant": "all integers", "anchors": ["utilities/progress.py:Progress"]}
{"id": "C53", "title": "Deprecated Louvain names resolve to their Leiden counterparts", "statement": "An attribute of louvain_utilities not defined there and containing 'louvain' resolves to the leiden_utilities attribute with every 'louvain' replaced by 'leiden', raising AttributeError if there is none; any other missing attribute evaluates to None. (The last part is a finding: it should raise AttributeError.)", "quantifier": "every attribute name", "why_tests_cant": "all strings", "anchors": ["utilities/louvain_utilities.py:__getattr__"]}
{"id": "C54", "title": "Adjacent plotted domains get different colours", "statement": "plot_2d_domains assigns different colours to every two domains that share a vertex, for every random choice, whenever it does not raise.", "quantifier": "every domain list and random choice", "why_tests_cant": "all random choices and domain layouts", "anchors": ["utilities/plotting.py:plot_2d_domains"]}
{"id": "C55", "title": "plot_multiplex_community shows each layer's memberships for numpy arrays", "statement": "Given numpy arrays and layers of equal size, column t of the drawn matrix holds the communities of the nodes of layer t in node order; for unequal layers ValueError is raised (unless no layer has two vertices). (Finding: for the documented tuple/list types every cell shows the community of vertex 0, and for mixed types it raises; proved too.)", "quantifier": "every membership and layer vector with equal layer sizes", "why_tests_cant": "all inputs", "anchors": ["utilities/plotting.py:plot_multiplex_community"]}
{"id": "C56", "title": "Unsupported models and methods are rejected", "statement": "omega_function_from_model and persistence_function_from_model accept exactly temporal, multilevel and multiplex (the latter requiring their parameters), raising ValueError otherwise; the monolayer iteration accepts exactly louvain, leiden and 2-spinglass.", "quantifier": "every model/method string", "why_tests_cant": "all strings", "anchors": ["utilities/parameter_estimation_utilities.py:omega_function_from_model", "utilities/parameter_estimation_utilities.py:persistence_function_from_model", "utilities/parameter_estimation.py:iterative_monolayer_resolution_parameter_estimation"]}
{"id": "C57", "title": "Multilayer pruning is complete", "statement": "An input partition (with the requested number of communities) that is strictly the best considered one at its own (gamma, min(omega, omega_end - 0.001)) estimate, with that point strictly inside the requested rectangle, is returned, and pruning returns at all whenever every considered partition has an estimate.", "quantifier": "every multilayer graph, input set, rectangle and restriction", "why_tests_cant": "end to end over all inputs", "anchors": ["utilities/parameter_estimation_utilities.py:prune_to_multilayer_stable_partitions"]}
{"id": "C58", "title": "Weighted graphs are pruned as unweighted when the weight test answers False", "statement": "As the warning announces, pruning a weighted graph returns what pruning the unweighted graph returns, whenever the code's test 'weight' in G.es answers False (as igraph does), which overwrites the weights. (Finding: when it answers True the claim is false; a counterexample is proved.)", "quantifier": "every graph, weight vector, input set and option", "why_tests_cant": "all graphs and weights, end to end", "anchors": ["utilities/parameter_estimation_utilities.py:prune_to_stable_partitions", "utilities/parameter_estimation_utilities.py:prune_to_multilayer_stable_partitions", "utilities/parameter_estimation_utilities.py:gamma_estimate"]}
{"id": "C59", "title": "single_threaded never changes a single-layer result", "statement": "CHAMP_2D and prune_to_stable_partitions give the same outcome (value, warnings, exception and effect on the graph) with single_threaded True and False, for every pool size and completion order.", "quantifier": "every input and schedule", "why_tests_cant": "schedules of the process pool", "anchors": ["utilities/champ_utilities.py:CHAMP_2D", "utilities/parameter_estimation_utilities.py:prune_to_stable_partitions"]}
{"id": "C60", "title": "plot_2d_domains_with_estimates draws every domain and exactly the visible estimates", "statement": "Every domain is drawn with its axes swapped; an arrow is drawn exactly for each domain with a numeric estimate inside the window whose centroid is at most 5% of the window's width outside it horizontally, from the centroid moved to the nearest point of the window to the estimate, in domain order; dots (if asked for) are the arrow heads; colours and exceptions are those of plot_2d_domains; flip_axes=False is refused.", "quantifier": "every list of domains with estimates, window and random choice", "why_tests_cant": "all windows and domains over the reals", "anchors": ["utilities/plotting.py:plot_2d_domains_with_estimates"]}
{"id": "C61", "title": "plot_2d_domains_with_num_communities colours each domain by its number of communities", "statement": "Exactly the domains with a corner in the window are drawn, in order, each with its own number of communities, capped by K_max if given; the ticks are 2, 2+tick_step, ... up to K_max (the largest drawn number if not given); ValueError if nothing is drawn and K_max is not given. (Finding: a domain that covers the window without a corner in it is not drawn.)", "quantifier": "every list of domains, window, K_max and step", "why_tests_cant": "all windows and domains over the reals", "anchors": ["utilities/plotting.py:plot_2d_domains_with_num_communities"]}
{"id": "C62", "title": "plot_2d_domains_with_ami colours each domain by its AMI", "statement": "Exactly the domains with a corner in the window are drawn, in order, each with the AMI of its membership and the ground truth, followed by a value 1 that extends the colour bar.", "quantifier": "every list of domains, ground truth and window", "why_tests_cant": "all windows and domains", "anchors": ["utilities/plotting.py:plot_2d_domains_with_ami"]}
{"id": "C63", "title": "plot_estimates points each range at the partition that is optimal at its estimate", "statement": "One horizontal line per range at the height of its number of communities; one arrow per range with an estimate, from the middle of its line to (estimate, number of communities of the last range containing the estimate), where a dot is drawn; if no range contains the estimate the arrow points at the top of the plot at the nearest x inside it, without a dot.", "quantifier": "every list of ranges with estimates, every axis limits that contain the lines", "why_tests_cant": "all lists over the reals", "anchors": ["utilities/plotting.py:plot_estimates"]}
{"id": "C64", "title": "Partition objects score their membership with modularity", "statement": "leiden_part_with_membership and multilayer_leiden_part_with_membership return objects carrying the given membership whose qualities at every resolution are the modularity of that partition (multilayer: the layer objects' qualities at gamma plus omega times the interlayer object's add up to multilayer modularity); a membership of the wrong length is rejected; multilayer_leiden with return_partition=True returns one object per layer with the membership it would otherwise return; the legacy Louvain objects are built on the same graphs, layers and resolutions.", "quantifier": "every graph pair, layer vector, membership, gamma, omega and optimiser answer", "why_tests_cant": "all graphs and resolutions over the reals", "anchors": ["utilities/leiden_utilities.py:leiden_part_with_membership", "utilities/leiden_utilities.py:multilayer_leiden_part_with_membership", "utilities/leiden_utilities.py:multilayer_leiden", "utilities/louvain_utilities.py:multilayer_louvain_part_with_membership"]}
{"id": "C65", "title": "With an optimiser that finds maxima the pipeline's domains are globally optimal where sampled", "statement": "If leidenalg answers with a partition of maximal quality, then every partition that CHAMP reports for the output of repeated_leiden_from_gammas (serial or parallel) is optimal among all partitions of the graph at every sampled gamma in its range and everywhere between two such gammas; for the multilayer drivers, everywhere in the convex hull of the sampled (gamma, omega) points in its domain.", "quantifier": "every graph, list of resolutions, schedule and maximising optimiser", "why_tests_cant": "all partitions of all graphs, end to end", "anchors": ["utilities/leiden_utilities.py:repeated_leiden_from_gammas", "utilities/leiden_utilities.py:repeated_parallel_leiden_from_gammas", "utilities/leiden_utilities.py:repeated_leiden_from_gammas_omegas", "utilities/leiden_utilities.py:repeated_parallel_leiden_from_gammas_omegas", "utilities/champ_utilities.py:CHAMP_2D", "utilities/champ_utilities.py:CHAMP_3D"]}
{"id": "C66", "title": "A CHAMP_2D range is exactly where its partition is optimal", "statement": "Within the requested interval, the range reported for a partition contains a gamma if and only if the partition is optimal among the inputs there; ranges have positive length; of inputs that modularity tells apart exactly those are returned that are optimal at two different gammas of the interval.", "quantifier": "every graph, input list and interval", "why_tests_cant": "all graphs and inputs over the reals", "anchors": ["utilities/champ_utilities.py:CHAMP_2D"]}
{"id": "C67", "title": "CHAMP_2D ranges tile the interval", "statement": "For inputs with pairwise different modularity the ranges are adjacent, without gaps or overlaps, from gamma_0 to gamma_f; ranges of different partitions share one point at most, and the partition of the lower range is strictly better at every smaller gamma, that of the higher at every larger one.", "quantifier": "every graph, input list and interval", "why_tests_cant": "all graphs and inputs over the reals", "anchors": ["utilities/champ_utilities.py:CHAMP_2D"]}
{"id": "C68", "title": "CHAMP results are reproducible", "statement": "Two runs of CHAMP_2D or CHAMP_3D on the same partitions in any order, with any random tie breaks, solver answers, intersection routine, pool size and schedule, return the same ranges or domains (corner by corner) with partitions that tie for all parameters, and the same list of ranges (set of domains) if modularity tells the inputs apart.", "quantifier": "every pair of runs, graph, input list and parameter box", "why_tests_cant": "pairs of executions with different oracles and schedules", "anchors": ["utilities/champ_utilities.py:CHAMP_2D", "utilities/champ_utilities.py:CHAMP_3D"]}
{"id": "C69", "title": "A CHAMP_3D domain is exactly where its partition is optimal", "statement": "A (gamma, omega) is in the domain of a partition if and only if it is in the requested rectangle and the partition is optimal among the inputs there; domains are convex polygons with inner points; at inner points every input not tied with the partition everywhere is strictly worse, so domains of different partitions overlap on their boundaries only.", "quantifier": "every multilayer graph, input list and rectangle", "why_tests_cant": "all graphs and inputs over the reals", "anchors": ["utilities/champ_utilities.py:CHAMP_3D"]}
{"id": "C70", "title": "Pruning returns exactly the partitions that are optimal at their own estimate", "statement": "For inputs that modularity tells apart: prune_to_stable_partitions returns exactly the considered partitions with a gamma estimate in the interval at which, and at a second point of the interval, they are optimal among the considered ones; prune_to_multilayer_stable_partitions returns, of the partitions with a numeric estimate, exactly those strictly best at (gamma, min(omega, omega_end - 0.001)) inside the open rectangle.", "quantifier": "every graph, input set, parameter box and restriction", "why_tests_cant": "end to end equivalence over all inputs", "anchors": ["utilities/parameter_estimation_utilities.py:prune_to_stable_partitions", "utilities/parameter_estimation_utilities.py:prune_to_multilayer_stable_partitions"]}
{"id": "C71", "title": "Pruning is reproducible", "statement": "Two pruning runs on inputs describing the same (distinguishable) partitions, with other labels, orders, repetitions, pool schedules, solver answers, random restarts and set iteration orders, return the same list (single layer) or the same partitions (multilayer).", "quantifier": "every pair of runs", "why_tests_cant": "pairs of executions with different oracles and schedules", "anchors": ["utilities/parameter_estimation_utilities.py:prune_to_stable_partitions", "utilities/parameter_estimation_utilities.py:prune_to_multilayer_stable_partitions"]}
{"id": "C72", "title": "With a working LP solver the interior point search succeeds exactly when an interior point exists", "statement": "Given a solver that solves linear programs and a sampler that draws distinct rows: get_interior_point returns a strictly interior point of every boxed system (2 or 3 dimensions) that has one, after at most d+1 linear programs when the initial sample doubled d times covers the rows, and raises ValueError on every system that has none; when the sample covers all rows the point is the centre of a largest ball inside the region; hence CHAMP_2D, CHAMP_3D and the pruning pipelines return on every undirected graph with an edge.", "quantifier": "every boxed halfspace system, sample size, retry limit and solver/sampler behaviour within their contracts", "why_tests_cant": "all halfspace systems and all samples; optimality over all inscribed balls", "anchors": ["utilities/champ_utilities.py:get_interior_point", "utilities/champ_utilities.py:CHAMP_2D", "utilities/champ_utilities.py:CHAMP_3D"]}
{"id": "C73", "title": "Possible SBM parameters and the largest resolution a K-community partition can be assigned", "statement": "For a graph with positive weights and a partition into K > 1 communities the estimated (omega_in, omega_out) lie on or below the line (K - omega_in)/(K - 1) when omega_in >= 1 and on or above it when omega_in <= 1; an assortative partition has omega_out < 1 < omega_in <= K; its gamma estimate is at most the expected-gamma curve of the figures at some ratio, hence below K/2 (below 1 when K = 2); the maximum of the curve over all ratios (gamma_max) is the least upper bound of these estimates, never decreases with K, is at least 1 (exactly 1 when K = 2) and at least K(K-1)/((2K-1) log K); the curve is exact for communities of equal volume and attained by complete block graphs; the same bound holds for the multilayer estimate; at its own estimate a partition beats the one-community partition exactly when it does so at resolution 1.", "quantifier": "every graph with positive weights, every partition, every number of communities", "why_tests_cant": "suprema over all graphs and partitions", "anchors": ["utilities/parameter_estimation.py:gamma_estimate", "utilities/parameter_estimation.py:estimate_singlelayer_SBM_parameters", "experiments/plot_duality_details/plot_maximum_gamma_estimates.py:f", "experiments/plot_duality_details/plot_maximum_gamma_estimates_general.py"]}
{"id": "C74", "title": "Contours of constant gamma are the parameters with that gamma estimate", "statement": "For a lambertw that computes the two real branches: parametric_omega(gamma, x) is, for positive gamma and x with x != gamma, the one omega whose gamma estimate with x is gamma; it lies on the other side of gamma; the contour is its own inverse; between the contours of gamma1 and gamma2 lie exactly the parameters with estimates between them; on the diagonal it returns gamma although the estimate is undefined there.", "quantifier": "every positive gamma and omega, every pair of contours", "why_tests_cant": "a transcendental identity over all reals", "anchors": ["experiments/plot_duality_details/plot_gamma_omega_duality.py:parametric_omega", "utilities/parameter_estimation.py:gamma_estimate_from_parameters"]}
{"id": "C75", "title": "Closed formulas of the bistable block model agree with the library", "statement": "The crossing formula is exactly the resolution at which the merged and the three-block partition tie in modularity of the block model with blocks of b nodes (merged strictly better below, strictly worse above); the drawn curve is its limit for large b; the two estimate formulas equal the library's gamma_estimate on the block graph with b = 100, and the three-block formula divides by zero exactly where that estimate is not finite.", "quantifier": "every block size, every coupling delta >= 0, every resolution", "why_tests_cant": "identities and limits over all reals", "anchors": ["experiments/bistable_SBM/plot_bistable_SBM_analytic.py:gamma_2", "experiments/bistable_SBM/plot_bistable_SBM_analytic.py:gamma_3", "utilities/parameter_estimation.py:gamma_estimate"]}
{"id": "C76", "title": "Single-layer coefficients are stable under double precision rounding", "statement": "On a graph with at most 2^24 edges, with every IEEE 754 operation rounded to nearest, partition_coefficients_2D returns the exact A_hat values and P_hat values with relative error at most 2^-53, and any two P_hat values compare (less, equal, greater) exactly as without rounding; the quality A - gamma P so computed differs from the modularity by at most 2^-53 |gamma| 2m.", "quantifier": "every graph with at most 2^24 edges, every partition list, every number of cores and completion order", "why_tests_cant": "the rounding error must be bounded for all inputs; tests sample a few", "anchors": ["utilities/champ_utilities.py:partition_coefficients_2D", "utilities/champ_utilities.py:partition_coefficients_2D_serial"]}
{"id": "C77", "title": "Multilayer coefficients are stable under double precision rounding", "statement": "With every operation rounded, partition_coefficients_3D returns the exact A_hat and C_hat values and P_hat values with relative error at most 2 (n + 1) 2^-53; parallel and serial results are identical bit by bit; A - gamma P + omega C differs from the multilayer modularity accordingly.", "quantifier": "every multilayer graph with at most 2^24 intralayer edges and fewer than 2^52 vertices, every partition list, schedule", "why_tests_cant": "accumulated rounding errors over all inputs", "anchors": ["utilities/champ_utilities.py:partition_coefficients_3D", "utilities/champ_utilities.py:partition_coefficients_3D_serial"]}
{"id": "C78", "title": "Gamma estimates are stable under double precision rounding", "statement": "On a graph with at most 2^24 unit-weight edges and with a logarithm of relative error e, gamma_estimate computed in double precision raises, returns None or returns nan exactly when the exact computation does, and otherwise has relative error at most (2m + 8) 2^-53 + 2e; omega_in has relative error 3 * 2^-53 and omega_out (2m + 3) 2^-53, and rounding never changes which of them is larger, whether they are equal, or whether one is zero.", "quantifier": "every graph with at most 2^24 edges, every membership, every sufficiently accurate logarithm", "why_tests_cant": "cancellation in 2m - e_in and in the two differences must be bounded for all inputs", "anchors": ["utilities/parameter_estimation.py:estimate_singlelayer_SBM_parameters", "utilities/parameter_estimation.py:gamma_estimate", "utilities/parameter_estimation.py:gamma_estimate_from_parameters"]}
{"id": "C79", "title": "CHAMP degrades gracefully with inexact geometry and rounded coefficients", "statement": "If the halfspace intersection reports points that violate or miss the normalised halfspaces by at most eps, each range (domain) of CHAMP_2D (CHAMP_3D) lies within eps (1 + |bound|) of the requested interval (rectangle), and on it its partition is optimal up to eps times (a multiple of the edge count) plus the rounding error of the coefficients; with an exact intersection the rounding of the coefficients leaves no gaps.", "quantifier": "every graph, partition list, interval or rectangle, every eps >= 0 and every intersection routine meeting the inexact contract", "why_tests_cant": "needs a perturbation bound for all inputs", "anchors": ["utilities/champ_utilities.py:CHAMP_2D", "utilities/champ_utilities.py:CHAMP_3D"]}
{"id": "C80", "title": "Single-layer pruning is robust to rounding and inexact geometry", "statement": "prune_to_stable_partitions on a single-layer graph of at most 2^24 unit-weight edges, run in double precision with an intersection routine accurate to eps and a logarithm accurate to e, returns only considered partitions whose exact gamma estimate lies, up to the relative error r = (2m+8) 2^-53 + 2e, within the (eps-widened) interval and at which no considered partition beats it by more than eps (12 m + 2) + 2 m gamma (r + 4 * 2^-53); with an exact intersection every considered partition that wins by more than 2 m gamma (r + 4 * 2^-53) at its own estimate is returned.", "quantifier": "every graph, list of label vectors, interval, restriction, eps and sufficiently accurate logarithm", "why_tests_cant": "needs a bound on the joint effect of all rounding errors for all inputs", "anchors": ["utilities/parameter_estimation_utilities.py:prune_to_stable_partitions", "utilities/champ_utilities.py:CHAMP_2D", "utilities/parameter_estimation.py:gamma_estimate"]}
{"id": "C81", "title": "The exhaustive single-layer check accepts every CHAMP_2D result and nothing worse than its tolerance", "statement": "The comparison of the test suite (sample resolutions, best modularity over all input partitions, first returned range containing the resolution) passes for every result of CHAMP_2D on every sample of its interval; conversely it passes only if at each sampled resolution the first range containing it exists and its partition is within 5e-11 of the best input, and fails with an AssertionError otherwise.", "quantifier": "every graph, list of partitions, list of ranges and every sample of resolutions", "why_tests_cant": "the tests run the check on random samples; that it can never fail on a correct result, and what passing it means, is a statement about all samples", "anchors": ["tests/test_champ_usage_2D.py:assert_best_partitions_match_champ_set", "utilities/champ_utilities.py:CHAMP_2D", "utilities/leiden_utilities.py:leiden_part_with_membership"]}
{"id": "C82", "title": "The exhaustive multilayer check accepts every CHAMP_3D result and its point-in-domain test is exact", "statement": "point_is_inside_champ_domain accepts exactly the points of a convex polygon, boundary included, when its vertices are in clockwise order (as CHAMP_3D lists them), and exactly the inner points in counterclockwise order; the comparison of the test suite built on it passes for every CHAMP_3D result on every sample of the rectangle, passes only if the first accepting domain's partition is within 5e-11 of the best input at each sample, fails with an AssertionError otherwise, and changes nothing but the default weights of the two graphs.", "quantifier": "every convex polygon and point, every multilayer graph, partition list, domain list, sample and cache state", "why_tests_cant": "all polygons and all points; the tests sample 100 points", "anchors": ["tests/test_champ_usage_3D.py:point_is_inside_champ_domain", "tests/test_champ_usage_3D.py:assert_best_partitions_match_champ_set", "utilities/champ_utilities.py:CHAMP_3D", "utilities/leiden_utilities.py:multilayer_leiden_part_with_membership"]}
{"id": "C83", "title": "The brute-force plot of the manual CHAMP experiment shows the optimal partitions and agrees with CHAMP_3D", "statement": "plot_manual_CHAMP draws each of its 250 x 250 grid points once, in the colour of the canonical form of the first input partition of largest multilayer modularity there; at a grid point inside a CHAMP_3D domain the drawn partition ties with the domain's partition and is that partition when it is the only best input; with no partitions it raises TypeError.", "quantifier": "every multilayer graph, partition list, window size, hash function and layered quality meeting its documentation", "why_tests_cant": "all graphs and all grid points", "anchors": ["experiments/manual_CHAMP_test/manual_CHAMP.py:plot_manual_CHAMP", "utilities/champ_utilities.py:CHAMP_3D"]}
{"id": "C84", "title": "The connectivity warning is exact", "statement": "prune_to_multilayer_stable_partitions warns about connectivity exactly when some two vertices are not linked by the intralayer and interlayer edges together (or there is one vertex and no edge); prune_to_stable_partitions exactly when the graph is not connected (strongly, if directed), and about weights exactly when some weight differs from 1; both whatever the partitions, options and outcome.", "quantifier": "every graph (pair), partition argument, option, interval and outcome", "why_tests_cant": "connectivity quantifies over all graphs; the tests never look at warnings", "anchors": ["utilities/parameter_estimation_utilities.py:prune_to_multilayer_stable_partitions", "utilities/parameter_estimation_utilities.py:prune_to_stable_partitions"]}
{"id": "C85", "title": "Results depend on a graph only through its adjacency matrix", "statement": "Two graphs with the same adjacency matrix - e.g. an undirected graph and its to_directed() version, the same edges in another order or with swapped ends - get the same CHAMP coefficients, ranges, domains, gamma and (gamma, omega) estimates and pruned partitions, including the same exceptions.", "quantifier": "every pair of graphs with equal adjacency matrices, all partitions, intervals and options", "why_tests_cant": "holds for all graphs and edge orders; the tests compare directed and undirected coefficients on a few random graphs only", "anchors": ["utilities/champ_utilities.py:partition_coefficients_2D", "utilities/champ_utilities.py:partition_coefficients_3D", "utilities/champ_utilities.py:CHAMP_2D", "utilities/champ_utilities.py:CHAMP_3D", "utilities/parameter_estimation_utilities.py:gamma_estimate", "utilities/parameter_estimation_utilities.py:gamma_omega_estimate", "utilities/parameter_estimation_utilities.py:prune_to_stable_partitions", "utilities/parameter_estimation_utilities.py:prune_to_multilayer_stable_partitions"]}
{"id": "C86", "title": "What changes along CHAMP's ranges", "statement": "Moving to a larger gamma along CHAMP_2D's ranges, the P_hat of the optimal partition never goes up, nor (for gamma >= 0) its A_hat, and both change together; multilayer, P_hat never goes up with gamma at fixed omega and C_hat never goes down with omega at fixed gamma. The number of communities, in contrast, can go down: on a 9-vertex graph the best of all partitions has 3 communities at gamma = 0.7 and 2 at gamma = 0.95.", "quantifier": "every graph, set of partitions, interval and pair of ranges or domains; for the counterexample, all partitions of the graph", "why_tests_cant": "the monotonicity is about all inputs; the counterexample needs the optimum over all 21147 partitions of nine vertices", "anchors": ["utilities/champ_utilities.py:CHAMP_2D", "utilities/champ_utilities.py:CHAMP_3D", "experiments/modularity_nonmonotonic_K/modularity_nonmonotonic_K.py"]}
{"id": "C87", "title": "Estimates either settle or lead in circles", "statement": "If all gamma estimates lie in the interval then prune_to_stable_partitions returns a partition unless the estimates lead in a circle, each one's estimate being where another one is optimal; the search for such loops by following estimates for 1000 steps finds one exactly when there is one (fewer than 1000 ranges). For two partitions each better than the other at the other's estimate pruning returns nothing although both have estimates; a path with four vertices has such a pair.", "quantifier": "every graph, list of partitions, interval and list of range estimates", "why_tests_cant": "existence of a stable partition or a cycle is a statement about all inputs, not about samples", "anchors": ["utilities/parameter_estimation_utilities.py:prune_to_stable_partitions", "utilities/parameter_estimation_utilities.py:ranges_to_gamma_estimates", "utilities/parameter_estimation_utilities.py:gamma_estimates_to_stable_partitions", "experiments/estimation_loop_test/estimation_loop_test.py", "experiments/estimation_loop_test/estimation_loop_test_no_louvain.py"]}
{"id": "C88", "title": "CHAMP and pruning can be done in steps", "statement": "Running CHAMP on a narrower interval or smaller rectangle gives the same ranges or domains cut to it; running it with fewer partitions only widens those of the partitions that are kept; running it in batches and then on what the batches returned gives exactly the result of one run on everything, so a second run on its own output changes nothing. A stable partition stays stable when other partitions are dropped, and pruning CHAMP's output gives what pruning all of its input gives.", "quantifier": "every graph, list of distinguishable partitions, split into batches, interval or rectangle", "why_tests_cant": "the relation is between results of different runs on related inputs, for all inputs and splits", "anchors": ["utilities/champ_utilities.py:CHAMP_2D", "utilities/champ_utilities.py:CHAMP_3D", "utilities/parameter_estimation_utilities.py:prune_to_stable_partitions", "utilities/parameter_estimation_utilities.py:prune_to_multilayer_stable_partitions"]}
{"id": "C89", "title": "The numbering of the vertices does not matter", "statement": "Renumbering the vertices of a network (igraph's permute_vertices) and listing memberships and layers in the new order changes nothing: the same modularity, the same CHAMP ranges and domains in the same order (or the same exception) with the renumbered partitions, the same gamma and (gamma, omega) estimates, and pruning returns the renumbered partitions of those it returned before (in canonical form).", "quantifier": "every network, renumbering of its vertices, partitions, intervals and options; weighted graphs for the estimates", "why_tests_cant": "a symmetry of all inputs; tests use one numbering of each network", "anchors": ["utilities/champ_utilities.py:CHAMP_2D", "utilities/champ_utilities.py:CHAMP_3D", "utilities/parameter_estimation_utilities.py:gamma_estimate", "utilities/parameter_estimation_utilities.py:gamma_omega_estimate", "utilities/parameter_estimation_utilities.py:prune_to_stable_partitions", "utilities/parameter_estimation_utilities.py:prune_to_multilayer_stable_partitions"]}
{"id": "C90", "title": "The multilayer SBM estimates survive double precision", "statement": "For a valid multilayer network with unit weights and at most 2^24 intralayer edges, estimate_multilayer_SBM_parameters in IEEE double precision returns whenever it does in exact arithmetic, with relative error at most (2T+4)*2^-53 in theta_in and (2m+6)*2^-53 in theta_out (T layers, m edges), each being 0 exactly when it should be. Persistence is rounded once in the temporal and multiplex models (and is below 1 exactly when it should be), and has relative error at most (2T+4)*2^-53 in the multilevel model. Outside the multiplex model the copying probability is a probability with absolute error at most 8*2^-53 (temporal) or (8T+22)*2^-53 (multilevel); in the temporal model it is 0, or 1, exactly when it should be, so that omega_estimate takes the same branch.", "quantifier": "all valid unit-weight multilayer networks of at most 2^24 intralayer edges, memberships, models and optional arguments; every version of Python's sum that is exact on integers and accurate otherwise", "why_tests_cant": "the errors accumulate over all edges, communities and layers, and a wrong branch (p = 0, p = 1, theta_out = 0) would show only for particular fractions", "anchors": ["utilities/parameter_estimation_utilities.py:estimate_multilayer_SBM_parameters", "utilities/parameter_estimation_utilities.py:persistence_function_from_model"]}
{"id": "C91", "title": "gamma_omega_estimate in double precision is close to the exact estimate", "statement": "On a multilayer network that passes the structural check, with unit weights, at most 2^24 intralayer and 2^51 interlayer edges, gamma_omega_estimate computed with IEEE doubles and a logarithm of relative error e returns for the same graph object as without rounding: gamma with relative error at most (2m+11)u + 2e (or None in both), whenever theta_in and theta_out differ from 1 by more than their own rounding error; omega with relative error at most 8r + 2d + 5e, where r is the relative error with which p and 1-p are known and d that of log(theta_in/theta_out), both at most 1/64. In the temporal model p = 0 gives omega = 0 and p = 1 gives omega_max exactly as without rounding. In the multiplex model the bound holds for the probability the root finder returned. There a probability of 0 gives omega = 0, and a probability of at least 1 or a rounded theta_in of exactly 1 gives omega_max.", "quantifier": "every network, partition, model and optional argument, every sufficiently accurate logarithm and summation", "why_tests_cant": "tests compare a few estimates to a tolerance; they cannot bound the error for every network or exclude that rounding flips a branch", "anchors": ["utilities/parameter_estimation_utilities.py:gamma_omega_estimate", "utilities/parameter_estimation_utilities.py:temporal_multilevel_omega_estimate_from_parameters", "utilities/parameter_estimation_utilities.py:multiplex_omega_estimate_from_parameters", "utilities/parameter_estimation_utilities.py:gamma_estimate_from_parameters"]}
{"id": "C92", "title": "The generated layered networks are what their draws describe", "statement": "generate_temporal_SBM, generate_multiplex_SBM and generate_synthetic_network return, whatever random numbers are drawn, networks of n vertices in each of T layers in which every vertex keeps its community from layer to layer exactly when its draw is below the copying probability and two vertices are joined exactly when they share a layer and their draw is below the probability of their communities, coupled as their model asks. They pass the model's structural check exactly when T > 1, every layer has an edge and the last vertex has one (the vertex count is not passed to igraph, so a network whose last vertex is isolated is too small). A returned synthetic network is always valid and its estimates at the true communities are within 0.005 of the wanted ones.", "quantifier": "all probabilities, first-layer memberships, numbers of layers, all random draws, all numbers of attempts", "why_tests_cant": "The networks are random: a test sees a handful of draws, the statement is about all of them, including the rare ones with an isolated last vertex or an empty layer.", "anchors": ["tests/shared_testing_functions.py:generate_multilayer_intralayer_SBM", "tests/test_temporal_multilevel_parameter_estimation.py:generate_temporal_SBM", "tests/test_multiplex_parameter_estimation.py:generate_multiplex_SBM", "experiments/pamfil_synthetic_networks/easy_regime_generation.py:generate_synthetic_network"]}
{"id": "C93", "title": "The law-firm network: layers, couplings and the persistence computed on it", "statement": "From three square 0/1 matrices of N persons generate_lazega_igraph builds a directed network with exactly the reported ties, one layer per kind of tie; matrices of another length raise AssertionError; the network passes the multiplex check exactly when every kind of tie occurs and the last vertex has one. Its couplings, however, only join the first layer with itself (twice) and with the other two layers, though their number is the one the check asks for: the persistence of every partition is at least 1/3 and exceeds that of the full multiplex coupling by a third of the share of persons who change label between the last two layers.", "quantifier": "all N > 0, all adjacency matrices, all partitions", "why_tests_cant": "The data files are not in the repository and no test builds the network; the error is invisible to the check, as it only counts edges, and affects every partition.", "anchors": ["experiments/lazega_law_firm/lazega_figures.py:generate_lazega_igraph", "utilities/parameter_estimation_utilities.py:categorical_persistence", "utilities/parameter_estimation_utilities.py:check_multilayer_graph_consistency"]}
{"id": "C94", "title": "The hierarchical block model has the densities and ground truths it promises", "statement": "generate_hierarchical_SBM(N) asks igraph for nine equal blocks with a symmetric matrix of probabilities exactly when N is a multiple of 9 and at least 54 (else igraph's error, and ZeroDivisionError for N = 0). In expectation every vertex has half an edge to other larger communities, three to the rest of its larger community and six, minus one density, within its smaller community. The returned graph is the first connected one drawn, and the two ground truths have 3 and 9 equal communities, the finer nested in the coarser.", "quantifier": "all N, all vertices, all sequences of random graphs", "why_tests_cant": "Only N = 450 is ever run, and densities of random graphs cannot be checked exactly by sampling.", "anchors": ["experiments/hierarchical_SBM_test/hierarchical_SBM_test.py:generate_hierarchical_SBM"]}
{"id": "C95", "title": "The random graphs and partitions of the tests are of the announced kind", "statement": "generate_connected_ER returns the first connected graph drawn; generate_connected_multilayer_ER splits its edges, all and once, into those within layers and those across, on the same n T vertices; generate_random_partition returns only labelings that use exactly the labels 0..K-1 (and each of them can be returned), does not terminate when there are fewer vertices than K and raises ValueError for K = 0; generate_random_partitions returns as many such partitions as asked for.", "quantifier": "all sizes, all random draws, all numbers of attempts", "why_tests_cant": "The functions are random and loop until satisfied; a test cannot enumerate the draws or observe non-termination.", "anchors": ["tests/shared_testing_functions.py:generate_connected_ER", "tests/shared_testing_functions.py:generate_connected_multilayer_ER", "tests/shared_testing_functions.py:generate_random_partition", "tests/shared_testing_functions.py:generate_random_partitions"]}
{"id": "C96", "title": "Single estimates stay in the range the social-network study asserts, and its tables are right", "statement": "With positive weights and more than one label the between-community propensity estimate is at most 2 (attained), so a finite gamma estimate, single-layer or multilayer, is positive and below 2 or at most the expected-estimate curve of K communities, and below 15 when K <= 70; it is nan exactly when the weight within communities equals its expectation. gamma_maxmean(K, points) returns the average and the maximum of the gamma estimate over exactly the grid points on or below the line omega_in + (K-1) omega_out = K (its early exit loses none), with 0 < mean <= max <= the curve; four points per axis always suffice. find_maximum_gammas never raises and generate_SNAP_boxplot's assertion on two communities holds for its result. generate_boxplot_results returns exactly the finite estimates with 2 to 70 communities and its assertion can only fail on a nan. run_louvain returns the canonical forms of the partitions before the first with more than 100 communities.", "quantifier": "all graphs with positive weights, all membership vectors, all K and grid sizes, all answers of louvain", "why_tests_cant": "A maximum over all networks and partitions; tests try the sixteen data sets of the study.", "anchors": ["experiments/social_networks/SNAP_boxplot.py:gamma_maxmean", "experiments/social_networks/SNAP_boxplot.py:generate_boxplot_results", "utilities/parameter_estimation_utilities.py:gamma_estimate", "utilities/parameter_estimation_utilities.py:gamma_omega_estimate"]}
{"id": "C97", "title": "Only relative connection strengths matter, and isolated vertices do not", "statement": "Multiplying all connection strengths by the same positive factor (for instance listing every edge k times) multiplies modularity at every resolution by it, and so leaves CHAMP's ranges, the gamma estimates, the gamma and omega estimates and the pruned list unchanged; with intralayer strengths multiplied by s and couplings by t the CHAMP domains are stretched by s/t in the direction of omega (and stay the same corner by corner when s = t), while the omega estimates do not move. Multiplying all edge weights by a positive number changes no estimate and no pruning outcome, single-layer or multilayer, exceptions included. Vertices without edges change neither modularity nor the CHAMP outcome, whatever labels they get, nor the gamma estimate, unless they form communities of their own beside a single community: then the estimate raises ZeroDivisionError.", "quantifier": "all graphs, factors, partitions, parameters and external routines meeting the stated contract", "why_tests_cant": "A test scales one graph by one factor; the claim ranges over all networks and all factors, and the solver sees different numbers", "anchors": ["utilities/champ_utilities.py:CHAMP_2D", "utilities/champ_utilities.py:CHAMP_3D", "utilities/parameter_estimation_utilities.py:gamma_estimate", "utilities/parameter_estimation_utilities.py:gamma_omega_estimate", "utilities/parameter_estimation_utilities.py:prune_to_stable_partitions"]}
{"id": "C98", "title": "The LFR experiment's files survive crashes, except a crash during a save", "statement": "After any sequence of runs of the experiment, each killed at any moment or ending by itself: every complete graph file holds exactly the requested number of benchmark graphs, the saved partial results cover a first part of the mixing parameters (the same for all four methods, one list per stored graph, each the answer of that method on that graph), and the final results cover all of them. Graphs and final results never change once written and saved partial results are only ever continued. If no file is truncated, an undisturbed run completes and keeps what was saved. But a file truncated by a crash while it is being written is never repaired, and no later run completes; every save opens such a window, so a crash can lose all earlier progress. Mixing parameters equal to three decimals share one graph file.", "quantifier": "all histories of runs, crash points, mixing parameters, numbers of graphs and outcomes of trials and methods", "why_tests_cant": "crash points and histories cannot be enumerated by tests, and the script has none", "anchors": ["experiments/lfr_benchmark_test/lfr_benchmark_test.py:generate_LFR_graphs", "experiments/lfr_benchmark_test/lfr_benchmark_test.py:run_experiment"]}
{"id": "C99", "title": "What the LFR experiment measures", "statement": "A connected benchmark graph keeps its vertices and edges, and two vertices get the same ground-truth label exactly if they share a planted community, with labels 0..K-1. The sweep reports the similarity to the truth of each partition found at the given resolutions, once; modularity pruning only of those stable among them; with the true number of communities only of those stable among the ones with that number; at the true resolution every run uses the estimate of the truth. A truth without an estimate (always so with one community) raises TypeError rather than the intended ValueError. In the figure every mixing parameter has a fraction of graphs with data in [0, 1], and a point (median, quartile error bars that are not negative and stay in [0, 1]) exactly if there are data.", "quantifier": "all graphs with planted communities, truths, numbers of runs, methods, orders of sets and data", "why_tests_cant": "the planted graphs are random and the published figure is the only check", "anchors": ["experiments/lfr_benchmark_test/lfr_benchmark_test.py:LFR_benchmark_igraph", "experiments/lfr_benchmark_test/lfr_benchmark_test.py:run_method"]}
{"id": "C100", "title": "What the bistable block model experiment counts, writes and draws", "statement": "A trial of the bistable experiment is skipped exactly if the network is not connected or a planted partition has no estimate; otherwise its flags say whether a partition with two (three) communities is stable among everything Leiden found on the sweep of resolutions. For each delta the first TRIALS_PER_DELTA counted trials make the three plotted values, which are shares: between 0 and 1, bistability at most either one. The grid has 45 deltas from 0.01 to 0.06, four of them twice. N must be divisible by 3; then the planted partitions have 3 and 2 communities, the second joining two blocks. The output file is absent or a prefix of the lines of a completed run; a complete one is plotted as computed by every later run, one cut off by a crash makes every later run fail. The drawn realizations are named the wrong way round.", "quantifier": "all networks, oracle answers, numbers of trials, histories of killed runs", "why_tests_cant": "unbounded numbers of trials and crash points; stability ranges over all candidate partitions", "anchors": ["experiments/bistable_SBM/bistable_SBM_test_constant_probs.py:generate_bistable_SBM_test_output", "experiments/bistable_SBM/bistable_SBM_test_constant_probs.py:plot_bistable_SBM_empirical_results", "experiments/bistable_SBM/plot_bistable_SBM_realizations.py"]}
{"id": "C101", "title": "The hierarchical and karate club experiments", "statement": "Every trial of the hierarchical experiment raises TypeError, because repeated_parallel_louvain_from_gammas has no keyword chunk_dispatch. With trials that return, the bar of K communities (K = 3..16) is the average number of stable partitions with K communities per trial, which can exceed 1; one stable partition with 20 or more communities ends the computation. The example network is accepted exactly if four of its stable partitions have at most nine communities; its pictures are named by their number of communities, and only the last one of a name remains. In the karate club experiment the picture K, i shows the i-th partition that is stable among those with K communities that were found, for K = 2, 3, 4 only, and every such partition is drawn.", "quantifier": "all networks, candidate sets, oracle answers and trials", "why_tests_cant": "average-versus-share differs only on some inputs; stability ranges over all candidates", "anchors": ["experiments/hierarchical_SBM_test/hierarchical_SBM_test.py:find_stability_probabilities", "experiments/hierarchical_SBM_test/hierarchical_SBM_test.py:find_example_with_4_stable_partitions", "experiments/karate_club_test/karate_club_test.py:plot_stable_partitions", "utilities/leiden_utilities.py:repeated_parallel_leiden_from_gammas"]}
{"id": "C102", "title": "The synthetic-network experiments keep their intermediate files consistent over every history of killed runs", "statement": "The scripts easy_regime_generation.py and hard_regime_generation.py keep five intermediate files each. Whatever runs of the two are killed at whatever moments, every complete file is what its step answers, in a possible run, on the files that are there now; an existing file is never changed and no other file is touched. If a run finishes, its figures show one network, the movements computed on it, and CHAMP's domains of one set of partitions found on it. From any directory without truncated files a run whose steps answer completes the five files, keeping those that exist. Limits: every new file passes through a truncated state; a truncated file that the figures need is never repaired and no later run finishes; removing a file together with all that was computed from it is safe, but if only the network's file is removed the next run silently shows the old network's results next to a new network's planted partition.", "quantifier": "every sequence of runs of either script, every kill point, every behaviour of the external routines", "why_tests_cant": "crash points and histories", "anchors": ["experiments/pamfil_synthetic_networks/easy_regime_generation.py:__main__", "experiments/pamfil_synthetic_networks/hard_regime_generation.py:__main__"]}
{"id": "C103", "title": "The movement plot averages the one-step estimates of each grid point's own calls", "statement": "The movements file holds one entry per grid point, gamma outermost (225 points, 0.6..1.45 by 0.4..1.6), with the differences (new gamma - gamma, new omega - omega) of that point's own five calls of the one-step estimation; a ValueError of the optimiser or estimator leaves the call out of both lists. The computation answers exactly when every call does so or raises ValueError. An arrow starts at (omega, gamma) and is a tenth of the mean difference; it is nan if there is none, and a nan estimate spoils the gamma component only.", "quantifier": "every network, optimiser, estimate and number of repetitions", "why_tests_cant": "all inputs and oracle answers", "anchors": ["experiments/pamfil_synthetic_networks/easy_regime_generation.py:run_pamfil_iteration,one_step,plot_pamfil_iteration"]}
{"id": "C104", "title": "The stored partitions and domains of the synthetic-network experiments are complete and optimal", "statement": "After any history of runs, the partitions file holds the canonical forms, each once, of what leidenalg answers at every point of the grid, given the layers of the stored network; the two domain files hold the domains, in [0,2]x[0,2], of all stored partitions and of the stored partitions with two communities: each belongs to a stored partition that is the best one all over it, no partition has two, they cover the square, and each comes with the estimate of its partition. The stored network's planted communities have estimates within 0.005 of the desired ones.", "quantifier": "every history of runs and every behaviour of the external routines within their contracts", "why_tests_cant": "histories, all inputs", "anchors": ["experiments/pamfil_synthetic_networks/easy_regime_generation.py:run_louvain_on_grid,generate_domains_with_estimates"]}
{"id": "C105", "title": "The law-firm script survives being killed: every complete file belongs to the partitions that are stored now", "statement": "lazega_figures.py keeps eight files (the partitions; CHAMP's domains for all partitions and for those with 2,...,7 communities). Started from nothing and killed and restarted at any moments, every file that is complete is what its step answers, in a possible run, on the partitions stored now; a file that exists is never changed and no other file is touched; if a run finishes, its figures show the domains (all, K = 2, 3, 4) of one set of partitions that Leiden found on the firm's network. Without truncated files a run in which every step answers completes the directory and keeps what is there. Limits: a file truncated by a kill is never repaired - if the figures need it no later run finishes, but a truncated file of 5, 6 or 7 communities (or of partitions, once all domains exist) goes unnoticed because nothing reads it; a truncated file of partitions blocks every missing file of domains; removing only the file of partitions leaves new partitions next to figures of the old ones.", "quantifier": "all histories of runs and kills (between any two changes of the directory), all answers of Leiden and CHAMP, all data", "why_tests_cant": "unbounded sequences of crashes; every crash point", "anchors": ["experiments/lazega_law_firm/lazega_figures.py:run_lazega_louvain", "experiments/lazega_law_firm/lazega_figures.py:run_champ_on_lazega_partitions", "experiments/lazega_law_firm/lazega_figures.py:run_champ_on_lazega_partitions_restricted_K", "experiments/lazega_law_firm/lazega_figures.py:__main__"]}
{"id": "C106", "title": "What the law-firm script stores and shows", "statement": "After any history of runs the file of partitions holds each once the canonical forms of what Leiden found on the firm's network with unit weights, at the 2000 x 500 points of the grid over [0, 2] x [0, 3] (the asserted million); every file of domains holds, for the stored partitions with the given number of communities, polygons in [0, 2] x [0, 3] on each of which its partition has the largest multilayer modularity of all those partitions, no partition twice, covering the rectangle. The figures show the domains whose gamma estimate exists, with the multiplex estimates and omega cut at 2.999; the points of figure 5.8 are cut at 2.99 instead, so a partition with a larger estimate can be stable in one figure and not in the other, in both directions. The hard-coded order of the 71 persons is a permutation; a matrix of figure 5.10 has the columns advice, work, friendship with the same person in a row of all three. With 71 persons all figures are drawn whenever the estimates exist and the colouring does not run into a dead end.", "quantifier": "all firms (matrices), all histories, all answers of Leiden/CHAMP/the root finder meeting their contracts, all partitions", "why_tests_cant": "all matrices and all points of the rectangle", "anchors": ["experiments/lazega_law_firm/lazega_figures.py:plot_figure1", "experiments/lazega_law_firm/lazega_figures.py:plot_figure1_restricted_K", "experiments/lazega_law_firm/lazega_figures.py:plot_figure2", "experiments/lazega_law_firm/lazega_figures.py:plot_figure3", "utilities/parameter_estimation_utilities.py:domains_to_gamma_omega_estimates"]}
{"id": "C107", "title": "The estimate on Newman's synthetic networks", "statement": "The benchmark (experiments/miscellaneous_tests/gamma_estimation_test.py and the test test_newman_synthetic_networks) draws q communities of 250 vertices with probabilities that give every vertex on average 16 neighbours inside and 8 outside (in all, not per community as a comment says). The \"true\" gamma it computes from a network with E > 0 edges lies between the two omegas n^2 p / 2E and is inversely proportional to E; without edges it is nan. On every network with q >= 2 equally connected communities, M of the E edges inside, an optimiser that answers with them makes the iteration return the gamma of qM/E and q(E-M)/((q-1)E), whatever the start, tolerance and limit. With the expected numbers of edges this is below the true gamma, by less than one part in 249 and by less than 0.05 for q up to 18, so the test passes and the figure's points are that close; if the test passes, every estimate is within 0.05 of the true gamma.", "quantifier": "all q >= 2, networks, partitions with equally connected communities, starting values, tolerances, limits, methods, and optimisers that answer with the communities", "why_tests_cant": "unit tests draw twelve random networks", "anchors": ["experiments/miscellaneous_tests/gamma_estimation_test.py", "tests/test_monolayer_parameter_estimation.py", "utilities/parameter_estimation.py:iterative_monolayer_resolution_parameter_estimation"]}
{"id": "C108", "title": "The karate-club figures show exactly the runs that returned", "statement": "Figure 2.1: the two lists hold, trial after trial (10 per starting value for Louvain, else 1), the starting value and result of exactly those runs that returned; a run that raises ValueError is skipped, any other exception goes through. Every point's result is the gamma estimate of a partition that the optimiser found, and either the last move was below 0.01 or 25 partitions were found. An arrow ends at the mean of the one-step estimates of its starting value; there is none exactly if no trial returned; it is nan if one of them is. Earlier trials, which give the shared network weights, make no difference. Figure 2.2: a result is kept exactly if the optimiser's partition has an estimate; with no result at all the script fails with ValueError, and it fails its assertion exactly if the first estimate is nan or one lies outside (0.6, 1.6). There is one histogram for every number of communities K from 2 to 9 that occurs; its 99 bars are the fractions of the estimates with K communities in each bin, and sum to the fraction of them that are not nan. On networks with positive weights and no isolated vertices no other exception occurs.", "quantifier": "all networks, optimisers (their answers may differ in every call), grids, methods, and lists of results", "why_tests_cant": "unit tests cannot range over the answers of a randomised optimiser, and the scripts have no tests", "anchors": ["experiments/karate_club_gamma_estimates/karate_club_gamma_estimates.py:run_estimation_until_convergence", "experiments/karate_club_gamma_estimates/karate_club_gamma_estimates.py:plot_one_step_estimation", "experiments/karate_club_gamma_estimates/karate_club_estimates_per_community.py:one_run"]}
{"id": "C109", "title": "The tests of CHAMP's coefficients accept exactly the modularity coefficients", "statement": "The unit tests of partition_coefficients_2D and partition_coefficients_3D (which compare with the louvain/leidenalg quality functions) accept a list of coefficients if and only if every A_hat is within 5e-11 of the (multilayer) modularity at resolution 0 (and coupling 0), every P_hat within 5e-11 of its decrease from resolution 0 to 1, and every C_hat within 5e-11 of its increase from coupling 0 to 1; anything else is an AssertionError. The second computation of P_hat, from each layer's own subgraph, is the same number. What the library's functions return passes on every network with edges (in every layer), whatever the pool; without edges nothing passes (nan).", "quantifier": "every network (directed or not, weights ignored), layering, list of partitions, list of coefficients, pool and state of the split cache with the stated preconditions", "why_tests_cant": "The tests sample some random networks; that they are a correct oracle - accept exactly the right coefficients on every network - and that they can never fail on correct output is a statement about all inputs.", "anchors": ["tests/test_champ_coefficients_2D.py: assert_partition_coefficient_correctness", "tests/test_champ_coefficients_3D.py: assert_partition_coefficient_correctness", "utilities/champ_utilities.py: partition_coefficients_2D, partition_coefficients_3D"]}
{"id": "C110", "title": "The figure that explains CHAMP shows modularity and its upper envelope", "statement": "experiments/example_figures/plot_champ_example.py: sample_partitions keeps for resolutions 0.5, 1.5 and 2 a best and for 1 a worst of the partitions found; the points and lines are their modularities divided by 2m at the sampled and at ten equally spaced resolutions from 0.25 to 2.25 (ZeroDivisionError without edges). In the right panel no point lies above the upper envelope, and it is an IndexError if CHAMP returns fewer than three ranges; if the partition of resolution 1 is nowhere optimal and the other three are strictly best at increasing resolutions, the panel is exactly the upper envelope of all four, without gaps, and the dashed lines stand where two consecutive partitions tie.", "quantifier": "every undirected network, every list of partitions found, every solver within CHAMP's contract", "why_tests_cant": "The script assumes ('Assume that all but the gamma=1.0 domain were optimal') what a run on one network cannot establish; which outcomes of the optimiser make the figure right is a statement about all of them.", "anchors": ["experiments/example_figures/plot_champ_example.py: sample_partitions, plot_left_panel, plot_center_panel, plot_right_panel"]}
{"id": "C111", "title": "The printed agreement with the law firm's metadata", "statement": "print_metadata_nmis prints for each partition its number of communities and seven values, each the nmi of the partition with one attribute of the person behind each vertex, the same in all three layers (office, practice, age in steps of five years, seniority in steps of five years, status, gender, law school). A line of the file with fewer than eight numbers is an IndexError; a partition whose labels leave one out is an AssertionError; otherwise everything is printed.", "quantifier": "every metadata file (as lists of numbers), every list of partitions, every nmi function", "why_tests_cant": "The file and the partitions are data; that columns are matched to the right persons in all three layers and to the right printed line must hold for all of them.", "anchors": ["experiments/lazega_law_firm/lazega_figures.py: print_metadata_nmis"]}
{"id": "C112", "title": "The documentation's multilayer network", "statement": "The network that the multilayer example of the documentation draws (generate_basic_multilayer_network) has layers u // 30 for u < 90; its intralayer edges are exactly the pairs of one layer whose random number is below 1/2 (same planted community: blocks of ten in the first two layers, all of the third) or below 1/20 (different communities), each once; every vertex is coupled with its copy in the next layer and nothing else is. It is a valid temporal network if and only if the last vertex and every layer have an edge: the number of vertices is not passed to igraph (a counterexample is given).", "quantifier": "every outcome of the random numbers", "why_tests_cant": "unit tests draw one network per run; the example is right or not depending on the draw", "anchors": ["tests/test_documentation_examples.py:generate_basic_multilayer_network"]}
{"id": "C113", "title": "The documentation's single-layer example", "statement": "The example of the documentation (a thousand runs of Leiden on [0, 2], then pruning) returns distinct partitions that some run found, each of them optimal among all partitions found at its own estimate, which lies in [0, 2]; no partition that is strictly optimal at its own estimate there is missing. It returns on every undirected network without isolated vertices. The test passes if and only if the documented partition is the only one returned, which (for partitions that differ in quality) holds if and only if it is the only one found that is optimal around its own estimate.", "quantifier": "every network, every (randomised) optimiser, completion order of the pool, listing order of sets and solver within its contract", "why_tests_cant": "the test is randomised: one run says nothing about which outcomes of the optimiser make the documented result right", "anchors": ["tests/test_documentation_examples.py:test_basic_singlelayer_example", "utilities/leiden_utilities.py:repeated_parallel_leiden_from_gammas", "utilities/parameter_estimation_utilities.py:prune_to_stable_partitions"]}
{"id": "C114", "title": "The documentation's multilayer example", "statement": "The multilayer example (1024 runs on the grid [0, 2]^2, then pruning) returns distinct partitions that some run found, each of them optimal among all partitions found at its own (cut-off) estimate in the square, and misses none that is strictly optimal at its own. Its assertions hold if and only if in every returned partition with three communities the most common labels of the first and second, and of the second and third ten vertices differ, some returned partition has at least 28 of the last layer's vertices in one community, and some has at most 14 in each; otherwise the test fails with AssertionError and never with anything else. That the first and third blocks are different communities is not checked, although the comment says so (a counterexample is given).", "quantifier": "every draw with a valid network, every optimiser, completion order, state of the workers' caches and solver within its contract; every list of canonical partitions", "why_tests_cant": "the test draws one random network per run and its assertions are only samples of the claim", "anchors": ["tests/test_documentation_examples.py:test_basic_multilayer_example", "utilities/leiden_utilities.py:repeated_parallel_leiden_from_gammas_omegas", "utilities/parameter_estimation_utilities.py:prune_to_multilayer_stable_partitions"]}
{"id": "C115", "title": "The tests that compare undirected and directed networks", "statement": "The tests of directed consistency (test_directed_consistency_igraph_famous, test_directed_consistency_temporal_SBM_leiden, test_directed_consistency_multiplex_SBM_leiden) pass if and only if all the estimates of the undirected networks return; a failure is always the exception of one of those estimates, never a comparison that does not hold, since to_directed gives another representation of the same network. On undirected networks without isolated vertices the single-layer test passes for all memberships in which the label 0 occurs. Since the loops of the two multilayer tests overwrite the graph with its directed version in the first comparison, all later comparisons are of a directed graph with itself: any other estimate that is consistent in the first comparison passes, too (a counterexample is given).", "quantifier": "every network (with defaulted or unit weights), list of memberships, valid multilayer network with its layers and list of partitions", "why_tests_cant": "unit tests run on a few networks; that they cannot fail on any, and what they would miss, is a statement about all networks and all implementations", "anchors": ["tests/test_monolayer_parameter_estimation.py:test_directed_consistency_igraph_famous", "tests/test_temporal_multilevel_parameter_estimation.py:test_directed_consistency_temporal_SBM_leiden", "tests/test_multiplex_parameter_estimation.py:test_directed_consistency_multiplex_SBM_leiden", "tests/shared_testing_functions.py:assert_almost_equal_or_both_none_or_nan"]}
{"id": "C116", "title": "The ground truth of the multilayer convergence tests", "statement": "The tests of multilayer parameter estimation compare the iteration's result with a 'true' gamma and omega of the network drawn: the logarithmic mean of p_in and p_out, scaled by the number of vertex pairs in the layers over twice the number of edges, and the omega formula for the copying probability. On every valid temporal, multilevel or multiplex network whose K communities are equally connected in all layers, with M of its E edges inside (K M > E) and labels persisting as often as expected for eta, the iteration returns the logarithmic mean of K M / E and K (E - M) / ((K - 1) E) and the omega formula for eta if the optimiser always finds these communities, whatever the start, tolerances and limits. If the numbers of edges are as expected for s vertices per community and layer, true gamma is above the estimate by less than one part in s - 1 (a vertex has s - 1 and not s possible neighbours in its community) and true omega below it; with s > 10 K, s >= 50, p_in >= 3 p_out and eta not too close to 1 both tests pass (with a root finder that finds the nonnegative root, for multiplex). A passing test means that the returned numbers are within the tolerances of the true ones, for each of the models tested.", "quantifier": "all valid networks, draws, optimisers that find the communities, numbers of communities, layers and vertices, and parameters in the stated ranges", "why_tests_cant": "the tests draw a few random networks and run a randomised optimiser; whether the compared numbers agree by construction is a statement about all networks", "anchors": ["tests/test_temporal_multilevel_parameter_estimation.py:assert_temporal_SBM_correct_convergence", "tests/test_multiplex_parameter_estimation.py:assert_multiplex_SBM_correct_convergence", "utilities/parameter_estimation.py:iterative_multilayer_resolution_parameter_estimation"]}
{"id": "C117", "title": "Both coefficient arrays of the manual CHAMP experiment agree on undirected networks, and the directed switch doubles every P", "statement": "In manual_CHAMP.py, for an undirected intralayer network whose edges stay within layers, the array that the champ package computes from the matrices A, P, C it is given equals the array built from partition_coefficients_3D, and the same domains are drawn; if every layer has an edge its rows are the coefficients of multilayer modularity, and if a layer with a vertex has no edge every P is non-finite in both arrays (directed or not). For a directed network the P column is the sum of d_i d_j / (sum of the layer's d) with d the total degree; if every vertex has as many arcs in as out, it is exactly twice ours, so the objective at (gamma, omega) is the modularity at (2 gamma, omega); igraph's to_directed() (the switch TEST_DIRECTED_INTRALAYER) leaves our array unchanged and doubles every P of theirs. (Finding: this is what the comment 'CHAMP's calculation appears incorrect when the intralayer graph is directed' observes; the cause is the experiment's use of total degrees, and in general it is no rescaling of gamma: an example whose optimum differs.)", "quantifier": "every network, coupling, layer vector and set of partitions", "why_tests_cant": "all networks", "anchors": ["experiments/manual_CHAMP_test/manual_CHAMP.py:run_CHAMP_with_their_coefarray_computation", "experiments/manual_CHAMP_test/manual_CHAMP.py:run_CHAMP_with_our_coefarray_computation"]}
{"id": "C118", "title": "The runtime comparison never stores a result; without its wrong argument it records each round", "statement": "runtime_comparison_with_louvain.py calls the Louvain name with chunk_dispatch=False, which the Leiden function behind it does not accept: generate_runtimes raises TypeError in the first round, and unless a result file exists already (whose data it then plots) none is ever written. (Finding: the script no longer runs.) Without that argument, whatever the order in which the pool completes: if it returns, it returns the two durations of every round, in order, and the number of different canonical partitions that Leiden found at that many evenly spaced resolutions from 0 to 3 (at most one each; 0 for no resolutions) on the graph, given unit weights where it has none; and it does return on every undirected graph without isolated vertices if the routines behind Leiden and CHAMP answer.", "quantifier": "every graph, list of numbers of resolutions, optimiser, completion order and measured durations", "why_tests_cant": "the script has no test, and whether its call fits the shim's signature does not depend on the input", "anchors": ["experiments/miscellaneous_tests/runtime_comparison_with_louvain.py:generate_runtimes", "utilities/louvain_utilities.py:__getattr__"]}
{"id": "C119", "title": "The benchmark's three lists, and when it ends", "statement": "simple_benchmark.py's test() runs rounds of x, x + x//2, ... iterations and stops after the first round of ours that takes at least the timeout; it holds the number of iterations and our time of each round, and CHAMP's times up to the first that reaches the timeout (none of the later rounds). It ends whenever it starts with at least 2 iterations and sufficiently many iterations take at least the timeout; started with 0 or 1 it never grows and, if that takes less than the timeout, never ends.", "quantifier": "every timeout, starting number and sequence of measured durations", "why_tests_cant": "the durations depend on the machine; termination is not observable by a test", "anchors": ["experiments/miscellaneous_tests/simple_benchmark.py:test"]}
{"id": "C120", "title": "What the parallel performance tests measure", "statement": "If a serial run of Leiden takes t, a mock calculation tau, and the pool performs them s and s0 times as fast, the value computed by the performance tests is s / s0 whatever the number of processors and the sizes of the grids (also with the grid of the multilayer test, whose sides are scaled by the square root of the number of processors and truncated), the pool's parameters covering the same range as the serial ones; each of the four tests passes exactly if s / s0 exceeds 3/4, or 1/2 if more than 20 percent of the CPU is in use.", "quantifier": "every number of processors, utilization, speeds and parameter lists", "why_tests_cant": "the tests measure one machine", "anchors": ["tests/test_parallel_leiden_performance.py:determine_target_parallelization_speedup", "tests/test_parallel_leiden_performance.py:TestParallelLeidenPerformance"]}
{"id": "C121", "title": "The example figures of block models show the communities that the graphs were drawn with", "statement": "hierarchical_sbm_plot.py (for every block size B) draws a stored graph of 8B vertices, or the one that igraph answers, which is then stored: picture s = 0..3 colours vertex i by i / (2^(3-s) B), so it has 2^s communities of equal size and refines the picture before; the densities handed to igraph are accepted and are 1, 1/5, 1/20 or 1/200 for two vertices that are together at scale 3, 2, 1 or only 0. example_sbm.py colours vertex i of N by floor(3 i / N), three blocks of N / 3, hands over densities of 2/5, 1/5 and 3/10 inside them, 1/20 between the last two and 1/200 otherwise, and raises ValueError exactly if N is no multiple of 3.", "quantifier": "every block size, number of vertices, stored graph and answer of igraph", "why_tests_cant": "the scripts draw single pictures", "anchors": ["experiments/example_figures/hierarchical_sbm_plot.py", "experiments/example_figures/example_sbm.py"]}
