{"id": "C01", "title": "NaN-aware ordering of doubles is a strict weak order", "statement": "less_than_f (NaN placed after every number) is irreflexive, asymmetric, transitive and has transitive incomparability on all doubles including NaN and infinities; two doubles are incomparable exactly when equal_to_f says they are equal; greater_than_f is its mirror image. Every std::sort in the library whose key is a single double therefore meets the comparator precondition.", "quantifier": "all pairs and triples of IEEE doubles, including NaN, both infinities and zero", "why_tests_cant": "transitivity ranges over all triples of 2^64 values; a violation is undefined behaviour inside std::sort rather than a wrong value", "anchors": ["include/pagmo/detail/custom_comparisons.hpp: less_than_f, greater_than_f, equal_to_f"]}
{"id": "C02", "title": "Pareto dominance is exact and a strict partial order", "statement": "pareto_dominance(a,b) returns true iff the vectors have equal length, no component of a is worse than b's and at least one is better (in the NaN-aware order); it raises invalid_argument iff the lengths differ; dominance is irreflexive, asymmetric and transitive.", "quantifier": "all pairs/triples of fitness vectors of any length with any double values", "why_tests_cant": "transitivity is a statement about all triples of vectors of unbounded length", "anchors": ["src/utils/multi_objective.cpp: pareto_dominance"]}
{"id": "C03", "title": "Non-dominated sorting computes the exact front decomposition", "statement": "For at least two points of equal dimension, fast_non_dominated_sorting returns fronts that partition the indices; front 0 is exactly the set of non-dominated points; every point of front k+1 is dominated by some point of front k and by nothing in front k+1 or later; rank[i] is the index of i's front; dom_list[i] lists exactly the points i dominates and dom_count[i] is exactly the number of points dominating i. Fewer than two points raises invalid_argument.", "quantifier": "all populations of any size and any number of objectives", "why_tests_cant": "correctness of the counting/peeling loop depends on every possible dominance graph", "anchors": ["src/utils/multi_objective.cpp: fast_non_dominated_sorting"]}
{"id": "C04", "title": "2-D front extraction returns exactly the non-dominated points", "statement": "non_dominated_front_2d returns, without repetition, exactly the indices of the points that no input point dominates.", "quantifier": "all lists of 2-D points of any length, including duplicates and NaN/infinite coordinates", "why_tests_cant": "completeness and soundness for every input ordering, duplicate pattern and tie", "anchors": ["src/utils/multi_objective.cpp: non_dominated_front_2d"]}
{"id": "C05", "title": "Best-N selection keeps N distinct individuals and never prefers a worse front", "statement": "select_best_N_mo(pts,N) returns min(N,|pts|) distinct valid indices, and no discarded point belongs to a strictly better front than a kept point (in particular a kept point is never dominated by a discarded one); inside the split front kept points have crowding distance at least that of the discarded ones.", "quantifier": "all populations and all N", "why_tests_cant": "the property ranges over every population, every N and every tie in ranks and crowding distances", "anchors": ["src/utils/multi_objective.cpp: select_best_N_mo"]}
{"id": "C06", "title": "Multi-objective population sort is a permutation ordered by front", "statement": "sort_population_mo returns a permutation of the indices such that front rank never decreases along it and, inside a front, crowding distance never increases.", "quantifier": "all populations with at least two points and two objectives", "why_tests_cant": "ranges over all populations and every tie pattern", "anchors": ["src/utils/multi_objective.cpp: sort_population_mo"]}
{"id": "C07", "title": "Crowding distance marks the extremes and is aligned with its input", "statement": "crowding_distance returns one value per point in input order; for every objective a point attaining the minimum and one attaining the maximum get infinity; with no degenerate objective and finite values no distance is negative or NaN. If all points share one objective value the implementation divides by zero (documented refutation).", "quantifier": "all fronts of at least two points and two objectives", "why_tests_cant": "needs all fronts, all tie patterns, and the degenerate range", "anchors": ["src/utils/multi_objective.cpp: crowding_distance"]}
{"id": "C08", "title": "Ideal and nadir points bound the population tightly", "statement": "ideal(pts)[j] is the minimum of objective j over the population and nadir(pts)[j] is the maximum of objective j over the non-dominated points only; both are attained; no point of the population is better than the ideal in any objective. REFUTED for nadir of a single point, which raises.", "quantifier": "all non-empty populations of equal-length fitness vectors", "why_tests_cant": "a universally quantified bound over all populations", "anchors": ["src/utils/multi_objective.cpp: ideal, nadir"]}
{"id": "C09", "title": "Grid decomposition weights enumerate the simplex lattice exactly once", "statement": "For a grid with resolution H the generated weights are exactly the vectors k/H with k a non-negative integer vector of length n_f summing to H, each once, so every weight vector is non-negative and sums to one. The documented claim that the canonical weights come first is false for the grid method.", "quantifier": "all numbers of objectives and all resolutions", "why_tests_cant": "the recursive enumeration must be exact at every depth and its unsigned remainder must never wrap", "anchors": ["src/utils/multi_objective.cpp: reksum", "include/pagmo/utils/multi_objective.hpp: decomposition_weights"]}
{"id": "C10", "title": "Objective decomposition is monotone", "statement": "With non-negative weights, the weighted decomposition of a never exceeds that of b whenever a is componentwise no worse than b; the Tchebycheff decomposition is the maximum weighted distance to the reference point and is zero exactly at it; size mismatches raise invalid_argument.", "quantifier": "all fitness vectors, weights and reference points of any length (exact arithmetic)", "why_tests_cant": "a law over all vectors of all lengths", "anchors": ["src/utils/multi_objective.cpp: decompose_objectives"]}
{"id": "C11", "title": "Constraint satisfaction counts are exact", "statement": "test_eq_constraints / test_ineq_constraints return exactly the number of constraints with |c_i|<=tol_i (respectively c_i<=tol_i) and a violation norm that is zero iff all are satisfied; problem::feasibility_f is true iff every constraint is satisfied within its tolerance and raises iff the size is wrong. REFUTED on doubles for 'zero norm only if satisfied': the squares of tiny violations underflow.", "quantifier": "all constraint vectors and tolerance vectors of any length", "why_tests_cant": "ranges over all vectors; boundary equality and NaN behaviour matter", "anchors": ["include/pagmo/utils/constrained.hpp: test_eq_constraints, test_ineq_constraints", "src/problem.cpp: problem::feasibility_f"]}
{"id": "C12", "title": "Constrained comparison prefers feasibility, then fewer violations", "statement": "compare_fc(f1,f2): an individual satisfying more constraints is always better; two feasible individuals are ordered by objective (NaN worst); a feasible individual is never worse than an infeasible one; wrong sizes raise invalid_argument.", "quantifier": "all pairs of fitness vectors, numbers of equality constraints and tolerances", "why_tests_cant": "case analysis over all vectors; sizes and NaN", "anchors": ["src/utils/constrained.cpp: compare_fc"]}
{"id": "C13", "title": "compare_fc as a sorting comparator", "statement": "The relation computed by compare_fc should be a strict weak order (it is handed to std::sort). REFUTED for the code as written: the violation of the left argument is measured as a sum of norms and that of the right argument as the norm of the pair, so incomparability is not transitive even in exact arithmetic and, when a squared violation overflows, compare_fc(f,f) is true. What does hold (irreflexive, asymmetric, transitive whenever the two norms are consistent) is proved.", "quantifier": "all triples of fitness vectors", "why_tests_cant": "undefined behaviour of std::sort cannot be observed reliably by a test", "anchors": ["src/utils/constrained.cpp: compare_fc, sort_population_con"]}
{"id": "C14", "title": "Constrained population sort is a permutation ordered by compare_fc", "statement": "sort_population_con returns a permutation of 0..n-1; when compare_fc is a strict weak order on the given population no individual is placed after one that it beats; in particular all feasible individuals precede all infeasible ones, sorted by objective.", "quantifier": "all populations of any size", "why_tests_cant": "all populations and ties", "anchors": ["src/utils/constrained.cpp: sort_population_con"]}
{"id": "C15", "title": "Population storage is consistent under every history of calls", "statement": "After any sequence of push_back / set_x / set_xf calls, successful or failing, the numbers of IDs, decision vectors and fitness vectors agree, every decision vector has the problem's dimension and every fitness vector its fitness dimension; set_x/set_xf never change an ID or any other individual.", "quantifier": "all problems and all finite sequences of API calls with arbitrary arguments", "why_tests_cant": "an invariant over unbounded histories including failing calls", "anchors": ["src/population.cpp: push_back_impl, push_back, set_x, set_xf"]}
{"id": "C16", "title": "The champion is the best individual ever inserted", "statement": "For a single-objective unconstrained problem the champion equals, after any history, some pair (x,f) that was inserted, and no inserted fitness was better (NaN-aware); it is never lost when its individual is overwritten. For constrained problems no inserted fitness beats the champion under compare_fc provided compare_fc is transitive on the inserted vectors.", "quantifier": "all histories of insertions and overwrites", "why_tests_cant": "best-ever is a property of the complete history", "anchors": ["src/population.cpp: update_champion, champion_x, champion_f"]}
{"id": "C17", "title": "Rejected population calls change nothing observable", "statement": "A push_back/set_xf/set_x that raises leaves individuals, IDs and champion exactly as they were; set_x with an out-of-range index nevertheless consumes one fitness evaluation.", "quantifier": "all states and all invalid arguments", "why_tests_cant": "exception safety over every state and argument", "anchors": ["src/population.cpp: push_back_impl, set_xf, set_x"]}
{"id": "C18", "title": "best_idx / worst_idx return an extreme individual", "statement": "On a non-empty single-objective unconstrained population without NaN fitness, best_idx (worst_idx) returns an index whose fitness no other individual beats (which beats no other); with a NaN fitness first the implementation returns it as the best (refutation); empty or multi-objective populations raise.", "quantifier": "all populations", "why_tests_cant": "ranges over all populations incl. special values", "anchors": ["src/population.cpp: best_idx, worst_idx"]}
{"id": "C19", "title": "Construction through a batch evaluator equals sequential construction", "statement": "population(prob,n,seed) and population(prob,bfe,n,seed) produce the same individuals, fitnesses and champion for the same seed when the evaluator returns the problem's fitness for each vector.", "quantifier": "all problems, sizes and seeds (generators)", "why_tests_cant": "equality for all sizes and every random stream", "anchors": ["src/population.cpp: prob_ctor_impl, constructor_from_bfe_impl", "src/utils/generic.cpp: random_decision_vector, batch_random_decision_vector"]}
{"id": "C20", "title": "A successfully constructed problem is well formed", "statement": "Constructing problem succeeds only if bounds are non-empty, of equal length, NaN free with lb<=ub, the integer part fits and has integral finite bounds, the number of objectives is positive; afterwards nf=nobj+nec+nic without overflow. Everything else raises invalid_argument.", "quantifier": "all user-defined problems (arbitrary bounds, dimensions)", "why_tests_cant": "ranges over all bound vectors incl. NaN, infinities and unsigned overflow", "anchors": ["src/problem.cpp: check_problem_bounds, generic_ctor_impl"]}
{"id": "C21", "title": "Fitness evaluation checks sizes and counts exactly the successful calls", "statement": "problem::fitness returns the user fitness iff the input has length nx and the output length nf, otherwise raises; the evaluation counter equals the number of successful calls (plus batch sizes) for every interleaving of concurrent callers.", "quantifier": "all call histories and all thread interleavings", "why_tests_cant": "schedules and histories are unbounded", "anchors": ["src/problem.cpp: problem::fitness, problem::batch_fitness, increment_fevals", "src/bfe.cpp: bfe::operator()"]}
{"id": "C22", "title": "Parallel batch evaluation equals sequential evaluation for every schedule", "statement": "thread_bfe writes, for every splitting of the index range into sub-ranges and every interleaving of their execution, exactly the concatenation of the fitness vectors of the input decision vectors in input order; an error in any evaluation makes the call fail.", "quantifier": "all batches, all range splittings and all schedules", "why_tests_cant": "the TBB schedule is nondeterministic", "anchors": ["src/batch_evaluators/thread_bfe.cpp: thread_bfe::operator()"]}
{"id": "C23", "title": "Batch evaluation interfaces reject malformed batches", "statement": "bfe and problem::batch_fitness raise unless the input length is a multiple of nx and the output consists of exactly one nf-long vector per input vector; on success the counter grows by the number of vectors. problem::batch_fitness bumps the counter even when the output check then fails (refutation of the documented 'successful call').", "quantifier": "all batches and evaluator outputs", "why_tests_cant": "all lengths and evaluator behaviours", "anchors": ["src/detail/bfe_impl.cpp", "src/bfe.cpp", "src/problem.cpp: batch_fitness, prob_invoke_mem_batch_fitness"]}
{"id": "C24", "title": "Sparsity patterns are validated exactly and dense patterns are valid", "statement": "check_gradient_sparsity / check_hessian_sparsity accept exactly the strictly lexicographically increasing lists of in-range (lower-triangular) pairs; the dense patterns are accepted and have nf*nx, respectively nx(nx+1)/2, entries, i.e. list every admissible pair once.", "quantifier": "all patterns and all dimensions", "why_tests_cant": "exactness over all lists of pairs", "anchors": ["src/problem.cpp: check_gradient_sparsity, check_hessian_sparsity, dense_gradient, dense_hessian"]}
{"id": "C25", "title": "Dense Hessian size guard prevents overflow", "statement": "If the constructor accepts a problem without user Hessian sparsity the cached pattern size equals the size of the dense pattern. REFUTED: the guard admits dimensions above 2^32 for which nx*(nx-1) wraps around.", "quantifier": "all 64-bit dimensions", "why_tests_cant": "needs dimensions beyond 2^32 which no test allocates", "anchors": ["src/problem.cpp: generic_ctor_impl (hessians sparsity size)"]}
{"id": "C26", "title": "Translating a problem shifts its domain and nothing else", "statement": "translate.fitness(x) equals the inner fitness at x-t; its bounds are the inner bounds shifted by t (so x lies in the new box iff x-t lies in the old one); batch evaluation equals elementwise evaluation; a translation of the wrong length is rejected.", "quantifier": "all inner problems, translations and decision vectors (exact arithmetic for the box law)", "why_tests_cant": "a law over all inputs", "anchors": ["src/problems/translate.cpp"]}
{"id": "C27", "title": "Unconstraining penalises consistently, one by one and in batch", "statement": "For every method the unconstrained fitness has get_nobj() entries; death penalty, kuri, weighted and ignore_c return the original objectives on feasible points; ignore_o is zero exactly on feasible points; death penalty maps every infeasible point to the largest double; batch_fitness equals elementwise fitness. REFUTED for ignore_o on multi-objective problems in batch mode (reads past the end and returns the wrong size). REFUTED also for ignore_o being non-zero on every infeasible point (underflow).", "quantifier": "all inner problems, methods, weights and batches", "why_tests_cant": "all methods x all vectors; out-of-bounds reads may be silent", "anchors": ["src/problems/unconstrain.cpp: penalize, fitness, batch_fitness, get_nobj"]}
{"id": "C28", "title": "Adaptive decomposition keeps a monotone running ideal point", "statement": "With adapt_ideal the reference point after any sequence of fitness calls is the componentwise minimum of the initial point and all NaN-free fitnesses seen; without it the reference point never changes; construction rejects invalid weights. Zero weights are accepted (refutation of 'positive weights').", "quantifier": "all histories of fitness calls", "why_tests_cant": "property of the whole call history", "anchors": ["src/problems/decompose.cpp: fitness, generic_ctor_impl"]}
{"id": "C29", "title": "Bound repair puts every component inside the box", "statement": "force_bounds_stick and force_bounds_random return a vector whose components all lie in [lb,ub], leave in-box components untouched and are idempotent (stick).", "quantifier": "all decision vectors and boxes, all random draws", "why_tests_cant": "all vectors and draws", "anchors": ["src/utils/generic.cpp: force_bounds_stick, force_bounds_random"]}
{"id": "C30", "title": "Reflection repair: in-box result, termination when the arithmetic is exact, non-termination otherwise", "statement": "If force_bounds_reflection returns, every component is in the box. When components and bounds are multiples of one power of two and below 2^51 of it, and lb<ub, it terminates. Unconditional termination is refuted: with lb=ub and a component different from it, and also with lb<ub and a component far outside (rounding makes the loop alternate between two values), the loop never ends.", "quantifier": "all vectors and boxes of doubles, any number of iterations", "why_tests_cant": "termination is not testable", "anchors": ["src/utils/generic.cpp: force_bounds_reflection"]}
{"id": "C31", "title": "Random decision vectors respect the box and integrality", "statement": "random_decision_vector on a constructed problem returns one component per dimension, each inside its bounds, integral in the integer part; it raises invalid_argument exactly when a bound is unusable (infinite, width overflow, or an integer bound not fitting 64 bits); batch_random_decision_vector(n) is the concatenation of n successive calls on the same generator.", "quantifier": "all problems, all generator states, all n", "why_tests_cant": "all random streams and n", "anchors": ["src/utils/generic.cpp: uniform_real_from_range, uniform_integral_from_range, random_decision_vector, batch_random_decision_vector"]}
{"id": "C32", "title": "kNN returns the k nearest other points", "statement": "kNN(points,k) returns for every point min(k,n-1) distinct indices different from its own, sorted by non-decreasing Euclidean distance, such that no omitted other point is strictly closer than a listed one.", "quantifier": "all point sets and all k", "why_tests_cant": "all configurations, ties and sizes", "anchors": ["src/utils/generic.cpp: kNN"]}
{"id": "C33", "title": "Simplex sampling maps the unit cube to the unit simplex", "statement": "sample_from_simplex on a NaN-free input in [0,1]^n returns n+1 non-negative numbers summing to one and raises outside the cube or for an empty input (exact arithmetic).", "quantifier": "all input vectors of all lengths", "why_tests_cant": "all lengths and values", "anchors": ["src/utils/discrepancy.cpp: sample_from_simplex"]}
{"id": "C34", "title": "Van der Corput and Halton sequences are well distributed generators", "statement": "The k-th van der Corput number in base b is the radical inverse of k: it lies in [0,1) and distinct indices give distinct numbers; every block of b^m consecutive indices starting at a multiple of b^m hits each elementary interval of length b^-m exactly once; Halton uses pairwise distinct prime bases and stays in the unit cube.", "quantifier": "all bases, all indices, all dimensions supported by the prime table", "why_tests_cant": "infinite sequence", "anchors": ["src/utils/discrepancy.cpp: van_der_corput, halton", "src/detail/prime_numbers.cpp: prime"]}
{"id": "C35", "title": "The prime table is exactly the sequence of primes", "statement": "prime(i) for i>=1 is the i-th prime number for the whole table, prime(0)=1, and out-of-range indices raise.", "quantifier": "all indices", "why_tests_cant": "a test would need an independent prover of primality; here the kernel checks it", "anchors": ["src/detail/prime_numbers.cpp: prime"]}
{"id": "C36", "title": "Genetic operators keep children inside the box", "statement": "sbx_crossover and polynomial_mutation return vectors of the parents' length with every component inside its bounds whenever the parents are, and integer-part components stay integral; invalid parameters or sizes raise. REFUTED for sbx_crossover with huge bounds, where the width overflows and a component becomes NaN.", "quantifier": "all parents, bounds, parameters and random draws", "why_tests_cant": "all draws; rounding could leak outside the box", "anchors": ["src/utils/genetic_operators.cpp: sbx_crossover_impl, polynomial_mutation_impl"]}
{"id": "C37", "title": "Binary tournament picks the better of the two", "statement": "mo_tournament_selection returns one of its two arguments, the one with the smaller front rank, on equal rank the one with larger crowding distance, otherwise a random one of the two.", "quantifier": "all ranks, crowding distances, indices and draws", "why_tests_cant": "all inputs", "anchors": ["src/utils/genetic_operators.cpp: mo_tournament_selection_impl"]}
{"id": "C38", "title": "Numerical derivative helpers have the documented layout", "statement": "estimate_gradient / estimate_gradient_h place df_i/dx_j at position j+i*nx of a vector of length nf*nx and are exact on affine functions (exact arithmetic); estimate_sparsity returns a strictly sorted pattern accepted by check_gradient_sparsity containing (i,j) iff perturbing x_j changed f_i; shape changes raise.", "quantifier": "all functions, points and steps", "why_tests_cant": "all functions", "anchors": ["include/pagmo/utils/gradients_and_hessians.hpp"]}
{"id": "C39", "title": "2-D hypervolume equals the dominated area", "statement": "hv2d::compute equals the measure of the union of the boxes [p,r) over the points (exact arithmetic on the lattice of doubles).", "quantifier": "all finite point sets dominated by a reference point", "why_tests_cant": "equality with a measure for every point set", "anchors": ["src/utils/hv_algos/hv_hv2d.cpp: compute"]}
{"id": "C40", "title": "WFG hypervolume equals the dominated volume in any dimension", "statement": "hvwfg::compute equals the measure of the union of the boxes in every dimension >= 2, with limit sets, slicing and the 2-D base case.", "quantifier": "all dimensions and point sets", "why_tests_cant": "recursion over dimension and limit sets", "anchors": ["src/utils/hv_algos/hv_hvwfg.cpp: compute, compute_hv, exclusive_hv, limitset"]}
{"id": "C41", "title": "3-D sweep hypervolume equals the dominated volume", "statement": "hv3d::compute equals the measure of the union of the boxes in three dimensions.", "quantifier": "all 3-D point sets", "why_tests_cant": "sweep with a balanced tree of active points; all orders and ties", "anchors": ["src/utils/hv_algos/hv_hv3d.cpp: compute"]}
{"id": "C42", "title": "Exclusive hypervolumes and contributions are exact differences", "statement": "exclusive(i) equals the volume of the whole set minus the volume without point i, contributions lists these for all points, is non-negative, and least/greatest contributor returns an index attaining the minimum/maximum. REFUTED for contributions() of hv2d and hv3d.", "quantifier": "all point sets and indices", "why_tests_cant": "all point sets", "anchors": ["src/utils/hv_algos/hv_algorithm.cpp: exclusive, contributions, extreme_contributor", "src/utils/hypervolume.cpp"]}
{"id": "C43", "title": "Hypervolume is a monotone set function", "statement": "The computed hypervolume does not depend on the order or repetition of points, adding a point never decreases it, adding a dominated point does not change it, and a set that dominates another has at least its hypervolume.", "quantifier": "all pairs of point sets", "why_tests_cant": "all pairs of sets", "anchors": ["src/utils/hypervolume.cpp", "src/utils/hv_algos"]}
{"id": "C44", "title": "Hypervolume objects only accept meaningful inputs", "statement": "Construction succeeds iff the point set is non-empty, of equal dimension >= 2 and NaN free; compute raises unless the reference point has the right size and is weakly worse than every point and strictly worse somewhere; refpoint(offset) with positive offset is always accepted (exact arithmetic). REFUTED on doubles: NaN in the reference point is accepted, and the offset of refpoint can be absorbed by rounding.", "quantifier": "all point sets and reference points", "why_tests_cant": "validation over all inputs", "anchors": ["src/utils/hypervolume.cpp: verify_after_construct, verify_before_compute, refpoint", "src/utils/hv_algos/hv_algorithm.cpp: assert_minimisation, dom_cmp"]}
{"id": "C45", "title": "Fair replacement keeps the population size and never loses the best", "statement": "fair_replace returns exactly as many individuals as the destination population, each of them a complete (ID,x,f) triple from the population or the migrants, at most the configured number of them migrants, and no discarded individual of population or used migrants beats a kept one (single objective). REFUTED for constrained problems on which compare_fc is not a strict weak order: the sort is undefined.", "quantifier": "all populations, migrant sets and rates", "why_tests_cant": "all populations and rates", "anchors": ["src/r_policies/fair_replace.cpp: replace"]}
{"id": "C46", "title": "Best selection emits the best individuals, intact", "statement": "select_best returns min(rate) complete triples of the population, in best-first order, such that no omitted individual beats an emitted one (single objective); zero rate emits nothing; an absolute rate larger than the population raises.", "quantifier": "all populations and rates", "why_tests_cant": "all populations", "anchors": ["src/s_policies/select_best.cpp: select", "src/detail/base_sr_policy.cpp"]}
{"id": "C47", "title": "Policy wrappers reject malformed groups", "statement": "r_policy::replace and s_policy::select raise unless all input groups have equal-length components and consistent vector sizes, and never return a group violating the same conditions, whatever the user policy does.", "quantifier": "all groups and user-defined policies", "why_tests_cant": "user policy is arbitrary code", "anchors": ["src/r_policy.cpp: verify_replace_input, verify_replace_output", "src/s_policy.cpp"]}
{"id": "C48", "title": "A ring topology is a bidirectional ring at every size", "statement": "After n push_backs the ring topology has n vertices and for n>=3 vertex i is connected to exactly i-1 and i+1 modulo n in both directions with the configured weight (n=2: each other; n=1: nothing).", "quantifier": "all n", "why_tests_cant": "induction over the number of islands", "anchors": ["src/topologies/ring.cpp: push_back", "src/topologies/base_bgl_topology.cpp"]}
{"id": "C49", "title": "Fully connected and unconnected topologies connect all / nothing", "statement": "get_connections(i) of fully_connected lists every j<>i once with the configured weight; of unconnected nothing; out-of-range indices raise.", "quantifier": "all sizes and indices", "why_tests_cant": "all sizes", "anchors": ["src/topologies/fully_connected.cpp", "src/topologies/unconnected.cpp"]}
{"id": "C50", "title": "Free-form topologies behave as weighted directed graphs", "statement": "After any history of vertex/edge operations the graph has no parallel edges, all weights are finite in [0,1]; add_edge/remove_edge/set_weight affect exactly the named edge, raise exactly on invalid vertices/weights/duplicates/missing edges, and get_connections(i) lists exactly the sources of edges into i with their weights. REFUTED for 'no parallel edges'.", "quantifier": "all operation histories", "why_tests_cant": "invariant over histories", "anchors": ["src/topologies/base_bgl_topology.cpp", "src/topologies/free_form.cpp", "src/topology.cpp: get_connections"]}
{"id": "C51", "title": "Tasks run exactly once, in submission order", "statement": "For every interleaving of producers and the consumer thread, the task queue executes tasks one at a time, in enqueue order, none more often than submitted; and, with one client thread or no wait_all in progress, every accepted task is executed. REFUTED in general: a concurrent wait_all can swallow the notification and the task never runs.", "quantifier": "all schedules and all numbers of tasks", "why_tests_cant": "schedules", "anchors": ["src/detail/task_queue.cpp: task_queue, enqueue_impl"]}
{"id": "C52", "title": "Waiting for the queue returns only when everything has finished", "statement": "When wait_all returns, all tasks enqueued before it was called have finished executing, for every schedule including spurious wake-ups; the destructor returns only after all tasks ran.", "quantifier": "all schedules", "why_tests_cant": "schedules and spurious wakeups", "anchors": ["src/detail/task_queue.cpp: wait_all, ~task_queue"]}
{"id": "C53", "title": "Waiting for the queue always returns", "statement": "A wait_all call eventually returns once the queue is idle. REFUTED: the consumer clears its running flag and notifies without holding the mutex, so the notification can fall between the waiter's predicate check and its blocking; consumer and waiter then both sleep forever. A variant that holds the mutex is shown free of the deadlock.", "quantifier": "all schedules", "why_tests_cant": "a lost wake-up needs one specific interleaving", "anchors": ["src/detail/task_queue.cpp: task_queue (consumer loop), wait_all", "src/island.cpp: ~island_data"]}
{"id": "C54", "title": "Island status, wait and wait_check report errors exactly", "statement": "status() is busy iff some submitted evolution is unfinished, and carries the error flag iff some finished one has thrown; wait() leaves idle or idle_error and preserves the first error; wait_check() rethrows the first error once and resets the island to idle.", "quantifier": "all sequences of evolve/status/wait/wait_check and all completion orders allowed by the FIFO queue", "why_tests_cant": "histories and schedules", "anchors": ["src/island.cpp: status, wait, wait_check, future_has_exception"]}
{"id": "C55", "title": "Archipelago status and wait_check aggregate all islands", "statement": "archipelago::status combines the islands' states by the documented table and wait_check waits for every island, rethrowing the error of the first failing island and clearing all errors.", "quantifier": "all numbers of islands and state combinations", "why_tests_cant": "all combinations", "anchors": ["src/archipelago.cpp: status, wait, wait_check"]}
{"id": "C56", "title": "Archipelago bookkeeping stays aligned", "statement": "After any history of construction, push_back, copies and topology changes, island count, migrant database size and index map agree, and looking up an island's index and then indexing returns the island.", "quantifier": "all histories", "why_tests_cant": "invariant over histories", "anchors": ["src/archipelago.cpp: push_back_impl, get_island_idx, set_migrants_db, extract_migrants"]}
{"id": "C57", "title": "Migrant database operations conserve migrants", "statement": "Reading with preserve leaves the database unchanged; with evict returns exactly the stored migrants and empties that entry only; set overwrites only its entry; so under any interleaving of atomic operations an evicted batch is delivered to at most one island.", "quantifier": "all schedules of islands' migration steps", "why_tests_cant": "concurrent schedules", "anchors": ["src/archipelago.cpp: extract_migrants, get_migrants, set_migrants", "src/island.cpp: evolve"]}
{"id": "C58", "title": "The migration log records only real arrivals", "statement": "Every entry appended by a migration step names an individual that is present in the destination population after replacement, with its stored vectors and the island it came from; an individual already present can be logged again (refutation of 'only new arrivals').", "quantifier": "all populations, migrants and replacement policies", "why_tests_cant": "all policies", "anchors": ["src/island.cpp: evolve"]}
{"id": "C59", "title": "Migration and the champion", "statement": "After a migration step the champion should be at least as good as every individual of the population. REFUTED: set_individuals replaces the individuals without updating the champion.", "quantifier": "all populations and migrants", "why_tests_cant": "depends on history", "anchors": ["src/island.cpp: set_individuals", "src/population.cpp: update_champion"]}
{"id": "C60", "title": "Save followed by load restores the object", "statement": "Loading what save wrote restores every observable member of population, problem, algorithm, island and archipelago and leaves the rest of the stream untouched; a truncated stream resets the target to its default state and raises.", "quantifier": "all object states", "why_tests_cant": "all states; a swapped or missing field only shows for particular values", "anchors": ["include/pagmo/population.hpp", "include/pagmo/problem.hpp", "include/pagmo/archipelago.hpp", "include/pagmo/island.hpp", "include/pagmo/s11n.hpp"]}
{"id": "C61", "title": "Differential evolution never worsens an individual", "statement": "de::evolve on a valid population keeps the size and IDs, replaces individual i only by a point inside the bounds that is not worse, so the best fitness never gets worse; it uses exactly NP evaluations per generation run.", "quantifier": "all problems, parameters, generations and random streams", "why_tests_cant": "all random streams and generation counts", "anchors": ["src/algorithms/de.cpp: evolve"]}
{"id": "C62", "title": "The (N+1)-ES never loses its best individual", "statement": "sea::evolve keeps size, every individual is either original or an in-bounds offspring (given in-bounds parents), and the best fitness is non-increasing; one evaluation per generation.", "quantifier": "all deterministic problems, generations and streams", "why_tests_cant": "all streams", "anchors": ["src/algorithms/sea.cpp: evolve"]}
{"id": "C63", "title": "The genetic algorithm is elitist", "statement": "sga::evolve keeps the size and the identifiers; after each generation the population is the best half of parents and offspring, best first, so for any value and count, if that many individuals were at least as good as the value before, that many are so afterwards. Selection, crossover and mutation do what their documentation says, newborn individuals lie in the bounds, and a generation costs one evaluation per individual (two if the problem is stochastic). REFUTED: a parent with NaN fitness wins tournaments; integer bounds an int cannot hold and a NaN mutation probability are undefined behaviour.", "quantifier": "all problems, operators, streams", "why_tests_cant": "all streams", "anchors": ["src/algorithms/sga.cpp: evolve"]}
{"id": "C64", "title": "NSGA-II never discards a front-0 point while keeping a dominated one", "statement": "After each generation every kept individual is in a front at least as good as every discarded one of the merged parents+offspring; size and IDs are preserved; NP evaluations per generation; the batch and the sequential variants insert the same individuals.", "quantifier": "all problems and streams", "why_tests_cant": "all streams", "anchors": ["src/algorithms/nsga2.cpp: evolve"]}
{"id": "C65", "title": "Compass search is monotone, bounded and terminates", "statement": "compass_search returns after at most max_fevals+2*nx evaluations with a point in the box (if it started there) that is never worse than the selected one under compare_fc; it may exceed max_fevals (refutation of a hard cap).", "quantifier": "all problems and parameters", "why_tests_cant": "all fitness functions", "anchors": ["src/algorithms/compass_search.cpp: evolve"]}
{"id": "C66", "title": "Simulated annealing returns a point no worse than its start", "statement": "simulated_annealing evaluates exactly n_T_adj*n_range_adj*bin_size*nx trial points, all in the box; it then replaces the individual designated by the replacement policy by the best of the selected individual and all trial points, or leaves the population alone if the selected objective value is NaN. It never replaces the selected individual by a worse point.", "quantifier": "all problems, parameters, streams", "why_tests_cant": "all streams", "anchors": ["src/algorithms/simulated_annealing.cpp: evolve"]}
{"id": "C67", "title": "Basin hopping is monotone and keeps the population on failure", "statement": "mbh::evolve returns either the original individuals or a population whose best individual strictly beats the original best under compare_fc, for any inner algorithm preserving the population size.", "quantifier": "all inner algorithms, problems, perturbations", "why_tests_cant": "inner algorithm arbitrary", "anchors": ["src/algorithms/mbh.cpp: evolve"]}
{"id": "C68", "title": "Artificial bee colony tracks the fitness of its sources", "statement": "bee_colony keeps all trial points in the box. The cached fitness of each food source should equal the population's fitness: REFUTED after a scout phase (the cache entry is not refreshed).", "quantifier": "all problems, streams", "why_tests_cant": "needs a scout phase at a specific time", "anchors": ["src/algorithms/bee_colony.cpp: evolve"]}
{"id": "C69", "title": "Improved harmony search replaces the population by the selected best set", "statement": "In the multi-objective case the new population should consist of the selected best individuals of population plus candidate. REFUTED: the in-place overwrite reads entries already overwritten, so selected individuals can be lost and others duplicated. Single-objective: the worst is replaced only by a not-worse candidate.", "quantifier": "all populations and candidates", "why_tests_cant": "depends on the order returned by the selection", "anchors": ["src/algorithms/ihs.cpp: evolve"]}
{"id": "C70", "title": "Grey wolf optimizer leaders are the best wolves", "statement": "gwo::evolve rejects unsuitable problems and populations of fewer than 3 untouched; otherwise it makes population-size evaluations per generation, keeps the identifiers, and every returned individual is an evaluated point inside the bounds; the alpha score in the log never goes up and ends not above any returned objective value. The initial leaders should be the three best individuals: REFUTED, the initial sort is descending and they are the three worst; the best individual can be lost in one generation, and a single NaN objective value keeps alpha at NaN for ever.", "quantifier": "all populations", "why_tests_cant": "all populations", "anchors": ["src/algorithms/gwo.cpp: evolve"]}
{"id": "C71", "title": "Self-adaptive constraint handling keeps the best individual", "statement": "cstrs_self_adaptive keeps the population size, the problem and the IDs; after each iteration the population contains an individual that was best before it and otherwise only individuals it had or points evaluated in that iteration; it throws only what the fitness function or the inner algorithm throws. REFUTED for inner algorithms that return a point not evaluated with the problem object they were given: undefined behaviour.", "quantifier": "all problems and inner algorithms", "why_tests_cant": "arbitrary inner algorithm", "anchors": ["src/algorithms/cstrs_self_adaptive.cpp: evolve"]}
{"id": "C72", "title": "Particle swarm memory is monotone and in bounds", "statement": "In pso every particle position stays in the box and every particle's remembered best never gets worse; the returned individuals are these memories. REFUTED when a fitness is NaN, for neighbourhood sizes that do not fit the population, for memory kept from a problem of another dimension, and for the fully informed variant with an empty neighbourhood.", "quantifier": "all problems, variants, neighbourhoods and streams", "why_tests_cant": "all streams", "anchors": ["src/algorithms/pso.cpp: evolve"]}
{"id": "C73", "title": "MOEA/D run and diversity limit", "statement": "moead rejects unsuitable problems, empty populations and more neighbours than other individuals without changing anything, and leaves the population alone when the number of generations is 0. Otherwise every generation visits each subproblem exactly once; a visit evaluates one point (inside the box if the population was, the bounds are moderate and uniform draws are below 1), lowers the ideal point, and overwrites only individuals that the point strictly beats on their own subproblems, the visited one included whenever it is beaten; without diversity preservation exactly those among the visited one and its nearest neighbours, with it at most max(limit, 2). With the weighted decomposition no individual ever gets worse on its own subproblem. REFUTED for limit 0 and 1: two individuals are overwritten, because the counter is tested only after the first neighbour update.", "quantifier": "all problems, populations, parameters, random draws, shuffles and fitness functions", "why_tests_cant": "the replacements depend on random parents, shuffles and specific success patterns", "anchors": ["src/algorithms/moead.cpp: evolve"]}
{"id": "C74", "title": "Golomb ruler violations count repeated distances", "statement": "golomb_ruler::fitness returns the ruler length and the number of pairwise distances that duplicate another one: the second component is zero iff all pairwise distances of the marks are different.", "quantifier": "all orders and tick vectors (exact arithmetic)", "why_tests_cant": "all vectors", "anchors": ["src/problems/golomb_ruler.cpp: fitness"]}
{"id": "C75", "title": "Streaming containers is bounded and faithful", "statement": "Streaming a vector prints all elements separated by ', ' when there are at most five and the first five followed by an ellipsis otherwise, never reading past the end; maps likewise. An ascii table rejects a row with the wrong number of columns and prints the headers, a rule and the accepted rows with every column as wide as its longest cell.", "quantifier": "all vectors, maps, and tables after any sequence of rows", "why_tests_cant": "all lengths", "anchors": ["include/pagmo/io.hpp: stream_range"]}
{"id": "C76", "title": "Penalized fitness of the self-adaptive constraint handling", "statement": "The fitness cstrs_self_adaptive hands to its inner algorithm is the plain objective for a point that violates no constraint, is a number that is never better than the plain objective for the other points, and does not put a point with larger infeasibility and larger objective before one with smaller ones. REFUTED with negative objectives, without a feasible individual, and for points so infeasible that the exponential overflows; the rest is proved.", "quantifier": "all populations, points, objective and constraint values and all exponential functions", "why_tests_cant": "the penalty depends on the whole population through three reference individuals and on rounding", "anchors": ["src/algorithms/cstrs_self_adaptive.cpp: penalized_udp::fitness, penalized_udp::update, penalized_udp::compute_infeasibility"]}
{"id": "C77", "title": "Derivatives of the test problems", "statement": "In exact arithmetic, the gradient of rosenbrock, rastrigin, minlp_rastrigin, hock_schittkowski_71 and luksan_vlcek1 lists the partial derivatives of every fitness component in the order of the sparsity pattern the problem reports (dense where it declares none), every derivative the pattern leaves out is zero everywhere, and the Hessians of rastrigin, minlp_rastrigin and hock_schittkowski_71 list the second derivatives of the lower triangle in the same sense; fitness and derivatives are defined for every decision vector of the right size.", "quantifier": "all dimensions the constructors accept and all real decision vectors", "why_tests_cant": "tests compare a few points with numerical differences", "anchors": ["src/problems/rosenbrock.cpp: fitness, gradient", "src/problems/rastrigin.cpp: fitness, gradient, hessians, hessians_sparsity", "src/problems/minlp_rastrigin.cpp: fitness, gradient, hessians, hessians_sparsity", "src/problems/hock_schittkowski_71.cpp: fitness, gradient, hessians, hessians_sparsity", "src/problems/luksan_vlcek1.cpp: fitness, gradient, gradient_sparsity"]}
{"id": "C78", "title": "Known minima of the test problems", "statement": "In exact arithmetic, best_known of rosenbrock, rastrigin, griewank and ackley is within the bounds of the problem, has fitness zero, no decision vector has a smaller fitness, and no other decision vector has the same.", "quantifier": "all dimensions the constructors accept and all real decision vectors", "why_tests_cant": "a global minimum quantifies over a continuum", "anchors": ["src/problems/rosenbrock.cpp: fitness, best_known", "src/problems/rastrigin.cpp: fitness, best_known", "src/problems/griewank.cpp: fitness, best_known", "src/problems/ackley.cpp: fitness, best_known"]}
{"id": "C79", "title": "Lennard-Jones cluster", "statement": "The constructor accepts exactly the numbers of atoms from three up whose dimension 3n-6 fits an unsigned int and throws invalid_argument or overflow_error for the others; the fitness of a decision vector of that dimension is defined whatever the arithmetic; in exact arithmetic it is the Lennard-Jones potential of the cluster with the first three atoms placed in the plane, it is never below minus the number of pairs of atoms, and it is at least that above four times the largest double when two atoms coincide.", "quantifier": "all numbers of atoms and all real decision vectors", "why_tests_cant": "tests compare a few known clusters", "anchors": ["src/problems/lennard_jones.cpp: lennard_jones, fitness, get_bounds, _r"]}
{"id": "C80", "title": "ZDT: p_distance and the Pareto front", "statement": "The constructor accepts exactly the problems 1 to 6 with a parameter of at least 2; fitness gives two objectives and p_distance a number for every decision vector of the dimension of the problem, whatever the arithmetic. In exact arithmetic p_distance is never negative and is zero exactly at the Pareto-optimal decision vectors, where the second objective is that of the front of the literature; the p_distance of a population is zero exactly when all its members are Pareto-optimal. False in part: the dimension of ZDT5 wraps around for huge parameters and fitness then throws; in ZDT3 the distance is zero at dominated vectors; for numbers that are not whole ZDT5 rounds in fitness and truncates in p_distance.", "quantifier": "all problems and parameters, all decision vectors within the bounds (whole where the problem declares integers), all populations", "why_tests_cant": "Pareto optimality quantifies over a continuum of other decision vectors", "anchors": ["src/problems/zdt.cpp: zdt, fitness, get_bounds, get_nix, p_distance"]}
{"id": "C81", "title": "DTLZ: p_distance and the Pareto front", "statement": "The constructor accepts exactly the problems 1 to 7 with at least two objectives and more variables than objectives; fitness gives the number of objectives asked for and p_distance a number for every decision vector of the right size, and p_distance throws invalid_argument for the others, whatever the arithmetic. In exact arithmetic p_distance is never negative and is zero exactly at the Pareto-optimal decision vectors; the objectives are non-negative and lie on the plane (DTLZ1: their sum is half of one plus the distance) or the sphere (DTLZ2 to DTLZ6: the sum of their squares is the square of one plus the distance) of the literature; the p_distance of a population is zero exactly when all its members are Pareto-optimal. False in part: in DTLZ7 the distance is zero at dominated vectors, and in DTLZ5 and DTLZ6 with four objectives a Pareto-optimal vector has a positive distance.", "quantifier": "all problems, dimensions, numbers of objectives and exponents alpha, all decision vectors within the bounds, all populations", "why_tests_cant": "Pareto optimality quantifies over a continuum of other decision vectors", "anchors": ["src/problems/dtlz.cpp: dtlz, fitness, get_bounds, p_distance, convergence_metric"]}
{"id": "C82", "title": "fork_island: evolution in another process is all or nothing", "statement": "Whatever the interleaving of the two processes, and wherever the child crashes or is killed or a system call fails: if run_evolve returns, the island holds exactly the algorithm and population evolve produced in the child; if it throws, the island is as before; in both cases no zombie process, process id or open pipe end is left. Without faults it returns when evolve does and throws a runtime_error with the child's message when evolve throws. It always finishes if evolve does. False in part: if another thread is inside get_population() or get_algorithm() of the island when the process forks, run_evolve never finishes.", "quantifier": "all schedules of parent, child and a thread using the island, all crash points of the child, all sizes of the transmitted archive and all splits of the reads", "why_tests_cant": "schedules, crash points and partial reads cannot be enumerated by tests", "anchors": ["src/islands/fork_island.cpp: pipe_t, run_evolve", "include/pagmo/islands/fork_island.hpp: get_child_pid", "src/island.cpp: get_algorithm, get_population, set_algorithm, set_population"]}
{"id": "C83", "title": "sade: self-adaptive differential evolution", "statement": "The constructor accepts exactly the variants 1 to 18 and the adaptation schemes 1 and 2. evolve rejects unsuitable problems and populations smaller than seven before changing anything; otherwise, whatever the random numbers and the parameters kept from earlier calls, it ends (in an exception of the fitness function at most) with a population in which every individual is the old one or an evaluated point of the box not worse than it, after a whole number of generations of one evaluation per individual, fewer than asked only if the population has become flat. With jDE every F kept over any history of calls is in [0.1, 1] and every CR in [0, 1]. An individual's parameters change exactly with the individual, to those its trial vector was made with; the trial vector follows the documented formula of the variant. The parameters of a trial are, with jDE, those kept for the individual or newly drawn ones in range, with iDE the result of the variant's formula on the kept parameters. Without memory, or for a population of another size, the kept parameters have no influence.", "quantifier": "all problems, populations, random streams, parameters and histories of evolve calls", "why_tests_cant": "eighteen variants times two schemes times all random streams and call histories", "anchors": ["src/algorithms/sade.cpp: sade::sade, sade::evolve"]}
{"id": "C84", "title": "de1220: self-adaptive differential evolution with adapted variants", "statement": "As C83, with a list of allowed variants: the constructor accepts exactly the lists of variants 1 to 18, evolve keeps one allowed variant for every individual over any history of calls, and an accepted individual is a trial vector of the variant then kept for it. False in part: an empty list of allowed variants is accepted by the constructor and evolve then has undefined behaviour for every suitable population.", "quantifier": "all problems, populations, random streams, lists of variants and histories of evolve calls", "why_tests_cant": "all random streams and call histories; undefined behaviour need not show in a test", "anchors": ["src/algorithms/de1220.cpp: de1220::de1220, de1220::evolve"]}
{"id": "C85", "title": "gaco: extended ant colony optimization", "statement": "The constructor accepts exactly the documented parameters. On a suitable population (deterministic, one objective, at least as many individuals as kernels), for all random numbers, evolve ends in an exception of the fitness function or after whole generations of one evaluation per individual, fewer than asked only if a stopping criterion holds; every individual is then an evaluated point within the bounds or NaN, integer where it must be, or (without memory) one of the earlier individuals; with moderate bounds, finite normal variates and an initial population in the box there is no NaN and everything stays in the box, over any number of calls. Once a stopping criterion holds no later call does anything. False in part: with memory, a first call that is refused (or comes with an empty population) makes the next one read outside the empty archive; one generation with as many kernels as individuals only reorders the population, although it evaluates one point per individual.", "quantifier": "all problems, populations, random streams, parameters, batch evaluators that do what the problem does, and histories of evolve calls", "why_tests_cant": "all random streams, archives and call histories; undefined behaviour need not show in a test", "anchors": ["src/algorithms/gaco.cpp: gaco::gaco, gaco::evolve, gaco::penalty_computation, gaco::update_sol_archive, gaco::pheromone_computation, gaco::generate_new_ants"]}
{"id": "C86", "title": "random_device is one sequence for all threads", "statement": "For every set of threads calling random_device::next() and set_seed() and every interleaving of their steps, what the threads see is what they would see if all calls were made one at a time in an order that respects real time. Threads that only draw get, between them, each number of the sequence exactly once. In a program with one thread the numbers drawn after set_seed(s) depend on s alone. There is no deadlock and every call ends.", "quantifier": "all engines, numbers of threads, sequences of calls per thread, schedules", "why_tests_cant": "all interleavings; a lost update of the engine is rarely visible", "anchors": ["src/rng.cpp: random_device::next, random_device::set_seed, detail::global_rng, detail::global_rng_mutex"]}
{"id": "C87", "title": "inventory: the fitness depends on the seed and the point only", "statement": "After any history of fitness and set_seed calls the fitness of x is the mean cost of x (units, backorders, holding) over the scenarios drawn from the seed last set. Within the bounds it is a non-negative number. False in part: a sample size of zero is accepted by the constructor and the fitness is then NaN everywhere.", "quantifier": "all engines, seeds, sample sizes, decision vectors and histories of calls", "why_tests_cant": "all histories, seeds and points", "anchors": ["src/problems/inventory.cpp: inventory::fitness, inventory::get_bounds", "include/pagmo/problems/inventory.hpp: inventory::inventory, inventory::set_seed"]}
{"id": "C88", "title": "cmaes: covariance matrix adaptation over histories of calls", "statement": "The constructor accepts exactly rates in [0,1], -1 or NaN. evolve refuses constrained or multi-objective problems, fewer than five individuals and infinite bounds before changing anything, and zero generations change nothing. Otherwise, whatever the random numbers, the results of the numerical routines and what is kept from earlier calls, it ends (in an exception of the fitness function at most) after some number of generations of one evaluation per individual, fewer than asked only if ftol or xtol is met; then every individual is an evaluated point of the last generation, with force_bounds not outside of the box, and a stochastic problem has got one seed per generation. In a generation the points are mean + sigma B D z, and the new mean is the weighted sum of the better half. Without memory, or for another population size, what was kept has no influence. False in part: sigma0 is not checked, with NaN every point is NaN in spite of force_bounds; integer variables get non-integer values.", "quantifier": "all problems, populations, random streams, numerical results of the linear algebra, batch evaluators, parameters and histories of calls", "why_tests_cant": "all random streams and all sequences of evolve calls with memory on populations of changing size and dimension", "anchors": ["src/algorithms/cmaes.cpp: cmaes::cmaes, cmaes::evolve", "include/pagmo/algorithms/cmaes.hpp: mutable members"]}
{"id": "C89", "title": "xnes: exponential natural evolution strategy over histories of calls", "statement": "The constructor accepts exactly learning rates and sigma0 in ]0,1], -1 or NaN. evolve refuses constrained or multi-objective problems, fewer than four individuals and infinite bounds before changing anything, and zero generations change nothing. Otherwise, for fitness functions that never give NaN, whatever the random numbers, the results of the numerical routines and what is kept from earlier calls, it ends (in an exception of the fitness function at most) after at least one and at most gen generations of one evaluation per individual, fewer than asked only if ftol or xtol is met; then every individual is an evaluated point of the last generation, with force_bounds not outside of the box, and a stochastic problem has got one seed per generation. In a generation the points are mean + A z, and the mean moves by eta A times the utility-weighted sum of the z, sorted by fitness. Without memory what was kept has no influence. False in part: a fitness that is NaN for some points makes the sort undefined behaviour; a new instance with memory starts at the origin with A = 1 for problems of one variable; a NaN sigma0 is accepted and makes every point NaN in spite of force_bounds.", "quantifier": "all problems, populations, random streams, numerical results of the linear algebra, parameters and histories of calls", "why_tests_cant": "all random streams and all sequences of evolve calls with memory on populations of changing dimension", "anchors": ["src/algorithms/xnes.cpp: xnes::xnes, xnes::evolve", "include/pagmo/algorithms/xnes.hpp: mutable members"]}
{"id": "C90", "title": "moead_gen: generational MOEA/D, with and without a batch evaluator", "statement": "moead_gen rejects unsuitable problems, empty populations and more neighbours than other individuals without changing anything, and leaves the population alone when the number of generations is 0. Otherwise every generation inserts one evaluated point (inside the box if the population was, the bounds are moderate and uniform draws are below 1) for each subproblem; every point lowers the ideal point and overwrites only individuals that it strictly beats on their own subproblems, its own one included whenever it is beaten; without diversity preservation exactly those among its own subproblem and the nearest neighbours, with it at most max(limit, 2). There is one evaluation per individual and generation. With a batch evaluator that agrees with the problem the run is the same as without. All points of a generation are fixed before the first of them is evaluated: a batch evaluator is asked once per generation and its answers have no influence on what it is asked.", "quantifier": "all problems, populations, parameters, random draws, shuffles, fitness functions and batch evaluators", "why_tests_cant": "the replacements depend on random parents, shuffles and specific success patterns; agreement of the two ways of evaluating must hold for every problem", "anchors": ["src/algorithms/moead_gen.cpp: evolve"]}
{"id": "C91", "title": "pso_gen: generational particle swarm, with and without a batch evaluator, stochastic problems included", "statement": "pso_gen refuses constrained or multi-objective problems and empty populations without changing anything. On a deterministic problem every individual of the result is either unchanged or a point with its own fitness, in the bounds, that the old individual was not better than (NaN counting as worst), with one evaluation per individual and generation. On a stochastic problem every generation sets one new seed, and the points of the result carry their fitness under the last seed, with two evaluations per individual and generation. The best neighbour is a neighbour's remembered position than which no neighbour's is better. With a batch evaluator that agrees with the problem under every seed the run is the same as without. The only exceptions are those of the fitness function and of drawing velocities in too wide a box.", "quantifier": "all problems, populations, parameters, topologies, variants, kept velocities, random draws, seeds, fitness functions and batch evaluators", "why_tests_cant": "the trajectories depend on random numbers, seeds and the order of improvements; agreement of the two ways of evaluating must hold for every problem and seed", "anchors": ["src/algorithms/pso_gen.cpp: evolve, particle__get_best_neighbor, serialize"]}
{"id": "C92", "title": "nspso: multi-objective particle swarm, its leaders, its remembered points and what it keeps between calls", "statement": "The constructor accepts exactly the documented parameters. nspso refuses stochastic, constrained and single-objective problems and populations of fewer than two without changing anything. In every generation each individual is replaced, under the same ID, by an evaluated point with coordinates in the bounds (never NaN for moderate numbers), with one evaluation per individual; the remembered points are as many as individuals and chosen among the new points and those remembered before, and with crowding distance or niche count none that is left out dominates one that is kept. Non-dominated individuals are leaders. The run with a faithful batch evaluator is the same as without. It holds for every call of a history with memory on a problem of the same dimension.", "quantifier": "all problems with two or more objectives, populations, parameters, diversity mechanisms, random draws, admissible sort results, batch evaluators, kept memories", "why_tests_cant": "The moves depend on random draws, on a sort whose order of equal elements is not specified, and on what earlier calls have left in the object.", "anchors": ["src/algorithms/nspso.cpp: nspso::nspso, nspso::evolve, nspso::minfit, nspso::compute_maxmin, nspso::euclidian_distance, nspso::compute_niche_count, nspso::serialize", "include/pagmo/algorithms/nspso.hpp: nspso"]}
{"id": "C93", "title": "schwefel: the fitness is the documented sum, bounded on the box and unbounded outside it", "statement": "For every decision vector, in exact arithmetic, the fitness of the schwefel problem is the sum over the components of 418.9828872724338 - a sin(sqrt |a|): separable, independent of the order of the components, and odd around its constant. The constructor accepts every dimension but zero. best_known lies within the bounds; within them the fitness is between -82 and 919 per component. That best_known is a minimiser over all the points the problem accepts is refuted: outside the bounds the fitness has no lower bound.", "quantifier": "every dimension and every decision vector of real numbers", "why_tests_cant": "a test evaluates the function at a few points; additivity, symmetry and bounds are about all of them, and unboundedness about no finite set of them", "anchors": ["src/problems/schwefel.cpp: schwefel::schwefel, fitness, get_bounds, best_known"]}
