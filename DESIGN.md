# Formal model of esa/pagmo2 in Rocq (Coq 8.16.1)

Sources are in `/repo` (read as text only). Model and proofs are in
`rocq/theories` (logical name `Verif`). Property list: `properties.jsonl`.
Status and theorem names per property: `MANIFEST.json`. Edits that the theorems
were tested against: `seeded/LOG.jsonl`.

## 1. Conventions

* **Model files** contain only definitions, each with a comment citing the file
  and lines of `/repo` it models. **Spec files** contain the small, independent
  vocabulary used to state properties. **Facts files** contain lemmas.
  **Props files** contain the property theorems (each closed by `exact lemma`),
  a non-vacuity `Example` beside each, and `Print Assumptions`.
* **Doubles** (`Dbl.v`): `NaN | MInf | Fin z | PInf`, where `Fin z` denotes the
  real number `z * 2^-1074`. Every finite IEEE double is an integer multiple of
  `2^-1074`, so comparisons are modelled exactly. Arithmetic (`+ - * / sqrt`,
  integer conversion, truncation) is IEEE round-to-nearest-even computed in
  `Z`, with overflow to infinity and gradual underflow. Simplifications: +0 and
  -0 are identified (the modelled code does not divide by a zero whose sign
  matters, and `==`, `<` do not tell them apart); NaN payloads and the floating
  point environment are not modelled; no extended precision.
* **Exact arithmetic**: where a property is a law of real arithmetic
  (hypervolume, exactness of the gradient formulas, simplex sampling) the model
  is parametric in the arithmetic or instantiated with `Z`/`Q`, and the comment
  says so; rounding is then outside the theorem.
* **Outcomes** (`Outcome.v`): `Ok a | Throw e | UB | NoFuel`. C++ exceptions are
  `Throw`; out-of-bounds accesses, violated preconditions of the standard
  library and signed overflow are `UB`. Loops without a bound in the code run on
  fuel and return the distinct outcome `NoFuel` when it is used up. Theorems say
  which of these can happen; `ends` excludes both `UB` and `NoFuel`,
  `ends_if_fuel` excludes only `UB`.
* **Unsigned arithmetic** wraps where the code can reach it (evaluation counters,
  dense Hessian sizes, ring indices of the particle swarm, migration IDs);
  otherwise sizes are unbounded naturals.
* **std::sort** is a parameter. If the comparator is a strict weak order on the
  elements, the result is a sorted permutation (`sort_contract`); otherwise the
  call is `UB`. Insertion sort meets the contract.
* **std::shuffle, std::binomial_distribution** are parameters in the same way:
  the result is a permutation; the result is between 0 and n.
* **Random numbers** (`Rng.v`): an engine state of any type and draw functions,
  with the ranges promised by the C++ standard as contract (`rng_contract`, upper
  end included because of rounding). A concrete stream generator meets it. The
  theorems hold for every engine, so for every sequence of draws.
* **std::pow, std::exp, std::log** are parameters; what is assumed of them is in
  the statements (`pow_contract`).
* **User code** (problems, algorithms, islands, policies, batch evaluators) is an
  arbitrary function parameter returning an outcome, possibly throwing.
  `fitness_defined` excludes user functions that are themselves undefined or do
  not return. User functions are deterministic except for stochastic problems,
  where `reseed` is what set_seed() turns the problem into.
* **Concurrency**: labelled transition systems over program counters, one
  transition per atomic action or critical section, all interleavings
  (`TaskQueue.v`, `Bfe.v`, `Island.v`, `Migration.v`). Sequential consistency is
  assumed.
* `_refuted` theorems: where the natural statement is false of the faithful
  model, a counterexample (or a whole class of them) is proved, next to the
  strongest true statement found.

## 2. Per property: model and method

| id | model | what is proved and how |
|----|-------|--------------|
| C01 | `Compare.v`: the three comparators | case analysis |
| C02 | `MultiObj.v`: pareto_dominance loop with counters | induction; strict partial order from C01 |
| C03 | fnds double loop and peeling loop, literally | loop invariants on the counters; front decomposition is unique, so the statement determines the result |
| C04 | 2-d front with the sort parameter | invariant: front = nondominated among processed |
| C05 | select_best_N_mo | from C03 and the sort contract |
| C06 | sort_population_mo | sort contract |
| C07 | crowding_distance loops | invariant on the distance vector; refuted when an objective is constant (0/0) |
| C08 | ideal, nadir | fold invariants |
| C09 | reksum recursion, weights | induction on depth; completeness and uniqueness of the grid |
| C10 | decompose_objectives on doubles | monotonicity of rounding, induction |
| C11-C14 | `Constrained.v` on doubles | case analysis; compare_fc is not a strict weak order in general (refuted), is one on the stated sets |
| C15-C19 | `Population.v` as a state machine with throwing operations | invariants over arbitrary operation lists |
| C20-C25 | `Problem.v`, `Bfe.v`, 64-bit wraparound explicit | case analysis, invariants |
| C21 | counters as atomic increments, interleavings | induction on traces |
| C22 | tasks writing disjoint slices, any interleaving | commutation |
| C26-C28 | `MetaProblems.v`: translate, unconstrain, decompose | induction on vectors and histories |
| C29-C32 | `Generic.v`: bound repair, random vectors, kNN | induction; reflection terminates on dyadic grids, diverges in general (refuted) |
| C33-C35 | `Discrepancy.v`, `Primes.v` | induction on digits; the prime table by a verified sieve |
| C36-C37 | `GeneticOps.v` | clamping structure and error bounds, draws arbitrary |
| C38 | `Gradients.v` | induction on loops; exactness over Q |
| C39-C44 | `Hypervolume.v` against a lattice-cell count (integers) | sweep invariants; WFG recursion by induction on dimension and set size |
| C45-C47 | `Policies.v` | sort contract, multiset inclusion |
| C48-C50 | `Topologies.v` | induction on n; graph invariants |
| C51-C53 | `TaskQueue.v` transition system | inductive invariants; reachable deadlock |
| C54-C56 | `Island.v`, `Archipelago.v` | state machine invariants; futures of the task queue are taken to complete in order (C51) |
| C57-C59 | `Migration.v` | conservation invariants over all interleavings of the critical sections |
| C60 | `Serialization.v`: archives as token lists | round trip by composition; what loading does not check is refuted |
| C61-C73 | `Algo.v` (the state: engine and population) and one `Alg*.v` per algorithm, the whole evolve() without logging | loop invariants for arbitrary draws |
| C74 | `Golomb.v` | induction |
| C75 | `Io.v` | induction |
| C76 | `AlgCstrs.v`: penalized_udp | case analysis and sign arguments on rounded arithmetic |
| C77 | TestProblems.v over an abstract arithmetic (TestArith.arith), here the real numbers; SpecTest.gradient_right, hessians_right in terms of the standard library's `derivable_pt_lim` | derivative rules for lists, sums with Kronecker deltas, loop invariants for the accumulating loops |
| C78 | the same models; SpecTest.minimum_at | term by term lower bounds, bounds of cos and exp |
| C79 | TestProblems.lj_*: constructor, position of the atoms, fitness over any arithmetic; SpecTest.lennard_jones_energy | the pairs of the loop are the pairs of the specification; 1/s^2 - 1/s >= -1/4 for the bound |
| C80 | Zdt: constructor, bounds, fitness and p_distance of ZDT1 to ZDT6 over any arithmetic; SpecPareto, SpecZdt | g is at least its minimum and the second objective decreases with g and with the first; integer case analysis for ZDT5 |
| C81 | Dtlz: constructor, fitness and p_distance of DTLZ1 to DTLZ7 over any arithmetic; SpecPareto | a monotone measure of the objectives (sum, sum of squares) is a function of the distance alone; concavity of the sine for DTLZ5 and DTLZ6 |
| C82 | ForkIsland: transition system of parent, child, pipe (finite capacity, partial reads), mutex copied by fork(), other processes with the write end; the archive is a loader that asks for bytes, with the contract that it reads back what was saved | invariant over all interleavings; a proper prefix of an archive does not load; decreasing measure for termination |
| C83 | AlgSade: constructor and evolve of sade, both schemes, the 18 variants; the members m_F and m_CR go in and out of evolve; crossover loops shared with AlgDe | invariant over individuals and generations, with the ranges of F and CR as a parameter of the invariant; induction over the history of calls; component formulas compared with a table in SpecSade |
| C84 | the same model with a list of allowed variants | the same proofs; refutation for the empty list |
| C85 | AlgGaco: constructor, penalties, archive, pheromones, new ants, oracle, both kinds of evaluation; all members but the log are part of the state and survive exceptions | invariant over generations: shape of the archive, where its points come from, range of the convergence counter; deviations bounded for archives in the box; refutation by symbolic execution of the second call |
| C86 | GlobalRng: threads interleaved at call, lock, reading the engine, writing it, unlock, return; the engine is a parameter | invariant with a ghost history that marks the moment each call takes effect; permutation and counting invariants; a rank that each step lowers by one |
| C87 | Inventory: constructor, set_seed, fitness with its mutable engine, bounds; engine and uniform distribution are parameters | the loops equal a separate recursive cost function; signs of the terms; induction over histories |
| C88 | AlgEigen (vectors, matrices, sizes; sums, decompositions and <cmath> are parameters), AlgMem, AlgCmaes: constructor and evolve with its kept members and batch evaluator | sizes of all members as invariant of every call; the population set to the drawn points; induction over generations, with the seeds of the problem in the invariant |
| C89 | AlgXnes: constructor and evolve with its kept members, on AlgEigen and AlgMem | sizes of the members as invariant; plain `<` on fitness is a strict weak order without NaN; induction over generations |
| C90 | AlgMoeadGen: the generation of moead_gen on the pieces of AlgMoead and the batch evaluation of AlgNsga2 | the moead step for a point already evaluated; equality of the runs with and without evaluator by induction over generations |
| C91 | AlgPsoGen: the generation of pso_gen on the topologies and velocity rules of AlgPso, with reseeding and batch evaluation | the swarm invariant of C72 with all updates after one evaluation of the whole swarm; induction over generations |
| C92 | AlgNspso: constructor, leaders, moves, selection of remembered points, kept memory of nspso | sorting contracts and the front decomposition of C08 for leaders and selection; an invariant on population and memory, by induction over generations; commuting moves and evaluations for the batch |
| C93 | Schwefel: constructor, fitness, bounds, best_known of schwefel over any arithmetic | induction on the decision vector over the real numbers; |sin| <= 1 for the bounds; the squares of pi/2 + 2 k pi for unboundedness. That best_known is optimal within the bounds is not proved (it is a rounded number) |

Status in MANIFEST.json: `proved` means that the statement in properties.jsonl,
including the refutations it reports itself, is proved. `partial` means that the
property a user would want is refuted (and what holds instead is proved), or that
only part of it is proved.

Algorithms, more precisely. The model of each is its constructor checks and its
evolve(), statement by statement. The theorems give: the rejected inputs; no
undefined behaviour otherwise, or the inputs on which there is; sizes, IDs and
the problem kept; number of evaluations; that every new individual is an
evaluated point, in the box (in general only up to NaN coordinates, which huge
bounds can produce; with explicit bounds on magnitudes also without NaN); and the
elitism property that the algorithm's documentation claims or its refutation.
Hypotheses used: `valid_pop` (a population user code can have), `fitness_defined`,
`rankable`/`ranked` (compare_fc is a strict weak order on the fitness vectors
that can occur, needed for constrained problems because of C13), and for
monotonic basin hopping that the inner algorithm keeps sizes and box.

## 3. Findings (refuted statements)

Each name is a theorem in a Props file.

* `C07_crowding_degenerate_refuted`: crowding distance is NaN when an objective is constant on the front.
* `C08_nadir_single_point_refuted`: nadir of a single point throws.
* `C09_grid_canonical_first_refuted`: the grid weights do not start with the canonical basis.
* `C10_tchebycheff_zero_only_at_reference_refuted`: underflow: the decomposed value can be zero away from the reference point.
* `C11_zero_norm_refuted`: zero constraint norm does not imply feasibility (underflow).
* `C13_irreflexive_refuted`: compare_fc is not irreflexive for huge violations.
* `C13_strict_weak_order_refuted`: compare_fc is not a strict weak order.
* `C14_sort_defined_refuted`: sort_population_con can call std::sort with an invalid comparator.
* `C17_no_evaluation_refuted`: a rejected set_x may have consumed an evaluation.
* `C18_best_with_nan_refuted`: best_idx with NaN objectives.
* `C18_worst_with_nan_refuted`: worst_idx with NaN objectives.
* `C23_failed_batch_not_counted_refuted`: a failed batch evaluation is counted.
* `C25_overflow_guard_refuted`: the guard of the dense Hessian size does not prevent overflow.
* `C26_box_rounding_refuted`: translated bounds can exclude a translated point of the box (rounding).
* `C27_ignore_o_batch_refuted`: batch evaluation with ignore_o on a multi-objective problem is undefined behaviour.
* `C27_ignore_o_zero_refuted`: ignore_o fitness underflows to zero for infeasible points.
* `C28_positive_weights_refuted`: decompose accepts zero weights.
* `C30_termination_refuted`: bound reflection loops for ever (lb = ub, and lb < ub).
* `C33_nan_rejected_refuted`: sample_from_simplex accepts NaN.
* `C36_sbx_huge_bounds_refuted`: SBX crossover produces NaN with huge bounds.
* `C38_sparsity_complete_refuted`: estimate_sparsity misses dependencies.
* `C42_hv2d_contributions_refuted`: hv2d contributions with equal coordinates.
* `C42_hv3d_contributions_refuted`: hv3d contributions are wrong, even on an antichain.
* `C44_nan_reference_refuted`: NaN reference points are accepted.
* `C44_refpoint_doubles_refuted`: the offset of refpoint() can be absorbed by rounding.
* `C45_constrained_defined_refuted`: fair replacement on constrained problems can reach the invalid comparator.
* `C50_parallel_edges_refuted`: free_form topologies can contain parallel edges.
* `C51_task_may_never_run_refuted`: a task enqueued during another thread's wait_all may never run.
* `C53_wait_all_returns_refuted`: wait_all may wait for ever.
* `C55_status_snapshot_refuted`: archipelago status is not the status at any one time.
* `C58_distinct_ids_refuted`: a migrant can duplicate an ID of the population.
* `C58_evicted_kept_refuted`: evicted migrants are lost when the evolution fails.
* `C58_only_new_refuted`: the log can record individuals that were already there.
* `C59_champion_best_refuted`: migration leaves the champion alone, so it may be worse than an individual.
* `C60_corruption_noticed_refuted`: malformed engine text goes unnoticed on load.
* `C60_island_stays_refuted`: a failed load detaches the island.
* `C60_loaded_consistent_refuted`: a loaded population is not validated.
* `C63_tournament_nan_refuted`: a parent with fitness NaN wins tournaments.
* `C63_int_bounds_refuted`: bounds of integer variables that an int cannot hold are undefined behaviour.
* `C63_nan_probability_refuted`: the constructor accepts a NaN mutation probability, which is undefined behaviour later.
* `C65_hard_limit_refuted`: compass search exceeds max_fevals.
* `C65_negative_stop_refuted`: negative stop range leads to NaN steps.
* `C66_mixed_policies_refuted`: simulated annealing with differing selection/replacement loses the best.
* `C68_best_kept_refuted`: bee colony loses the best individual to a scout.
* `C68_fitness_tracked_refuted`: after a scout the stored fitness is that of another point.
* `C69_pitch_refuted`: pitch adjustment of integer components.
* `C69_selection_kept_refuted`: multi-objective harmony search overwrites individuals it still needs.
* `C70_best_kept_refuted`: grey wolf optimizer loses the best individual; the initial leaders are the worst (C70_initial_leaders_worst).
* `C71_unevaluated_refuted`: an inner algorithm that evaluates with copies of the problem leads to undefined behaviour in cstrs_self_adaptive.
* `C72_fully_informed_nan_refuted`: fully informed swarm with empty neighbourhoods becomes NaN.
* `C72_memory_serialized_refuted`: the memory flag is not serialized.
* `C72_nan_keeps_memory_refuted`: a NaN fitness replaces the remembered best.
* `C72_other_dimension_refuted`: kept velocities of another dimension are read out of range.
* `C72_small_population_refuted`: a ring radius of 0 or above the population size is read out of range (default parameters, one individual).
* `C73_limit_refuted`: with limit 0 or 1, MOEA/D's diversity preservation overwrites two individuals.
* `C76_negative_refuted`: with negative objectives the penalty is a reward.
* `C76_order_refuted`: without a feasible individual a point worse in infeasibility and objective can get the better penalized fitness.
* `C76_nan_refuted`: the penalized fitness can be NaN.
* `C80_defined_refuted`: `zdt(5, 858993455)` is accepted, its dimension computed with
  unsigned ints wraps around to 4, and fitness, which computes (4 - 30) / 5 + 1 with
  unsigned 64-bit numbers, asks for a vector of about 3.7e18 numbers and throws.
* `C80_zdt3_refuted`: p_distance of ZDT3 is zero at (3/20, 0), which (1/20, 0)
  dominates: the front of ZDT3 is not the whole curve g = 1.
* `C80_rounding_refuted`: fitness of ZDT5 rounds, p_distance truncates; with numbers that
  are not whole the two disagree. Also read, not claimed: `zdt::p_distance` does not
  check the size of the vector, and an empty population gives 0/0.
* `C81_dtlz7_refuted`: p_distance of DTLZ7 is zero at (1/3, 0, 0), which (1/6, 0, 0)
  dominates.
* `C81_dtlz5_refuted`: in DTLZ5 and DTLZ6 with four objectives (0, 1, 1, 1, 1) is
  Pareto-optimal and its p_distance is 1/2 and 2. With two or three objectives the property holds and is proved.

Documentation differs from code: cstrs_self_adaptive needs 4 individuals (documented: 3);
golomb_ruler rejects upper_bound < 2 (documented: < 1).

Also noticed while reading, not formalized: the generation counters of de and pso
(`gen <= m_max_gen` in unsigned arithmetic) never end for 2^32 - 1 generations;
several constructors accept NaN parameters; gwo and moead write non-integral values into
integer components; in moead a NaN fitness replaces the ideal point, and the choice of
parents loops until two different ones are drawn.
* `C82_hang_refuted`: fork() copies the island's mutexes as they are. If another thread is
  inside `get_population()` or `get_algorithm()` of the island at that moment (both are
  documented as safe to call during an evolution), the child waits for a mutex that
  nobody will unlock, and the parent waits for the child. `C82_inherited` shows a
  milder effect: pipe ends are inherited by children of other islands forked in the meantime,
  so an island is not done before they are. Not claimed, only read: a child that
  ignores SIGTERM and is blocked in write() is waited for without end by the cleanup code.
* `C84_empty_refuted`: de1220's constructor checks each allowed variant but not that there
  is one. With an empty list the range of the index distribution is 0 .. 2^64 - 1 (the size
  minus one wraps around), and evolve reads m_allowed_variants[k] for such a k.
* `C85_memory_refuted`: gaco counts a call before it checks the population. With memory on,
  a first call with too few individuals throws (with none it returns), the counter is 1 and
  the archive empty; the next call on a suitable population takes the archive for filled and
  reads m_sol_archive[0] of an empty vector.
* `C85_one_generation`: the ants of the last generation never enter the archive that is written
  back. With gen = 1, ker = pop size and no memory the result is the initial population in
  another order (the champion may come from the new points).
* `C85_stopped`: the counters for impstop and evalstop start at 1 and are not reset between
  calls, so a stopped algorithm never resumes, and impstop = 1 or evalstop = 1 never starts.
* `C87_no_samples_refuted`: inventory accepts a sample size of 0; the fitness is then 0/0 for
  every decision vector.
* `C88_bounds_refuted`: cmaes does not check sigma0. With NaN every point that is evaluated and
  stored is NaN, also with force_bounds.
* `C88_integers_refuted`: cmaes accepts problems with integer variables and puts non-integer
  values in them.
* `C89_nan_refuted`: xnes sorts by fitness with a plain `<`. If the fitness is NaN for some points
  this is not a strict weak order: undefined behaviour of std::sort.
* `C89_memory_refuted`: the constructor of xnes gives its kept mean size 1, and evolve only tests
  the size. With memory, the first call on a problem of one variable starts at 0 with A = 1
  instead of at the best individual with the width of the box.
* `C89_bounds_refuted`: a NaN sigma0 passes the check of the constructor of xnes; then every point
  is NaN, also with force_bounds.
* `C91_leader_is_best_known_refuted`: on stochastic problems, after each new seed, pso_gen
  re-evaluates the remembered positions but takes the leader of the whole swarm from the present
  positions only, so a remembered point that is better under the same seed is not followed.
* `C91_small_population_refuted`, `C91_other_dimension_refuted`, `C91_memory_serialized_refuted`:
  the three defects of pso (C72) are also in pso_gen.
* `C92_maxmin_selection_refuted`: with "max min" nspso may forget a point that dominates one it
  remembers, since their max-min values can be equal and only these are compared.
* `C92_leader_nondominated_refuted`: the leaders are indices of individuals, but what is followed
  is the remembered point with that index, which may be dominated by another remembered point.
* `C92_elitist_refuted`: the population is replaced by the new positions and the remembered points
  are not written back: every individual returned can be dominated by all those given.
* `C92_other_dimension_refuted`, `C92_serialized_refuted`: as in pso, kept points of another
  dimension are read out of range; memory flag and kept points are not serialized.
* `C93_global_minimum_refuted`: outside the bounds the fitness of schwefel has no lower bound, so
  best_known is best at most within them, unlike that of the other test problems (C78).

## 4. Trusted base

* The kernel of Coq 8.16.1; no plugins, flags as in `_CoqProject`. `coqchk` is run
  on all modules.
* `Print Assumptions` is called under every theorem in the Props files. The answer
  is `Closed under the global context` for every one of C01-C76 and C82-C92: no axioms, neither of our own
  nor of the standard library. The theorems about test problems (C77-C81, C93) are about real
  numbers and rest on the axioms of the standard library's Reals, and no others:
  `ClassicalDedekindReals.sig_forall_dec`, `ClassicalDedekindReals.sig_not_dec`,
  `FunctionalExtensionality.functional_extensionality_dep` and, through its theory of
  derivatives and trigonometry, `Classical_Prop.classic`. (`coqchk -o` lists
  `Coq.ssr.ssrunder.Under_rel.*`, seven parameters of a module type in the
  standard library that is loaded but not used.)
* Files import only the Coq standard library.
* The model is hand-written: its faithfulness to the C++ text rests on the cited
  lines and on reading.
* Assumed contracts, always explicit hypotheses or arguments of the theorems:
  `sort_contract`, `rng_contract`, `pow_contract`, `below_one`, `binomial_exact`, the permutation and range
  contracts for shuffle and the binomial distribution.

## 5. Not modelled

Python bindings; printing other than `stream_range`; logs, verbosity and wall
clock; memory exhaustion and allocation failure; TBB, Boost and Eigen internals;
third-party solvers (NLopt, Ipopt, WORHP, SNOPT); the formulas of the other test
problems (WFG, CEC, ...); maco; the log and the inner population's
IDs and champion in cstrs_self_adaptive; the approximate hypervolume algorithms (bf_fpras,
bf_approx); the type erasure machinery itself (any object is taken to behave as
the object it holds); in fork_island, the mutexes for algorithm and population are one, a
write() of 100 bytes is atomic (POSIX: at most PIPE_BUF), SIGTERM ends the child, and code run by std::exit in the child is ignored.
