(** C85: the extended ant colony algorithm, gaco. *)
From Coq Require Import List Bool Arith ZArith Permutation.
From Verif Require Import Dbl Outcome StdSort Problem SpecProblem Rng SpecGeneric SpecGenetic SpecSga Population SpecPopulation Algo SpecAlgo SpecNsga2 AlgGaco SpecGaco
  AlgGacoFacts6 AlgGacoFacts7 AlgGacoFacts8 AlgGacoFacts9 AlgExamples GacoExamples.
Import ListNotations.

(** The constructor accepts exactly the documented parameters. *)
Theorem C85_constructor : forall a, (exists k, gaco_ctor a = Ok k) <-> gaco_accepts a.
Proof. exact gaco_ctor_iff. Qed.
Print Assumptions C85_constructor.
Example C85_constructor_nonvacuous : gaco_ctor (ga_example 2 3 true) = Ok ants0 /\ gaco_ctor (ga_example 2 1 true) = Throw InvalidArgument.
Proof. exact (conj ga_ctor eq_refl). Qed.

(** What evolve does with populations it cannot use: the population and the random engine stay
    as they are, but with memory the call is counted. *)
Theorem C85_declines : forall G P (r : rng G) srt dexp a bfe (po : pop P) g k, let p := po_prob po in let NP := length (po_id po) in
  let res o := gaco_evolve r srt dexp a bfe ((g, k), po) = (o, ((g, counted a k), po)) in
  (NP = 0 -> res (Ok tt)) /\ (NP <> 0 -> u_set_seed (p_udp p) = true -> res (Throw InvalidArgument)) /\
  (NP <> 0 -> u_set_seed (p_udp p) = false -> ga_gen a = 0 -> res (Ok tt)) /\
  (NP <> 0 -> u_set_seed (p_udp p) = false -> ga_gen a <> 0 -> NP < 2 \/ NP < ga_ker a \/ p_nobj p <> 1 -> res (Throw InvalidArgument)).
Proof. exact @gaco_declines. Qed.
Print Assumptions C85_declines.
Example C85_declines_nonvacuous : length (po_id few) <> 0 /\ u_set_seed (p_udp (po_prob few)) = false /\ length (po_id few) < ga_ker (ga_example 2 3 true).
Proof. exact (conj (fun H => O_S _ (eq_sym H)) (conj eq_refl (le_n 3))). Qed.

(** On a suitable population, for any random numbers, evolve ends: in an exception of the user's
    fitness function, or after a number of generations, fewer than asked for only if a stopping
    criterion holds, each of NP evaluations. Every individual is then an evaluated point, inside
    the bounds or NaN and integer where it has to be, or (without memory) one of the individuals
    there were. The members are again fit for a call. With a batch evaluator as well. *)
Theorem C85_evolve : forall G P (r : rng G), rng_contract r -> forall srt, sort_contract srt -> forall dexp a, gaco_accepts a -> forall bfe (po : pop P) g k,
  0 < ga_gen a -> colony a po -> evaluator_fine bfe (po_prob po) -> gaco_ready a (po_prob po) any_point k ->
  ends (gaco_evolve r srt dexp a bfe) ((g, k), po)
    (fun _ t => ant_call a (loose (po_prob po)) po (snd t) (snd (fst t)) /\ gaco_ready a (po_prob po) any_point (snd (fst t))) (fitness_throws (po_prob po)).
Proof. exact @gaco_loose. Qed.
Print Assumptions C85_evolve.
Theorem C85_ready : forall a k p Pt, gaco_ctor a = Ok k -> gaco_ready a p Pt k /\ mark_fine a k.
Proof. exact ctor_ready. Qed.
Print Assumptions C85_ready.
Example C85_evolve_nonvacuous : gaco_accepts (ga_example 2 3 true) /\ colony (ga_example 2 3 true) alg_pop /\ evaluator_fine None (po_prob alg_pop) /\ gaco_ready (ga_example 2 3 true) (po_prob alg_pop) any_point ants0.
Proof. exact (conj (ga_ok 2 3 true (le_S _ _ (le_n 1)) (le_S _ _ (le_n 2))) (conj (alg_colony 2 3 true (le_S _ _ (le_S _ _ (le_n 3)))) (conj alg_problem_defined (ga_ready true)))). Qed.

(** If the bounds are at most 2^1019 in absolute value, the normal variates finite and the old
    individuals (and the archive) inside the bounds, then so are all new points: no NaN. *)
Theorem C85_evolve_in_box : forall G P (r : rng G), rng_contract r -> forall srt, sort_contract srt -> forall dexp a, gaco_accepts a -> forall bfe (po : pop P) g k,
  0 < ga_gen a -> colony a po -> evaluator_fine bfe (po_prob po) -> gaco_ready a (po_prob po) (in_box_of (po_prob po)) k -> mark_fine a k -> (Z.of_nat (ga_ngm a) + 1 < 2 ^ 32)%Z ->
  finite_normals r -> (forall b, In b (p_lb (po_prob po)) \/ In b (p_ub (po_prob po)) -> below_2p1019 b) -> boxed po ->
  ends (gaco_evolve r srt dexp a bfe) ((g, k), po)
    (fun _ t => ant_call a (tame (po_prob po)) po (snd t) (snd (fst t)) /\ gaco_ready a (po_prob po) (in_box_of (po_prob po)) (snd (fst t)) /\ mark_fine a (snd (fst t)) /\ boxed (snd t)) (fitness_throws (po_prob po)).
Proof. exact @gaco_tame. Qed.
Print Assumptions C85_evolve_in_box.
Example C85_evolve_in_box_nonvacuous : gaco_ready (ga_example 2 3 true) (po_prob alg_pop) (in_box_of alg_problem) ants0 /\ mark_fine (ga_example 2 3 true) ants0 /\ boxed alg_pop /\
  Forall below_2p1019 (p_lb alg_problem) /\ Forall below_2p1019 (p_ub alg_problem).
Proof. exact (conj (ga_ready_box true) (conj ga_mark (conj alg_pop_in_box alg_problem_below))). Qed.

(** Once a stopping criterion holds, no later call does anything: the counters that say so are
    not reset. With the criterion 1 this is so from the start. *)
Theorem C85_stopped : forall G P (r : rng G) srt dexp a, gaco_accepts a -> forall bfe (po : pop P) g k, 0 < ga_gen a -> colony a po -> gaco_stopped a k ->
  gaco_evolve r srt dexp a bfe ((g, k), po) = (Ok tt, ((g, counted a k), po)) /\ gaco_stopped a (counted a k).
Proof. exact @gaco_still. Qed.
Print Assumptions C85_stopped.
Example C85_stopped_nonvacuous : let a := mkgaco 2 3 done dzero (Fin 1) 1 7 1 100 dzero false in gaco_ctor a = Ok ants0 /\ gaco_stopped a ants0 /\ colony a alg_pop.
Proof. exact (conj eq_refl (conj (or_introl (conj (fun H => O_S _ (eq_sym H)) (Z.le_refl 1))) (alg_colony 2 3 false (le_S _ _ (le_S _ _ (le_n 3)))))). Qed.

(** With memory, a first call that is refused, or comes with an empty population, is fatal: the
    next call, on any suitable population, reads an archive that is not there. *)
Theorem C85_memory_refuted : forall G P (r : rng G) srt, sort_contract srt -> forall dexp a, gaco_accepts a -> forall bfe (bad po : pop P) g k,
  gaco_ctor a = Ok k -> ga_memory a = true -> ga_impstop a <> 1 -> ga_evalstop a <> 1 -> u_set_seed (p_udp (po_prob bad)) = false -> length (po_id bad) < ga_ker a -> 0 < ga_gen a -> colony a po ->
  exists k', gaco_evolve r srt dexp a bfe ((g, k), bad) = (if Nat.eqb (length (po_id bad)) 0 then Ok tt else Throw InvalidArgument, ((g, k'), bad)) /\ fst (gaco_evolve r srt dexp a bfe ((g, k'), po)) = UB.
Proof. exact @memory_lost. Qed.
Print Assumptions C85_memory_refuted.
Example C85_memory_refuted_nonvacuous : gaco_ctor (ga_example 2 3 true) = Ok ants0 /\ length (po_id few) < 3 /\ colony (ga_example 2 3 true) alg_pop.
Proof. exact (conj ga_ctor (conj (le_n 3) (alg_colony 2 3 true (le_S _ _ (le_S _ _ (le_n 3)))))). Qed.

(** One generation with as many kernels as individuals, without memory: NP points are evaluated,
    yet the individuals are only put into another order. *)
Theorem C85_one_generation : forall G P (r : rng G), rng_contract r -> forall srt, sort_contract srt -> forall dexp a, gaco_accepts a -> forall bfe (po : pop P) g k,
  ga_gen a = 1 -> ga_memory a = false -> ga_ker a = length (po_id po) -> an_counter k = 0%Z -> ~ gaco_stopped a k -> colony a po -> evaluator_fine bfe (po_prob po) ->
  ends (gaco_evolve r srt dexp a bfe) ((g, k), po) (fun _ t => evals (length (po_id po)) po (snd t) /\ po_id (snd t) = po_id po /\ Permutation (members po) (members (snd t))) (fitness_throws (po_prob po)).
Proof. exact @gaco_one. Qed.
Print Assumptions C85_one_generation.
Example C85_one_generation_nonvacuous : gaco_accepts (ga_example 1 5 false) /\ ga_ker (ga_example 1 5 false) = length (po_id alg_pop) /\ ~ gaco_stopped (ga_example 1 5 false) ants0 /\ colony (ga_example 1 5 false) alg_pop.
Proof. exact (conj (ga_ok 1 5 false (le_n 1) (le_S _ _ (le_S _ _ (le_S _ _ (le_n 2))))) (conj eq_refl (conj (ga_going 1 5 false) (alg_colony 1 5 false (le_n 5))))). Qed.

(** The penalty of a point whose objective is not above the oracle: for a feasible point it is
    the objective minus the oracle, so not positive, and lower for lower objectives; for an
    infeasible one it is the violation. Hence among such points the feasible ones come first. *)
Theorem C85_penalty :
  (forall o d x y, (x <= y <= o)%Z -> dle (penalty (Fin o) d (Fin x) dzero) (penalty (Fin o) d (Fin y) dzero) = true /\ dle (penalty (Fin o) d (Fin y) dzero) dzero = true) /\
  (forall o d x, (x <= o)%Z -> penalty (Fin o) d (Fin x) dzero = dsub (Fin x) (Fin o)) /\
  (forall o d x z, (x <= o)%Z -> (0 < z)%Z -> is_double (Fin z) -> isfinite (dsub (Fin x) (Fin o)) = true -> penalty (Fin o) d (Fin x) (Fin z) = Fin z).
Proof. exact penalty_both. Qed.
Print Assumptions C85_penalty.
Example C85_penalty_nonvacuous : penalty (Fin 5) dzero (Fin 3) dzero = Fin (-2) /\ penalty (Fin 5) dzero (Fin 4) dzero = Fin (-1) /\ penalty (Fin 5) dzero (Fin 3) (Fin 4) = Fin 4.
Proof. vm_compute. exact (conj eq_refl (conj eq_refl eq_refl)). Qed.

(** The row a new ant is built around: the first whose cumulated probability is at least the
    number drawn, the last row when there is none before it. *)
Theorem C85_kernel : forall a cum u, 2 <= ga_ker a -> length cum = ga_ker a -> u <> NaN -> (forall c, In c cum -> c <> NaN) ->
  (forall i j x y, i <= j -> nth_error cum i = Some x -> nth_error cum j = Some y -> dle x y = true) ->
  exists k, kernel_of a cum u = Ok k /\ k < ga_ker a /\ (forall i c, i < k -> nth_error cum i = Some c -> dlt c u = true) /\ (forall i c, k <= i -> i < ga_ker a - 1 -> nth_error cum i = Some c -> dle u c = true).
Proof. exact kernel_first. Qed.
Print Assumptions C85_kernel.
Example C85_kernel_nonvacuous : map (kernel_of (ga_example 2 3 false) [Fin 2; Fin 5; Fin 9]) [Fin 1; Fin 2; Fin 3; Fin 5; Fin 6; Fin 9] = [Ok 0; Ok 0; Ok 1; Ok 1; Ok 2; Ok 2].
Proof. vm_compute. exact eq_refl. Qed.
