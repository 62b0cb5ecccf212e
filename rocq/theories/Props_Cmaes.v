(** C88: cmaes. The matrix products, the eigen-decomposition and the functions of <cmath> are the
    parameter K; what is proved holds whatever numbers they give. *)
From Coq Require Import List Bool Arith ZArith.
From Verif Require Import Dbl Outcome StdSort Problem SpecProblem Rng GenericFacts3 SpecGeneric SpecGenetic BaseFacts Population SpecPopulation Algo SpecAlgo SpecNsga2 AlgEigen AlgMem AlgCmaes SpecCmaes
  AlgCmaesFacts AlgCmaesFacts2 AlgCmaesFacts3 AlgExamples CmaesExamples.
Import ListNotations.

(** The constructor accepts exactly the rates in [0, 1] and -1 (which asks for the automatic
    choice); NaN also passes. The new algorithm is ready for evolve. *)
Theorem C88_constructor : forall a,
  (exists k, cmaes_ctor a = Ok k) <-> rate_or_auto (cm_cc a) /\ rate_or_auto (cm_cs a) /\ rate_or_auto (cm_c1 a) /\ rate_or_auto (cm_cmu a).
Proof. exact cmaes_ctor_iff. Qed.
Print Assumptions C88_constructor.
Theorem C88_ready : forall a k, cmaes_ctor a = Ok k -> cmaes_ready k.
Proof. exact cmaes_ctor_ready. Qed.
Print Assumptions C88_ready.
Example C88_constructor_nonvacuous : cmaes_ctor (cm_example 1 half true true) = Ok (cmem0 half).
Proof. exact (cm_example_ctor 1 half true true). Qed.

(** Unsuitable problems and populations are refused before anything is changed, and zero
    generations change nothing: not the population, the engine or what is kept. *)
Theorem C88_rejects : forall G P (r : rng G) srt K reseed a bfe (s : (G * cmem) * pop P),
  get_nc (po_prob (snd s)) <> 0 \/ get_nf (po_prob (snd s)) <> 1 \/ length (po_id (snd s)) < 5 \/
  (exists b, (In b (p_lb (po_prob (snd s))) \/ In b (p_ub (po_prob (snd s)))) /\ isfinite b = false) ->
  cmaes_evolve r srt K reseed a bfe s = (Throw InvalidArgument, s).
Proof. exact @cmaes_rejects. Qed.
Print Assumptions C88_rejects.
Theorem C88_no_generations : forall G P (r : rng G) srt K reseed a bfe (s : (G * cmem) * pop P),
  es_suits 5 (snd s) -> cm_gen a = 0 -> cmaes_evolve r srt K reseed a bfe s = (Ok tt, s).
Proof. exact @cmaes_zero. Qed.
Print Assumptions C88_no_generations.
Example C88_rejects_nonvacuous : length (po_id few_pop) < 5 /\ es_suits 5 alg_pop /\ cm_gen (cm_example 0 half true true) = 0.
Proof. exact (conj (le_n 5) (conj alg_suits eq_refl)). Qed.

(** evolve on a suitable population, whatever the random numbers and whatever is kept from
    earlier calls: it ends, in an exception of the fitness function at most. Some number n of
    generations has been made; fewer than asked only if best and worst fitness are closer than
    ftol or the last step is shorter than xtol. One evaluation per individual and generation was
    made, one seed was given to a stochastic problem in each; if n > 0 every individual is an
    evaluated point of the last generation, and with force_bounds none of its components is
    outside of the box. The algorithm is ready for the next call. *)
Theorem C88_evolve : forall G P (r : rng G), rng_contract r -> forall srt, sort_contract srt -> forall K, eigen_contract K -> forall reseed a bfe (s : (G * cmem) * pop P),
  cmaes_ready (snd (fst s)) -> es_suits 5 (snd s) -> es_problem reseed bfe (po_prob (snd s)) -> 0 < cm_gen a ->
  ends (cmaes_evolve r srt K reseed a bfe) s
    (fun _ t => cmaes_ready (snd (fst t)) /\
       exists n, n <= cm_gen a /\ es_run reseed (forced (cm_force a) (po_prob (snd s))) n (snd s) (snd t) /\
         (n < cm_gen a -> flat_f srt (cm_ftol a) (snd t) \/ short_step K (cm_xtol a) (get_nx (po_prob (snd s))) (snd (fst t))))
    (es_throws reseed (po_prob (snd s))).
Proof. exact @cmaes_evolve_ok. Qed.
Print Assumptions C88_evolve.
(** With tolerances of zero (or below, or NaN) all generations are made. *)
Theorem C88_all_generations : forall G P (r : rng G), rng_contract r -> forall srt, sort_contract srt -> forall K, eigen_contract K -> forall reseed a bfe (s : (G * cmem) * pop P),
  cmaes_ready (snd (fst s)) -> es_suits 5 (snd s) -> es_problem reseed bfe (po_prob (snd s)) ->
  (cm_ftol a = NaN \/ dle (cm_ftol a) dzero = true) -> (cm_xtol a = NaN \/ dle (cm_xtol a) dzero = true) ->
  ends (cmaes_evolve r srt K reseed a bfe) s (fun _ t => es_run reseed (forced (cm_force a) (po_prob (snd s))) (cm_gen a) (snd s) (snd t)) (es_throws reseed (po_prob (snd s))).
Proof. exact @cmaes_all_generations. Qed.
Print Assumptions C88_all_generations.
(** One generation: the new individuals are points mean + sigma B D z of the distribution kept by
    the algorithm, moved to the border of the box if bounds are forced; the new mean is the sum
    of the better half of them, best first, with the weights of the algorithm. *)
Theorem C88_generation : forall G P (r : rng G), rng_contract r -> forall srt, sort_contract srt -> forall K, eigen_contract K -> forall reseed a bfe (s : (G * cmem) * pop P),
  cmem_sized (get_nx (po_prob (snd s))) (snd (fst s)) -> es_suits 5 (snd s) -> es_problem reseed bfe (po_prob (snd s)) ->
  ends (cm_generation r srt K reseed a bfe (cm_rates K a (length (po_id (snd s)) / 2) (get_nx (po_prob (snd s))))) s
    (fun go t => cmem_sized (get_nx (po_prob (snd s))) (snd (fst t)) /\
       if go then es_run reseed (forced (cm_force a) (po_prob (snd s))) 1 (snd s) (snd t) /\
                  cm_learns K (cm_force a) (po_prob (snd s)) (cm_weights K (length (po_id (snd s)) / 2)) (snd (fst s)) (snd t) (snd (fst t))
       else snd t = snd s /\ (flat_f srt (cm_ftol a) (snd s) \/ short_step K (cm_xtol a) (get_nx (po_prob (snd s))) (snd (fst t))))
    (es_throws reseed (po_prob (snd s))).
Proof. exact es_generation. Qed.
Print Assumptions C88_generation.
Example C88_evolve_nonvacuous : rng_contract stream_rng /\ sort_contract (@isort) /\ eigen_contract toy /\ cmaes_ready (cmem0 half) /\ es_suits 5 alg_pop /\
  es_problem sto_reseed None (po_prob alg_pop) /\ es_problem sto_reseed None (sto_problem 0) /\
  xs_of (cm_run (cm_example 2 half true true) [1; 0; 0; 1; 2; 0; 0; 2; 1; 1]%Z int_pop) <> po_x int_pop.
Proof. exact (conj stream_contract (conj isort_contract (conj toy_contract (conj (cmem0_ready half) (conj alg_suits (conj alg_es (conj sto_es (proj2 cm_two)))))))). Qed.

(** Without memory, or for a population of another size than that of the last call, what the
    algorithm has kept has no influence: it does what a new one does. *)
Theorem C88_forgets : forall G P (r : rng G) srt K reseed a bfe g (k : cmem) (s : pop P) k0,
  cmaes_ctor a = Ok k0 -> es_suits 5 s -> 0 < cm_gen a -> cm_memory a = false \/ length (ce_newpop k) <> length (po_id s) ->
  cmaes_evolve r srt K reseed a bfe ((g, k), s) = cmaes_evolve r srt K reseed a bfe ((g, k0), s).
Proof. exact @cmaes_forgets. Qed.
Print Assumptions C88_forgets.
Example C88_forgets_nonvacuous : cmaes_ctor (cm_example 1 half false true) = Ok (cmem0 half) /\ es_suits 5 alg_pop /\ cm_memory (cm_example 1 half false true) = false.
Proof. exact (conj (cm_example_ctor 1 half false true) (conj alg_suits eq_refl)). Qed.

(** Not so: that with force_bounds all points are in the box. sigma0 is not checked; NaN is
    accepted, and then every point that is evaluated and stored is NaN. *)
Theorem C88_bounds_refuted : exists a g s, cmaes_ctor a = Ok (cmem0 (cm_sigma0 a)) /\ cm_force a = true /\ es_suits 5 s /\ xs_of (cm_run a g s) = repeat [NaN; NaN] 5.
Proof. exact (ex_intro _ (cm_example 1 NaN false true) (ex_intro _ [] (ex_intro _ alg_pop (conj (cm_example_ctor 1 NaN false true) (conj eq_refl (conj alg_suits cm_nan)))))). Qed.
Print Assumptions C88_bounds_refuted.
(** Not so: that integer variables keep integer values. Problems with integer variables are
    accepted; here the second variable is an integer and becomes 2.5 in every individual. *)
Theorem C88_integers_refuted : exists a g s, cmaes_ctor a = Ok (cmem0 (cm_sigma0 a)) /\ es_suits 5 s /\ p_nix (po_prob s) = 1 /\
  xs_of (cm_run a g s) = repeat [d_of_Z 1; ddiv (d_of_Z 5) (d_of_Z 2)] 5.
Proof. exact (ex_intro _ (cm_example 1 half false true) (ex_intro _ [0; 1; 0; 1; 0; 1; 0; 1; 0; 1]%Z (ex_intro _ int_pop (conj (cm_example_ctor 1 half false true) (conj int_suits (conj eq_refl cm_integer)))))). Qed.
Print Assumptions C88_integers_refuted.
