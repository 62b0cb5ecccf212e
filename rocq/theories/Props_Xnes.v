(** C89: xnes. The matrix products, exponentials and the functions of <cmath> are the parameter K;
    what is proved holds whatever numbers they give. *)
From Coq Require Import List Bool Arith ZArith.
From Verif Require Import Dbl Outcome StdSort Problem SpecProblem Rng GenericFacts3 SpecGeneric SpecGenetic BaseFacts Population SpecPopulation Algo SpecAlgo SpecNsga2 AlgEigen AlgMem AlgCmaes SpecCmaes
  AlgXnes SpecXnes AlgXnesFacts AlgXnesFacts2 AlgXnesFacts3 AlgExamples CmaesExamples XnesExamples.
Import ListNotations.

(** The constructor accepts exactly the rates (and sigma0) in ]0, 1] and -1 (which asks for the
    automatic choice); NaN also passes. The new algorithm is ready for evolve. *)
Theorem C89_constructor : forall a,
  (exists k, xnes_ctor a = Ok k) <-> eta_or_auto (xn_eta_mu a) /\ eta_or_auto (xn_eta_sigma a) /\ eta_or_auto (xn_eta_b a) /\ eta_or_auto (xn_sigma0 a).
Proof. exact xnes_ctor_iff. Qed.
Print Assumptions C89_constructor.
Theorem C89_ready : forall a k, xnes_ctor a = Ok k -> xnes_ready k.
Proof. exact xnes_ctor_ready. Qed.
Print Assumptions C89_ready.
Example C89_constructor_nonvacuous : xnes_ctor (xn_example 1 half true true) = Ok (xmem0 half).
Proof. exact (xn_example_ctor 1 true true). Qed.

(** Unsuitable problems and populations are refused before anything is changed, and zero
    generations change nothing: not the population, the engine or what is kept. *)
Theorem C89_rejects : forall G P (r : rng G) srt K reseed a (s : (G * xmem) * pop P),
  get_nc (po_prob (snd s)) <> 0 \/ get_nf (po_prob (snd s)) <> 1 \/ length (po_id (snd s)) < 4 \/
  (exists b, (In b (p_lb (po_prob (snd s))) \/ In b (p_ub (po_prob (snd s)))) /\ isfinite b = false) ->
  xnes_evolve r srt K reseed a s = (Throw InvalidArgument, s).
Proof. exact @xnes_rejects. Qed.
Print Assumptions C89_rejects.
Theorem C89_no_generations : forall G P (r : rng G) srt K reseed a (s : (G * xmem) * pop P),
  es_suits 4 (snd s) -> xn_gen a = 0 -> xnes_evolve r srt K reseed a s = (Ok tt, s).
Proof. exact @xnes_zero. Qed.
Print Assumptions C89_no_generations.
Example C89_rejects_nonvacuous : get_nf (po_prob (one_pop fit_zero)) = 1 /\ es_suits 4 (one_pop fit_zero) /\ xn_gen (xn_example 0 half true true) = 0.
Proof. exact (conj eq_refl (conj (one_suits fit_zero) eq_refl)). Qed.

(** evolve on a suitable population with a fitness that is never NaN, whatever the random numbers
    and whatever is kept from earlier calls: it ends, in an exception of the fitness function at
    most. At least one and at most gen generations have been made; fewer than asked only if best
    and worst fitness are closer than ftol or the last step is shorter than xtol. One evaluation
    per individual and generation was made, one seed was given to a stochastic problem in each;
    every individual is an evaluated point of the last generation, and with force_bounds none of
    its components is outside of the box. The algorithm is ready for the next call. *)
Theorem C89_evolve : forall G P (r : rng G), rng_contract r -> forall srt, sort_contract srt -> forall K, eigen_contract K -> forall reseed a (s : (G * xmem) * pop P),
  xnes_ready (snd (fst s)) -> es_suits 4 (snd s) -> es_problem reseed None (po_prob (snd s)) -> never_nan reseed (po_prob (snd s)) -> 0 < xn_gen a ->
  ends (xnes_evolve r srt K reseed a) s
    (fun _ t => xnes_ready (snd (fst t)) /\
       exists n, 0 < n <= xn_gen a /\ es_run reseed (forced (xn_force a) (po_prob (snd s))) n (snd s) (snd t) /\
         (n < xn_gen a -> flat_f srt (xn_ftol a) (snd t) \/ xshort_step K (xn_xtol a) (get_nx (po_prob (snd s))) (snd (fst t))))
    (es_throws reseed (po_prob (snd s))).
Proof. exact @xnes_evolve_ok. Qed.
Print Assumptions C89_evolve.
(** With tolerances of zero (or below, or NaN) all generations are made. *)
Theorem C89_all_generations : forall G P (r : rng G), rng_contract r -> forall srt, sort_contract srt -> forall K, eigen_contract K -> forall reseed a (s : (G * xmem) * pop P),
  xnes_ready (snd (fst s)) -> es_suits 4 (snd s) -> es_problem reseed None (po_prob (snd s)) -> never_nan reseed (po_prob (snd s)) ->
  (xn_ftol a = NaN \/ dle (xn_ftol a) dzero = true) -> (xn_xtol a = NaN \/ dle (xn_xtol a) dzero = true) ->
  ends (xnes_evolve r srt K reseed a) s (fun _ t => es_run reseed (forced (xn_force a) (po_prob (snd s))) (xn_gen a) (snd s) (snd t)) (es_throws reseed (po_prob (snd s))).
Proof. exact @xnes_all_generations. Qed.
Print Assumptions C89_all_generations.
(** One generation: the new individuals are points mean + A z of the distribution kept by the
    algorithm, moved to the border of the box if bounds are forced; then the mean moves by
    eta A (u_0 z_0 + u_1 z_1 + ...), the z sorted by the fitness of their points, best first. *)
Theorem C89_generation : forall G P (r : rng G), rng_contract r -> forall srt, sort_contract srt -> forall K, eigen_contract K -> forall reseed a (s : (G * xmem) * pop P),
  xmem_sized (get_nx (po_prob (snd s))) (snd (fst s)) -> es_suits 4 (snd s) -> es_problem reseed None (po_prob (snd s)) -> never_nan reseed (po_prob (snd s)) ->
  ends (xn_generation r srt K reseed a) s
    (fun go t => xmem_sized (get_nx (po_prob (snd s))) (snd (fst t)) /\ es_run reseed (forced (xn_force a) (po_prob (snd s))) 1 (snd s) (snd t) /\
       if go then xlearns K (xn_force a) (po_prob (snd s)) (xn_rate_mu a) (xn_utilities K (length (po_id (snd s)))) (snd (fst s)) (snd t) (snd (fst t))
       else snd (fst t) = snd (fst s) /\ (flat_f srt (xn_ftol a) (snd t) \/ xshort_step K (xn_xtol a) (get_nx (po_prob (snd s))) (snd (fst t))))
    (es_throws reseed (po_prob (snd s))).
Proof. exact xn_generation_one. Qed.
Print Assumptions C89_generation.
Example C89_evolve_nonvacuous : rng_contract stream_rng /\ sort_contract (@isort) /\ eigen_contract toy /\ xnes_ready (xmem0 half) /\ es_suits 4 (one_pop fit_zero) /\
  es_problem sto_reseed None (one_problem fit_zero) /\ never_nan sto_reseed (one_problem fit_zero) /\
  xxs_of (xn_run (xn_example 2 half false true) [1; 2; 0; 3]%Z (one_pop fit_zero)) <> [].
Proof. exact (conj stream_contract (conj isort_contract (conj toy_contract (conj (xmem0_ready half) (conj (one_suits fit_zero) (conj (one_es fit_zero zero_defined) (conj zero_never_nan xn_two))))))). Qed.

(** Without memory, or if neither was used with a problem of this dimension, what two instances
    have kept has no influence: they do the same. *)
Theorem C89_forgets : forall G P (r : rng G) srt K reseed a g (k k0 : xmem) (s : pop P),
  es_suits 4 s -> 0 < xn_gen a -> xn_memory a = false \/ (length (xe_mean k) <> get_nx (po_prob s) /\ length (xe_mean k0) <> get_nx (po_prob s)) ->
  xnes_evolve r srt K reseed a ((g, k), s) = xnes_evolve r srt K reseed a ((g, k0), s).
Proof. exact @xnes_forgets. Qed.
Print Assumptions C89_forgets.
Example C89_forgets_nonvacuous : es_suits 4 (one_pop fit_zero) /\ xn_memory (xn_example 1 half false true) = false.
Proof. exact (conj (one_suits fit_zero) eq_refl). Qed.

(** Not so for fitness functions that give NaN for some points: the individuals are sorted with a
    plain <, which is then no strict weak order, and std::sort has undefined behaviour. (The other
    algorithms compare with less_than_f, which puts NaN last.) *)
Theorem C89_nan_refuted : exists a g s, xnes_ctor a = Ok (xmem0 (xn_sigma0 a)) /\ es_suits 4 s /\ es_problem sto_reseed None (po_prob s) /\ fst (xn_run a g s) = UB.
Proof. exact (ex_intro _ (xn_example 1 half true false) (ex_intro _ [1; 2; 3; 4]%Z (ex_intro _ (one_pop fit_nan) (conj (xn_example_ctor 1 true false) (conj (one_suits fit_nan) (conj (one_es fit_nan nan_defined) xn_ub)))))). Qed.
Print Assumptions C89_nan_refuted.
(** Not so: that the first call with memory does what a call without memory does. For problems of
    one variable a new instance with memory starts at mean 0 and A = 1 instead of the best
    individual and the width of the box: here all points become 0, out of the box [4, 5], while
    without memory they become 4, the best individual. *)
Theorem C89_memory_refuted : exists a b g s, xnes_ctor a = Ok (xmem0 (xn_sigma0 a)) /\ xnes_ctor b = Ok (xmem0 (xn_sigma0 b)) /\ es_suits 4 s /\
  xn_memory a = true /\ b = mkxnes (xn_gen a) (xn_eta_mu a) (xn_eta_sigma a) (xn_eta_b a) (xn_sigma0 a) (xn_ftol a) (xn_xtol a) false (xn_force a) /\
  xxs_of (xn_run a g s) = repeat [dzero] 4 /\ xxs_of (xn_run b g s) = repeat [d_of_Z 4] 4.
Proof. exact (ex_intro _ (xn_example 1 half true false) (ex_intro _ (xn_example 1 half false false) (ex_intro _ [] (ex_intro _ (one_pop fit_zero)
  (conj (xn_example_ctor 1 true false) (conj (xn_example_ctor 1 false false) (conj (one_suits fit_zero) (conj eq_refl (conj eq_refl xn_first))))))))). Qed.
Print Assumptions C89_memory_refuted.
(** Not so: that with force_bounds all points are in the box. A NaN sigma0 passes the check of the
    constructor, and then every point that is evaluated and stored is NaN. *)
Theorem C89_bounds_refuted : exists a g s, xnes_ctor a = Ok (xmem0 (xn_sigma0 a)) /\ xn_force a = true /\ es_suits 4 s /\ xxs_of (xn_run a g s) = repeat [NaN; NaN] 5.
Proof. exact (ex_intro _ (xn_example 1 NaN false true) (ex_intro _ [] (ex_intro _ alg_pop (conj (xn_example_nan 1 false true) (conj eq_refl (conj (suits4 alg_pop alg_suits) xn_nan)))))). Qed.
Print Assumptions C89_bounds_refuted.
