(** C90: generational MOEA/D. *)
From Coq Require Import String List Bool Arith ZArith Permutation.
From Verif Require Import Dbl DblFacts GeneticOps Outcome StdSort SpecOrder MultiObj SpecMultiObj SpecDiscrepancy Weights Problem SpecProblem Rng GenericFacts3 SpecGeneric SpecGenetic GeneticFacts3 Population SpecPopulation Algo SpecAlgo
  AlgSga SpecSga SpecNsga2 SpecCmaes AlgMoead SpecMoead AlgMoeadFacts5 AlgMoeadFacts6 AlgMoeadGen AlgMoeadGenFacts2 AlgMoeadGenFacts3 Nsga2Examples MoeadExamples MoeadGenExamples.
Import ListNotations.

(** A problem that is not deterministic, unconstrained and multi-objective with bounds apart, an
    empty population or one without enough neighbours is rejected and nothing changes. *)
Theorem C90_rejects : forall G P (r : rng G) srt pw shuf binom halton fuel a bfe (s : G * pop P),
  ~ (mo_problem (po_prob (snd s)) /\ 0 < length (po_id (snd s)) /\ me_neigh a <= length (po_id (snd s)) - 1) ->
  mgen_evolve r srt pw shuf binom halton fuel a bfe s = (Throw InvalidArgument, s).
Proof. exact @mgen_rejects. Qed.
Print Assumptions C90_rejects.
Example C90_rejects_nonvacuous : mo_problem xy_problem /\ ~ me_neigh (mkmoead 1 WRandom Weighted 8 done done done done 2 true) <= length (po_id xy_pop) - 1.
Proof. split; [exact xy_mo|]. cbn. intros H. exact (PeanoNat.Nat.nle_succ_diag_l 7 H). Qed.
Theorem C90_no_generations : forall G P (r : rng G) srt pw shuf binom halton fuel a bfe (s : G * pop P), me_gen a = 0 ->
  mo_problem (po_prob (snd s)) -> 0 < length (po_id (snd s)) -> me_neigh a <= length (po_id (snd s)) - 1 ->
  mgen_evolve r srt pw shuf binom halton fuel a bfe s = (Ok tt, s).
Proof. exact @mgen_none. Qed.
Print Assumptions C90_no_generations.
Example C90_no_generations_nonvacuous : mgen_evolve count_rng (@isort) pow_toy still exact_binom flat_halton 3 (mkmoead 0 WRandom Weighted 2 done done done done 2 true) (Some xy_bfe) (0, xy_pop) = (Ok tt, (0, xy_pop)).
Proof. apply C90_no_generations; [reflexivity|exact xy_mo|cbn; auto with arith|cbn; auto with arith]. Qed.

(** As for moead, each generation inserts one evaluated point per subproblem; each point lowers the
    ideal point and overwrites only individuals that it beats on their own subproblems: all of
    those among the subproblem and its neighbours, or with diversity preservation at most
    max(limit, 2) (moead_step in SpecMoead.v). With or without a batch evaluator there is one evaluation per
    individual and generation. *)
Theorem C90_evolve : forall G P (r : rng G), rng_contract r -> forall srt, sort_contract srt -> forall pw shuf, shuffle_contract shuf -> forall binom, binomial_exact binom ->
  forall halton, (forall n i, length (halton n i) = n - 1 /\ Forall unit_dbl (halton n i)) -> forall fuel a bfe (s : G * pop P) p,
  po_prob (snd s) = p -> valid_pop (snd s) -> mo_problem p -> evaluates bfe p -> 2 <= me_neigh a <= length (po_id (snd s)) - 1 -> me_dec a <> OtherMethod -> 0 < me_gen a ->
  (Z.of_nat (length (po_id (snd s))) < 2 ^ 49)%Z -> (Z.of_nat (get_nf p) * Z.of_nat (length (po_id (snd s))) <= 2 ^ 64)%Z -> Forall is_double (p_lb p) -> Forall is_double (p_ub p) ->
  ends_w True (mgen_evolve r srt pw shuf binom halton fuel a bfe) s
    (fun _ s' => valid_pop (snd s') /\
       moead_run (me_dec a) (me_limit a) (me_div a) (fun x => length x = get_nx p) (me_neigh a) (me_gen a) (snd s) (snd s') /\
       evals (me_gen a * length (po_id (snd s))) (snd s) (snd s'))
    (fun e => fitness_throws p e \/ e = InvalidArgument /\ (length (po_id (snd s)) < get_nf p \/ me_weights a = WGrid \/ me_weights a = WOther)).
Proof. exact @mgen_evolve_any. Qed.
Print Assumptions C90_evolve.
Example C90_evolve_nonvacuous : exists u s', mgen_evolve count_rng (@isort) pow_toy still exact_binom flat_halton 3 me_ex (Some xy_bfe) (0, xy_pop) = (Ok u, s') /\
  moead_run Weighted 2 true (in_box (p_lb xy_problem) (p_ub xy_problem)) 2 1 xy_pop (snd s').
Proof. exact mgen_evolves. Qed.

(** If the individuals are in the box, the bounds at most 2^1022, F and eta_m numbers and the
    draws from [0, 1) below 1, then every point that is evaluated is in the box. *)
Theorem C90_evolve_in_box : forall G P (r : rng G), rng_contract r -> forall srt, sort_contract srt -> forall pw shuf, shuffle_contract shuf -> forall binom, binomial_exact binom ->
  forall halton, (forall n i, length (halton n i) = n - 1 /\ Forall unit_dbl (halton n i)) -> forall fuel a bfe (s : G * pop P) p,
  po_prob (snd s) = p -> valid_pop (snd s) -> mo_problem p -> evaluates bfe p -> 2 <= me_neigh a <= length (po_id (snd s)) - 1 -> me_dec a <> OtherMethod -> 0 < me_gen a ->
  (Z.of_nat (length (po_id (snd s))) < 2 ^ 49)%Z -> (Z.of_nat (get_nf p) * Z.of_nat (length (po_id (snd s))) <= 2 ^ 64)%Z -> Forall is_double (p_lb p) -> Forall is_double (p_ub p) ->
  below_one r -> moderate_bounds p -> within dzero done (me_F a) -> pow_contract pw -> nonneg (me_eta a) -> isfinite (me_eta a) = true ->
  (forall x, In x (po_x (snd s)) -> in_box (p_lb p) (p_ub p) x) ->
  ends_w True (mgen_evolve r srt pw shuf binom halton fuel a bfe) s
    (fun _ s' => valid_pop (snd s') /\
       moead_run (me_dec a) (me_limit a) (me_div a) (in_box (p_lb p) (p_ub p)) (me_neigh a) (me_gen a) (snd s) (snd s') /\
       evals (me_gen a * length (po_id (snd s))) (snd s) (snd s'))
    (fun e => fitness_throws p e \/ e = InvalidArgument /\ (length (po_id (snd s)) < get_nf p \/ me_weights a = WGrid \/ me_weights a = WOther)).
Proof. exact @mgen_evolve_box. Qed.
Print Assumptions C90_evolve_in_box.
Example C90_evolve_in_box_nonvacuous : evaluates (Some xy_bfe) xy_problem /\ below_one count_rng /\ moderate_bounds xy_problem /\ within dzero done (me_F me_ex) /\ pow_contract pow_toy /\ nonneg (me_eta me_ex) /\ forall x, In x (po_x xy_pop) -> in_box (p_lb xy_problem) (p_ub xy_problem) x.
Proof. exact (conj xy_evaluates (conj count_below (conj xy_moderate (conj half_unit (conj pow_toy_contract (conj one_nonneg xy_in)))))). Qed.

(** With an evaluator that does what the problem does, the run is the one without. *)
Theorem C90_batch : forall G P (r : rng G), rng_contract r -> forall srt, sort_contract srt -> forall pw shuf, shuffle_contract shuf -> forall binom, binomial_exact binom ->
  forall halton, (forall n i, length (halton n i) = n - 1 /\ Forall unit_dbl (halton n i)) -> forall fuel a ud (s : G * pop P) p,
  po_prob (snd s) = p -> valid_pop (snd s) -> mo_problem p -> total_fitness p -> faithful_bfe ud p -> 2 <= me_neigh a <= length (po_id (snd s)) - 1 -> me_dec a <> OtherMethod -> 0 < me_gen a ->
  (Z.of_nat (length (po_id (snd s))) < 2 ^ 49)%Z -> (Z.of_nat (get_nf p) * Z.of_nat (length (po_id (snd s))) <= 2 ^ 64)%Z -> Forall is_double (p_lb p) -> Forall is_double (p_ub p) ->
  same_run (mgen_evolve r srt pw shuf binom halton fuel a (Some ud) s) (mgen_evolve r srt pw shuf binom halton fuel a None s).
Proof. exact @mgen_same. Qed.
Print Assumptions C90_batch.
Example C90_batch_nonvacuous : total_fitness xy_problem /\ faithful_bfe xy_bfe xy_problem /\ mo_problem xy_problem /\ valid_pop xy_pop /\ 2 <= me_neigh me_ex <= length (po_id xy_pop) - 1.
Proof. split; [exact xy_total|]. split; [exact xy_faithful|]. split; [exact xy_mo|]. split; [exact xy_valid|]. split; repeat constructor. Qed.

(** In one generation the evaluator is asked for one list of points, which does not depend on its
    answers: what it would say about other points has no influence. *)
Theorem C90_one_batch : forall G P (r : rng G) srt pw shuf binom halton fuel a (s : G * pop P), me_gen a = 1 ->
  exists points, forall ud ud', ud (po_prob (snd s)) points = ud' (po_prob (snd s)) points ->
    mgen_evolve r srt pw shuf binom halton fuel a (Some ud) s = mgen_evolve r srt pw shuf binom halton fuel a (Some ud') s.
Proof. exact @mgen_once. Qed.
Print Assumptions C90_one_batch.
Example C90_one_batch_nonvacuous : me_gen me_ex = 1 /\ exists u s', mgen_evolve count_rng (@isort) pow_toy still exact_binom flat_halton 3 me_ex (Some xy_bfe) (0, xy_pop) = (Ok u, s').
Proof. split; [reflexivity|]. destruct mgen_evolves as (u & s' & H & _). exact (ex_intro _ u (ex_intro _ s' H)). Qed.
