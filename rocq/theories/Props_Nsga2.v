(** C64: NSGA-II. *)
From Coq Require Import List Bool Arith ZArith Permutation.
From Verif Require Import Dbl GeneticOps Outcome StdSort SpecOrder MultiObj SpecMultiObj Problem SpecProblem Rng GenericFacts3 SpecGeneric SpecGenetic GeneticFacts3 Population SpecPopulation Algo SpecAlgo AlgSga SpecSga AlgSgaFacts6
  AlgNsga2 SpecNsga2 AlgNsga2Facts2 AlgNsga2Facts4 AlgNsga2Facts5 SgaExamples Nsga2Examples.
Import ListNotations.

Theorem C64_constructor : forall gen cr eta_c m eta_m a, nsga2_construct gen cr eta_c m eta_m = Ok a <->
  a = mknsga2 gen cr eta_c m eta_m /\ (cr = NaN \/ dle dzero cr = true /\ dlt cr done = true) /\ not_outside done dhundred eta_c /\ not_outside dzero done m /\ not_outside done dhundred eta_m.
Proof. exact nsga2_constructor. Qed.
Print Assumptions C64_constructor.
Example C64_constructor_nonvacuous : nsga2_construct 1 dhalf done dhalf done = Ok xy_params.
Proof. exact xy_made. Qed.

(** A problem that is not deterministic, unconstrained and multi-objective with bounds apart, or
    a size below 5 or not a multiple of 4, is rejected and nothing changes. *)
Theorem C64_rejects : forall G P (r : rng G) srt pw shuf a bfe (s : G * pop P), ~ (mo_problem (po_prob (snd s)) /\ mo_size (length (po_id (snd s)))) ->
  nsga2_evolve r srt pw shuf a bfe s = (Throw InvalidArgument, s).
Proof. exact @nsga2_rejects. Qed.
Print Assumptions C64_rejects.
Example C64_rejects_nonvacuous : mo_problem xy_problem /\ mo_size 8 /\ ~ mo_size 4 /\ ~ mo_size 10.
Proof. exact (conj xy_mo (conj xy_size sizes)). Qed.

(** The tournaments use the non-domination ranks and the crowding distances in the fronts. *)
Theorem C64_ranking : forall srt F M, sort_contract srt -> uniform F M -> 2 <= M -> 2 <= length F ->
  exists fronts rank cd, nsga2_ranking srt F = Ok (rank, cd) /\ front_decomposition F fronts /\ rank_ok F fronts rank /\ length cd = length F /\ forall f, In f fronts -> front_spacing M F f cd.
Proof. exact nsga2_ranking_ok. Qed.
Print Assumptions C64_ranking.
Example C64_ranking_nonvacuous : uniform xy_points 2 /\ exists t, fast_non_dominated_sorting xy_points = Ok t /\ fr_rank t = [0; 0; 0; 1; 0; 1; 2; 0].
Proof. exact (conj xy_uniform xy_ranks). Qed.

(** Each generation evaluates as many newborn individuals as there are individuals and keeps a
    best selection of both under the old identifiers. If the individuals were in the box, up to
    NaN, so are the newborn ones. *)
Theorem C64_evolve : forall G P (r : rng G), rng_contract r -> forall srt, sort_contract srt -> forall pw shuf, shuffle_contract shuf -> forall a (s : G * pop P) p,
  po_prob (snd s) = p -> valid_pop (snd s) -> mo_problem p -> fitness_defined p -> mo_size (length (po_id (snd s))) -> Forall is_double (p_lb p) -> Forall is_double (p_ub p) ->
  ends_w False (nsga2_evolve r srt pw shuf a None) s
    (fun _ s' => valid_pop (snd s') /\
       mo_generations p (fun x => length x = get_nx p /\ ((forall y, In y (po_x (snd s)) -> in_box_or_nan (p_lb p) (p_ub p) y) -> in_box_or_nan (p_lb p) (p_ub p) x)) (ns_gen a) (snd s) (snd s') /\
       evals (ns_gen a * length (po_id (snd s))) (snd s) (snd s'))
    (mo_fails p).
Proof. exact @nsga2_evolve_any. Qed.
Print Assumptions C64_evolve.
Example C64_evolve_nonvacuous : exists u s', nsga2_evolve stream_rng (@isort) zero_pow no_shuffle xy_params None ([], xy_pop) = (Ok u, s') /\ exists H, mo_generations xy_problem (mo_box xy_problem H) 1 xy_pop (snd s').
Proof. exact xy_evolves_any. Qed.
(** With bounds up to 2^1022, numbers as distribution indices and individuals in the box, no
    newborn has a NaN, and integer variables stay integers. *)
Theorem C64_evolve_in_box : forall G P (r : rng G), rng_contract r -> forall srt, sort_contract srt -> forall pw shuf, shuffle_contract shuf -> forall a (s : G * pop P) p, pow_contract pw ->
  po_prob (snd s) = p -> valid_pop (snd s) -> mo_problem p -> fitness_defined p -> mo_size (length (po_id (snd s))) -> Forall is_double (p_lb p) -> Forall is_double (p_ub p) ->
  moderate_bounds p -> within done dhundred (ns_eta_c a) -> within done dhundred (ns_eta_m a) -> (forall x, In x (po_x (snd s)) -> tame p x) ->
  ends_w False (nsga2_evolve r srt pw shuf a None) s
    (fun _ s' => valid_pop (snd s') /\ mo_generations p (tame p) (ns_gen a) (snd s) (snd s') /\ evals (ns_gen a * length (po_id (snd s))) (snd s) (snd s'))
    (mo_fails p).
Proof. exact @nsga2_evolve_tame. Qed.
Print Assumptions C64_evolve_in_box.
Example C64_evolve_in_box_nonvacuous : exists u s', nsga2_evolve stream_rng (@isort) pow_toy no_shuffle xy_params None ([], xy_pop) = (Ok u, s') /\ mo_generations xy_problem (tame xy_problem) 1 xy_pop (snd s').
Proof. exact xy_evolves. Qed.

(** No survivor of a generation is dominated by one that was dropped, and if a non-dominated
    one was dropped then all survivors are non-dominated. *)
Theorem C64_keeps_nondominated : forall P p Box (s s' : pop P) born, valid_pop s -> po_prob s = p -> 2 <= length (po_id s) -> mo_step p Box s born s' ->
  let merged := individuals s ++ born in exists sel, NoDup sel /\ Forall2 (fun b i => nth_error merged b = Some i) sel (individuals s') /\
    forall i j, In i sel -> j < length merged -> ~ In j sel -> ~ dom_idx (map snd merged) j i /\ (nondominated (map snd merged) j -> nondominated (map snd merged) i).
Proof. exact @mo_step_keeps. Qed.
Print Assumptions C64_keeps_nondominated.
Example C64_keeps_nondominated_nonvacuous : valid_pop xy_pop /\ exists born s', mo_step xy_problem (tame xy_problem) xy_pop born s'.
Proof. exact (conj xy_valid xy_step). Qed.

(** With a batch evaluator that agrees with the fitness function, the run is the same: the same
    exception, or the same final population, counter and random engine. *)
Theorem C64_batch : forall G P (r : rng G), rng_contract r -> forall srt, sort_contract srt -> forall pw shuf, shuffle_contract shuf -> forall a ud p,
  total_fitness p -> faithful_bfe ud p -> prob_obj p -> mo_problem p -> forall s : G * pop P, po_prob (snd s) = p -> valid_pop (snd s) -> mo_size (length (po_id (snd s))) -> Forall is_double (p_lb p) -> Forall is_double (p_ub p) ->
  same_run (nsga2_evolve r srt pw shuf a (Some ud) s) (nsga2_evolve r srt pw shuf a None s).
Proof. exact @nsga2_batch_same. Qed.
Print Assumptions C64_batch.
Example C64_batch_nonvacuous : total_fitness xy_problem /\ faithful_bfe xy_bfe xy_problem /\ mo_problem xy_problem /\ valid_pop xy_pop /\ mo_size (length (po_id xy_pop)).
Proof. exact (conj xy_total (conj xy_faithful (conj xy_mo (conj xy_valid xy_size)))). Qed.
