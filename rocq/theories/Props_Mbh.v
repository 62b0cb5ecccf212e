(** C67: monotonic basin hopping. *)
From Coq Require Import List Bool Arith ZArith.
From Verif Require Import Dbl Outcome StdSort SpecOrder Problem SpecProblem Rng GenericFacts3 SpecGeneric SpecConstrained Population SpecPopulation Algo SpecAlgo NotPop SpecLocal AlgCompass AlgCompassFacts2 AlgMbh AlgMbhFacts AlgMbhFacts2 AlgExamples.
Import ListNotations.

Theorem C67_constructor :
  (forall c, (mbh_construct_vector c = Ok tt <-> Forall (fun v => dlt dzero v = true /\ dle v done = true) c) /\ (mbh_construct_vector c = Ok tt \/ mbh_construct_vector c = Throw InvalidArgument)) /\
  (forall c, mbh_construct_scalar c = mbh_construct_vector [c]).
Proof. exact (conj mbh_vector_ok mbh_scalar_ok). Qed.
Print Assumptions C67_constructor.

Theorem C67_rejects : forall G P (r : rng G) srt (inner : AM (P := P) unit) stop perturb fuel (s : G * pop P),
  p_nobj (po_prob (snd s)) <> 1 \/ u_set_seed (p_udp (po_prob (snd s))) = true \/ (stop <> 0 /\ length perturb <> 1 /\ length perturb <> get_nx (po_prob (snd s))) ->
  mbh_evolve r srt inner stop perturb fuel s = (Throw InvalidArgument, s).
Proof. exact @mbh_rejects. Qed.
Print Assumptions C67_rejects.
Theorem C67_stop_zero : forall G P (r : rng G) srt (inner : AM (P := P) unit) stop perturb fuel (s : G * pop P),
  p_nobj (po_prob (snd s)) = 1 -> u_set_seed (p_udp (po_prob (snd s))) = false -> stop = 0 -> mbh_evolve r srt inner stop perturb fuel s = (Ok tt, s).
Proof. exact @mbh_zero. Qed.
Print Assumptions C67_stop_zero.
Example C67_rejects_nonvacuous : u_set_seed (p_udp (sto_problem 0)) = true /\ p_nobj alg_problem = 1 /\ u_set_seed (p_udp alg_problem) = false.
Proof. repeat split. Qed.

(** For every inner algorithm that keeps populations of the given kind: the best fitness only
    changes by improvements, and if there is none the individuals are the original ones. The
    loop goes on as long as there are improvements: if it has not ended after a number of
    rounds, there were enough of them. *)
Theorem C67_evolve : forall G P (r : rng G) srt (inner : AM (P := P) unit) stop perturb, rng_contract r -> forall fuel (s : G * pop P) p n (Ei : exn -> Prop) f,
  pop_of p n (snd s) -> 0 < n -> ranked srt (snd s) -> best_fitness srt (snd s) f -> p_nobj p = 1 -> u_set_seed (p_udp p) = false -> fitness_defined p ->
  Forall is_double (p_lb p) -> Forall is_double (p_ub p) -> mbh_construct_vector perturb = Ok tt -> length perturb = 1 \/ length perturb = get_nx p -> 0 < stop -> keeps srt p n Ei inner ->
  ends_w (exists k f', improves p f k f' /\ fuel < (k + 1) * stop) (mbh_evolve r srt inner stop perturb fuel) s
    (fun _ s' => pop_of p n (snd s') /\ exists k f', improves p f k f' /\ best_fitness srt (snd s') f' /\ (k = 0 -> po_x (snd s') = po_x (snd s) /\ po_f (snd s') = po_f (snd s)))
    (fun e => fails p e \/ Ei e).
Proof. exact @mbh_ok. Qed.
Print Assumptions C67_evolve.
Example C67_evolve_nonvacuous : (pop_of alg_problem 5 alg_pop /\ ranked (@isort) alg_pop /\ best_fitness (@isort) alg_pop [Fin 4] /\ mbh_construct_vector [Fin 1] = Ok tt) /\
  (Forall is_double (p_lb alg_problem) /\ Forall is_double (p_ub alg_problem)) /\ keeps (P := list Z) (@isort) alg_problem 5 (fun _ => False) (cs_evolve stream_rng (@isort) PBest PBest 20 (Fin 2) (Fin 1) (Fin 1) 21).
Proof. exact (conj mbh_example (conj alg_doubles compass_keeps)). Qed.

(** What improvements mean: a feasible best stays feasible with a strictly better objective
    value; the number of satisfied constraints never decreases. *)
Theorem C67_improvement : forall p f n f', prob_obj p -> p_nobj p = 1 -> length f = get_nf p -> finite_all (p_ctol p) -> improves p f n f' ->
  (feasible (p_nec p) (p_ctol p) f -> feasible (p_nec p) (p_ctol p) f' /\ (n = 0 /\ f' = f \/ better (obj f') (obj f))) /\
  (forall k k', exactly k (satisfied (p_nec p) (p_ctol p) f) -> exactly k' (satisfied (p_nec p) (p_ctol p) f') -> k <= k').
Proof. exact improves_means. Qed.
Print Assumptions C67_improvement.
Example C67_improvement_nonvacuous : improves alg_problem [Fin 4] 1 [Fin 3].
Proof. exact (imp_step alg_problem [Fin 4] 0 [Fin 4] [Fin 3] (imp_none _ _) eq_refl eq_refl). Qed.
