(** C70: grey wolf optimizer. *)
From Coq Require Import List Bool Arith ZArith.
From Verif Require Import Dbl Outcome SpecOrder StdSort BaseFacts Problem SpecProblem Rng GenericFacts3 SpecGeneric SpecGenetic Population SpecPopulation Algo SpecAlgo SpecSwarm AlgGwo AlgGwoFacts AlgGwoFacts2 AlgSaFacts2 AlgExamples.
Import ListNotations.

Theorem C70_rejects : forall G P (r : rng G) srt m_gen (s : G * pop P),
  ~ plain_single (po_prob (snd s)) \/ (m_gen <> 0 /\ length (po_id (snd s)) < 3) -> gwo_evolve r srt m_gen s = (Throw InvalidArgument, s).
Proof. exact @gwo_rejects. Qed.
Print Assumptions C70_rejects.
Theorem C70_no_generations : forall G P (r : rng G) srt m_gen (s : G * pop P), plain_single (po_prob (snd s)) -> m_gen = 0 -> gwo_evolve r srt m_gen s = (Ok [], s).
Proof. exact @gwo_zero. Qed.
Print Assumptions C70_no_generations.
Example C70_rejects_nonvacuous : ~ plain_single (sto_problem 0) /\ length (po_id two_pop) < 3 /\ plain_single (po_prob two_pop).
Proof. exact (conj (fun H => match H with conj _ (conj _ E) => Bool.diff_true_false E end) (conj (le_n 3) alg_problem_plain)). Qed.

(** Every individual of the returned population is an evaluated point of the box, NP evaluations
    were made per generation and the identifiers are kept. The alpha scores in the log never
    go up, and the last one is not above any objective value in the returned population.
    If an objective value was NaN at the start, alpha is NaN for ever. A NaN coordinate can only come
    from huge bounds. *)
Theorem C70_evolve : forall G P (r : rng G) srt m_gen, rng_contract r -> sort_contract srt -> forall (s : G * pop P) p,
  po_prob (snd s) = p -> valid_pop (snd s) -> plain_single p -> fitness_defined p -> m_gen <> 0 -> 3 <= length (po_id (snd s)) ->
  let Box := in_box_or_nan (p_lb p) (p_ub p) in
  ends (gwo_evolve r srt m_gen) s
    (fun log s' => valid_pop (snd s') /\ po_prob (snd s') = p /\ po_id (snd s') = po_id (snd s) /\ (forall x, In x (po_x (snd s')) -> Box x) /\
       (forall i x f, nth_error (po_x (snd s')) i = Some x -> nth_error (po_f (snd s')) i = Some f -> evaluated p x f) /\
       evals (m_gen * length (po_id (snd s))) (snd s) (snd s') /\
       length log = m_gen /\ descending (map (fun e => fst (fst e)) log) /\
       (exists pre a b d, log = pre ++ [(a, b, d)] /\ found p Box (snd s) a /\ forall f, In f (po_f (snd s')) -> not_above a (obj f)) /\
       ((exists f, In f (po_f (snd s)) /\ obj f = NaN) -> forall a, In a (map (fun e => fst (fst e)) log) -> a = NaN))
    (fails p).
Proof. exact @gwo_ok_nan. Qed.
Print Assumptions C70_evolve.
(** With bounds and coordinates below 2^900 all individuals are in the box. *)
Theorem C70_evolve_in_box : forall G P (r : rng G) srt m_gen, rng_contract r -> sort_contract srt -> forall (s : G * pop P) p,
  po_prob (snd s) = p -> valid_pop (snd s) -> plain_single p -> fitness_defined p -> m_gen <> 0 -> (Z.of_nat m_gen < 2 ^ 32)%Z -> 3 <= length (po_id (snd s)) ->
  (forall l, In l (p_lb p) -> below_2p900 l) -> (forall u, In u (p_ub p) -> below_2p900 u) -> (forall x v, In x (po_x (snd s)) -> In v x -> below_2p900 v) ->
  let Box := in_box (p_lb p) (p_ub p) in
  ends (gwo_evolve r srt m_gen) s
    (fun log s' => valid_pop (snd s') /\ po_prob (snd s') = p /\ po_id (snd s') = po_id (snd s) /\ (forall x, In x (po_x (snd s')) -> Box x) /\
       (forall i x f, nth_error (po_x (snd s')) i = Some x -> nth_error (po_f (snd s')) i = Some f -> evaluated p x f) /\
       evals (m_gen * length (po_id (snd s))) (snd s) (snd s') /\
       length log = m_gen /\ descending (map (fun e => fst (fst e)) log) /\
       (exists pre a b d, log = pre ++ [(a, b, d)] /\ found p Box (snd s) a /\ forall f, In f (po_f (snd s')) -> not_above a (obj f)) /\
       ((exists f, In f (po_f (snd s)) /\ obj f = NaN) -> forall a, In a (map (fun e => fst (fst e)) log) -> a = NaN))
    (fails p).
Proof. exact @gwo_ok_box. Qed.
Print Assumptions C70_evolve_in_box.
Example C70_evolve_nonvacuous : po_prob gwo_pop = alg_problem /\ valid_pop gwo_pop /\ plain_single alg_problem /\ fitness_defined alg_problem /\ 3 <= length (po_id gwo_pop) /\
  (forall l, In l (p_lb alg_problem) -> below_2p900 l) /\ (forall u, In u (p_ub alg_problem) -> below_2p900 u) /\ (forall x v, In x (po_x gwo_pop) -> In v x -> below_2p900 v) /\ (forall e, ~ fails alg_problem e).
Proof. exact gwo_nonvacuous. Qed.

(** The leaders at the start are three different individuals, from worst to best, and no other
    individual is worse than the best of them: the opposite of what the leaders are for. *)
Theorem C70_initial_leaders_worst : forall srt xs fs, sort_contract srt -> length xs = length fs -> Forall (fun f => length f = 1) fs -> 3 <= length fs ->
  exists i0 i1 i2 x0 x1 x2, gwo_init srt xs fs = Ok (mkleaders (mkwolf (obj (nth i0 fs [])) x0) (mkwolf (obj (nth i1 fs [])) x1) (mkwolf (obj (nth i2 fs [])) x2)) /\
    NoDup [i0; i1; i2] /\ i0 < length fs /\ i1 < length fs /\ i2 < length fs /\ nth_error xs i0 = Some x0 /\ nth_error xs i1 = Some x1 /\ nth_error xs i2 = Some x2 /\
    not_worse (obj (nth i1 fs [])) (obj (nth i0 fs [])) /\ not_worse (obj (nth i2 fs [])) (obj (nth i1 fs [])) /\
    forall j, j < length fs -> ~ In j [i0; i1; i2] -> not_worse (obj (nth j fs [])) (obj (nth i2 fs [])).
Proof. exact gwo_init_ok. Qed.
Print Assumptions C70_initial_leaders_worst.
Example C70_initial_leaders_nonvacuous : gwo_init isort [[Fin 1]; [Fin 2]; [Fin 3]; [Fin 4]] [[Fin 5]; [Fin 7]; [Fin 6]; [Fin 8]] = Ok (mkleaders (mkwolf (Fin 8) [Fin 4]) (mkwolf (Fin 7) [Fin 2]) (mkwolf (Fin 6) [Fin 3])).
Proof. vm_compute. reflexivity. Qed.

(** The best individual is lost: whatever the random numbers, one generation on the population
    gwo_pop, objective values 0, 18, 18, 18 (0 is the minimum of the problem), moves everybody to the place
    of the worst three. *)
Theorem C70_best_kept_refuted : forall G (r : rng G) srt, rng_contract r -> sort_contract srt -> forall g,
  exists log s', gwo_evolve r srt 1 (g, gwo_pop) = (Ok log, s') /\
    po_x (snd s') = [[Fin 9; Fin 9]; [Fin 9; Fin 9]; [Fin 9; Fin 9]; [Fin 9; Fin 9]] /\ po_f (snd s') = [[Fin 18]; [Fin 18]; [Fin 18]; [Fin 18]].
Proof. exact gwo_gather. Qed.
Print Assumptions C70_best_kept_refuted.
Example C70_best_kept_nonvacuous : po_f gwo_pop = [[Fin 0]; [Fin 18]; [Fin 18]; [Fin 18]] /\ rng_contract stream_rng /\ sort_contract isort.
Proof. exact (conj eq_refl (conj stream_contract isort_contract)). Qed.
