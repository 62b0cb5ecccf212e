(** C68: artificial bee colony. *)
From Coq Require Import List Bool Arith ZArith.
From Verif Require Import Dbl Outcome StdSort Problem SpecProblem Rng GenericFacts3 SpecGeneric SpecGenetic Population SpecPopulation Algo SpecAlgo AlgBee AlgBeeFacts AlgBeeFacts2 AlgSaFacts2 AlgExamples.
Import ListNotations.

Theorem C68_constructor : forall limit, (bee_construct limit = Throw InvalidArgument <-> limit = 0%Z) /\ (bee_construct limit = Ok tt <-> limit <> 0%Z).
Proof. exact bee_construct_iff. Qed.
Print Assumptions C68_constructor.
Theorem C68_rejects : forall G P (r : rng G) limit fuel gen (s : G * pop P),
  ~ plain_single (po_prob (snd s)) \/ length (po_id (snd s)) < 2 -> bee_evolve r limit fuel gen s = (Throw InvalidArgument, s).
Proof. exact @bee_rejects. Qed.
Print Assumptions C68_rejects.
Theorem C68_no_generations : forall G P (r : rng G) limit fuel gen (s : G * pop P),
  plain_single (po_prob (snd s)) -> 2 <= length (po_id (snd s)) -> gen = 0 -> bee_evolve r limit fuel gen s = (Ok tt, s).
Proof. exact @bee_zero. Qed.
Print Assumptions C68_no_generations.
Example C68_rejects_nonvacuous : ~ plain_single (sto_problem 0) /\ length (po_id (empty_pop alg_problem (@nil Z))) < 2 /\ plain_single (po_prob two_pop) /\ 2 <= length (po_id two_pop).
Proof. exact (conj (fun H => match H with conj _ (conj _ E) => Bool.diff_true_false E end) (conj (le_n_S _ _ (Nat.le_0_l 1)) (conj alg_problem_plain (le_n 2)))). Qed.

(** If evolve returns, it has made 2 * NP evaluations per generation; every individual is the
    old one or an evaluated point of the box. If fewer evaluations than the limit precede
    the last generation, an individual is replaced only by strictly better ones. A NaN
    coordinate can only come from huge bounds. *)
Theorem C68_evolve : forall G P (r : rng G), rng_contract r -> forall limit fuel gen (s : G * pop P) p, 
  po_prob (snd s) = p -> valid_pop (snd s) -> plain_single p -> fitness_defined p -> 2 <= length (po_id (snd s)) ->
  (forall x, In x (po_x (snd s)) -> in_box_or_nan (p_lb p) (p_ub p) x) -> let Box := in_box_or_nan (p_lb p) (p_ub p) in
  ends_if_fuel (bee_evolve r limit fuel gen) s
    (fun _ s' => valid_pop (snd s') /\ (forall x, In x (po_x (snd s')) -> Box x) /\
       replaced (fun x f x' f' => evaluated p x' f' /\ Box x') (snd s) (snd s') /\
       evals (gen * (2 * length (po_id (snd s)))) (snd s) (snd s') /\
       ((Z.of_nat ((gen - 1) * (2 * length (po_id (snd s)))) < limit)%Z ->
          replaced (fun x f x' f' => evaluated p x' f' /\ Box x' /\ dlt (obj f') (obj f) = true) (snd s) (snd s')))
    (fails p).
Proof. exact (fun G P r RC limit fuel gen => @bee_ok_nan G P r limit fuel gen RC). Qed.
Print Assumptions C68_evolve.
Theorem C68_evolve_in_box : forall G P (r : rng G), rng_contract r -> forall limit fuel gen (s : G * pop P) p,
  po_prob (snd s) = p -> valid_pop (snd s) -> plain_single p -> fitness_defined p -> 2 <= length (po_id (snd s)) ->
  (forall l, In l (p_lb p) -> below_2p1019 l) -> (forall u, In u (p_ub p) -> below_2p1019 u) ->
  (forall x, In x (po_x (snd s)) -> in_box (p_lb p) (p_ub p) x) -> let Box := in_box (p_lb p) (p_ub p) in
  ends_if_fuel (bee_evolve r limit fuel gen) s
    (fun _ s' => valid_pop (snd s') /\ (forall x, In x (po_x (snd s')) -> Box x) /\
       replaced (fun x f x' f' => evaluated p x' f' /\ Box x') (snd s) (snd s') /\
       evals (gen * (2 * length (po_id (snd s)))) (snd s) (snd s') /\
       ((Z.of_nat ((gen - 1) * (2 * length (po_id (snd s)))) < limit)%Z ->
          replaced (fun x f x' f' => evaluated p x' f' /\ Box x' /\ dlt (obj f') (obj f) = true) (snd s) (snd s')))
    (fails p).
Proof. exact (fun G P r RC limit fuel gen => @bee_ok_box G P r limit fuel gen RC). Qed.
Print Assumptions C68_evolve_in_box.
Example C68_evolve_nonvacuous : po_prob two_pop = alg_problem /\ valid_pop two_pop /\ plain_single alg_problem /\ fitness_defined alg_problem /\ 2 <= length (po_id two_pop) /\
  (Forall below_2p1019 (p_lb alg_problem) /\ Forall below_2p1019 (p_ub alg_problem)) /\ (forall x, In x (po_x two_pop) -> in_box (p_lb alg_problem) (p_ub alg_problem) x) /\ (forall e, ~ fails alg_problem e).
Proof. exact (conj eq_refl (conj two_pop_valid (conj alg_problem_plain (conj alg_problem_defined (conj (le_n 2) (conj alg_problem_below (conj two_pop_in_box alg_problem_no_fail))))))). Qed.

(** The scout is the source with the largest number of failures. *)
Theorem C68_scout : forall trial, trial <> [] ->
  exists mi t, most_tried trial (length trial) = Ok mi /\ nth_error trial mi = Some t /\ (forall x, In x trial -> (x <= t)%Z).
Proof. exact most_tried_max. Qed.
Print Assumptions C68_scout.
Example C68_scout_nonvacuous : most_tried [1; 3; 3; 2]%Z 4 = Ok 1.
Proof. reflexivity. Qed.

(** A population with a NaN among the fitness values: evolve never returns. *)
Theorem C68_nan_never_returns : forall G P (r : rng G), rng_contract r -> forall limit fuel gen (s : G * pop P) p f,
  po_prob (snd s) = p -> valid_pop (snd s) -> plain_single p -> fitness_defined p -> 2 <= length (po_id (snd s)) ->
  (forall x, In x (po_x (snd s)) -> in_box_or_nan (p_lb p) (p_ub p) x) -> In f (po_f (snd s)) -> obj f = NaN -> 0 < gen ->
  ends_if_fuel (bee_evolve r limit fuel gen) s (fun _ _ => False) (fails p).
Proof. exact (fun G P r RC limit fuel gen => @bee_hangs G P r limit fuel gen RC). Qed.
Print Assumptions C68_nan_never_returns.
Example C68_nan_never_returns_nonvacuous : valid_pop nan_pop /\ In [NaN] (po_f nan_pop) /\ 2 <= length (po_id nan_pop).
Proof. exact (conj nan_pop_valid (conj (or_intror (or_introl eq_refl)) (le_n 2))). Qed.

(** The best individual can be lost: a scout replaces it whatever its fitness. *)
Theorem C68_best_kept_refuted : exists (s : list Z * pop (list Z)) s', valid_pop (snd s) /\ po_prob (snd s) = alg_problem /\
  bee_evolve stream_rng 1 10 2 s = (Ok tt, s') /\ po_f (snd s) = [[Fin 0]; [Fin 4]] /\ po_f (snd s') = [[Fin 20]; [Fin 2]].
Proof. exact bee_scout_refuted. Qed.
Print Assumptions C68_best_kept_refuted.
(** After a scout the fitness that candidates have to beat is not that of the population. *)
Theorem C68_fitness_tracked_refuted : exists (s : list Z * pop (list Z)) st s', valid_pop (snd s) /\ po_prob (snd s) = alg_problem /\
  rfold (fun st _ => bee_gen stream_rng 1 10 2 st) (mkbees (po_x (snd s)) (po_f (snd s)) [0; 0]%Z) (seq 0 2) s = (Ok st, s') /\
  b_fit st = [[Fin 0]; [Fin 2]] /\ po_f (snd s') = [[Fin 20]; [Fin 2]].
Proof. exact bee_stale_refuted. Qed.
Print Assumptions C68_fitness_tracked_refuted.
