(** C61: differential evolution. *)
From Coq Require Import List Bool Arith ZArith.
From Verif Require Import Dbl Outcome StdSort Problem SpecProblem Rng GenericFacts3 SpecGeneric SpecGenetic Population SpecPopulation Algo SpecAlgo AlgDe AlgDeFacts AlgDeFacts2 AlgExamples.
Import ListNotations.

(** The constructor accepts exactly the variants 1 to 10 with F and CR not outside [0,1]
    (a NaN is not outside). *)
Theorem C61_constructor : forall d, (de_ctor d = Ok tt \/ de_ctor d = Throw InvalidArgument) /\
  (de_ctor d = Ok tt <-> 1 <= de_variant d <= 10 /\ dlt (de_F d) dzero = false /\ dlt done (de_F d) = false /\ dlt (de_CR d) dzero = false /\ dlt done (de_CR d) = false).
Proof. exact (fun d => conj (de_ctor_else d) (de_ctor_iff d)). Qed.
Print Assumptions C61_constructor.

(** Unsuitable problems and populations are rejected before anything is changed; zero
    generations change nothing. *)
Theorem C61_rejects : forall G P (r : rng G) srt d (s : G * pop P),
  ~ plain_single (po_prob (snd s)) \/ (0 < de_gen d /\ length (po_id (snd s)) < 5) -> de_evolve r srt d s = (Throw InvalidArgument, s).
Proof. exact @de_rejects. Qed.
Print Assumptions C61_rejects.
Theorem C61_no_generations : forall G P (r : rng G) srt d (s : G * pop P),
  plain_single (po_prob (snd s)) -> de_gen d = 0 -> de_evolve r srt d s = (Ok tt, s).
Proof. exact @de_zero. Qed.
Print Assumptions C61_no_generations.
Example C61_rejects_nonvacuous : plain_single alg_problem /\ length (po_id (empty_pop alg_problem (@nil Z))) < 5.
Proof. exact (conj alg_problem_plain (le_n_S _ _ (Nat.le_0_l 4))). Qed.

(** Otherwise, whatever the random numbers, evolve ends: in an exception of the user's
    fitness function (or one caused by bounds between which no number can be drawn), or with
    a population where every individual is the old one or an evaluated point of the box not
    worse than it, after a whole number of generations of NP evaluations; fewer than asked
    only if the population has become flat.  A NaN can only come from huge coordinates or a
    NaN parameter. *)
Theorem C61_evolve : forall G P (r : rng G), rng_contract r -> forall srt d (s : G * pop P),
  valid_pop (snd s) -> plain_single (po_prob (snd s)) -> fitness_defined (po_prob (snd s)) -> de_ctor d = Ok tt -> 0 < de_gen d -> 5 <= length (po_id (snd s)) ->
  ends (de_evolve r srt d) s
    (fun _ s' => valid_pop (snd s') /\
       replaced (better_point (po_prob (snd s)) (in_box_or_nan (p_lb (po_prob (snd s))) (p_ub (po_prob (snd s))))) (snd s) (snd s') /\
       exists k, 1 <= k <= de_gen d /\ evals (k * length (po_id (snd s))) (snd s) (snd s') /\ (k < de_gen d -> flat srt (de_xtol d) (de_ftol d) (snd s')))
    (fails (po_prob (snd s))).
Proof. exact @de_evolve_nan. Qed.
Print Assumptions C61_evolve.
Theorem C61_evolve_in_box : forall G P (r : rng G), rng_contract r -> forall srt d (s : G * pop P),
  valid_pop (snd s) -> plain_single (po_prob (snd s)) -> fitness_defined (po_prob (snd s)) -> de_ctor d = Ok tt -> 0 < de_gen d -> 5 <= length (po_id (snd s)) ->
  de_F d <> NaN -> (forall l, In l (p_lb (po_prob (snd s))) -> below_2p1019 l) -> (forall u, In u (p_ub (po_prob (snd s))) -> below_2p1019 u) ->
  (forall x, In x (po_x (snd s)) -> in_box (p_lb (po_prob (snd s))) (p_ub (po_prob (snd s))) x) ->
  ends (de_evolve r srt d) s
    (fun _ s' => valid_pop (snd s') /\
       replaced (better_point (po_prob (snd s)) (in_box (p_lb (po_prob (snd s))) (p_ub (po_prob (snd s))))) (snd s) (snd s') /\
       exists k, 1 <= k <= de_gen d /\ evals (k * length (po_id (snd s))) (snd s) (snd s') /\ (k < de_gen d -> flat srt (de_xtol d) (de_ftol d) (snd s')))
    (fails (po_prob (snd s))).
Proof. exact @de_evolve_box. Qed.
Print Assumptions C61_evolve_in_box.
(** With tolerances that are not positive no population counts as flat. *)
Theorem C61_all_generations : forall P srt xtol ftol (s : pop P), dle xtol dzero = true -> dle ftol dzero = true -> ~ flat srt xtol ftol s.
Proof. exact @not_flat. Qed.
Print Assumptions C61_all_generations.
(** All hypotheses hold for this population of five, and no exception is possible. *)
Example C61_evolve_nonvacuous : valid_pop alg_pop /\ po_prob alg_pop = alg_problem /\ plain_single alg_problem /\ fitness_defined alg_problem /\
  de_ctor (mkde 2 dzero done 3 dzero dzero) = Ok tt /\ 5 <= length (po_id alg_pop) /\
  (Forall below_2p1019 (p_lb alg_problem) /\ Forall below_2p1019 (p_ub alg_problem)) /\
  (forall x, In x (po_x alg_pop) -> in_box (p_lb alg_problem) (p_ub alg_problem) x) /\ (forall e, ~ fails alg_problem e) /\ rng_contract stream_rng.
Proof.
  exact (conj alg_pop_valid (conj eq_refl (conj alg_problem_plain (conj alg_problem_defined (conj eq_refl (conj (le_n 5) (conj alg_problem_below
    (conj alg_pop_in_box (conj alg_problem_no_fail stream_contract))))))))).
Qed.

(** The five individuals used for a trial vector are different. *)
Theorem C61_five_distinct : forall G (r : rng G), rng_contract r -> forall NP, 5 <= NP ->
  always (pick_five r NP) (fun ri => length ri = 5 /\ NoDup ri /\ forall a, In a ri -> a < NP) never.
Proof. exact (fun G r RC NP => pick_five_ok r RC NP never). Qed.
Print Assumptions C61_five_distinct.
Example C61_five_distinct_nonvacuous : fst (pick_five stream_rng 6 [3; 3; 0; 1; 0]%Z) = Ok [3; 5; 0; 1; 4].
Proof. reflexivity. Qed.
(** The trial vector: at least one component follows the mutation formula of the variant,
    the others are the parent's; in the exponential variants (1 to 5) the mutated positions
    are cyclically consecutive. *)
Theorem C61_trial : forall G (r : rng G), rng_contract r -> forall d dim old gb ri i,
  1 <= de_variant d <= 10 -> 1 <= dim -> (forall x, In x old -> length x = dim) -> length gb = dim ->
  (length ri = 5 /\ NoDup ri /\ forall a, In a ri -> a < length old) -> i < length old ->
  always (de_trial r d dim old gb ri i) (fun t => length t = dim /\
    (forall m, m < dim -> nth m t NaN = de_mutant (de_variant d) (de_F d) old gb ri i m \/ nth m t NaN = comp old i m) /\
    (exists m, m < dim /\ nth m t NaN = de_mutant (de_variant d) (de_F d) old gb ri i m) /\
    (de_variant d <= 5 -> exists n L, n < dim /\ 1 <= L <= dim /\ forall m, m < dim ->
       (in_run dim n L m -> nth m t NaN = de_mutant (de_variant d) (de_F d) old gb ri i m) /\ (~ in_run dim n L m -> nth m t NaN = comp old i m))) never.
Proof. exact (fun G r RC d dim old gb ri i => de_trial_run G r RC d dim old gb ri i never). Qed.
Print Assumptions C61_trial.
Example C61_trial_nonvacuous : fst (de_trial stream_rng (mkde 1 dzero dzero 2 dzero dzero) 2 [[Fin 1; Fin 2]; [Fin 3; Fin 4]; [Fin 5; Fin 6]; [Fin 7; Fin 8]; [Fin 9; Fin 10]] [Fin 1; Fin 2] [4; 1; 0; 2; 3] 0 [1]%Z) = Ok [Fin 1; Fin 10].
Proof. vm_compute. reflexivity. Qed.
