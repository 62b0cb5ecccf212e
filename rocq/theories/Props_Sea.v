(** C62: the (N+1)-evolutionary strategy. *)
From Coq Require Import List Bool Arith ZArith.
From Verif Require Import Dbl Outcome StdSort Problem SpecProblem Rng GenericFacts3 SpecGeneric SpecGenetic Population SpecPopulation Algo SpecAlgo AlgSea AlgSeaFacts AlgExamples.
Import ListNotations.

Theorem C62_rejects : forall G P (r : rng G) srt reseed gen fuel (s : G * pop P),
  get_nc (po_prob (snd s)) <> 0 \/ get_nf (po_prob (snd s)) <> 1 \/ (0 < gen /\ po_id (snd s) = []) -> sea_evolve r srt reseed gen fuel s = (Throw InvalidArgument, s).
Proof. exact @sea_rejects. Qed.
Print Assumptions C62_rejects.
Example C62_rejects_nonvacuous : po_id (empty_pop alg_problem (@nil Z)) = [] /\ get_nc alg_problem = 0 /\ get_nf alg_problem = 1.
Proof. exact (conj eq_refl (conj eq_refl eq_refl)). Qed.

(** On a deterministic problem each generation makes one evaluation, and every individual is
    the old one or an evaluated point of the box that is not worse: the best value cannot
    get worse. *)
Theorem C62_evolve : forall G P (r : rng G), rng_contract r -> forall srt reseed gen fuel (s : G * pop P) p,
  po_prob (snd s) = p -> valid_pop (snd s) -> plain_single p -> fitness_defined p -> boxed (snd s) -> 0 < length (po_id (snd s)) ->
  ends_if_fuel (sea_evolve r srt reseed gen fuel) s
    (fun _ s' => valid_pop (snd s') /\ replaced (better_point p (in_box (p_lb p) (p_ub p))) (snd s) (snd s') /\ evals gen (snd s) (snd s')) (fails p).
Proof. exact @sea_evolve_ok. Qed.
Print Assumptions C62_evolve.
Example C62_evolve_nonvacuous : po_prob alg_pop = alg_problem /\ valid_pop alg_pop /\ plain_single alg_problem /\ fitness_defined alg_problem /\ boxed alg_pop /\ (forall e, ~ fails alg_problem e) /\
  fst (sea_evolve stream_rng (@isort) (fun p _ => p) 1 1 ([0; 3; 0; 4]%Z, alg_pop)) = Ok tt.
Proof. exact (conj eq_refl (conj alg_pop_valid (conj alg_problem_plain (conj alg_problem_defined (conj alg_pop_in_box (conj alg_problem_no_fail eq_refl)))))). Qed.

(** One generation: the offspring is a mutation of the individual the algorithm believes to
    be the best; if it was a best one (which excludes NaN values) then so is the one believed
    to be the best afterwards, and the index of the worst one is right too. *)
Theorem C62_generation : forall G P (r : rng G), rng_contract r -> forall srt fuel st (s : G * pop P) p,
  po_prob (snd s) = p -> valid_pop (snd s) -> get_nc p = 0 -> get_nf p = 1 -> fitness_defined p -> boxed (snd s) ->
  fst st < length (po_id (snd s)) -> snd st < length (po_id (snd s)) ->
  ends_if_fuel (sea_offspring r srt fuel st) s
    (fun st' s' => valid_pop (snd s') /\ replaced (better_point p (in_box (p_lb p) (p_ub p))) (snd s) (snd s') /\ evals 1 (snd s) (snd s') /\
       fst st' < length (po_id (snd s')) /\ snd st' < length (po_id (snd s')) /\
       (worst_idx srt (snd s) = Ok (snd st) -> worst_idx srt (snd s') = Ok (snd st')) /\ (best_at (snd s) (fst st) -> best_at (snd s') (fst st')))
    (fails p).
Proof. exact @sea_offspring_ok. Qed.
Print Assumptions C62_generation.
Example C62_generation_nonvacuous : best_at alg_pop 1 /\ worst_idx (@isort) alg_pop = Ok 3.
Proof. exact sea_example. Qed.

(** Waiting for a component to mutate: it goes on only as long as all numbers drawn, one per
    component and pass, are at least 1/nx. *)
Theorem C62_mutation_ends : forall G (r : rng G), rng_contract r -> forall p x fuel, prob_obj p -> length x = get_nx p -> forall g,
  fst (sea_mutate r fuel (get_nx p) (p_lb p) (p_ub p) (x, 0) g) = NoFuel -> draws_large r (ddiv done (d_of_Z (Z.of_nat (get_nx p)))) (fuel * get_nx p) g.
Proof. exact @sea_mutation_ends. Qed.
Print Assumptions C62_mutation_ends.
Theorem C62_mutation : forall G (r : rng G), rng_contract r -> forall p x fuel, prob_obj p -> length x = get_nx p -> forall g,
  ends_if_fuel (sea_mutate r fuel (get_nx p) (p_lb p) (p_ub p) (x, 0)) g (fun y _ => mutated (p_lb p) (p_ub p) x y) (fun e => e = InvalidArgument /\ ~ drawable p).
Proof. exact @sea_mutation. Qed.
Print Assumptions C62_mutation.
Example C62_mutation_nonvacuous : fst (sea_mutate stream_rng 1 2 [Fin 0; Fin 0] [Fin 10; Fin 10] ([Fin 4; Fin 5], 0) [1; 0; 3]%Z) = Ok [Fin 4; Fin 10] /\
  fst (sea_mutate stream_rng 1 2 [Fin 0; Fin 0] [Fin 10; Fin 10] ([Fin 4; Fin 5], 0) [1; 1]%Z) = NoFuel.
Proof. vm_compute. split; reflexivity. Qed.

(** On a stochastic problem every generation starts with a new seed and re-evaluates the
    population: in the end all fitness vectors are those of the problem with its last seed,
    and N+1 evaluations were made per generation. *)
Theorem C62_stochastic : forall G P (r : rng G), rng_contract r -> forall srt reseed gen fuel (s : G * pop P) p,
  po_prob (snd s) = p -> valid_pop (snd s) -> stays_fine reseed p -> boxed (snd s) -> 0 < length (po_id (snd s)) -> 0 < gen ->
  ends_if_fuel (sea_evolve r srt reseed gen fuel) s
    (fun _ s' => valid_pop (snd s') /\ (exists ks, length ks = gen /\ po_prob (snd s') = fold_left reseed ks p) /\ po_id (snd s') = po_id (snd s) /\ boxed (snd s') /\
       evals (gen * (length (po_id (snd s)) + 1)) (snd s) (snd s') /\
       forall j x f, nth_error (po_x (snd s')) j = Some x -> nth_error (po_f (snd s')) j = Some f -> evaluated (po_prob (snd s')) x f)
    (fun e => exists ks, fails (fold_left reseed ks p) e).
Proof. exact @sea_stochastic_ok. Qed.
Print Assumptions C62_stochastic.
Example C62_stochastic_nonvacuous : stays_fine sto_reseed (sto_problem 0) /\ sto_problem 3 <> sto_problem 4.
Proof. exact (conj sto_fine sto_differs). Qed.
