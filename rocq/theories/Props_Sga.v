(** C63: the simple genetic algorithm. *)
From Coq Require Import String List Bool Arith ZArith Permutation.
From Verif Require Import Dbl IntDbl Outcome StdSort SpecOrder Problem SpecProblem Rng GenericFacts3 SpecGeneric SpecGenetic GeneticFacts3 Population SpecPopulation Algo SpecAlgo AlgSga SpecSga
  AlgSgaFacts AlgSgaFacts5 AlgSgaFacts6 AlgExamples AlgSaFacts2 SgaExamples.
Import ListNotations.

(** The constructor accepts exactly the documented names and ranges; NaN passes every range. *)
Theorem C63_constructor : forall gen cr eta m pm ps cx mu se a, sga_construct gen cr eta m pm ps cx mu se = Ok a <->
  sg_gen a = gen /\ sg_cr a = cr /\ sg_eta a = eta /\ sg_m a = m /\ sg_pm a = pm /\ sg_ps a = ps /\
  In (cx, sg_cross a) crossover_names /\ In (mu, sg_mut a) mutation_names /\ In (se, sg_sel a) selection_names /\
  not_outside dzero done cr /\ not_outside done dhundred eta /\ not_outside dzero done m /\ 0 < ps /\
  match sg_mut a with Polynomial => not_outside done dhundred pm | _ => not_outside dzero done pm end.
Proof. exact sga_constructor. Qed.
Print Assumptions C63_constructor.
Example C63_constructor_nonvacuous : sga_construct 1 done done done done 2 "exponential" "uniform" "tournament" = Ok (sga_example Exponential Uniform Tournament).
Proof. exact example_made. Qed.

Theorem C63_rejects : forall G P (r : rng G) srt pw reseed shuf binom a (s : G * pop P), let n := length (po_id (snd s)) in
  get_nc (po_prob (snd s)) <> 0 \/ get_nf (po_prob (snd s)) <> 1 \/ n < 2 \/ n < sg_ps a \/ sg_cross a = SBX /\ Nat.even n = false ->
  sga_evolve r srt pw reseed shuf binom a s = (Throw InvalidArgument, s).
Proof. exact @sga_rejects. Qed.
Print Assumptions C63_rejects.
Example C63_rejects_nonvacuous : sg_cross sga_ex2 = SBX /\ Nat.even (length (po_id alg_pop)) = false.
Proof. exact (conj eq_refl eq_refl). Qed.

(** As many parents as individuals are selected. By tournament, each is one of sg_ps distinct
    individuals none of which has a smaller value; by truncation, the parents are exactly
    sg_ps individuals not worse than any other. *)
Theorem C63_selection : forall G (r : rng G), rng_contract r -> forall srt, sort_contract srt -> forall a F (E : exn -> Prop),
  (forall f, In f F -> length f = 1) -> 1 <= sg_ps a <= length F -> always (sga_select r srt a F) (selected a F) E.
Proof. exact @select_ok. Qed.
Print Assumptions C63_selection.
(** A parent with fitness NaN wins a tournament against a better one, if drawn first. *)
Theorem C63_tournament_nan_refuted : exists g, fst (sga_select stream_rng (@isort) sga_ex [[NaN]; [Fin 1]] g) = Ok [0; 0] /\ better (Fin 1) NaN.
Proof. exact nan_wins. Qed.
Print Assumptions C63_tournament_nan_refuted.

(** Child i keeps parent i except for a circular run of genes (exponential), some genes, at
    least one (binomial), or possibly a tail (single) taken from one other parent. *)
Theorem C63_crossover : forall G (r : rng G), rng_contract r -> forall pw shuf a X lb ub nix dim,
  0 < dim -> (forall x, In x X -> length x = dim) -> 2 <= length X -> sg_cross a <> SBX ->
  always (sga_cross r pw shuf a X lb ub nix)
    (fun Y => length Y = length X /\ forall i, i < length X -> exists q c x b, q <> i /\ nth_error X q = Some b /\ nth_error X i = Some x /\ nth_error Y i = Some c /\ crossed (sg_cross a) c x b) never.
Proof. exact @sga_crossover_ok. Qed.
Print Assumptions C63_crossover.
Example C63_crossover_nonvacuous : exists g, fst (sga_cross stream_rng zero_pow no_shuffle sga_ex [[Fin 1; Fin 2]; [Fin 3; Fin 4]; [Fin 5; Fin 6]] [] [] 0 g) = Ok [[Fin 3; Fin 2]; [Fin 3; Fin 2]; [Fin 5; Fin 2]].
Proof. exact cross_example. Qed.
(** SBX pairs up the shuffled parents, each used once; whatever the operator promises of a pair
    of parents holds of the two children. *)
Theorem C63_sbx : forall G (r : rng G) pw shuf, shuffle_contract shuf -> forall a X lb ub nix Q2, X <> [] -> Nat.even (length X) = true -> sg_cross a = SBX ->
  (forall p1 p2, In p1 X -> In p2 X -> always (GeneticOps.sbx_crossover_impl r pw p1 p2 lb ub nix (sg_cr a) (sg_eta a)) (Q2 p1 p2) never) ->
  always (sga_cross r pw shuf a X lb ub nix)
    (fun Y => length Y = length X /\ exists Z, Permutation X Z /\ forall h, 2 * h + 1 < length X -> exists p1 p2 c1 c2,
       nth_error Z (2 * h) = Some p1 /\ nth_error Z (2 * h + 1) = Some p2 /\ nth_error Y (2 * h) = Some c1 /\ nth_error Y (2 * h + 1) = Some c2 /\ Q2 p1 p2 (c1, c2)) never.
Proof. exact @sga_sbx_ok. Qed.
Print Assumptions C63_sbx.
Example C63_sbx_nonvacuous : forall p1 p2, In p1 (po_x two_pop) -> In p2 (po_x two_pop) ->
  always (GeneticOps.sbx_crossover_impl stream_rng pow_toy p1 p2 (p_lb alg_problem) (p_ub alg_problem) 0 (sg_cr sga_ex2) (sg_eta sga_ex2)) (fun cs => tame alg_problem (fst cs) /\ tame alg_problem (snd cs)) never.
Proof. exact sbx_example. Qed.

(** Each generation evaluates as many newborn individuals, with coordinates in the bounds or
    NaN, as there are individuals, and keeps the best of both, best first, under the old
    identifiers. An exception is one of the problem's. *)
Theorem C63_evolve : forall G P (r : rng G), rng_contract r -> forall srt, sort_contract srt -> forall pw reseed shuf, shuffle_contract shuf -> forall binom, binomial_contract binom ->
  forall a (s : G * pop P) p, po_prob (snd s) = p -> valid_pop (snd s) -> plain_single p -> fitness_defined p -> draws_ok a p -> ready a (length (po_id (snd s))) ->
  ends_w False (sga_evolve r srt pw reseed shuf binom a) s
    (fun _ s' => valid_pop (snd s') /\ generations p (in_box_or_nan (p_lb p) (p_ub p)) (sg_gen a) (snd s) (snd s') /\ evals (sg_gen a * length (po_id (snd s))) (snd s) (snd s'))
    (fails p).
Proof. exact @sga_evolve_any. Qed.
Print Assumptions C63_evolve.
Example C63_evolve_nonvacuous : exists u s', @sga_evolve (list Z) (list Z) stream_rng (@isort) zero_pow no_reseed no_shuffle one_gene sga_ex ([], alg_pop) = (Ok u, s') /\
  generations alg_problem (in_box_or_nan (p_lb alg_problem) (p_ub alg_problem)) 1 alg_pop (snd s').
Proof. exact ex_evolves. Qed.
(** With bounds up to 2^1022, numbers as parameters and individuals in the box, no newborn has a
    NaN, and integer variables stay integers. *)
Theorem C63_evolve_in_box : forall G P (r : rng G), rng_contract r -> forall srt, sort_contract srt -> forall pw reseed shuf, shuffle_contract shuf -> forall binom, binomial_contract binom ->
  forall a (s : G * pop P) p, pow_contract pw -> finite_normals r -> po_prob (snd s) = p -> valid_pop (snd s) -> plain_single p -> fitness_defined p -> draws_ok a p -> ready a (length (po_id (snd s))) ->
  moderate_bounds p -> sane_mutation a -> within done dhundred (sg_eta a) -> (forall x, In x (po_x (snd s)) -> tame p x) ->
  ends_w False (sga_evolve r srt pw reseed shuf binom a) s
    (fun _ s' => valid_pop (snd s') /\ generations p (tame p) (sg_gen a) (snd s) (snd s') /\ (forall x, In x (po_x (snd s')) -> tame p x) /\ evals (sg_gen a * length (po_id (snd s))) (snd s) (snd s'))
    (fails p).
Proof. exact @sga_evolve_tame. Qed.
Print Assumptions C63_evolve_in_box.
Example C63_evolve_in_box_nonvacuous : exists u s', @sga_evolve (list Z) (list Z) calm_rng (@isort) pow_toy no_reseed no_shuffle one_gene sga_ex2 ([], two_pop) = (Ok u, s') /\
  forall x, In x (po_x (snd s')) -> tame alg_problem x.
Proof. exact ex2_evolves. Qed.
(** However many generations: if k individuals were not worse than v, k are so afterwards. *)
Theorem C63_never_worsens : forall P p Box n (s s' : pop P) v k, generations p Box n s s' -> has_good s v k -> has_good s' v k.
Proof. exact @sga_good. Qed.
Print Assumptions C63_never_worsens.
Example C63_never_worsens_nonvacuous : has_good two_pop (Fin 1) 1.
Proof. exact two_good. Qed.

(** A stochastic problem is reseeded once a generation and everyone evaluated again: every
    fitness belongs to the last seed, and a generation costs two evaluations per individual. *)
Theorem C63_stochastic : forall G P (r : rng G), rng_contract r -> forall srt, sort_contract srt -> forall pw reseed shuf, shuffle_contract shuf -> forall binom, binomial_contract binom ->
  forall a (s : G * pop P) p, po_prob (snd s) = p -> valid_pop (snd s) -> stays_fine reseed p -> (forall ks, draws_ok a (fold_left reseed ks p)) -> ready a (length (po_id (snd s))) -> 0 < sg_gen a ->
  ends_w False (sga_evolve r srt pw reseed shuf binom a) s
    (fun _ s' => valid_pop (snd s') /\ (exists ks, length ks = sg_gen a /\ po_prob (snd s') = fold_left reseed ks p) /\ po_id (snd s') = po_id (snd s) /\
       evals (sg_gen a * (2 * length (po_id (snd s)))) (snd s) (snd s') /\ forall i, In i (individuals (snd s')) -> evaluated (po_prob (snd s')) (fst i) (snd i))
    (fun e => exists ks, fails (fold_left reseed ks p) e).
Proof. exact @sga_stochastic_ok. Qed.
Print Assumptions C63_stochastic.
Example C63_stochastic_nonvacuous : stays_fine sto_reseed (sto_problem 0) /\ sto_problem 3 <> sto_problem 4.
Proof. exact (conj sto_fine sto_differs). Qed.

(** An integer variable with a bound that an int cannot hold is undefined behaviour as soon as
    every gene mutates, although the problem is a valid one. *)
Theorem C63_int_bounds_refuted : forall G P (r : rng G), rng_contract r -> forall srt, sort_contract srt -> forall pw reseed shuf, shuffle_contract shuf -> forall binom a (s : G * pop P) p i l u,
  po_prob (snd s) = p -> valid_pop (snd s) -> plain_single p -> drawable p -> 0 < sg_gen a -> 2 <= length (po_id (snd s)) -> 1 <= sg_ps a <= length (po_id (snd s)) ->
  (sg_cross a = SBX -> Nat.even (length (po_id (snd s))) = true) -> sg_m a = done -> (forall n g, fst (binom n done g) = n) -> sg_mut a <> Gaussian ->
  get_nx p - p_nix p <= i -> nth_error (p_lb p) i = Some l -> nth_error (p_ub p) i = Some u -> ~ (fits_int l /\ fits_int u) ->
  fst (sga_evolve r srt pw reseed shuf binom a s) = UB.
Proof. exact @int_cast_ub. Qed.
Print Assumptions C63_int_bounds_refuted.
Example C63_int_bounds_refuted_nonvacuous : construct long_udp = Ok long_problem /\ valid_pop long_pop /\ drawable long_problem /\ ~ (fits_int (dint 0) /\ fits_int (dint (2 ^ 31))).
Proof. exact (conj long_made (conj long_valid (conj long_drawable long_unfit))). Qed.
(** The constructor accepts NaN as the mutation probability; the first mutation is then
    undefined behaviour. *)
Theorem C63_nan_probability_refuted : forall G P (r : rng G), rng_contract r -> forall srt, sort_contract srt -> forall pw reseed shuf, shuffle_contract shuf -> forall binom a (s : G * pop P) p,
  po_prob (snd s) = p -> valid_pop (snd s) -> plain_single p -> 0 < sg_gen a -> 2 <= length (po_id (snd s)) -> 1 <= sg_ps a <= length (po_id (snd s)) ->
  (sg_cross a = SBX -> Nat.even (length (po_id (snd s))) = true) -> sg_m a = NaN ->
  fst (sga_evolve r srt pw reseed shuf binom a s) = UB.
Proof. exact @nan_probability_ub. Qed.
Print Assumptions C63_nan_probability_refuted.
Example C63_nan_probability_refuted_nonvacuous : sga_construct 1 done done NaN done 2 "exponential" "uniform" "tournament" = Ok nan_params /\ valid_pop alg_pop /\ 2 <= length (po_id alg_pop).
Proof. exact (conj nan_made (conj alg_pop_valid (proj1 five_individuals))). Qed.
