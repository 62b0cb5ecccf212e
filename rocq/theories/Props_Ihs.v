(** C69: improved harmony search. *)
From Coq Require Import List Bool Arith ZArith.
From Verif Require Import Dbl Outcome SpecOrder StdSort BaseFacts Problem SpecProblem MultiObj Rng GenericFacts3 SpecGeneric SpecGenetic Population SpecPopulation Algo SpecAlgo SpecLocal SpecHarmony AlgIhs AlgIhsFacts AlgIhsFacts2 AlgExamples.
Import ListNotations.

Theorem C69_constructor : forall phmcr ppar_min ppar_max bw_min bw_max, ihs_construct phmcr ppar_min ppar_max bw_min bw_max = Ok tt <->
  (dgt phmcr done = false /\ dlt phmcr dzero = false /\ dgt ppar_min done = false /\ dlt ppar_min dzero = false /\ dgt ppar_max done = false /\ dlt ppar_max dzero = false /\
   dgt ppar_min ppar_max = false /\ dle bw_min dzero = false /\ dlt bw_max bw_min = false).
Proof. exact ihs_construct_iff. Qed.
Print Assumptions C69_constructor.
Example C69_constructor_nonvacuous : ihs_construct dzero dzero done (Fin 1) (Fin 1) = Ok tt /\ ihs_construct dzero dzero done (Fin 2) (Fin 1) = Throw InvalidArgument.
Proof. exact (conj ihs_small eq_refl). Qed.

Theorem C69_rejects : forall G P srt (r : rng G) lg ex fuel phmcr ppar_min ppar_max bw_min bw_max gens (s : G * pop P), gens <> 0 ->
  po_id (snd s) = [] \/ (get_nc (po_prob (snd s)) <> 0 /\ 1 < p_nobj (po_prob (snd s))) \/ u_set_seed (p_udp (po_prob (snd s))) = true ->
  ihs_evolve srt r lg ex fuel gens phmcr ppar_min ppar_max bw_min bw_max s = (Throw InvalidArgument, s).
Proof. exact @ihs_rejects. Qed.
Print Assumptions C69_rejects.
Theorem C69_no_generations : forall G P srt (r : rng G) lg ex fuel phmcr ppar_min ppar_max bw_min bw_max (s : G * pop P),
  ihs_evolve srt r lg ex fuel 0 phmcr ppar_min ppar_max bw_min bw_max s = (Ok tt, s).
Proof. exact @ihs_zero. Qed.
Print Assumptions C69_no_generations.
Example C69_rejects_nonvacuous : u_set_seed (p_udp (sto_problem 0)) = true.
Proof. exact eq_refl. Qed.

(** One objective: one evaluation per generation. An individual is kept or replaced by an
    evaluated point whose coordinates are in the bounds or NaN; its objective value is then
    not larger than before, or, with constraints, compare_fc prefers it. Integer components
    stay integers. With constraints the comparison must be a strict weak order on the
    fitness vectors that can occur (it is not in general, see C13); the bound reflection
    may loop for ever (C43). *)
Theorem C69_single_objective : forall G P srt, sort_contract srt -> forall (r : rng G), rng_contract r -> forall lg ex p, prob_obj p -> fitness_defined p ->
  forall fuel gens phmcr ppar_min ppar_max bw_min bw_max (s : G * pop P),
  valid_pop (snd s) -> po_prob (snd s) = p -> po_id (snd s) <> [] -> p_nobj p = 1 -> u_set_seed (p_udp p) = false -> rankable p (po_f (snd s)) ->
  ends_if_fuel (ihs_evolve srt r lg ex fuel gens phmcr ppar_min ppar_max bw_min bw_max) s
    (fun _ s' => valid_pop (snd s') /\ evals gens (snd s) (snd s') /\
       replaced (fun x f x' f' => evaluated p x' f' /\ in_box_or_nan (p_lb p) (p_ub p) x' /\ (get_nc p = 0 -> dle (obj f') (obj f) = true) /\ (0 < get_nc p -> preferred p f' f)) (snd s) (snd s') /\
       (Forall (whole_tail (p_nix p)) (po_x (snd s)) -> Forall (whole_tail (p_nix p)) (po_x (snd s'))))
    (ihs_fails p).
Proof. exact @ihs_single. Qed.
Print Assumptions C69_single_objective.
Example C69_single_objective_nonvacuous : valid_pop con_pop /\ po_id con_pop <> [] /\ p_nobj (po_prob con_pop) = 1 /\ 0 < get_nc (po_prob con_pop) /\ rankable (po_prob con_pop) (po_f con_pop) /\ fitness_defined (po_prob con_pop) /\
  valid_pop alg_pop /\ rankable alg_problem (po_f alg_pop).
Proof. exact (conj con_pop_valid (conj (fun H => @nil_cons _ 7%Z [8%Z] (eq_sym H)) (conj eq_refl (conj (le_n 1) (conj con_rankable (conj con_defined (conj alg_pop_valid (plain_rankable alg_problem (po_f alg_pop) eq_refl)))))))). Qed.

(** Several objectives: the individuals of the returned population are individuals of the
    given one or evaluated points with coordinates in the bounds or NaN. *)
Theorem C69_multi_objective : forall G P srt, sort_contract srt -> forall (r : rng G), rng_contract r -> forall lg ex p, prob_obj p -> fitness_defined p ->
  forall fuel gens phmcr ppar_min ppar_max bw_min bw_max (s : G * pop P),
  valid_pop (snd s) -> po_prob (snd s) = p -> po_id (snd s) <> [] -> 2 <= p_nobj p -> get_nc p = 0 -> u_set_seed (p_udp p) = false ->
  ends_if_fuel (ihs_evolve srt r lg ex fuel gens phmcr ppar_min ppar_max bw_min bw_max) s
    (fun _ s' => valid_pop (snd s') /\ po_prob (snd s') = p /\ po_id (snd s') = po_id (snd s) /\ evals gens (snd s) (snd s') /\
       (forall i x f, nth_error (po_x (snd s')) i = Some x -> nth_error (po_f (snd s')) i = Some f ->
          (exists j, nth_error (po_x (snd s)) j = Some x /\ nth_error (po_f (snd s)) j = Some f) \/ (evaluated p x f /\ in_box_or_nan (p_lb p) (p_ub p) x)) /\
       (Forall (whole_tail (p_nix p)) (po_x (snd s)) -> Forall (whole_tail (p_nix p)) (po_x (snd s'))))
    (ihs_fails p).
Proof. exact @ihs_multi. Qed.
Print Assumptions C69_multi_objective.
Example C69_multi_objective_nonvacuous : valid_pop bi_pop /\ 2 <= p_nobj (po_prob bi_pop) /\ get_nc (po_prob bi_pop) = 0 /\ fitness_defined (po_prob bi_pop).
Proof. exact (conj bi_pop_valid (conj (le_n 2) (conj eq_refl bi_defined))). Qed.

(** REFUTED: the best of population and candidate are not what is kept. The candidate C is
    dominated by both individuals A and B, the selection is {A, B}, and A is lost: the
    overwriting runs in place. *)
Theorem C69_selection_kept_refuted : exists lg ex (s : list Z * pop (list Z)) s' A B C, valid_pop (snd s) /\ ihs_construct dzero dzero done (Fin 1) (Fin 1) = Ok tt /\
  ihs_evolve (@isort) stream_rng lg ex 1 1 dzero dzero done (Fin 1) (Fin 1) s = (Ok tt, s') /\
  (forall x, u_fitness (p_udp (po_prob (snd s))) x = Ok C) /\ po_f (snd s) = [A; B] /\ dominates A C /\ dominates B C /\
  select_best_N_mo (@isort) [A; B; C] 2 = Ok [1; 0] /\ A <> B /\ po_f (snd s') = [B; B].
Proof. exact ihs_lost_refuted. Qed.
Print Assumptions C69_selection_kept_refuted.

(** If the first individual has the objective value NaN the population never changes,
    whatever the candidates are. *)
Theorem C69_nan_first_blocks : forall G P srt (r : rng G), rng_contract r -> forall lg ex fuel phmcr ppar_min ppar_max bw_min bw_max gens (s : G * pop P) p,
  po_prob (snd s) = p -> valid_pop (snd s) -> p_nobj p = 1 -> get_nc p = 0 -> u_set_seed (p_udp p) = false -> fitness_defined p -> (exists rest, po_f (snd s) = [NaN] :: rest) ->
  ends_if_fuel (ihs_evolve srt r lg ex fuel gens phmcr ppar_min ppar_max bw_min bw_max) s
    (fun _ s' => po_id (snd s') = po_id (snd s) /\ po_x (snd s') = po_x (snd s) /\ po_f (snd s') = po_f (snd s)) (ihs_fails p).
Proof. exact @ihs_nan. Qed.
Print Assumptions C69_nan_first_blocks.
Example C69_nan_first_blocks_nonvacuous : exists s : pop (list Z), valid_pop s /\ po_prob s = alg_problem /\ exists rest, po_f s = [NaN] :: rest.
Proof. exact (ex_intro _ _ (conj nan_first_valid (conj eq_refl (ex_intro _ _ eq_refl)))). Qed.

(** REFUTED: an integer component changes by at most the pitch. With pitch 1, the value 3 in
    [0,10] becomes 7: the draw around the value is added to the value. *)
Theorem C69_pitch_refuted : exists (l u v bw phmcr ppar : dbl) (X : list (list dbl)) g w g',
  dtrunc (dadd done (dmul bw (dsub u l))) = done /\ X = [[v]] /\ within l u v /\ integral v /\ ihs_int stream_rng phmcr ppar bw X l u 0 g = (Ok w, g') /\
  within l u w /\ dlt (dadd v done) w = true.
Proof. exact ihs_pitch_refuted. Qed.
Print Assumptions C69_pitch_refuted.
