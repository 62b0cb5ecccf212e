(** C71, C76: self-adaptive constraint handling. *)
From Coq Require Import List Bool Arith ZArith.
From Verif Require Import Dbl IntDbl Outcome StdSort BaseFacts Problem SpecProblem Generic Constrained SpecConstrained Population SpecPopulation Algo SpecAlgo SpecLocal SpecHarmony AlgCstrs SpecCstrs AlgIhsFacts2
  AlgCstrsFacts AlgCstrsFacts2 AlgCstrsFacts3 AlgCstrsFacts4 AlgCstrsFacts5 CstrsExamples.
Import ListNotations.

(** Wrong kinds of problems and fewer than four individuals are rejected (the documentation
    of evolve says "at least 3"). *)
Theorem C71_rejects : forall P dexp srt alg iters (s : pen * pop P),
  p_nobj (po_prob (snd s)) <> 1 \/ u_set_seed (p_udp (po_prob (snd s))) = true \/ get_nc (po_prob (snd s)) = 0 \/ length (po_id (snd s)) < 4 ->
  fst (cstrs_evolve dexp srt alg iters s) = Throw InvalidArgument.
Proof. exact @cstrs_rejects. Qed.
Print Assumptions C71_rejects.
Example C71_rejects_nonvacuous : length (po_id con_pop) < 4 /\ 0 < get_nc (po_prob con_pop).
Proof. exact (conj (le_S 3 3 (le_n 3)) (le_n 1)). Qed.

(** Whatever the inner algorithm, as long as it returns as many points as it got, each of
    which it was given or has evaluated: the run consists of [iters] rounds, each of which
    keeps the problem, the IDs and a best individual, fills the population only with
    individuals it had and with points evaluated in the round, and evaluates no point twice
    and no point of the population. The only exceptions are those of the fitness function
    and of the inner algorithm. The fitness vectors that can occur must be rankable (they are
    not in general, see C13). *)
Theorem C71_evolve : forall P dexp srt alg EI iters (s : pen * pop P), let p := po_prob (snd s) in let n := length (po_id (snd s)) in
  valid_pop (snd s) -> fitness_defined p -> p_nobj p = 1 -> 0 < get_nc p -> u_set_seed (p_udp p) = false -> 4 <= n -> sort_contract srt -> rankable p (po_f (snd s)) ->
  (forall it X F, length X = n -> (forall x, In x X -> length x = get_nx p) -> well_behaved n (get_nx p) EI X (alg it X F)) ->
  ends (cstrs_evolve dexp srt alg iters) s (fun _ s' => valid_pop (snd s') /\ cstrs_rounds (snd s) iters (snd s')) (fun e => fitness_throws p e \/ EI e).
Proof. exact (fun P dexp srt alg EI iters s V FD NO NC ST N4 SC RK WB => evolve_ends dexp srt (po_prob (snd s)) FD alg EI (length (po_id (snd s))) WB NO NC (Nat.lt_le_trans 0 4 _ (Nat.lt_0_succ 3) N4) SC (po_f (snd s)) RK s iters V eq_refl eq_refl N4 ST eq_refl). Qed.
Print Assumptions C71_evolve.
Example C71_evolve_nonvacuous : valid_pop mix_pop /\ fitness_defined (po_prob mix_pop) /\ 0 < get_nc (po_prob mix_pop) /\ 4 <= length (po_id mix_pop) /\ sort_contract (@isort) /\ rankable (po_prob mix_pop) (po_f mix_pop) /\
  (forall it X F, length X = 4 -> (forall x, In x X -> length x = 2) -> well_behaved 4 2 (fun _ => False) X (one_step it X F)) /\
  forall dexp g, exists a s', cstrs_evolve dexp (@isort) one_step 3 (g, mix_pop) = (Ok a, s') /\ (valid_pop (snd s') /\ cstrs_rounds mix_pop 3 (snd s')).
Proof. exact (conj mix_valid (conj mix_defined (conj (le_n 1) (conj (le_n 4) (conj isort_contract (conj mix_rankable (conj (one_step_ok (fun _ => False)) (fun dexp g => mix_run dexp g 3)))))))). Qed.

(** So the best individual never gets worse, over any number of rounds. *)
Theorem C71_never_worse : forall P (s : pop P) n s' f f', valid_pop s -> 0 < get_nc (po_prob s) -> rankable (po_prob s) (po_f s) -> cstrs_rounds s n s' -> valid_pop s' ->
  unbeaten s f -> unbeaten s' f' -> ~ preferred (po_prob s) f f'.
Proof. exact @rounds_best. Qed.
Print Assumptions C71_never_worse.
Example C71_never_worse_nonvacuous : valid_pop mix_pop /\ rankable (po_prob mix_pop) (po_f mix_pop) /\ (exists f, unbeaten mix_pop f) /\ exists a s', cstrs_evolve toy_exp (@isort) one_step 3 ({| pn_cmax := []; pn_p1 := false; pn_scale := dzero; pn_idown := dzero; pn_iup := dzero; pn_fdown := dzero; pn_fup := dzero; pn_map := [] |}, mix_pop) = (Ok a, s') /\ (valid_pop (snd s') /\ cstrs_rounds mix_pop 3 (snd s')).
Proof. exact (conj mix_valid (conj mix_rankable (conj mix_best (mix_run _ _ 3)))). Qed.

(** Refuted for inner algorithms in general: if in the first iteration the inner algorithm
    returns, in some place i, a point that is not in the population and was not evaluated
    with the very problem object it was given (or returns fewer points), the behaviour is
    undefined. Algorithms that evaluate with copies of the problem, for instance in
    batches with thread_bfe, do that. *)
Theorem C71_unevaluated_refuted : forall P dexp srt alg iters (s : pen * pop P) Y i, let p := po_prob (snd s) in
  sort_contract srt -> valid_pop (snd s) -> p_nobj p = 1 -> 0 < get_nc p -> u_set_seed (p_udp p) = false -> 4 <= length (po_id (snd s)) ->
  strict_weak_on (fc_lt (p_nec p) (p_ctol p)) (po_f (snd s)) -> fitness_defined p ->
  0 < iters -> (forall X F, alg 1 X F = IRet Y) -> i < length (po_id (snd s)) -> (forall y, nth_error Y i = Some y -> ~ In y (po_x (snd s))) ->
  fst (cstrs_evolve dexp srt alg iters s) = UB.
Proof. exact @unseen_ub. Qed.
Print Assumptions C71_unevaluated_refuted.
Example C71_unevaluated_nonvacuous : valid_pop mix_pop /\ strict_weak_on (fc_lt 0 (p_ctol (po_prob mix_pop))) (po_f mix_pop) /\ fitness_defined (po_prob mix_pop) /\
  (forall X F, silent_step 1 X F = IRet [[Fin 5; Fin 6]; [Fin 0; Fin 1]; [Fin 0; Fin 1]; [Fin 0; Fin 1]]) /\ (forall y, nth_error [[Fin 5; Fin 6]; [Fin 0; Fin 1]; [Fin 0; Fin 1]; [Fin 0; Fin 1]] 0 = Some y -> ~ In y (po_x mix_pop)).
Proof. exact (conj mix_valid (conj (mix_rankable (le_n 1) (po_f mix_pop) (fun f Hf => or_introl Hf)) (conj mix_defined (conj (fun _ _ => eq_refl) silent_unseen)))). Qed.

(** A point that violates no constraint is handed to the inner algorithm with its own
    objective value, whatever the population. *)
Theorem C76_feasible : forall p, prob_obj p -> forall dexp g f, 0 < get_nc p -> length (pn_cmax g) = get_nc p -> length f = S (get_nc p) -> no_breach p f ->
  pen_value dexp g p f = Ok (obj f).
Proof. exact pen_feasible. Qed.
Print Assumptions C76_feasible.
Example C76_feasible_nonvacuous : prob_obj (po_prob top_pop) /\ no_breach (po_prob top_pop) [Fin 1; Fin 0] /\ exists g, pen_update (po_prob top_pop) (po_x top_pop) (po_f top_pop) = Ok g /\ length (pn_cmax g) = 1.
Proof. exact (conj (proj1 (four_valid con_fit (Fin 1) (Fin 3) (Fin 2) (Fin 1) (Fin 0) (Fin 1) (Fin 0) (Fin 0))) (conj (zero_no_breach (Fin 1)) top_update)). Qed.

(** When no individual violates a constraint, no point at all is penalized. *)
Theorem C76_all_feasible : forall p, prob_obj p -> forall dexp X F g h, 0 < get_nc p -> 0 < length F -> (forall f, In f F -> length f = S (get_nc p) /\ no_breach p f) -> length h = S (get_nc p) ->
  pen_update p X F = Ok g -> pen_value dexp g p h = Ok (obj h).
Proof. exact pen_all_feasible. Qed.
Print Assumptions C76_all_feasible.
Example C76_all_feasible_nonvacuous : exists g, pen_update (po_prob con_pop) (po_x con_pop) (po_f con_pop) = Ok g /\ length (pn_cmax g) = 1 /\ (forall f, In f (po_f con_pop) -> length f = 2 /\ no_breach (po_prob con_pop) f) /\
  ~ no_breach (po_prob con_pop) [Fin 0; Fin 3].
Proof. exact con_update. Qed.

(** In a population with a feasible individual and positive objective values, no point gets
    a penalized fitness better than its objective value. *)
Theorem C76_never_better : forall p, prob_obj p -> forall dexp X F g h v, (forall y, dlt y dzero = false -> dlt (dexp y) done = false) -> 0 < get_nc p ->
  (forall f, In f F -> length f = S (get_nc p) /\ positive_obj f) -> (exists f, In f F /\ no_breach p f) ->
  pen_update p X F = Ok g -> length h = S (get_nc p) -> is_double (obj h) -> pen_value dexp g p h = Ok v -> dlt v (obj h) = false.
Proof. exact pen_not_better. Qed.
Print Assumptions C76_never_better.
Example C76_never_better_nonvacuous : (forall y, dlt y dzero = false -> dlt (toy_exp y) done = false) /\ (forall f, In f (po_f top_pop) -> length f = 2 /\ positive_obj f) /\ (exists f, In f (po_f top_pop) /\ no_breach (po_prob top_pop) f) /\
  exists g, pen_update (po_prob top_pop) (po_x top_pop) (po_f top_pop) = Ok g /\ length (pn_cmax g) = 1.
Proof. exact (conj toy_exp_ge1 (conj top_positive (conj top_feasible top_update))). Qed.

(** Refuted with negative objective values: the scaling factor is negative and the penalty
    becomes a reward. The individual with objective -1 that violates its constraint gets -3
    and passes the best feasible one, which keeps its -2 (in units of 2^-1074). *)
Theorem C76_negative_refuted : forall dexp w, dsub (dexp dtwo) done = Fin w -> (0 < w)%Z -> exists g,
  valid_pop neg_pop /\ In [Fin (-1); Fin 1] (po_f neg_pop) /\ In [Fin (-2); Fin 0] (po_f neg_pop) /\
  pen_update (po_prob neg_pop) (po_x neg_pop) (po_f neg_pop) = Ok g /\
  pen_value dexp g (po_prob neg_pop) [Fin (-1); Fin 1] = Ok (Fin (-3)) /\ pen_value dexp g (po_prob neg_pop) [Fin (-2); Fin 0] = Ok (Fin (-2)).
Proof. exact neg_reward. Qed.
Print Assumptions C76_negative_refuted.
(** Refuted when no individual is feasible, with positive objective values: of two
    individuals the one with the larger infeasibility and the larger objective value gets
    the smaller penalized fitness. *)
Theorem C76_order_refuted : forall dexp w, dexp dzero = done -> dsub (dexp dtwo) done = Fin w -> (0 < w)%Z -> exists g i j,
  valid_pop inf_pop /\ In [Fin 1; Fin 1] (po_f inf_pop) /\ In [Fin 2; Fin 2] (po_f inf_pop) /\
  pen_update (po_prob inf_pop) (po_x inf_pop) (po_f inf_pop) = Ok g /\
  compute_infeasibility (pn_cmax g) 0 1 [Fin 0] [Fin 1; Fin 1] = Ok i /\ compute_infeasibility (pn_cmax g) 0 1 [Fin 0] [Fin 2; Fin 2] = Ok j /\ dlt i j = true /\
  pen_value dexp g (po_prob inf_pop) [Fin 1; Fin 1] = Ok (Fin 1) /\ pen_value dexp g (po_prob inf_pop) [Fin 2; Fin 2] = Ok (Fin 0).
Proof. exact inf_reward. Qed.
Print Assumptions C76_order_refuted.
(** Refuted for being a number: when the most infeasible individual also has the largest
    objective value the scaling factor is 0, and a point 1000 times as infeasible gets
    0 * infinity. *)
Theorem C76_nan_refuted : forall dexp, dexp (dint 2000) = PInf -> (exists w, dsub (dexp dtwo) done = Fin w /\ (0 < w)%Z) -> exists g,
  pen_update (po_prob top_pop) (po_x top_pop) (po_f top_pop) = Ok g /\ pen_value dexp g (po_prob top_pop) [Fin 2; Fin 1000] = Ok NaN.
Proof. exact top_penalized. Qed.
Print Assumptions C76_nan_refuted.
Example C76_refuted_nonvacuous : toy_exp dzero = done /\ toy_exp (dint 2000) = PInf /\ dsub (toy_exp dtwo) done = dint 6 /\ (0 < 6 * one_z)%Z.
Proof. exact toy_exp_values. Qed.
