(** C73: MOEA/D. *)
From Coq Require Import String List Bool Arith ZArith Permutation.
From Verif Require Import Dbl DblFacts GeneticOps Outcome StdSort SpecOrder MultiObj SpecMultiObj SpecDiscrepancy Weights Problem SpecProblem Rng GenericFacts3 SpecGeneric SpecGenetic GeneticFacts3 Population SpecPopulation Algo SpecAlgo
  AlgSga SpecSga SpecNsga2 AlgMoead SpecMoead AlgMoeadFacts5 AlgMoeadFacts6 Nsga2Examples MoeadExamples.
Import ListNotations.

(** The names and ranges that the constructor accepts; NaN passes the range tests. *)
Theorem C73_constructor : forall gen weights dec k CR F eta realb limit div a, moead_construct gen weights dec k CR F eta realb limit div = Ok a <->
  exists w d, In (weights, w) [("random"%string, WRandom); ("grid"%string, WGrid); ("low discrepancy"%string, WLowDiscrepancy)] /\
    In (dec, d) [("tchebycheff"%string, Tchebycheff); ("weighted"%string, Weighted); ("bi"%string, BI)] /\
    not_outside dzero done CR /\ not_outside dzero done F /\ dlt eta dzero = false /\ not_outside dzero done realb /\ 2 <= k /\ a = mkmoead gen w d k CR F eta realb limit div.
Proof. exact moead_constructor. Qed.
Print Assumptions C73_constructor.
Example C73_constructor_nonvacuous : moead_construct 1 "low discrepancy" "weighted" 2 done dhalf done dhalf 2 true = Ok me_ex.
Proof. exact me_made. Qed.

(** A problem that is not deterministic, unconstrained and multi-objective with bounds apart, an
    empty population or one without enough neighbours is rejected and nothing changes. *)
Theorem C73_rejects : forall G P (r : rng G) srt pw shuf binom halton fuel a (s : G * pop P),
  ~ (mo_problem (po_prob (snd s)) /\ 0 < length (po_id (snd s)) /\ me_neigh a <= length (po_id (snd s)) - 1) ->
  moead_evolve r srt pw shuf binom halton fuel a s = (Throw InvalidArgument, s).
Proof. exact @moead_rejects. Qed.
Print Assumptions C73_rejects.
Example C73_rejects_nonvacuous : mo_problem xy_problem /\ ~ me_neigh (mkmoead 1 WRandom Weighted 8 done done done done 2 true) <= length (po_id xy_pop) - 1.
Proof. split; [exact xy_mo|]. cbn. intros H. exact (PeanoNat.Nat.nle_succ_diag_l 7 H). Qed.
Theorem C73_no_generations : forall G P (r : rng G) srt pw shuf binom halton fuel a (s : G * pop P), me_gen a = 0 ->
  mo_problem (po_prob (snd s)) -> 0 < length (po_id (snd s)) -> me_neigh a <= length (po_id (snd s)) - 1 ->
  moead_evolve r srt pw shuf binom halton fuel a s = (Ok tt, s).
Proof. exact @moead_none. Qed.
Print Assumptions C73_no_generations.
Example C73_no_generations_nonvacuous : moead_evolve count_rng (@isort) pow_toy still exact_binom flat_halton 3 (mkmoead 0 WRandom Weighted 2 done done done done 2 true) (0, xy_pop) = (Ok tt, (0, xy_pop)).
Proof. apply C73_no_generations; [reflexivity|exact xy_mo|cbn; auto with arith|cbn; auto with arith]. Qed.

(** Each generation visits every subproblem once, in some order. A visit evaluates one point,
    lowers the ideal point, and overwrites only individuals that the point beats on their own
    subproblems: all of those among the subproblem and its neighbours, or with diversity
    preservation at most max(limit, 2) (moead_step in SpecMoead.v). What escapes is an exception of the fitness
    function, or the one for weights that cannot be made. *)
Theorem C73_evolve : forall G P (r : rng G), rng_contract r -> forall srt, sort_contract srt -> forall pw shuf, shuffle_contract shuf -> forall binom, binomial_exact binom ->
  forall halton, (forall n i, length (halton n i) = n - 1 /\ Forall unit_dbl (halton n i)) -> forall fuel a (s : G * pop P) p,
  po_prob (snd s) = p -> valid_pop (snd s) -> mo_problem p -> fitness_defined p -> 2 <= me_neigh a <= length (po_id (snd s)) - 1 -> me_dec a <> OtherMethod -> 0 < me_gen a ->
  (Z.of_nat (length (po_id (snd s))) < 2 ^ 49)%Z -> (Z.of_nat (get_nf p) * Z.of_nat (length (po_id (snd s))) <= 2 ^ 64)%Z -> Forall is_double (p_lb p) -> Forall is_double (p_ub p) ->
  ends_w True (moead_evolve r srt pw shuf binom halton fuel a) s
    (fun _ s' => valid_pop (snd s') /\
       moead_run (me_dec a) (me_limit a) (me_div a) (fun x => length x = get_nx p) (me_neigh a) (me_gen a) (snd s) (snd s') /\
       evals (me_gen a * length (po_id (snd s))) (snd s) (snd s'))
    (fun e => fitness_throws p e \/ e = InvalidArgument /\ (length (po_id (snd s)) < get_nf p \/ me_weights a = WGrid \/ me_weights a = WOther)).
Proof. exact @moead_evolve_any. Qed.
Print Assumptions C73_evolve.
Example C73_evolve_nonvacuous : exists u s', moead_evolve count_rng (@isort) pow_toy still exact_binom flat_halton 3 me_ex (0, xy_pop) = (Ok u, s') /\
  moead_run Weighted 2 true (in_box (p_lb xy_problem) (p_ub xy_problem)) 2 1 xy_pop (snd s').
Proof. exact me_evolves. Qed.

(** If the individuals are in the box, the bounds at most 2^1022, F and eta_m numbers and the
    draws from [0, 1) below 1, then every point that is evaluated is in the box. *)
Theorem C73_evolve_in_box : forall G P (r : rng G), rng_contract r -> forall srt, sort_contract srt -> forall pw shuf, shuffle_contract shuf -> forall binom, binomial_exact binom ->
  forall halton, (forall n i, length (halton n i) = n - 1 /\ Forall unit_dbl (halton n i)) -> forall fuel a (s : G * pop P) p,
  po_prob (snd s) = p -> valid_pop (snd s) -> mo_problem p -> fitness_defined p -> 2 <= me_neigh a <= length (po_id (snd s)) - 1 -> me_dec a <> OtherMethod -> 0 < me_gen a ->
  (Z.of_nat (length (po_id (snd s))) < 2 ^ 49)%Z -> (Z.of_nat (get_nf p) * Z.of_nat (length (po_id (snd s))) <= 2 ^ 64)%Z -> Forall is_double (p_lb p) -> Forall is_double (p_ub p) ->
  below_one r -> moderate_bounds p -> within dzero done (me_F a) -> pow_contract pw -> nonneg (me_eta a) -> isfinite (me_eta a) = true ->
  (forall x, In x (po_x (snd s)) -> in_box (p_lb p) (p_ub p) x) ->
  ends_w True (moead_evolve r srt pw shuf binom halton fuel a) s
    (fun _ s' => valid_pop (snd s') /\
       moead_run (me_dec a) (me_limit a) (me_div a) (in_box (p_lb p) (p_ub p)) (me_neigh a) (me_gen a) (snd s) (snd s') /\
       evals (me_gen a * length (po_id (snd s))) (snd s) (snd s'))
    (fun e => fitness_throws p e \/ e = InvalidArgument /\ (length (po_id (snd s)) < get_nf p \/ me_weights a = WGrid \/ me_weights a = WOther)).
Proof. exact @moead_evolve_box. Qed.
Print Assumptions C73_evolve_in_box.
Example C73_evolve_in_box_nonvacuous : below_one count_rng /\ moderate_bounds xy_problem /\ within dzero done (me_F me_ex) /\ pow_contract pow_toy /\ nonneg (me_eta me_ex) /\ forall x, In x (po_x xy_pop) -> in_box (p_lb xy_problem) (p_ub xy_problem) x.
Proof. exact (conj count_below (conj xy_moderate (conj half_unit (conj pow_toy_contract (conj one_nonneg xy_in))))). Qed.

(** With the weighted decomposition no individual gets worse on its own subproblem. *)
Theorem C73_weighted_no_worse : forall P limit div Box k gen (s s' : pop P), moead_run Weighted limit div Box k gen s s' ->
  exists ws, weights_for (get_nf (po_prob s)) (length (po_id s)) ws /\ forall z, length z = get_nf (po_prob s) ->
    forall i w f f', nth_error ws i = Some w -> nth_error (po_f s) i = Some f -> nth_error (po_f s') i = Some f' -> f' = f \/ improves Weighted w z f' f.
Proof. exact @run_no_worse. Qed.
Print Assumptions C73_weighted_no_worse.
Example C73_weighted_no_worse_nonvacuous : exists s', moead_run Weighted 2 true (in_box (p_lb xy_problem) (p_ub xy_problem)) 2 1 xy_pop s'.
Proof. destruct me_evolves as (u & s' & _ & H). exact (ex_intro _ (snd s') H). Qed.

(** A limit of 0 or 1 is not kept: a candidate that beats all overwrites two individuals. *)
Theorem C73_limit_refuted : forall G P (shuf : forall A, list A -> G -> list A * G), shuffle_contract shuf -> forall a (s0 : pop P) ws z x f neigh nb n (g : G), valid_pop s0 ->
  weights_for (get_nf (po_prob s0)) (length (po_id s0)) ws -> me_dec a <> OtherMethod -> 0 < get_nf (po_prob s0) ->
  length z = get_nf (po_prob s0) -> evaluated (po_prob s0) x f -> me_limit a <= 1 -> me_div a = true ->
  n < length (po_id s0) -> nth_error neigh n = Some nb -> nb <> [] -> ~ In n nb -> (forall i, In i nb -> i < length (po_id s0)) ->
  (forall i, i < length (po_id s0) -> beaten (me_dec a) ws z s0 f i) ->
  ends_w False (moead_insert shuf a ws neigh z x f n false) (g, s0) (fun _ s' => exists i, i <> n /\ overwrites x f [i; n] s0 (snd s')) never.
Proof. exact @two_overwritten. Qed.
Print Assumptions C73_limit_refuted.
Example C73_limit_refuted_nonvacuous : exists u s', moead_insert still me_one all_one two_nb zero_xy zero_xy zero_xy 0 false (0, xy_pop) = (Ok u, s') /\ exists i, i <> 0 /\ overwrites zero_xy zero_xy [i; 0] xy_pop (snd s').
Proof. exact one_is_two. Qed.
