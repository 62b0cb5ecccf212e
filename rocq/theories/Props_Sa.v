(** C66: simulated annealing. *)
From Coq Require Import List Bool Arith ZArith.
From Verif Require Import Dbl Outcome StdSort Problem SpecProblem Rng GenericFacts3 SpecGeneric SpecGenetic Population SpecPopulation Algo SpecAlgo NotPop SpecLocal AlgSa AlgSaFacts AlgSaFacts2 AlgCompassFacts2 AlgExamples.
Import ListNotations.

Theorem C66_constructor : forall Ts Tf n m start,
  (sa_construct Ts Tf n m start = Ok tt <-> (isfinite Ts = true /\ dlt dzero Tf = true /\ dle Tf Ts = true) /\ (dlt dzero start = true /\ dle start done = true) /\ (n <> 0 /\ m <> 0)) /\
  (sa_construct Ts Tf n m start = Ok tt \/ sa_construct Ts Tf n m start = Throw InvalidArgument).
Proof. exact (fun Ts Tf n m start => conj (sa_construct_iff Ts Tf n m start) (sa_constructor Ts Tf n m start)). Qed.
Print Assumptions C66_constructor.
Example C66_constructor_nonvacuous : sa_construct (Fin 2) (Fin 1) 1 1 (Fin 1) = Ok tt /\ sa_construct NaN (Fin 1) 1 1 (Fin 1) = Throw InvalidArgument.
Proof. exact (conj sa_small eq_refl). Qed.

Theorem C66_rejects : forall G P (r r2 : rng G) srt sel rep pw ex Ts Tf n m bin start (s : G * pop P),
  get_nc (po_prob (snd s)) <> 0 \/ get_nf (po_prob (snd s)) <> 1 \/ u_set_seed (p_udp (po_prob (snd s))) = true \/ po_id (snd s) = [] ->
  sa_evolve r r2 srt sel rep pw ex Ts Tf n m bin start s = (Throw InvalidArgument, s).
Proof. exact @sa_rejects. Qed.
Print Assumptions C66_rejects.
Example C66_rejects_nonvacuous : u_set_seed (p_udp (sto_problem 0)) = true.
Proof. reflexivity. Qed.

(** Exactly n * m * bin * nx points are tried, all in the box, each differing in at most one
    component from the start or an earlier one. If the objective value of the selected
    individual is NaN nothing is replaced; else one individual is, by the best of all points
    tried, which is not worse than the start. *)
Theorem C66_evolve : forall G P (r r2 : rng G) srt sel rep pw ex Ts Tf n m bin start, rng_contract r -> rng_contract r2 -> forall (s : G * pop P) p,
  po_prob (snd s) = p -> valid_pop (snd s) -> plain_single p -> fitness_defined p -> po_id (snd s) <> [] ->
  sa_construct Ts Tf n m start = Ok tt -> ex NaN = NaN -> Forall is_double (p_lb p) -> Forall is_double (p_ub p) -> boxed (snd s) -> (Z.of_nat bin * Z.of_nat (get_nx p) < 2 ^ 31)%Z ->
  ends (sa_evolve r r2 srt sel rep pw ex Ts Tf n m bin start) s
    (fun _ s' => valid_pop (snd s') /\ boxed (snd s') /\ exists i x f T, chosen srt sel (snd s) i /\ nth_error (po_x (snd s)) i = Some x /\ nth_error (po_f (snd s)) i = Some f /\
       tried p (in_box (p_lb p) (p_ub p)) (x, f) T /\ length T = n * m * bin * get_nx p /\ evals (length T) (snd s) (snd s') /\
       (obj f = NaN -> exists c, snd s' = with_fevals (snd s) c) /\
       (obj f <> NaN -> exists j x' f', chosen srt rep (snd s) j /\ one_replaced (snd s) (snd s') j x' f' /\ best_of (x, f) T (x', f')))
    (fun e => fails p e \/ (e = InvalidArgument /\ (bad_index sel (snd s) \/ bad_index rep (snd s)))).
Proof. exact @sa_ok. Qed.
Print Assumptions C66_evolve.
Example C66_evolve_nonvacuous : po_prob alg_pop = alg_problem /\ valid_pop alg_pop /\ plain_single alg_problem /\ fitness_defined alg_problem /\ po_id alg_pop <> [] /\
  (Forall is_double (p_lb alg_problem) /\ Forall is_double (p_ub alg_problem)) /\ boxed alg_pop /\ (Z.of_nat 20 * Z.of_nat (get_nx alg_problem) < 2 ^ 31)%Z /\ (forall e, ~ fails alg_problem e).
Proof. repeat (split; [first [exact alg_pop_valid|exact alg_problem_plain|exact alg_problem_defined|exact alg_doubles|exact alg_pop_in_box|discriminate|reflexivity]|]). exact alg_problem_no_fail. Qed.

(** With different policies for selection and replacement the best individual can get lost. *)
Theorem C66_mixed_policies_refuted : exists (s : list Z * pop (list Z)) s', valid_pop (snd s) /\ sa_construct (Fin 2) (Fin 1) 1 1 (Fin 1) = Ok tt /\
  sa_evolve stream_rng stream_rng (@isort) PWorst PBest (fun _ _ => done) (fun x => x) (Fin 2) (Fin 1) 1 1 0 (Fin 1) s = (Ok tt, s') /\
  po_f (snd s) = [[Fin 0]; [Fin 4]] /\ po_f (snd s') = [[Fin 4]; [Fin 4]].
Proof. exact sa_mixed_refuted. Qed.
Print Assumptions C66_mixed_policies_refuted.
