(** C65: compass search. *)
From Coq Require Import String List Bool Arith ZArith.
From Verif Require Import Dbl Outcome StdSort SpecOrder Problem SpecProblem Rng GenericFacts3 SpecGeneric SpecGenetic SpecConstrained Population SpecPopulation Algo SpecAlgo NotPop SpecLocal AlgCompass AlgCompassFacts AlgCompassFacts2 AlgExamples.
Import ListNotations.

Theorem C65_constructor : forall start stop red,
  (cs_construct start stop red = Ok tt <-> (dlt dzero start = true /\ dle start done = true) /\ dlt stop start = true /\ (dlt dzero red = true /\ dlt red done = true)) /\
  (cs_construct start stop red = Ok tt \/ cs_construct start stop red = Throw InvalidArgument).
Proof. exact cs_constructor. Qed.
Print Assumptions C65_constructor.
Example C65_constructor_nonvacuous : cs_construct (Fin 2) (Fin 1) (Fin 1) = Ok tt /\ cs_construct NaN (Fin 1) (Fin 1) = Throw InvalidArgument.
Proof. exact (conj cs_small eq_refl). Qed.

Theorem C65_rejects : forall G P (r : rng G) srt sel rep max start stop red fuel (s : G * pop P),
  p_nobj (po_prob (snd s)) <> 1 \/ u_set_seed (p_udp (po_prob (snd s))) = true \/ po_id (snd s) = [] ->
  cs_evolve r srt sel rep max start stop red fuel s = (Throw InvalidArgument, s).
Proof. exact @cs_rejects. Qed.
Print Assumptions C65_rejects.
Theorem C65_no_evaluations : forall G P (r : rng G) srt sel rep start stop red fuel (s : G * pop P),
  p_nobj (po_prob (snd s)) = 1 -> u_set_seed (p_udp (po_prob (snd s))) = false -> po_id (snd s) <> [] ->
  cs_evolve r srt sel rep 0 start stop red fuel s = (Ok tt, s).
Proof. exact @cs_nothing. Qed.
Print Assumptions C65_no_evaluations.
Example C65_rejects_nonvacuous : u_set_seed (p_udp (sto_problem 0)) = true /\ p_nobj alg_problem = 1 /\ u_set_seed (p_udp alg_problem) = false.
Proof. repeat split. Qed.

(** The search ends (a number of passes larger than max_fevals is enough fuel) after at most
    max_fevals + 2 nx evaluations. One individual is replaced, by a point reached from the
    selected one through preferred points only; unless the evaluations ran out, it is a
    local optimum at the final step size. *)
Theorem C65_evolve : forall G P (r : rng G), rng_contract r -> forall srt sel rep max start stop red fuel (s : G * pop P) p,
  po_prob (snd s) = p -> valid_pop (snd s) -> p_nobj p = 1 -> u_set_seed (p_udp p) = false -> fitness_defined p -> po_id (snd s) <> [] -> ranked srt (snd s) ->
  cs_construct start stop red = Ok tt -> (0 < max)%Z -> (max + 2 * Z.of_nat (get_nx p) < 2 ^ 32)%Z -> (max < Z.of_nat fuel)%Z ->
  ends (cs_evolve r srt sel rep max start stop red fuel) s
    (fun _ s' => valid_pop (snd s') /\ exists i j x f x' f' n, chosen srt sel (snd s) i /\ nth_error (po_x (snd s)) i = Some x /\ nth_error (po_f (snd s)) i = Some f /\
       descends p (fun _ => True) (x, f) (x', f') /\ chosen srt rep (snd s) j /\ one_replaced (snd s) (snd s') j x' f' /\
       evals n (snd s) (snd s') /\ (Z.of_nat n <= max + 2 * Z.of_nat (get_nx p))%Z /\ ((Z.of_nat n <= max)%Z -> local_optimum p stop red x' f'))
    (fun e => fitness_throws p e \/ (e = InvalidArgument /\ (bad_index sel (snd s) \/ bad_index rep (snd s)))).
Proof. exact @cs_any. Qed.
Print Assumptions C65_evolve.
Example C65_evolve_nonvacuous : po_prob alg_pop = alg_problem /\ valid_pop alg_pop /\ p_nobj alg_problem = 1 /\ u_set_seed (p_udp alg_problem) = false /\ fitness_defined alg_problem /\
  po_id alg_pop <> [] /\ ranked (@isort) alg_pop /\ (forall e, ~ fails alg_problem e).
Proof. repeat (split; [first [exact alg_pop_valid|exact alg_problem_defined|exact (alg_ranked _)|discriminate|reflexivity]|]). exact alg_problem_no_fail. Qed.

(** Inside the box, if the bounds are finite and the stop range is not negative. *)
Theorem C65_evolve_in_box : forall G P (r : rng G), rng_contract r -> forall srt sel rep max start stop red fuel (s : G * pop P) p,
  po_prob (snd s) = p -> valid_pop (snd s) -> p_nobj p = 1 -> u_set_seed (p_udp p) = false -> fitness_defined p -> po_id (snd s) <> [] -> ranked srt (snd s) ->
  cs_construct start stop red = Ok tt -> (0 < max)%Z -> (max + 2 * Z.of_nat (get_nx p) < 2 ^ 32)%Z -> (max < Z.of_nat fuel)%Z ->
  dle dzero stop = true -> finite_bounds (p_lb p) (p_ub p) -> Forall is_double (p_lb p) -> Forall is_double (p_ub p) -> boxed (snd s) ->
  ends (cs_evolve r srt sel rep max start stop red fuel) s
    (fun _ s' => boxed (snd s') /\ exists i j x f x' f', chosen srt sel (snd s) i /\ nth_error (po_x (snd s)) i = Some x /\ nth_error (po_f (snd s)) i = Some f /\
       descends p (in_box (p_lb p) (p_ub p)) (x, f) (x', f') /\ chosen srt rep (snd s) j /\ one_replaced (snd s) (snd s') j x' f')
    (fun e => fitness_throws p e \/ (e = InvalidArgument /\ (bad_index sel (snd s) \/ bad_index rep (snd s)))).
Proof. exact @cs_boxed. Qed.
Print Assumptions C65_evolve_in_box.
Example C65_evolve_in_box_nonvacuous : finite_bounds (p_lb alg_problem) (p_ub alg_problem) /\ (Forall is_double (p_lb alg_problem) /\ Forall is_double (p_ub alg_problem)) /\ boxed alg_pop.
Proof. exact (conj alg_finite (conj alg_doubles alg_pop_in_box)). Qed.

(** What such a chain of steps means: a feasible point only leads to feasible points, with a
    better objective value; the number of satisfied constraints never decreases. *)
Theorem C65_descent : forall p Box x f x' f', prob_obj p -> p_nobj p = 1 -> length x = get_nx p -> length f = get_nf p -> finite_all (p_ctol p) -> descends p Box (x, f) (x', f') ->
  (feasible (p_nec p) (p_ctol p) f -> feasible (p_nec p) (p_ctol p) f' /\ (f' = f \/ better (obj f') (obj f))) /\
  (forall n n', exactly n (satisfied (p_nec p) (p_ctol p) f) -> exactly n' (satisfied (p_nec p) (p_ctol p) f') -> n <= n').
Proof. exact descends_means. Qed.
Print Assumptions C65_descent.
Example C65_descent_nonvacuous : descends alg_problem (fun _ => True) ([Fin 2; Fin 2], [Fin 4]) ([Fin 1; Fin 2], [Fin 3]).
Proof. exact descent_example. Qed.

(** max_fevals is not a hard limit. *)
Theorem C65_hard_limit_refuted : exists (s : list Z * pop (list Z)) start stop red max fuel s', valid_pop (snd s) /\ cs_construct start stop red = Ok tt /\
  cs_evolve stream_rng (@isort) PBest PBest max start stop red fuel s = (Ok tt, s') /\ (po_fevals (snd s') - po_fevals (snd s) > max)%Z.
Proof. exact cs_cap_refuted. Qed.
Print Assumptions C65_hard_limit_refuted.
(** The constructor accepts negative stop ranges, with which NaN can enter. *)
Theorem C65_negative_stop_refuted : exists (s : list Z * pop (list Z)) start stop red s', valid_pop (snd s) /\ boxed (snd s) /\ finite_bounds (p_lb (po_prob (snd s))) (p_ub (po_prob (snd s))) /\ cs_construct start stop red = Ok tt /\
  cs_evolve stream_rng (@isort) PBest PBest 2 start stop red 3 s = (Ok tt, s') /\ ~ boxed (snd s').
Proof. exact cs_nan_refuted. Qed.
Print Assumptions C65_negative_stop_refuted.

(** The policies are named by strings. *)
Theorem C65_policies : forall t, match policy_of_string t with
  | Ok pol => (t = "best" /\ pol = PBest) \/ (t = "worst" /\ pol = PWorst) \/ (t = "random" /\ pol = PRandom)
  | Throw e => e = InvalidArgument /\ t <> "best" /\ t <> "worst" /\ t <> "random" | _ => False end%string.
Proof. exact policy_string_ok. Qed.
Print Assumptions C65_policies.
Example C65_policies_nonvacuous : policy_of_string "worst" = Ok PWorst.
Proof. reflexivity. Qed.
