(** Properties of populations: C15-C19. *)
From Coq Require Import List Bool Arith ZArith Lia.
From Verif Require Import Dbl Outcome StdSort BaseFacts SpecOrder Constrained SpecConstrained Problem SpecProblem Rng Generic SpecGeneric GenericFacts3
  Population SpecPopulation PopulationFacts PopulationFacts2 PopulationFacts3 PopulationFacts4.
Import ListNotations.

(** C15. Consistency after every history of calls, successful or not. *)
Theorem C15_stored : forall G (r : rng G) p s, rng_contract r -> reachable r p s -> stored s /\ po_prob s = p.
Proof. exact (fun G r p s RC R => let H := reachable_inv r RC p s R in conj (proj1 H) (proj2 (proj2 H))). Qed.
Print Assumptions C15_stored.
(** What each successful call does; nothing else changes. *)
Theorem C15_effect : forall G (r : rng G) p s o s', rng_contract r -> reachable r p s ->
  pop_step r s o = (s', Ok tt) -> effect s o s'.
Proof.
  exact (fun G r p s o s' RC R E => match proj2 (proj2 (step_spec r RC s o s' (Ok tt) (proj1 (reachable_inv r RC p s R)) E)) with
         | or_introl H => proj1 (proj2 H) | or_intror H => match proj1 H eq_refl with end end).
Qed.
Print Assumptions C15_effect.
(** When calls succeed. *)
Theorem C15_success : forall G (r : rng G) p s o, rng_contract r -> prob_obj p -> reachable r p s ->
  (Z.of_nat (length (po_id s)) < u64max)%Z -> (snd (pop_step r s o) = Ok tt <-> call_ok r s o).
Proof. exact (fun G r p s o RC => call_ok_iff r RC p s o). Qed.
Print Assumptions C15_success.
Example C15_nonvacuous : prob_obj pop_problem /\ exists s tr, pop_run stream_rng (empty_pop pop_problem [11; 12; 13]%Z) ex_ops = (s, tr) /\
  map snd tr = [Ok tt; Ok tt; Throw (UserExn 3); Throw InvalidArgument; Ok tt; Ok tt; Ok tt] /\
  po_id s = [11; 12; 13]%Z /\ po_x s = [[Fin 7]; [Fin 1]; [Fin 6]] /\ po_f s = [[Fin 7]; [NaN]; [Fin 6]] /\ po_cx s = [Fin 5] /\ po_cf s = [Fin 5] /\ po_fevals s = 3%Z /\
  inserted pop_problem tr = [([Fin 5], [Fin 5]); ([Fin 1], [NaN]); ([Fin 7], [Fin 7]); ([Fin 6], [Fin 6])].
Proof. exact (conj pop_problem_obj ex_history). Qed.

(** C16. Unconstrained: the champion is the first of the best pairs ever inserted. *)
Theorem C16_champion_unconstrained : forall G (r : rng G) p g ops s' tr, rng_contract r -> prob_obj p -> p_nobj p = 1 -> get_nc p = 0 ->
  pop_run r (empty_pop p g) ops = (s', tr) ->
  (inserted p tr = [] /\ po_cx s' = [] /\ po_cf s' = []) \/
  (exists l1 l2, inserted p tr = l1 ++ (po_cx s', po_cf s') :: l2 /\
     (forall q, In q (inserted p tr) -> not_worse (nth 0 (po_cf s') NaN) (nth 0 (snd q) NaN)) /\
     (forall q, In q l1 -> better (nth 0 (po_cf s') NaN) (nth 0 (snd q) NaN))).
Proof. exact champion_unconstrained. Qed.
Print Assumptions C16_champion_unconstrained.
(** Constrained: no inserted vector beats it, on vectors none of which beats itself. *)
Theorem C16_champion_constrained : forall G (r : rng G) p g ops s' tr, rng_contract r -> prob_obj p -> p_nobj p = 1 -> 0 < get_nc p ->
  pop_run r (empty_pop p g) ops = (s', tr) ->
  (forall q, In q (inserted p tr) -> fc_lt (p_nec p) (p_ctol p) (snd q) (snd q) = false) ->
  (inserted p tr = [] /\ po_cx s' = [] /\ po_cf s' = []) \/
  (In (po_cx s', po_cf s') (inserted p tr) /\
     forall q, In q (inserted p tr) -> compare_fc (snd q) (po_cf s') (p_nec p) (p_ctol p) = Ok false).
Proof. exact champion_constrained. Qed.
Print Assumptions C16_champion_constrained.
Example C16_nonvacuous : prob_obj popc_problem /\ exists s tr,
  pop_run stream_rng (empty_pop popc_problem [11; 12]%Z) [PushBack [Fin 5; Fin (-1)]; PushBack [Fin 3; Fin (-1)]; SetXF 1 [Fin 4; Fin 0] [Fin 4; Fin 0]] = (s, tr) /\
  po_cx s = [Fin 3; Fin (-1)] /\ (forall q, In q (inserted popc_problem tr) -> fc_lt 0 [Fin 0] (snd q) (snd q) = false).
Proof. exact (conj popc_problem_obj ex_history_c). Qed.

(** C17. A call that does not succeed changes no individual, no id and no champion. *)
Theorem C17_rejected : forall G (r : rng G) p s o s' res, rng_contract r -> reachable r p s ->
  pop_step r s o = (s', res) -> res <> Ok tt -> same_content s s'.
Proof.
  exact (fun G r p s o s' res RC R E N => match proj2 (proj2 (step_spec r RC s o s' res (proj1 (reachable_inv r RC p s R)) E)) with
         | or_introl H => match N (proj1 H) with end | or_intror H => proj2 H end).
Qed.
Print Assumptions C17_rejected.
(** The evaluation counter moves exactly as the fitness call made by the operation says. *)
Theorem C17_counter : forall G (r : rng G) p s o, rng_contract r -> reachable r p s -> po_fevals (fst (pop_step r s o)) =
  match o with
  | PushBack x | SetX _ x => snd (fitness (po_prob s) (po_fevals s) x)
  | _ => po_fevals s
  end.
Proof. exact (fun G r p s o RC R => fevals_step r RC s o (proj1 (reachable_inv r RC p s R))). Qed.
Print Assumptions C17_counter.
(** So a rejected set_x may have consumed an evaluation. *)
Theorem C17_no_evaluation_refuted : exists p (s : pop (list Z)) i x, prob_obj p /\ reachable stream_rng p s /\
  snd (pop_step stream_rng s (SetX i x)) = Throw InvalidArgument /\ po_fevals (fst (pop_step stream_rng s (SetX i x))) <> po_fevals s.
Proof. exact set_x_counts. Qed.
Print Assumptions C17_no_evaluation_refuted.

(** C18. *)
Theorem C18_best_idx : forall G (r : rng G) srt p s, rng_contract r -> prob_obj p -> reachable r p s -> p_nobj p = 1 -> get_nc p = 0 ->
  po_id s <> [] -> nth 0 (nth 0 (po_f s) []) NaN <> NaN ->
  exists i f, best_idx srt s = Ok i /\ nth_error (po_f s) i = Some f /\ forall f', In f' (po_f s) -> not_worse (nth 0 f NaN) (nth 0 f' NaN).
Proof. exact (fun G r srt p s RC => best_idx_unconstrained r RC srt p s). Qed.
Print Assumptions C18_best_idx.
Theorem C18_worst_idx : forall G (r : rng G) srt p s, rng_contract r -> prob_obj p -> reachable r p s -> p_nobj p = 1 -> get_nc p = 0 ->
  po_id s <> [] -> (forall f, In f (po_f s) -> nth 0 f NaN <> NaN) ->
  exists i f, worst_idx srt s = Ok i /\ nth_error (po_f s) i = Some f /\ forall f', In f' (po_f s) -> not_worse (nth 0 f' NaN) (nth 0 f NaN).
Proof. exact (fun G r srt p s RC => worst_idx_unconstrained r RC srt p s). Qed.
Print Assumptions C18_worst_idx.
Example C18_nonvacuous : exists s : pop (list Z), reachable stream_rng pop_problem s /\ po_f s = [[Fin 3]; [Fin 1]; [Fin 2]] /\ best_idx (@isort) s = Ok 1 /\ worst_idx (@isort) s = Ok 0.
Proof. exact idx_example. Qed.
(** Constrained, for any tolerance vector of the right size (the tolerances of the problem
    and the scalar overloads are instances), when the comparator is a strict weak order. *)
Theorem C18_constrained : forall G (r : rng G) srt p s tol, rng_contract r -> sort_contract srt -> prob_obj p -> reachable r p s ->
  p_nobj p = 1 -> 0 < get_nc p -> length tol = get_nc p -> po_id s <> [] -> strict_weak_on (fc_lt (p_nec p) tol) (po_f s) ->
  exists i j f f', best_idx_tol srt s tol = Ok i /\ nth_error (po_f s) i = Some f /\ worst_idx_tol srt s tol = Ok j /\ nth_error (po_f s) j = Some f' /\
   forall h, In h (po_f s) -> compare_fc h f (p_nec p) tol = Ok false /\ compare_fc f' h (p_nec p) tol = Ok false.
Proof. exact (fun G r srt p s tol RC => idx_constrained r RC srt p s tol). Qed.
Print Assumptions C18_constrained.
Example C18_constrained_nonvacuous : exists s : pop (list Z), reachable stream_rng popc_problem s /\ po_f s = [[Fin 3; Fin (-1)]; [Fin 1; Fin (-2)]] /\
  strict_weak_on (fc_lt 0 [Fin 0]) (po_f s) /\ best_idx (@isort) s = Ok 1 /\ worst_idx (@isort) s = Ok 0.
Proof. exact idx_example_c. Qed.
Theorem C18_rejects : forall G (r : rng G) srt p s tol, rng_contract r -> reachable r p s -> po_id s = [] \/ 1 < p_nobj p ->
  best_idx_tol srt s tol = Throw InvalidArgument /\ worst_idx_tol srt s tol = Throw InvalidArgument.
Proof. exact (fun G r srt p s tol RC => idx_rejects r RC srt p s tol). Qed.
Print Assumptions C18_rejects.
(** NaN is not treated as the worst value here: first, it is returned as the best; later,
    it is overlooked as the worst. *)
Theorem C18_best_with_nan_refuted : exists p (s : pop (list Z)) f f0, prob_obj p /\ reachable stream_rng p s /\ p_nobj p = 1 /\ get_nc p = 0 /\
  (forall srt, best_idx srt s = Ok 0) /\ nth_error (po_f s) 0 = Some f0 /\ In f (po_f s) /\ better (nth 0 f NaN) (nth 0 f0 NaN).
Proof. exact best_idx_nan. Qed.
Print Assumptions C18_best_with_nan_refuted.
Theorem C18_worst_with_nan_refuted : exists p (s : pop (list Z)) f f0, prob_obj p /\ reachable stream_rng p s /\ p_nobj p = 1 /\ get_nc p = 0 /\
  (forall srt, worst_idx srt s = Ok 0) /\ nth_error (po_f s) 0 = Some f0 /\ In f (po_f s) /\ better (nth 0 f0 NaN) (nth 0 f NaN).
Proof. exact worst_idx_nan. Qed.
Print Assumptions C18_worst_with_nan_refuted.

(** C19. Both constructors build the same population (individuals, ids, champion, counter
    and generator state), if the evaluator returns the fitness of every vector. *)
Theorem C19_constructors : forall G (r : rng G) p (ud : problem -> list dbl -> outcome (list dbl)) c0 n g,
  rng_contract r -> prob_obj p -> bounded_problem p -> usable p ->
  (forall x, in_box (p_lb p) (p_ub p) x -> exists f, u_fitness (p_udp p) x = Ok f /\ length f = get_nf p) ->
  (forall vs fs, Forall2 (fun x f => u_fitness (p_udp p) x = Ok f) vs fs -> ud p (concat vs) = Ok (concat fs)) ->
  (0 <= c0 < 2 ^ 64)%Z -> (Z.of_nat n * Z.of_nat (get_nx p) < 2 ^ 64)%Z ->
  exists s, prob_ctor r p c0 n g = Ok s /\ bfe_ctor r ud p c0 n g = Ok s /\ length (po_id s) = n /\ po_fevals s = wrap64 (c0 + Z.of_nat n).
Proof. exact (fun G r p ud c0 n g RC PO BP US FIT UD Hc OV => ctor_same r RC p BP US FIT ud c0 n g PO Hc OV UD). Qed.
Print Assumptions C19_constructors.
Example C19_nonvacuous : bounded_problem pop_problem /\ usable pop_problem /\
  (forall x, in_box (p_lb pop_problem) (p_ub pop_problem) x -> exists f, u_fitness (p_udp pop_problem) x = Ok f /\ length f = get_nf pop_problem) /\
  (forall vs fs, Forall2 (fun x f => u_fitness (p_udp pop_problem) x = Ok f) vs fs -> (fun _ xs => Ok xs) pop_problem (concat vs) = Ok (concat fs)) /\
  match bfe_ctor stream_rng (fun _ xs => Ok xs) pop_problem 0 2 [5; 6]%Z with Ok s => po_id s = [5; 6]%Z /\ po_x s = [[Fin 0]; [Fin 0]] | _ => False end.
Proof. exact ctor_example. Qed.
