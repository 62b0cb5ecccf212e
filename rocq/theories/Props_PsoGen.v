(** C91: generational particle swarm optimization. *)
From Coq Require Import List Bool Arith ZArith.
From Verif Require Import Dbl SwarmSaved Outcome StdSort Compare SpecOrder Problem SpecProblem Rng Generic SpecGeneric GenericFacts3 SpecGenetic Population SpecPopulation Algo SpecAlgo SpecSwarm SpecNsga2 SpecCmaes AlgPso SpecPso AlgPsoFacts4 AlgPsoGen SpecPsoGen AlgPsoGenFacts AlgPsoGenFacts3 AlgExamples CmaesExamples PsoGenExamples.
Import ListNotations.

(** Constrained problems, several objectives and empty populations are refused before anything
    is changed; stochastic problems are not. *)
Theorem C91_rejects : forall G P srt (r : rng G) reseed bfe a V0 (s : G * pop P), get_nc (po_prob (snd s)) <> 0 \/ get_nf (po_prob (snd s)) <> 1 \/ po_id (snd s) = [] ->
  pgen_evolve srt r reseed bfe a V0 s = (Throw InvalidArgument, s).
Proof. exact @pgen_rejects. Qed.
Print Assumptions C91_rejects.
Example C91_rejects_nonvacuous : exists V s', pg_run (pg_params 2 1 false) [] [1; 0]%Z sto_two = (Ok V, s').
Proof. vm_compute. eexists. eexists. reflexivity. Qed.

(** evolve, for every variant and topology, with and without a batch evaluator, whatever the
    random numbers. On a deterministic problem every individual is unchanged or replaced by an
    evaluated point with coordinates in the bounds or NaN, such that the old one was not better:
    also if NaN values occur, which are worse than all others. One evaluation is made per
    individual and generation. On a stochastic problem the seed is changed once in every
    generation, and every individual is an evaluated point under the last seed: two evaluations
    per individual and generation. The only exceptions are those of the fitness function and
    invalid_argument if a velocity cannot be drawn. *)
Theorem C91_evolve : forall G P srt (r : rng G) reseed bfe, rng_contract r -> forall a V0 (s : G * pop P) p,
  pso_construct a = Ok tt -> po_prob (snd s) = p -> valid_pop (snd s) -> es_problem reseed bfe p -> po_id (snd s) <> [] -> (Z.of_nat (length (po_id (snd s))) < 2 ^ 31)%Z ->
  ring_fits a (length (po_id (snd s))) -> speeds_fit a V0 (length (po_id (snd s))) (get_nx p) ->
  ends (pgen_evolve srt r reseed bfe a V0) s
    (fun V s' => pgen_run reseed (in_box_or_nan (p_lb p) (p_ub p)) (ps_gen a) (snd s) (snd s') /\ length V = length (po_id (snd s)) /\ forall v, In v V -> get_nx p <= length v)
    (pgen_fails reseed a p).
Proof. exact @pgen_ok_nan. Qed.
Print Assumptions C91_evolve.
(** With parameters in the documented ranges (and a positive coefficient if the swarm is fully
    informed) and bounds, individuals and kept velocities below 2^900, no coordinate is NaN. *)
Theorem C91_evolve_in_box : forall G P srt (r : rng G) reseed bfe, rng_contract r -> forall a V0 (s : G * pop P) p,
  pso_valid a -> (ps_variant a = 6 -> dlt dzero (ps_omega a) = true) -> (Z.of_nat (ps_nparam a) < 2 ^ 32)%Z ->
  po_prob (snd s) = p -> valid_pop (snd s) -> es_problem reseed bfe p -> po_id (snd s) <> [] -> (Z.of_nat (length (po_id (snd s))) < 2 ^ 31)%Z ->
  ring_fits a (length (po_id (snd s))) -> speeds_fit a V0 (length (po_id (snd s))) (get_nx p) ->
  (forall l, In l (p_lb p) -> below_2p900 l) -> (forall u, In u (p_ub p) -> below_2p900 u) ->
  (forall x v, In x (po_x (snd s)) -> In v x -> below_2p900 v) -> (forall x v, In x V0 -> In v x -> below_2p900 v) ->
  ends (pgen_evolve srt r reseed bfe a V0) s
    (fun V s' => pgen_run reseed (in_box (p_lb p) (p_ub p)) (ps_gen a) (snd s) (snd s') /\ length V = length (po_id (snd s)) /\ forall v, In v V -> get_nx p <= length v)
    (pgen_fails reseed a p).
Proof. exact @pgen_ok_box. Qed.
Print Assumptions C91_evolve_in_box.
Example C91_evolve_nonvacuous : pso_valid (pg_params 2 1 false) /\ pso_construct (pg_params 2 1 false) = Ok tt /\ valid_pop alg_pop /\ es_problem sto_reseed None alg_problem /\ valid_pop sto_two /\ es_problem sto_reseed None (sto_problem 0) /\
  (forall n, ring_fits (pg_params 2 1 false) n) /\ fs_of (pg_run (pg_params 2 1 false) [] [1; 0; 0; 1; 2; 0; 0; 2; 1; 1]%Z alg_pop) = [[Fin 10]; [Fin 4]; [Fin 0]; [Fin 0]; [Fin 12]] /\
  exists x y, xs_of' (pg_run (pg_params 2 1 false) [] [1; 0; 0; 1; 2; 0; 0; 2; 1; 1]%Z sto_two) = [x; y] /\ y <> [Fin 2; Fin 2].
Proof. exact (conj (pg_valid 2 1 false (conj (le_n 1) (le_S _ _ (le_S _ _ (le_S _ _ (le_n 1)))))) (conj (pg_construct 2 1 false (conj (le_n 1) (le_S _ _ (le_S _ _ (le_S _ _ (le_n 1)))))) (conj alg_pop_valid (conj alg_es (conj sto_two_valid (conj sto_es (conj (pg_fits (pg_params 2 1 false) (fun E => match Nat.eq_dec 1 2 with left Q => Nat.neq_succ_diag_r 1 Q | right Q => Q E end)) (conj (proj2 pg_example) pg_sto)))))))). Qed.

(** With a batch evaluator that does what the problem does, under every seed, the run is the
    same as without. *)
Theorem C91_batch : forall G P srt (r : rng G) reseed ud, rng_contract r -> forall a V0 (s : G * pop P) p,
  pso_construct a = Ok tt -> po_prob (snd s) = p -> valid_pop (snd s) -> es_problem reseed (Some ud) p -> po_id (snd s) <> [] -> (Z.of_nat (length (po_id (snd s))) < 2 ^ 31)%Z ->
  ring_fits a (length (po_id (snd s))) -> speeds_fit a V0 (length (po_id (snd s))) (get_nx p) ->
  same_run (pgen_evolve srt r reseed (Some ud) a V0 s) (pgen_evolve srt r reseed None a V0 s).
Proof. exact @pgen_same. Qed.
Print Assumptions C91_batch.
Example C91_batch_nonvacuous : es_problem sto_reseed (Some pg_bfe) (sto_problem 0) /\ valid_pop sto_two.
Proof. exact (conj sto_es_bfe sto_two_valid). Qed.

(** The best neighbour: the position remembered by a neighbour such that no other neighbour's is
    better, NaN being the worst. *)
Theorem C91_best_neighbour : forall nb lbX lbf n m, nb <> [] -> length lbX = n -> length lbf = n -> (forall f, In f lbf -> length f = S m) -> (forall j, In j nb -> (0 <= j < Z.of_nat n)%Z) ->
  exists k x f, pgen_best_neighbor nb lbX lbf = Ok x /\ In k nb /\ nth_error lbX (Z.to_nat k) = Some x /\ nth_error lbf (Z.to_nat k) = Some f /\
    (forall j g, In j nb -> nth_error lbf (Z.to_nat j) = Some g -> ~ better (obj g) (obj f)).
Proof. exact pgen_neighbor_ok. Qed.
Print Assumptions C91_best_neighbour.
Example C91_best_neighbour_nonvacuous : pgen_best_neighbor [2; 0; 1]%Z [[Fin 7]; [Fin 8]; [Fin 9]] [[Fin 4]; [Fin 3]; [NaN]] = Ok [Fin 8].
Proof. exact eq_refl. Qed.
(** After a new seed the leader of the whole swarm is the best of the present positions. *)
Theorem C91_leader : forall X fs m, length fs = length X -> X <> [] -> (forall f, In f fs -> length f = S m) ->
  exists q x f, pgen_best X fs = Ok (x, f) /\ nth_error X q = Some x /\ nth_error fs q = Some f /\ forall j g, nth_error fs j = Some g -> ~ better (obj g) (obj f).
Proof. exact pgen_best_ok. Qed.
Print Assumptions C91_leader.
Example C91_leader_nonvacuous : pgen_best [[Fin 7]; [Fin 8]; [Fin 9]] [[NaN]; [Fin 3]; [Fin 4]] = Ok ([Fin 8], [Fin 3]).
Proof. exact eq_refl. Qed.
(** But not the best known point: a remembered position that is better under the new seed is not
    considered. *)
Theorem C91_leader_is_best_known_refuted : exists (sw0 : swarm) (s0 : list Z * pop (list Z)) fs sw s' f, pgen_evaluate stream_rng sto_reseed None sw0 s0 = (Ok (fs, sw), s') /\ sw_lbX sw = [[Fin 1; Fin 1]] /\ sw_lbf sw = [[f]] /\
  evaluated (po_prob (snd s')) [Fin 1; Fin 1] [f] /\ sw_bn sw = [Fin 5; Fin 5] /\ evaluated (po_prob (snd s')) (sw_bn sw) (sw_bf sw) /\ better f (obj (sw_bf sw)).
Proof. exact (ex_intro _ pg_swarm (ex_intro _ ([7]%Z, sto_one) pg_gbest)). Qed.
Print Assumptions C91_leader_is_best_known_refuted.
(** As in pso: a ring that does not fit the population, and velocities kept from a problem of
    another dimension, are read out of range; the memory flag is not serialized. *)
Theorem C91_small_population_refuted : exists a, pso_construct a = Ok tt /\ ~ ring_fits a 1 /\ fst (pg_run a [] [] (one_pop alg_fit)) = UB.
Proof. exact (ex_intro _ (pg_params 1 2 false) (conj (pg_construct 1 2 false (conj (le_S _ _ (le_n 1)) (le_S _ _ (le_S _ _ (le_n 2))))) pg_small)). Qed.
Print Assumptions C91_small_population_refuted.
Theorem C91_other_dimension_refuted : exists a V0, pso_construct a = Ok tt /\ ps_memory a = true /\ fst (pg_run a V0 [] (one_pop alg_fit)) = UB.
Proof. exact (ex_intro _ (pg_params 1 1 true) (ex_intro _ [[Fin 0]] (conj (pg_construct 1 1 true (conj (le_n 1) (le_S _ _ (le_S _ _ (le_S _ _ (le_n 1)))))) (conj eq_refl pg_stale)))). Qed.
Print Assumptions C91_other_dimension_refuted.
Theorem C91_memory_serialized_refuted : forall old, ps_memory old = false -> exists a, pso_construct a = Ok tt /\ ps_memory a = true /\ ps_memory (fst (pgen_load (B := unit) old (pgen_save a None))) = false.
Proof. exact pg_memory. Qed.
Print Assumptions C91_memory_serialized_refuted.

(** All other parameters, and the batch evaluator, are serialized. *)
Theorem C91_parameters_serialized : forall (B : Type) old a (b : option B), let a' := fst (pgen_load old (pgen_save a b)) in
  ps_gen a' = ps_gen a /\ ps_omega a' = ps_omega a /\ ps_eta1 a' = ps_eta1 a /\ ps_eta2 a' = ps_eta2 a /\ ps_max_vel a' = ps_max_vel a /\ ps_variant a' = ps_variant a /\ ps_ntype a' = ps_ntype a /\ ps_nparam a' = ps_nparam a /\ (ps_memory old = ps_memory a -> a' = a) /\ snd (pgen_load old (pgen_save a b)) = b.
Proof. exact pgen_saved. Qed.
Print Assumptions C91_parameters_serialized.
Example C91_parameters_serialized_eta : ps_eta1 (fst (pgen_load (mkpso 0 dzero dzero dzero dzero 5 2 4 false) (pgen_save (mkpso 9 done (Fin 1) (Fin 2) done 5 2 4 false) (Some tt)))) = Fin 1.
Proof. exact eq_refl. Qed.
