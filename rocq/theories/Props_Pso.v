(** C72: particle swarm optimization. *)
From Coq Require Import List Bool Arith ZArith.
From Verif Require Import Dbl SwarmSaved Outcome StdSort Problem SpecProblem Rng GenericFacts3 SpecGeneric SpecGenetic Population SpecPopulation Algo SpecAlgo SpecSwarm AlgPso SpecPso AlgPsoFacts AlgPsoFacts3 AlgPsoFacts4 AlgExamples.
Import ListNotations.

(** Parameters that are numbers are accepted exactly if they are in the documented ranges. *)
Theorem C72_constructor : forall a, ps_omega a <> NaN -> ps_eta1 a <> NaN -> ps_eta2 a <> NaN -> ps_max_vel a <> NaN ->
  (pso_valid a /\ pso_construct a = Ok tt) \/ (~ pso_valid a /\ pso_construct a = Throw InvalidArgument).
Proof. exact construct_ok. Qed.
Print Assumptions C72_constructor.
Example C72_constructor_nonvacuous : pso_valid (ring_params 4) /\ pso_construct (ring_params 4) = Ok tt.
Proof. exact (conj (ring_params_valid 4 (le_S _ _ (le_S _ _ (le_S _ _ (le_n 1))))) (ring_params_construct 4 (le_S _ _ (le_S _ _ (le_S _ _ (le_n 1)))))). Qed.

Theorem C72_rejects : forall G P srt (r : rng G) a V0 (s : G * pop P), ~ plain_single (po_prob (snd s)) \/ po_id (snd s) = [] -> pso_evolve srt r a V0 s = (Throw InvalidArgument, s).
Proof. exact @pso_rejects. Qed.
Print Assumptions C72_rejects.
Example C72_rejects_nonvacuous : ~ plain_single (sto_problem 0).
Proof. exact (fun H => Bool.diff_true_false (proj2 (proj2 H))). Qed.

(** One coordinate of one move: the velocity is first limited to the greatest speed, and
    unchanged if it is already within it; then the particle moves by it, unless that would
    take it across a bound, in which case it stops on that bound. *)
Theorem C72_step : forall a l u v x, dle dzero (dmul (dsub u l) (ps_max_vel a)) = true -> v <> NaN -> dle l u = true -> exists c,
  within (dneg (dmul (dsub u l) (ps_max_vel a))) (dmul (dsub u l) (ps_max_vel a)) c /\
  (within (dneg (dmul (dsub u l) (ps_max_vel a))) (dmul (dsub u l) (ps_max_vel a)) v -> c = v) /\
  ((dlt (dadd x c) l = true /\ pso_move1 a l u v x = (dzero, l)) \/
   (dlt u (dadd x c) = true /\ pso_move1 a l u v x = (dzero, u)) \/
   (dlt (dadd x c) l = false /\ dlt u (dadd x c) = false /\ pso_move1 a l u v x = (c, dadd x c))).
Proof. exact move_step. Qed.
Print Assumptions C72_step.
Example C72_step_nonvacuous : dle dzero (dmul (dsub (Fin 4) (Fin 0)) (ps_max_vel (ring_params 4))) = true.
Proof. exact eq_refl. Qed.

(** Every returned individual is the given one or an evaluated point remembered by its
    particle, with coordinates in the bounds or NaN; its value is not larger than before if
    neither the given value nor that of any such point is NaN. One evaluation per particle
    and generation. The velocities kept for the next call have enough components for it.
    The neighbourhood radius must fit the population, and so must velocities kept from an
    earlier call: otherwise see the refutations below. *)
Theorem C72_evolve : forall G P srt (r : rng G), rng_contract r -> forall a V0 (s : G * pop P) p,
  pso_construct a = Ok tt -> po_prob (snd s) = p -> valid_pop (snd s) -> plain_single p -> fitness_defined p -> po_id (snd s) <> [] -> (Z.of_nat (length (po_id (snd s))) < 2 ^ 31)%Z ->
  ring_fits a (length (po_id (snd s))) -> speeds_fit a V0 (length (po_id (snd s))) (get_nx p) ->
  ends (pso_evolve srt r a V0) s
    (fun V s' => valid_pop (snd s') /\ replaced (remembered p (in_box_or_nan (p_lb p) (p_ub p))) (snd s) (snd s') /\ evals (ps_gen a * length (po_id (snd s))) (snd s) (snd s') /\
       length V = length (po_id (snd s)) /\ forall v, In v V -> get_nx p <= length v)
    (pso_fails a p).
Proof. exact @pso_ok_nan. Qed.
Print Assumptions C72_evolve.
(** With parameters in the documented ranges (and a positive coefficient if the swarm is fully
    informed) and bounds, individuals and kept velocities below 2^900, no coordinate is NaN. *)
Theorem C72_evolve_in_box : forall G P srt (r : rng G), rng_contract r -> forall a V0 (s : G * pop P) p,
  pso_valid a -> (ps_variant a = 6 -> dlt dzero (ps_omega a) = true) -> (Z.of_nat (ps_nparam a) < 2 ^ 32)%Z ->
  po_prob (snd s) = p -> valid_pop (snd s) -> plain_single p -> fitness_defined p -> po_id (snd s) <> [] -> (Z.of_nat (length (po_id (snd s))) < 2 ^ 31)%Z ->
  ring_fits a (length (po_id (snd s))) -> speeds_fit a V0 (length (po_id (snd s))) (get_nx p) ->
  (forall l, In l (p_lb p) -> below_2p900 l) -> (forall u, In u (p_ub p) -> below_2p900 u) ->
  (forall x v, In x (po_x (snd s)) -> In v x -> below_2p900 v) -> (forall x v, In x V0 -> In v x -> below_2p900 v) ->
  ends (pso_evolve srt r a V0) s
    (fun V s' => valid_pop (snd s') /\ replaced (remembered p (in_box (p_lb p) (p_ub p))) (snd s) (snd s') /\ evals (ps_gen a * length (po_id (snd s))) (snd s) (snd s') /\
       length V = length (po_id (snd s)) /\ forall v, In v V -> get_nx p <= length v)
    (pso_fails a p).
Proof. exact @pso_ok_box. Qed.
Print Assumptions C72_evolve_in_box.
Example C72_evolve_nonvacuous : let a := ring_params 4 in pso_valid a /\ pso_construct a = Ok tt /\ valid_pop alg_pop /\ plain_single alg_problem /\ fitness_defined alg_problem /\ ring_fits a 5 /\ speeds_fit a [] 5 2 /\
  (forall l, In l (p_lb alg_problem) -> below_2p900 l) /\ (forall u, In u (p_ub alg_problem) -> below_2p900 u) /\ (forall x v, In x (po_x alg_pop) -> In v x -> below_2p900 v) /\ (forall e, ~ pso_fails a alg_problem e).
Proof. exact evolve_nonvacuous. Qed.

(** The neighbourhoods. Ring: those at distance at most the radius in both directions. *)
Theorem C72_ring : forall n k, 1 <= k / 2 <= n -> (Z.of_nat n < 2 ^ 64)%Z -> length (pso_lbest n k) = n /\
  forall i l, nth_error (pso_lbest n k) i = Some l -> length l = 2 * (k / 2) /\ forall j, In j l <-> on_ring (Z.of_nat n) (Z.of_nat (k / 2)) (Z.of_nat i) j.
Proof. exact pso_lbest_ok. Qed.
Print Assumptions C72_ring.
Example C72_ring_nonvacuous : pso_lbest 5 4 = [[3; 4; 1; 2]; [4; 0; 2; 3]; [0; 1; 3; 4]; [1; 2; 4; 0]; [2; 3; 0; 1]]%Z.
Proof. exact eq_refl. Qed.
(** Lattice: the four particles beside it, on the squarest rectangle that the size allows. *)
Theorem C72_lattice : forall n, 0 < n -> exists rows cols nb, lattice (Z.of_nat n) rows cols /\ pso_von n = Ok nb /\ length nb = n /\
  forall i l, nth_error nb i = Some l -> length l = 4 /\ forall j, In j l <-> beside rows cols (Z.of_nat i) j.
Proof. exact pso_von_ok. Qed.
Print Assumptions C72_lattice.
Example C72_lattice_nonvacuous : pso_von 6 = Ok [[2; 1; 3; 3]; [0; 2; 4; 4]; [1; 0; 5; 5]; [5; 4; 0; 0]; [3; 5; 1; 1]; [4; 3; 2; 2]]%Z.
Proof. exact eq_refl. Qed.
(** Random: everybody informs themselves, and nobody has more than n m links. *)
Theorem C72_random_topology : forall G (r : rng G), rng_contract r -> forall n m E, 0 < n -> 1 <= m ->
  always (pso_adaptive r n m) (fun nb => length nb = n /\ forall i l, nth_error nb i = Some l -> In (Z.of_nat i) l /\ length l <= n * m /\ forall j, In j l -> (0 <= j < Z.of_nat n)%Z) E.
Proof. exact @adaptive_ok. Qed.
Print Assumptions C72_random_topology.
(** The best neighbour: the position of a neighbour whose value is not larger than that of the
    others, if no value is NaN. *)
Theorem C72_best_neighbour : forall nb lbX lbf n m, nb <> [] -> length lbX = n -> length lbf = n -> (forall f, In f lbf -> length f = S m) -> (forall j, In j nb -> (0 <= j < Z.of_nat n)%Z) ->
  exists k x f, pso_best_neighbor nb lbX lbf = Ok x /\ In k nb /\ nth_error lbX (Z.to_nat k) = Some x /\ nth_error lbf (Z.to_nat k) = Some f /\
    ((forall g, In g lbf -> obj g <> NaN) -> forall j g, In j nb -> nth_error lbf (Z.to_nat j) = Some g -> dle (obj f) (obj g) = true).
Proof. exact best_neighbor_ok. Qed.
Print Assumptions C72_best_neighbour.
Example C72_best_neighbour_nonvacuous : pso_best_neighbor [2; 0; 1]%Z [[Fin 7]; [Fin 8]; [Fin 9]] [[Fin 4]; [Fin 3]; [Fin 5]] = Ok [Fin 8].
Proof. exact eq_refl. Qed.

(** Not true in general: a NaN fitness value replaces the remembered best. *)
Theorem C72_nan_keeps_memory_refuted : forall G (r : rng G) srt, rng_contract r -> forall g,
  exists V s', pso_evolve srt r (ring_params 2) [] (g, one_pop nan_fit) = (Ok V, s') /\ po_f (snd s') = [[NaN]].
Proof. exact nan_lost. Qed.
Print Assumptions C72_nan_keeps_memory_refuted.
Example C72_nan_nonvacuous : pso_construct (ring_params 2) = Ok tt /\ po_f (one_pop nan_fit) = [[Fin 3]].
Proof. exact (conj (ring_params_construct 2 (le_S _ _ (le_n 1))) eq_refl). Qed.
(** A ring whose radius is 0 or greater than the population: the neighbours of the first
    particle are read out of range. In particular the default topology with one individual. *)
Theorem C72_small_population_refuted : forall G P srt (r : rng G), rng_contract r -> forall a, pso_construct a = Ok tt -> ps_gen a <> 0 -> forall V0 (s : G * pop P) p,
  ps_ntype a = 2 -> ps_variant a <> 6 -> (Z.of_nat (ps_nparam a) < 2 ^ 32)%Z -> ps_memory a = false -> po_prob (snd s) = p -> valid_pop (snd s) -> plain_single p -> po_id (snd s) <> [] -> (Z.of_nat (length (po_id (snd s))) < 2 ^ 31)%Z ->
  speeds_drawable a p -> ~ ring_fits a (length (po_id (snd s))) -> fst (pso_evolve srt r a V0 s) = UB.
Proof. exact @ring_ub. Qed.
Print Assumptions C72_small_population_refuted.
Example C72_small_population_nonvacuous : forall f, pso_construct (ring_params 4) = Ok tt /\ valid_pop (one_pop f) /\ plain_single (po_prob (one_pop f)) /\ speeds_drawable (ring_params 4) (po_prob (one_pop f)) /\ ~ ring_fits (ring_params 4) 1 /\ ~ ring_fits (ring_params 1) 1.
Proof. exact ring_nonvacuous. Qed.
(** With memory, the velocities kept from a problem of another dimension are read out of range. *)
Theorem C72_other_dimension_refuted : forall G (r : rng G) srt, rng_contract r -> forall g, let a := mkpso 1 done done done done 5 1 4 true in
  pso_construct a = Ok tt /\ fst (pso_evolve srt r a [[Fin 0]] (g, one_pop alg_fit)) = UB.
Proof. exact stale_ub. Qed.
Print Assumptions C72_other_dimension_refuted.
(** The fully informed variant on a ring of radius 0 divides zero by zero. *)
Theorem C72_fully_informed_nan_refuted : forall G (r : rng G) srt, rng_contract r -> forall g, pso_construct fips_params = Ok tt /\
  exists V s', pso_evolve srt r fips_params [] (g, one_pop zero_fit) = (Ok V, s') /\ po_x (snd s') = [[NaN; NaN]] /\ po_f (snd s') = [[Fin 0]].
Proof. exact fips_nan. Qed.
Print Assumptions C72_fully_informed_nan_refuted.
(** The memory flag is not serialized. *)
Theorem C72_memory_serialized_refuted : forall old, ps_memory old = false -> exists a, pso_construct a = Ok tt /\ ps_memory a = true /\ ps_memory (pso_load old (pso_save a)) = false.
Proof. exact memory_not_saved. Qed.
Print Assumptions C72_memory_serialized_refuted.

(** All other parameters are: what is loaded into an object with the same flag is what was saved. *)
Theorem C72_parameters_serialized : forall old a, let a' := pso_load old (pso_save a) in
  ps_gen a' = ps_gen a /\ ps_omega a' = ps_omega a /\ ps_eta1 a' = ps_eta1 a /\ ps_eta2 a' = ps_eta2 a /\ ps_max_vel a' = ps_max_vel a /\ ps_variant a' = ps_variant a /\ ps_ntype a' = ps_ntype a /\ ps_nparam a' = ps_nparam a /\ (ps_memory old = ps_memory a -> a' = a).
Proof. exact pso_saved. Qed.
Print Assumptions C72_parameters_serialized.
Example C72_parameters_serialized_eta : ps_eta1 (pso_load (mkpso 0 dzero dzero dzero dzero 5 2 4 false) (pso_save (mkpso 9 done (Fin 1) (Fin 2) done 5 2 4 false))) = Fin 1.
Proof. exact eq_refl. Qed.
