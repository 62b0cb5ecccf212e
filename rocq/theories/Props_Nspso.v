(** C92: non-dominated sorting particle swarm optimization. *)
From Coq Require Import List Bool Arith ZArith.
From Verif Require Import Dbl SpecNiche SwarmSaved AlgNspsoFacts10 Outcome StdSort SpecOrder MultiObj SpecMultiObj Problem SpecProblem Rng Generic SpecGeneric GenericFacts3 SpecGenetic GeneticOps GeneticFacts3 Population SpecPopulation Algo SpecAlgo SpecSwarm SpecNsga2 SpecCmaes AlgSaFacts2 AlgExamples SgaExamples Nsga2Examples MoeadGenExamples AlgNspso SpecNspso AlgNspsoFacts9 AlgNspsoFacts AlgNspsoFacts3 NspsoExamples.
Import ListNotations.

(** The constructor accepts exactly omega in [0, 1], positive c1, c2 and chi, v_coeff in (0, 1],
    a leader selection range of at most 100 and one of the three diversity mechanisms; it throws
    invalid_argument otherwise. NaN is not refused for any of the five coefficients. *)
Theorem C92_constructor : forall gen omega c1 c2 chi vcoeff range d memory a,
  nspso_construct gen omega c1 c2 chi vcoeff range d memory = Ok a <-> np_accepts omega c1 c2 chi vcoeff range /\ exists d', d = Some d' /\ a = mknspso gen omega c1 c2 chi vcoeff range d' memory.
Proof. exact construct_ok. Qed.
Print Assumptions C92_constructor.
Theorem C92_constructor_throws : forall gen omega c1 c2 chi vcoeff range d memory,
  ~ (np_accepts omega c1 c2 chi vcoeff range /\ d <> None) -> nspso_construct gen omega c1 c2 chi vcoeff range d memory = Throw InvalidArgument.
Proof. exact construct_throws. Qed.
Print Assumptions C92_constructor_throws.
Example C92_constructor_nonvacuous : nspso_construct 3 done done done done done 60 (Some MaxMin) true = Ok (np_params 3 MaxMin true) /\ nspso_construct 3 done done done done done 101 (Some MaxMin) true = Throw InvalidArgument /\
  nspso_construct 3 done dzero done done done 60 (Some MaxMin) true = Throw InvalidArgument /\ nspso_construct 3 done done done done done 60 None true = Throw InvalidArgument.
Proof. vm_compute. repeat split. Qed.

(** Stochastic, constrained and single-objective problems and populations of fewer than two are
    refused before anything is changed; with no generations nothing happens. *)
Theorem C92_rejects : forall G P srt (r : rng G) pw fuel bfe a m (s : G * pop P), ~ np_problem (po_prob (snd s)) \/ length (po_id (snd s)) < 2 ->
  np_evolve srt r pw fuel bfe a m s = (Throw InvalidArgument, s).
Proof. exact @rejects. Qed.
Print Assumptions C92_rejects.
Theorem C92_no_generations : forall G P srt (r : rng G) pw fuel bfe a m (s : G * pop P), np_problem (po_prob (snd s)) -> 2 <= length (po_id (snd s)) -> np_gen a = 0 -> np_evolve srt r pw fuel bfe a m s = (Ok m, s).
Proof. exact @no_generations. Qed.
Print Assumptions C92_no_generations.
Example C92_rejects_nonvacuous : np_problem (po_prob two_pop) /\ np_evolve (@isort) stream_rng pow_toy 9 None (np_params 0 Crowding true) no_mem ([], two_pop) = (Ok no_mem, ([], two_pop)) /\ ~ np_problem alg_problem.
Proof. exact (conj xy_np (conj eq_refl (fun H => Nat.lt_irrefl 1 (proj2 (proj2 H))))). Qed.

(** evolve, with every diversity mechanism, with and without a batch evaluator, whatever the
    random numbers. In each generation every individual is replaced by a new evaluated point
    with coordinates in the bounds or NaN, and keeps its ID; one evaluation is made per
    individual. The points remembered are as many as individuals and are chosen among the new
    points and those remembered before, so that with crowding distance or niche count none that
    is left out dominates one that is kept. They start from the population, or from those of the
    last call if memory is on and they are as many. What is kept for the next call has the shape
    that is assumed here of what was kept before, so the theorem applies to all calls of a
    history. The only exceptions are those of the fitness function and invalid_argument if a
    velocity cannot be drawn. The loop that draws a leader until it is another particle is not
    bounded: running out of fuel is the only other outcome. *)
Theorem C92_evolve : forall G P srt (r : rng G) pw fuel bfe, sort_contract srt -> rng_contract r -> forall a p m (s : G * pop P),
  po_prob (snd s) = p -> valid_pop (snd s) -> np_problem p -> evaluates bfe p -> 2 <= length (po_id (snd s)) -> (Z.of_nat (length (po_id (snd s))) < 2 ^ 31)%Z -> np_fits a p (length (po_id (snd s))) m -> 0 < np_gen a -> np_made a ->
  ends_if_fuel (np_evolve srt r pw fuel bfe a m) s
    (fun m' s' => (exists b, np_first a m (snd s) b /\ np_steps p (in_box_or_nan (p_lb p) (p_ub p)) (np_div a) (np_gen a) b (snd s) (nm_x m', nm_f m') (snd s')) /\
       length (nm_f m') = length (po_id (snd s)) /\ length (nm_v m') = length (po_id (snd s)) /\ np_fits a p (length (po_id (snd s))) m')
    (np_fails a p).
Proof. exact @np_ok_nan. Qed.
Print Assumptions C92_evolve.
(** With coefficients that are at most 4, and bounds, individuals and kept numbers below 2^900
    (velocities: 2^901), no coordinate is NaN, and the same is true after the call. *)
Theorem C92_evolve_in_box : forall G P srt (r : rng G) pw fuel bfe, sort_contract srt -> rng_contract r -> forall a p m (s : G * pop P),
  po_prob (snd s) = p -> valid_pop (snd s) -> np_problem p -> evaluates bfe p -> 2 <= length (po_id (snd s)) -> (Z.of_nat (length (po_id (snd s))) < 2 ^ 31)%Z -> np_fits a p (length (po_id (snd s))) m -> 0 < np_gen a -> np_moderate a ->
  (forall l, In l (p_lb p) -> below_2p900 l) -> (forall u, In u (p_ub p) -> below_2p900 u) -> (forall x v, In x (po_x (snd s)) -> In v x -> below_2p900 v) ->
  (forall x v, In x (nm_x m) -> In v x -> below_2p900 v) -> (forall x v, In x (nm_v m) -> In v x -> below_2p901 v) ->
  ends_if_fuel (np_evolve srt r pw fuel bfe a m) s
    (fun m' s' => (exists b, np_first a m (snd s) b /\ np_steps p (in_box (p_lb p) (p_ub p)) (np_div a) (np_gen a) b (snd s) (nm_x m', nm_f m') (snd s')) /\
       length (nm_f m') = length (po_id (snd s)) /\ length (nm_v m') = length (po_id (snd s)) /\ np_fits a p (length (po_id (snd s))) m' /\
       (forall x v, In x (nm_x m') -> In v x -> below_2p900 v) /\ (forall x v, In x (nm_v m') -> In v x -> below_2p901 v))
    (np_fails a p).
Proof. exact @np_ok_box. Qed.
Print Assumptions C92_evolve_in_box.
Example C92_evolve_nonvacuous : valid_pop two_pop /\ np_problem xy_problem /\ evaluates (Some xy_bfe) xy_problem /\ np_fits (np_params 2 NicheCount true) xy_problem 2 no_mem /\ np_made (np_params 2 NicheCount true) /\ np_moderate (np_params 2 NicheCount true) /\
  (forall v, In v (p_lb xy_problem) -> below_2p900 v) /\ (forall v, In v (p_ub xy_problem) -> below_2p900 v) /\ (forall x v, In x (po_x two_pop) -> In v x -> below_2p900 v) /\
  np_x (np_run (np_params 2 NicheCount true) no_mem [0; 1; 1; 0; 1; 0; 0; 0; 0; 0; 1; 0; 1; 0; 1; 1]%Z two_pop) = Ok ([[Fin 10; Fin 0]; [Fin 0; Fin 10]], [[Fin 10; Fin 0]; [Fin 0; Fin 10]]).
Proof. exact (conj two_valid (conj xy_np (conj xy_evaluates (conj (no_mem_fits _ _ 2 (le_S _ _ (le_n 1))) (conj (np_made_ex _ _ _) (conj (np_moderate_ex _ _ _) (conj xy_below_l (conj xy_below_u (conj two_below np_flies))))))))). Qed.

(** With a batch evaluator that does what the problem does the run is the same as without. *)
Theorem C92_batch : forall G P srt (r : rng G) pw fuel ud, sort_contract srt -> rng_contract r -> forall a p m (s : G * pop P),
  po_prob (snd s) = p -> valid_pop (snd s) -> np_problem p -> total_fitness p -> faithful_bfe ud p -> np_made a ->
  2 <= length (po_id (snd s)) -> (Z.of_nat (length (po_id (snd s))) < 2 ^ 31)%Z -> np_fits a p (length (po_id (snd s))) m ->
  same_run (np_evolve srt r pw fuel (Some ud) a m s) (np_evolve srt r pw fuel None a m s).
Proof. exact @np_batch. Qed.
Print Assumptions C92_batch.
Example C92_batch_nonvacuous : total_fitness xy_problem /\ faithful_bfe xy_bfe xy_problem /\ np_problem xy_problem /\ valid_pop two_pop.
Proof. exact (conj xy_total (conj xy_faithful (conj xy_np two_valid))). Qed.

(** The leaders of a population: two or more distinct individuals. With crowding distance and
    niche count all non-dominated individuals are leaders, and no others if there are two
    non-dominated individuals or more. *)
Theorem C92_leaders : forall srt, sort_contract srt -> forall pw d fit dvs M nx, uniform fit M -> 2 <= M -> 2 <= length fit -> length dvs = length fit -> (forall x, In x dvs -> length x = nx) ->
  exists b, np_leaders srt pw d M fit dvs = Ok b /\ NoDup b /\ 2 <= length b <= length fit /\ (forall i, In i b -> i < length fit) /\
    (d <> MaxMin -> (forall i, nondominated fit i -> In i b) /\ (3 <= length b -> forall i, In i b -> nondominated fit i) /\ (forall i j, nondominated fit i -> nondominated fit j -> i <> j -> forall k, In k b -> nondominated fit k)).
Proof. exact leaders_ok. Qed.
Print Assumptions C92_leaders.
Example C92_leaders_nonvacuous : uniform line_points 2 /\ np_leaders (@isort) pow_toy NicheCount 2 line_points line_points = Ok [2; 1].
Proof. exact (conj line_uniform line_leaders). Qed.
(** The points that are remembered. *)
Theorem C92_selection : forall srt, sort_contract srt -> forall d n fit M, uniform fit M -> 2 <= M -> 2 <= length fit -> n <= length fit ->
  exists sel, np_select srt d n fit = Ok sel /\ NoDup sel /\ length sel = n /\ (forall i, In i sel -> i < length fit) /\ (d <> MaxMin -> forall i j, In i sel -> ~ In j sel -> ~ dom_idx fit j i).
Proof. exact select_ok. Qed.
Print Assumptions C92_selection.
Example C92_selection_nonvacuous : uniform line_points 2 /\ np_select (@isort) Crowding 2 line_points = Ok [2; 1].
Proof. split; [exact line_uniform|vm_compute; reflexivity]. Qed.

(** With the max-min fitness a point that is left out may dominate one that is kept: their
    values are equal. *)
Theorem C92_maxmin_selection_refuted : exists srt fit sel i j, sort_contract srt /\ uniform fit 2 /\ np_select srt MaxMin 2 fit = Ok sel /\ In i sel /\ ~ In j sel /\ dom_idx fit j i.
Proof. exact np_maxmin_loses. Qed.
Print Assumptions C92_maxmin_selection_refuted.
(** The leaders are chosen among the individuals, but what is followed is the remembered point
    with the same index, which may be dominated by another remembered point. *)
Theorem C92_leader_nondominated_refuted : exists a m s' b, np_made a /\ np_run a no_mem up_draws two_pop = (Ok m, s') /\ np_leaders (@isort) pow_toy (np_div a) 2 (po_f (snd s')) (po_x (snd s')) = Ok b /\
  exists i j, In i b /\ dom_idx (nm_f m) j i.
Proof. exact np_bad_leader. Qed.
Print Assumptions C92_leader_nondominated_refuted.
(** The population returned may be worse than the one given: every individual is dominated by
    every individual it had before. The best points are only kept inside the object. (The objectives of two_pop
    are the coordinates.) *)
Theorem C92_elitist_refuted : forall d, exists a m s', np_made a /\ np_div a = d /\ np_run a no_mem up_draws two_pop = (Ok m, s') /\ length (po_x (snd s')) = 2 /\
  forall x y, In x (po_x (snd s')) -> In y (po_x two_pop) -> dominates y x.
Proof. exact np_not_elitist. Qed.
Print Assumptions C92_elitist_refuted.
(** With memory, points kept from a problem of another dimension are read out of range. *)
Theorem C92_other_dimension_refuted : exists a m g, np_made a /\ np_memory a = true /\ fst (np_run a m g two_pop) = UB.
Proof. exact (ex_intro _ (np_params 1 Crowding true) (ex_intro _ (mknspmem [[Fin 1; Fin 1]; [Fin 2; Fin 2]] [[Fin 1]; [Fin 1]] [[Fin 0]; [Fin 0]]) (ex_intro _ [1; 0; 0; 0; 0; 0; 0]%Z (conj (np_made_ex _ _ _) (conj eq_refl (np_x_ub _ np_other)))))). Qed.
Print Assumptions C92_other_dimension_refuted.
(** The memory flag and what has been kept are not in the archive. *)
Theorem C92_serialized_refuted : forall old mold (B : Type) (b : option B), np_memory old = false -> exists a m, np_made a /\ np_memory a = true /\ nm_x m <> nm_x mold /\
  let '(a', m', b') := nspso_load old mold (nspso_save a m b) in np_memory a' = false /\ m' = mold /\ b' = b.
Proof. exact np_not_saved. Qed.
Print Assumptions C92_serialized_refuted.

(** The niche count of a point is the number of points, itself included, whose Euclidean
    distance from it is less than delta. *)
Theorem C92_niche_count : forall (pw : dbl -> dbl -> dbl) delta xs n, (forall x, In x xs -> length x = n) ->
  niche_count pw delta xs = Ok (map (fun x => length (filter (fun y =>
    dlt (dsqrt (fold_left (fun s i => dadd s (pw (dsub (nth i x NaN) (nth i y NaN)) (d_of_Z 2))) (seq 0 n) dzero)) delta) xs)) xs).
Proof. exact niche_count_is. Qed.
Print Assumptions C92_niche_count.
Example C92_niche_count_line : niche_count (fun a _ => dmul a a) (d_of_Z 2) [[dzero]; [done]; [d_of_Z 9]] = Ok [2; 2; 1].
Proof. exact niche_example. Qed.

(** With the niche count and two or more non-dominated individuals, the leaders are the
    non-dominated individuals in the order of their niche counts: those in less crowded places
    come first, and leaders are drawn from the front. *)
Theorem C92_niche_leaders : forall srt pw fit dvs M nx, sort_contract srt -> uniform fit M -> 2 <= M -> 2 <= length fit -> (Z.of_nat (length fit) < 2 ^ 53)%Z -> length dvs = length fit -> (forall x, In x dvs -> length x = nx) ->
  (exists i j, nondominated fit i /\ nondominated fit j /\ i <> j) ->
  exists delta b, np_leaders srt pw NicheCount M fit dvs = Ok b /\ (forall i, In i b <-> nondominated fit i) /\
    forall i j a c, i < j -> nth_error b i = Some a -> nth_error b j = Some c -> near pw dvs b delta a <= near pw dvs b delta c.
Proof. exact niche_order. Qed.
Print Assumptions C92_niche_leaders.
Example C92_niche_leaders_nonvacuous : uniform corner_points 2 /\ (exists i j, nondominated corner_points i /\ nondominated corner_points j /\ i <> j).
Proof. exact (conj corner_uniform corner_two). Qed.

(** The parameters other than the memory flag, and the batch evaluator, are serialized. *)
Theorem C92_parameters_serialized : forall (B : Type) old mold a m (b : option B), let a' := fst (fst (nspso_load old mold (nspso_save a m b))) in
  np_gen a' = np_gen a /\ np_omega a' = np_omega a /\ np_c1 a' = np_c1 a /\ np_c2 a' = np_c2 a /\ np_chi a' = np_chi a /\ np_vcoeff a' = np_vcoeff a /\ np_range a' = np_range a /\ np_div a' = np_div a /\ (np_memory old = np_memory a -> a' = a) /\ snd (nspso_load old mold (nspso_save a m b)) = b.
Proof. exact nspso_saved. Qed.
Print Assumptions C92_parameters_serialized.
Example C92_parameters_serialized_c1 : let a := mknspso 9 done (Fin 1) (Fin 2) done done 3 MaxMin false in fst (fst (nspso_load (mknspso 0 dzero dzero dzero dzero dzero 1 Crowding false) (mknspmem [] [] []) (nspso_save a (mknspmem [] [] []) (Some tt)))) = a.
Proof. exact eq_refl. Qed.
