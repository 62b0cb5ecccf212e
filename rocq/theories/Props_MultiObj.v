(** Properties C01-C10: ordering of fitness values and multi-objective utilities.
    Only statements, non-vacuity examples and assumption listings. *)
From Coq Require Import List Bool Arith ZArith Permutation.
From Verif Require Import Dbl DblFacts Outcome StdSort BaseFacts Compare MultiObj Weights SpecOrder SpecMultiObj SpecDiscrepancy
  CompareFacts DominanceFacts FndsFacts MultiObjFacts CrowdFacts MultiObjFacts2 DecomposeFacts Discrepancy DiscrepancyFacts WeightsFacts MultiObjFacts3.
Import ListNotations.

(** Doubles for the examples. *)
Definition d (z : Z) : dbl := Fin z. (* z units of 2^-1074: keeps the kernel's work small *)
Definition pts5 : list (list dbl) := [[d 1; d 4]; [d 2; d 2]; [d 3; d 3]; [d 4; d 1]; [d 2; d 2]].

(** C01: the comparator is exactly "strictly better" in the NaN-last order, which is
    a strict weak order; its mirror image is greater_than_f; incomparable means equal. *)
Theorem C01_comparators_meaning : forall a b,
  (less_than_f a b = true <-> better a b) /\ (greater_than_f a b = true <-> better b a) /\ (equal_to_f a b = true <-> a = b).
Proof. exact comparators_meaning. Qed.
Print Assumptions C01_comparators_meaning.
Theorem C01_strict_weak_order : forall a b c,
  ~ better a a /\
  (better a b -> ~ better b a) /\
  (better a b -> better b c -> better a c) /\
  (~ better a b /\ ~ better b a <-> a = b) /\
  (num_lt a b -> better a b) /\ (a <> NaN -> better a NaN) /\ ~ better NaN a.
Proof. exact better_strict_weak_order. Qed.
Print Assumptions C01_strict_weak_order.
Theorem C01_sort_precondition : forall (A : Type) (key : A -> dbl) (l : list A),
  strict_weak_on (fun x y => less_than_f (key x) (key y)) l /\ strict_weak_on (fun x y => greater_than_f (key x) (key y)) l.
Proof. exact comparators_sort_precondition. Qed.
Print Assumptions C01_sort_precondition.
Example C01_example : better (d 1) NaN /\ better MInf (d 1) /\ ~ better NaN PInf /\ less_than_f (d 1) NaN = true /\ less_than_f NaN NaN = false.
Proof. split; [exact I|]. split; [exact I|]. split; [exact (fun H => H)|]. split; vm_compute; reflexivity. Qed.

(** C02 *)
Theorem C02_pareto_dominance_exact : forall a b,
  (length a = length b -> exists r, pareto_dominance a b = Ok r /\ (r = true <-> dominates a b)) /\
  (length a <> length b -> pareto_dominance a b = Throw InvalidArgument).
Proof. exact pareto_dominance_spec. Qed.
Print Assumptions C02_pareto_dominance_exact.
Theorem C02_dominance_strict_partial_order : forall a b c,
  ~ dominates a a /\ (dominates a b -> ~ dominates b a) /\ (dominates a b -> dominates b c -> dominates a c).
Proof. exact dominates_spo. Qed.
Print Assumptions C02_dominance_strict_partial_order.
Example C02_example : pareto_dominance [d 1; NaN] [d 2; NaN] = Ok true /\ pareto_dominance [d 1; d 3] [d 2; d 2] = Ok false /\ pareto_dominance [d 1; NaN] [d 0; d 2] = Ok false.
Proof. vm_compute. auto. Qed.

(** C03 *)
Theorem C03_fnds_exact : forall pts M, uniform pts M -> 2 <= length pts ->
  exists r, fast_non_dominated_sorting pts = Ok r /\
    front_decomposition pts (fr_fronts r) /\
    rank_ok pts (fr_fronts r) (fr_rank r) /\
    dom_list_ok pts (fr_dom_list r) /\ dom_count_ok pts (fr_dom_count r).
Proof. exact fnds_ok. Qed.
Print Assumptions C03_fnds_exact.
Theorem C03_fronts_unique : forall pts f1 f2, front_decomposition pts f1 -> front_decomposition pts f2 ->
  forall k i, In i (nth k f1 []) -> In i (nth k f2 []).
Proof. exact front_unique. Qed.
Print Assumptions C03_fronts_unique.
Theorem C03_fnds_rejects : forall pts,
  (length pts < 2 -> fast_non_dominated_sorting pts = Throw InvalidArgument) /\
  (2 <= length pts -> ~ uniform pts (length (nth 0 pts [])) -> fast_non_dominated_sorting pts = Throw InvalidArgument).
Proof. exact fnds_rejects. Qed.
Print Assumptions C03_fnds_rejects.
Example C03_example : uniform pts5 2 /\ 2 <= length pts5 /\
  exists r, fast_non_dominated_sorting pts5 = Ok r /\ fr_fronts r = [[0; 1; 3; 4]; [2]] /\ fr_rank r = [0; 0; 1; 0; 0] /\
            fr_dom_list r = [[]; [2]; []; []; [2]] /\ fr_dom_count r = [0; 0; 2; 0; 0]%Z.
Proof.
  split; [intros p Hp; simpl in Hp; intuition (subst; reflexivity)|]. split; [simpl; repeat constructor|].
  eexists. split; [vm_compute; reflexivity|]. vm_compute. auto.
Qed.

(** C04 *)
Theorem C04_nd2d_exact : forall srt pts, sort_contract srt -> uniform pts 2 ->
  exists r, non_dominated_front_2d srt pts = Ok r /\ NoDup r /\ (forall i, In i r <-> nondominated pts i).
Proof. exact nd2d_correct. Qed.
Print Assumptions C04_nd2d_exact.
Theorem C04_nd2d_rejects : forall srt pts, pts <> [] -> ~ uniform pts 2 ->
  non_dominated_front_2d srt pts = Throw InvalidArgument.
Proof. exact nd2d_throws. Qed.
Print Assumptions C04_nd2d_rejects.
Example C04_example : sort_contract isort /\ uniform pts5 2 /\ non_dominated_front_2d isort pts5 = Ok [0; 1; 4; 3].
Proof. split; [exact isort_contract|]. split; [intros p Hp; simpl in Hp; intuition (subst; reflexivity)|]. vm_compute. reflexivity. Qed.

(** C05 *)
Theorem C05_select_best_N : forall srt pts M N, sort_contract srt -> uniform pts M -> 2 <= M ->
  exists sel, select_best_N_mo srt pts N = Ok sel /\ best_N_selection M pts N sel.
Proof. exact select_best_ok. Qed.
Print Assumptions C05_select_best_N.
Theorem C05_kept_not_dominated_by_discarded : forall srt pts M N sel i j, sort_contract srt -> uniform pts M -> 2 <= M -> 2 <= length pts ->
  select_best_N_mo srt pts N = Ok sel -> In i sel -> j < length pts -> ~ In j sel -> ~ dom_idx pts j i.
Proof. exact select_best_not_dominated. Qed.
Print Assumptions C05_kept_not_dominated_by_discarded.
Definition pts4 : list (list dbl) := [[d 1; d 4]; [d 2; d 2]; [d 3; d 3]; [d 4; d 1]].
Example C05_example : select_best_N_mo isort pts4 2 = Ok [0; 3].
Proof. vm_compute. reflexivity. Qed.

(** C06 *)
Theorem C06_sort_population_mo : forall srt pts M, sort_contract srt -> uniform pts M -> 2 <= M -> 2 <= length pts ->
  exists idx, sort_population_mo srt pts = Ok idx /\ mo_sorted M pts idx.
Proof. exact sort_mo_ok. Qed.
Print Assumptions C06_sort_population_mo.
Example C06_example : sort_population_mo isort pts4 = Ok [0; 3; 1; 2].
Proof. vm_compute. reflexivity. Qed.

(** C07 *)
Theorem C07_crowding_distance : forall srt pts M, sort_contract srt -> 2 <= length pts -> 2 <= M -> uniform pts M ->
  exists r, crowding_distance srt pts = Ok r /\ length r = length pts /\ crowding_spec pts M r.
Proof. exact crowding_ok. Qed.
Print Assumptions C07_crowding_distance.
Theorem C07_crowding_extremes_infinite : forall pts M r, 2 <= length pts -> regular_front pts M -> crowding_spec pts M r ->
  (forall p v, nth_error r p = Some v -> nonneg v) /\
  (forall j, j < M -> exists a b, nth_error r a = Some PInf /\ nth_error r b = Some PInf /\
     a < length pts /\ b < length pts /\
     forall p, p < length pts -> not_worse (val pts a j) (val pts p j) /\ not_worse (val pts p j) (val pts b j)).
Proof. exact crowding_extremes. Qed.
Print Assumptions C07_crowding_extremes_infinite.
(** Without the regularity hypothesis the claim is false: a constant objective gives NaN. *)
Theorem C07_crowding_degenerate_refuted : exists pts r, uniform pts 2 /\ 2 <= length pts /\
  crowding_distance isort pts = Ok r /\ In NaN r.
Proof. exact crowding_degenerate. Qed.
Print Assumptions C07_crowding_degenerate_refuted.
Example C07_example : regular_front pts4 2 /\ crowding_distance isort [[d 1; d 4]; [d 2; d 2]; [d 4; d 1]] = Ok [PInf; dadd done done; PInf].
Proof. split; [exact crowding_example_regular|vm_compute; reflexivity]. Qed.

(** C08 *)
Theorem C08_ideal : forall pts M, uniform pts M -> pts <> [] ->
  exists r, ideal pts = Ok r /\ length r = M /\
    forall j, j < M -> exists v, nth_error r j = Some v /\ is_min_of pts (fun _ => True) j v.
Proof. exact ideal_ok. Qed.
Print Assumptions C08_ideal.
Theorem C08_nadir : forall pts M, uniform pts M -> 2 <= length pts ->
  exists r, nadir pts = Ok r /\ length r = M /\
    forall j, j < M -> exists v, nth_error r j = Some v /\ is_max_of pts (nondominated pts) j v.
Proof. exact nadir_ok. Qed.
Print Assumptions C08_nadir.
(** "all non-empty populations" is too much for nadir: one point is rejected. *)
Theorem C08_nadir_single_point_refuted : forall p, nadir [p] = Throw InvalidArgument.
Proof. exact nadir_single. Qed.
Print Assumptions C08_nadir_single_point_refuted.
Example C08_example : ideal pts5 = Ok [d 1; d 1] /\ nadir pts5 = Ok [d 4; d 4] /\ nadir [[d 1; d 2]; [d 5; d 6]] = Ok [d 1; d 2].
Proof. vm_compute. auto. Qed.

(** C09 *)
Theorem C09_grid_weights : forall srt binom fuel hp draw nf nw ws, binomial_exact binom ->
  decomposition_weights srt binom fuel hp draw nf nw WGrid = Ok ws ->
  (Z.of_nat nf * Z.of_nat nw <= 2 ^ 64)%Z -> (Z.of_nat nw < 2 ^ 53)%Z ->
  length ws = nw /\
  exists H L, (0 < H)%Z /\ NoDup L /\ (forall k, In k L <-> lattice_point nf H k) /\
      ws = map (map (fun k => ddiv (d_of_Z k) (d_of_Z H))) L.
Proof. exact weights_grid_full. Qed.
Print Assumptions C09_grid_weights.
Theorem C09_sampled_weights : forall srt binom fuel hp draw nf nw m, sort_contract srt -> 2 <= nf <= nw ->
  m = WLowDiscrepancy /\ (forall i, length (hp i) = nf - 1 /\ Forall unit_dbl (hp i)) \/
  m = WRandom /\ (forall i j, unit_dbl (draw i j)) ->
  exists ws, decomposition_weights srt binom fuel hp draw nf nw m = Ok ws /\ length ws = nw /\
    (forall i w, i < nf -> nth_error ws i = Some w -> canonical nf i w) /\
    (forall i w, nf <= i -> nth_error ws i = Some w -> on_simplex nf w).
Proof. exact weights_sampled. Qed.
Print Assumptions C09_sampled_weights.
Theorem C09_weights_rejected : forall srt binom fuel hp draw nf nw m, nw < nf \/ nf < 2 \/ m = WOther ->
  decomposition_weights srt binom fuel hp draw nf nw m = Throw InvalidArgument.
Proof. exact weights_rejected. Qed.
Print Assumptions C09_weights_rejected.
(** The documented "canonical weights come first" fails for the grid. *)
Theorem C09_grid_canonical_first_refuted : exists binom ws w, binomial_exact binom /\
  decomposition_weights isort binom 10 (fun _ => []) (fun _ _ => NaN) 2 2 WGrid = Ok ws /\
  nth_error ws 0 = Some w /\ ~ canonical 2 0 w.
Proof. exact grid_not_canonical. Qed.
Print Assumptions C09_grid_canonical_first_refuted.
Example C09_example : decomposition_weights isort (fun _ _ => NaN) 10 (fun _ => []) (fun _ _ => dhalf) 2 3 WRandom
  = Ok [[done; dzero]; [dzero; done]; [dhalf; dhalf]].
Proof. vm_compute. reflexivity. Qed.

(** C10 *)
Theorem C10_weighted_monotone : forall a b w z, length w = length a -> length b = length a -> length z = length a -> length a <> 0 ->
  Forall nonneg w -> (forall i x y, nth_error a i = Some x -> nth_error b i = Some y -> dle x y = true) ->
  exists ra rb, decompose_objectives a w z Weighted = Ok [ra] /\ decompose_objectives b w z Weighted = Ok [rb] /\ le_or_nan ra rb.
Proof. exact weighted_monotone. Qed.
Print Assumptions C10_weighted_monotone.
Theorem C10_weighted_not_nan : forall f w z, length w = length f -> length z = length f -> length f <> 0 ->
  Forall (fun x => exists k, x = Fin k /\ (0 <= k)%Z) f -> Forall (fun x => exists k, x = Fin k /\ (0 <= k)%Z) w ->
  exists r, decompose_objectives f w z Weighted = Ok [r] /\ nonneg r.
Proof. exact weighted_not_nan. Qed.
Print Assumptions C10_weighted_not_nan.
Theorem C10_tchebycheff_max : forall f w z, length w = length f -> length z = length f -> length f <> 0 ->
  exists r, decompose_objectives f w z Tchebycheff = Ok [r] /\ nonneg r /\
    (r = Fin 0 \/ exists i fi wi zi, nth_error f i = Some fi /\ nth_error w i = Some wi /\ nth_error z i = Some zi /\ r = tcheb_term fi wi zi) /\
    (forall i fi wi zi, nth_error f i = Some fi -> nth_error w i = Some wi -> nth_error z i = Some zi -> dlt r (tcheb_term fi wi zi) = false).
Proof. exact tchebycheff_max. Qed.
Print Assumptions C10_tchebycheff_max.
Theorem C10_zero_at_reference : forall f w, length w = length f -> length f <> 0 ->
  Forall (fun x => exists z, x = Fin z /\ is_double x) f -> Forall (fun x => isfinite x = true) w ->
  decompose_objectives f w f Tchebycheff = Ok [Fin 0] /\
  (dlt (Fin 0) (dsqrt (weight_norm2 (Fin 0) w)) = true -> decompose_objectives f w f BI = Ok [Fin 0]).
Proof. exact decompose_zero_at_reference. Qed.
Print Assumptions C10_zero_at_reference.
(** "zero only at the reference" fails in floating point: the product underflows. *)
Theorem C10_tchebycheff_zero_only_at_reference_refuted : exists f w z, f <> z /\ Forall is_double (f ++ w ++ z) /\
  decompose_objectives f w z Tchebycheff = Ok [Fin 0].
Proof. exact tchebycheff_underflow. Qed.
Print Assumptions C10_tchebycheff_zero_only_at_reference_refuted.
Theorem C10_decompose_shape_and_errors : forall f w z m,
  (length w = length f -> length z = length f -> length f <> 0 -> m <> OtherMethod -> exists v, decompose_objectives f w z m = Ok [v]) /\
  (length w <> length f \/ length z <> length f \/ length f = 0 \/ m = OtherMethod -> decompose_objectives f w z m = Throw InvalidArgument).
Proof. exact (fun f w z m => conj (decompose_shape f w z m) (decompose_throws f w z m)). Qed.
Print Assumptions C10_decompose_shape_and_errors.
Example C10_example :
  decompose_objectives [d 3; d 8] [done; done] [d 1; d 2] Weighted = Ok [d 11] /\
  decompose_objectives [d 3; d 8] [done; done] [d 1; d 2] Tchebycheff = Ok [d 6] /\
  dlt (Fin 0) (dsqrt (weight_norm2 (Fin 0) [Fin (2 ^ 537); dzero])) = true.
Proof. vm_compute. auto. Qed.
