(** Properties of the generic utilities: C29-C32. *)
From Coq Require Import List Bool Arith ZArith Lia.
From Verif Require Import Dbl IntDbl Outcome StdSort BaseFacts SpecOrder Rng Problem SpecProblem Generic SpecGeneric GenericFacts GenericFacts2 GenericFacts3 GenericFacts4.
Import ListNotations.

(** C29. force_bounds_stick: what each component becomes, that the result is in the box,
    and that repairing again changes nothing. *)
Theorem C29_stick : forall x lb ub, length x = length lb -> length x = length ub ->
  (forall i l u, nth_error lb i = Some l -> nth_error ub i = Some u -> dle l u = true) ->
  exists y, force_bounds_stick x lb ub = Ok y /\ length y = length x /\
   ((forall v, In v x -> v <> NaN) -> in_box lb ub y) /\
   (forall i l u v, nth_error lb i = Some l -> nth_error ub i = Some u -> nth_error x i = Some v ->
      nth_error y i = Some (if dlt v l then l else if dlt u v then u else v)) /\
   force_bounds_stick y lb ub = Ok y.
Proof. exact stick_all. Qed.
Print Assumptions C29_stick.
Example C29_stick_nonvacuous : force_bounds_stick [Fin 5; MInf; Fin 2] [Fin 0; Fin 1; Fin 1] [Fin 3; Fin 2; PInf] = Ok [Fin 3; Fin 1; Fin 2].
Proof. reflexivity. Qed.
(** A vector already in the box is returned as it is. *)
Theorem C29_stick_identity : forall x lb ub, in_box lb ub x -> force_bounds_stick x lb ub = Ok x.
Proof. exact in_box_stick. Qed.
Print Assumptions C29_stick_identity.
(** force_bounds_random: each component ends in its interval, those already inside are
    kept; the only failure is an out-of-bounds component whose interval is not finite or
    too wide, and it is reported as invalid_argument. *)
Theorem C29_random : forall G (r : rng G), rng_contract r ->
  forall x lb ub g, length x = length lb -> length x = length ub ->
  (forall i l u, nth_error lb i = Some l -> nth_error ub i = Some u -> dle l u = true) ->
  (exists y, fst (force_bounds_random r x lb ub g) = Ok y /\ length y = length x /\
     forall i l u v, nth_error lb i = Some l -> nth_error ub i = Some u -> nth_error x i = Some v ->
       exists w, nth_error y i = Some w /\ (v <> NaN -> within l u w) /\ (within l u v -> w = v) /\ (v = NaN -> w = NaN)) \/
  (fst (force_bounds_random r x lb ub g) = Throw InvalidArgument /\
     exists i l u v, nth_error lb i = Some l /\ nth_error ub i = Some u /\ nth_error x i = Some v /\ ~ within l u v /\ v <> NaN /\ ~ ok_real l u).
Proof. exact (fun G r RC => fbr_spec r RC). Qed.
Print Assumptions C29_random.
Example C29_random_nonvacuous : rng_contract stream_rng /\
  fst (force_bounds_random stream_rng [dint 7; dint 2] [dint 0; dint 1] [dint 3; dint 5] [1; 2]%Z) = Ok [dint 3; dint 2] /\
  fst (force_bounds_random stream_rng [dint 7] [MInf] [dint 5] [1; 2]%Z) = Throw InvalidArgument.
Proof. exact (conj stream_contract (conj fbr_example1 fbr_example2)). Qed.

(** C30. When components and bounds are multiples of one power of two and smaller than
    2^51 of it, so that every operation of the loop is exact, reflection terminates with a
    vector in the box, for every such vector and every box with lb < ub. *)
Theorem C30_reflection_terminates : forall a x lb ub, (0 <= a <= 2040)%Z -> length x = length lb -> length x = length ub ->
  Forall (on_grid a 51) x -> Forall (on_grid a 51) lb -> Forall (on_grid a 51) ub ->
  (forall i l u, nth_error lb i = Some l -> nth_error ub i = Some u -> dlt l u = true) ->
  exists n0 y, (forall n, n0 <= n -> force_bounds_reflection n x lb ub = Ok y) /\ in_box lb ub y.
Proof. exact reflection_terminates. Qed.
Print Assumptions C30_reflection_terminates.
Example C30_reflection_nonvacuous : on_grid 1074 51 (dint 5) /\ force_bounds_reflection 4 [dint 8] [dint 0] [dint 3] = Ok [dint 2].
Proof. exact reflection_example. Qed.
(** Whenever it terminates the result is in the box, whatever the doubles. *)
Theorem C30_reflection_result : forall n x lb ub y, length x = length lb -> length x = length ub ->
  force_bounds_reflection n x lb ub = Ok y -> (forall v, In v y -> v <> NaN) -> (forall v, In v lb \/ In v ub -> v <> NaN) -> in_box lb ub y.
Proof. exact reflection_result. Qed.
Print Assumptions C30_reflection_result.
(** A vector in the box is returned at once. *)
Theorem C30_reflection_identity : forall n x lb ub, in_box lb ub x -> force_bounds_reflection n x lb ub = Ok x.
Proof. exact reflect_in_box. Qed.
Print Assumptions C30_reflection_identity.
(** Termination does not hold in general: not with lb < ub (the loop can alternate
    between two far-away values because of rounding), and not with lb = ub. *)
Theorem C30_termination_refuted : (exists x lb ub, Forall is_double [x; lb; ub] /\ isfinite x = true /\ dlt lb ub = true /\
    forall n, force_bounds_reflection n [x] [lb] [ub] = NoFuel) /\
  (exists x b, Forall is_double [x; b] /\ isfinite x = true /\ forall n, force_bounds_reflection n [x] [b] [b] = NoFuel).
Proof. exact reflection_refuted. Qed.
Print Assumptions C30_termination_refuted.

(** C31. random_decision_vector on a constructed problem. *)
Theorem C31_random_decision_vector : forall G (r : rng G) u p g, rng_contract r ->
  construct u = Ok p -> Forall is_double (u_lb u) -> Forall is_double (u_ub u) ->
  (usable p -> exists x, fst (random_decision_vector r p g) = Ok x /\ in_box (u_lb u) (u_ub u) x /\
     (forall i v, get_nx p - u_nix u <= i -> nth_error x i = Some v -> integral v)) /\
  (~ usable p -> fst (random_decision_vector r p g) = Throw InvalidArgument).
Proof. exact rdv_built. Qed.
Print Assumptions C31_random_decision_vector.
(** batch_random_decision_vector(n) gives the same vectors, and leaves the generator in the
    same state, as n calls of random_decision_vector. *)
Theorem C31_batch : forall G (r : rng G) u p n g, rng_contract r ->
  construct u = Ok p -> Forall is_double (u_lb u) -> Forall is_double (u_ub u) ->
  (Z.of_nat n * Z.of_nat (get_nx p) < 2 ^ 64)%Z ->
  (usable p -> batch_random_decision_vector r p n g =
     match rmap (fun _ => random_decision_vector r p) (seq 0 n) g with
     | (Ok vs, g') => (Ok (concat vs), g') | (Throw e, g') => (Throw e, g') | (UB, g') => (UB, g') | (NoFuel, g') => (NoFuel, g') end) /\
  (~ usable p -> batch_random_decision_vector r p n g = (Throw InvalidArgument, g)).
Proof. exact batch_built. Qed.
Print Assumptions C31_batch.
Example C31_nonvacuous : exists p, construct rdv_udp = Ok p /\ Forall is_double (u_lb rdv_udp) /\ Forall is_double (u_ub rdv_udp) /\ usable p /\
  random_decision_vector stream_rng p [1; 9]%Z = (Ok [dint 5; dint 2], []).
Proof. exact rdv_example. Qed.

(** C32. kNN. *)
Theorem C32_knn : forall srt points k, sort_contract srt ->
  (forall q q', In q points -> In q' points -> length q = length q') ->
  exists r, kNN srt points k = Ok r /\ length r = length points /\
    forall i l, nth_error r i = Some l -> nearest points i (Nat.min k (length points - 1)) l.
Proof. exact knn_spec. Qed.
Print Assumptions C32_knn.
Theorem C32_knn_rejects : forall srt points k q q', In q points -> In q' points -> length q <> length q' -> kNN srt points k = Throw InvalidArgument.
Proof. exact knn_rejects. Qed.
Print Assumptions C32_knn_rejects.
Example C32_nonvacuous : sort_contract (@isort) /\ kNN (@isort) [[dint 0]; [dint 5]; [dint 1]] 1 = Ok [[2]; [2]; [0]].
Proof. exact knn_example. Qed.
