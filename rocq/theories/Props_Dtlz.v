(** C81: the DTLZ problems, in exact arithmetic. *)
From Coq Require Import List ZArith Reals.
Import ListNotations.
From Verif Require Import Outcome TestArith SpecTest SpecPareto Dtlz DtlzFacts DtlzFacts2 DtlzFacts3.
Local Open Scope R_scope.

Theorem C81_constructor : forall id dim fdim, (0 <= id)%Z ->
  (dtlz_ctor id dim fdim = Ok tt <-> (1 <= id <= 7 /\ 2 <= fdim < dim /\ 3 * dim <= 2 ^ 64 - 1)%Z) /\ (dtlz_ctor id dim fdim <> Ok tt -> dtlz_ctor id dim fdim = Throw InvalidArgument).
Proof. exact dtlz_ctor_spec. Qed.
Print Assumptions C81_constructor.
(** As many objectives as asked for and a distance for every vector of the right size,
    whatever the arithmetic *)
Theorem C81_defined : forall A (o : arith A) id dim fdim alpha x, (0 <= id)%Z -> dtlz_ctor id (Z.of_nat dim) (Z.of_nat fdim) = Ok tt ->
  (length x = dim -> (exists f, dtlz_fitness o id fdim alpha x = Ok f /\ length f = fdim) /\ exists d, dtlz_p_distance o id dim fdim x = Ok d) /\
  (length x <> dim -> dtlz_p_distance o id dim fdim x = Throw InvalidArgument).
Proof. exact @dtlz_defined. Qed.
Print Assumptions C81_defined.

(** p_distance is never negative. Except in DTLZ7 it is zero only at Pareto-optimal vectors;
    except in DTLZ5 and DTLZ6 with more than three objectives it is zero at all of them. *)
Theorem C81_distance : forall id dim fdim alpha, (0 <= id)%Z -> (0 <= alpha)%Z -> dtlz_ctor id (Z.of_nat dim) (Z.of_nat fdim) = Ok tt ->
  forall x, admissible (dtlz_bounds Rar dim) 0 x -> exists d, dtlz_p_distance Rar id dim fdim x = Ok d /\ 0 <= d /\
    (id <> 7%Z -> d = 0 -> pareto_optimal (admissible (dtlz_bounds Rar dim) 0) (dtlz_fitness Rar id fdim alpha) x) /\
    ((id <= 4)%Z \/ id = 7%Z \/ (fdim <= 3)%nat -> pareto_optimal (admissible (dtlz_bounds Rar dim) 0) (dtlz_fitness Rar id fdim alpha) x -> d = 0).
Proof. exact dtlz_main. Qed.
Print Assumptions C81_distance.
Example C81_distance_dtlz2 : dtlz_ctor 2 3 2 = Ok tt /\ admissible (dtlz_bounds Rar 3) 0 [1; 1 / 2; 1 / 2] /\ dtlz_p_distance Rar 2 3 2 [1; 1 / 2; 1 / 2] = Ok 0 /\
  admissible (dtlz_bounds Rar 3) 0 [1; 1; 1] /\ dtlz_p_distance Rar 2 3 2 [1; 1; 1] = Ok (1 / 2).
Proof. exact dtlz2_example. Qed.
(** The objectives lie on the plane (DTLZ1) or the sphere (DTLZ2 to DTLZ6) of the literature,
    scaled by one plus the distance. *)
Theorem C81_front : forall id dim fdim alpha, (0 <= id)%Z -> (0 <= alpha)%Z -> dtlz_ctor id (Z.of_nat dim) (Z.of_nat fdim) = Ok tt ->
  forall x, admissible (dtlz_bounds Rar dim) 0 x -> exists d f, dtlz_p_distance Rar id dim fdim x = Ok d /\ dtlz_fitness Rar id fdim alpha x = Ok f /\
    (id <> 7%Z -> Forall (Rle 0) f) /\ (id = 1%Z -> total f = (1 + d) / 2) /\ ((2 <= id <= 6)%Z -> total_squares f = (1 + d) ^ 2).
Proof. exact dtlz_front. Qed.
Print Assumptions C81_front.
(** The distance of a population is zero exactly when all its members are Pareto-optimal. *)
Theorem C81_population : forall id dim fdim alpha, (0 <= id)%Z -> (0 <= alpha)%Z -> dtlz_ctor id (Z.of_nat dim) (Z.of_nat fdim) = Ok tt -> ((id <= 4)%Z \/ id <> 7%Z /\ (fdim <= 3)%nat) ->
  forall xs, xs <> [] -> Forall (admissible (dtlz_bounds Rar dim) 0) xs -> exists d, dtlz_p_distance_pop Rar id dim fdim xs = Ok d /\ 0 <= d /\
    (d = 0 <-> Forall (pareto_optimal (admissible (dtlz_bounds Rar dim) 0) (dtlz_fitness Rar id fdim alpha)) xs).
Proof. exact dtlz_pop. Qed.
Print Assumptions C81_population.
(** In DTLZ7 the distance is zero at points that another one dominates. *)
Theorem C81_dtlz7_refuted : exists x y fx fy, dtlz_ctor 7 3 2 = Ok tt /\ admissible (dtlz_bounds Rar 3) 0 x /\ admissible (dtlz_bounds Rar 3) 0 y /\ dtlz_p_distance Rar 7 3 2 x = Ok 0 /\
  dtlz_fitness Rar 7 2 100 x = Ok fx /\ dtlz_fitness Rar 7 2 100 y = Ok fy /\ pareto_dominates fy fx.
Proof. exact dtlz7_bad. Qed.
Print Assumptions C81_dtlz7_refuted.
(** In DTLZ5 and DTLZ6 with four objectives a Pareto-optimal vector has distance 1/2 and 2. *)
Theorem C81_dtlz5_refuted : let x := [0; 1; 1; 1; 1] in
  dtlz_ctor 5 5 4 = Ok tt /\ dtlz_p_distance Rar 5 5 4 x = Ok (1 / 2) /\ pareto_optimal (admissible (dtlz_bounds Rar 5) 0) (dtlz_fitness Rar 5 4 100) x /\
  dtlz_ctor 6 5 4 = Ok tt /\ dtlz_p_distance Rar 6 5 4 x = Ok 2 /\ pareto_optimal (admissible (dtlz_bounds Rar 5) 0) (dtlz_fitness Rar 6 4 100) x.
Proof. exact dtlz5_bad. Qed.
Print Assumptions C81_dtlz5_refuted.
