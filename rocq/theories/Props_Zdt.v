(** C80: the ZDT problems, in exact arithmetic. *)
From Coq Require Import List ZArith Reals.
Import ListNotations.
From Verif Require Import Outcome TestArith SpecTest SpecPareto Zdt SpecZdt ZdtFacts ZdtFacts2 ZdtFacts3.
Local Open Scope R_scope.

Theorem C80_constructor : forall id param, (0 <= id)%Z ->
  (zdt_ctor id param = Ok (id, param) <-> (1 <= id <= 6 /\ 2 <= param)%Z) /\ (zdt_ctor id param = Throw InvalidArgument <-> ~ (1 <= id <= 6 /\ 2 <= param)%Z).
Proof. exact zdt_ctor_spec. Qed.
Print Assumptions C80_constructor.
(** Two objectives and a distance for every vector of the right size, whatever the arithmetic *)
Theorem C80_defined : forall A (o : arith A) id param x, (0 <= id)%Z -> zdt_ctor id param = Ok (id, param) -> zdt_fits id param -> Z.of_nat (length x) = zdt_dim id param ->
  (exists f1 f2, zdt_fitness o id x = Ok [f1; f2]) /\ exists d, zdt_p_distance o id x = Ok d.
Proof. exact @zdt_defined_fits. Qed.
Print Assumptions C80_defined.
(** ZDT5 with a parameter whose dimension wraps around is accepted, and has no fitness. *)
Theorem C80_defined_refuted : forall A (o : arith A) x, zdt_ctor 5 858993455 = Ok (5, 858993455)%Z /\ zdt_dim 5 858993455 = 4%Z /\
  (length x = 4%nat -> zdt_fitness o 5 x = Throw (UserExn 0)).
Proof. exact @zdt5_wraps. Qed.
Print Assumptions C80_defined_refuted.

(** p_distance is never negative, it is zero on the Pareto-optimal decision vectors, and
    except in ZDT3 on no others. *)
Theorem C80_distance : forall id param, (0 <= id)%Z -> zdt_ctor id param = Ok (id, param) -> zdt_fits id param ->
  forall x, zdt_admissible id param x -> exists d, zdt_p_distance Rar id x = Ok d /\ 0 <= d /\
    (pareto_optimal (zdt_admissible id param) (zdt_fitness Rar id) x -> d = 0) /\
    (id <> 3%Z -> d = 0 -> pareto_optimal (zdt_admissible id param) (zdt_fitness Rar id) x).
Proof. exact zdt_main_fits. Qed.
Print Assumptions C80_distance.
Example C80_distance_zdt1 : zdt_ctor 1 2 = Ok (1, 2)%Z /\ zdt_admissible 1 2 [1 / 4; 0] /\ zdt_p_distance Rar 1 [1 / 4; 0] = Ok 0 /\
  zdt_admissible 1 2 [1 / 4; 1] /\ zdt_p_distance Rar 1 [1 / 4; 1] = Ok 9.
Proof. exact zdt1_example. Qed.
(** At distance zero the second objective is that of the front of the literature. *)
Theorem C80_front : forall id param, (0 <= id)%Z -> zdt_ctor id param = Ok (id, param) -> zdt_fits id param ->
  forall x, zdt_admissible id param x -> zdt_p_distance Rar id x = Ok 0 -> exists f1, zdt_fitness Rar id x = Ok [f1; zdt_front id param f1].
Proof. exact zdt_fronts_fits. Qed.
Print Assumptions C80_front.
(** In ZDT3 the distance is zero at points that another one dominates. *)
Theorem C80_zdt3_refuted : exists x y fx fy, zdt_ctor 3 2 = Ok (3, 2)%Z /\ zdt_admissible 3 2 x /\ zdt_admissible 3 2 y /\ zdt_p_distance Rar 3 x = Ok 0 /\
  zdt_fitness Rar 3 x = Ok fx /\ zdt_fitness Rar 3 y = Ok fy /\ pareto_dominates fy fx.
Proof. exact zdt3_counterexample. Qed.
Print Assumptions C80_zdt3_refuted.
(** The distance of a population is zero exactly when all its members are Pareto-optimal. *)
Theorem C80_population : forall id param, (0 <= id)%Z -> zdt_ctor id param = Ok (id, param) -> zdt_fits id param -> id <> 3%Z ->
  forall xs, xs <> [] -> Forall (zdt_admissible id param) xs -> exists d, zdt_p_distance_pop Rar id xs = Ok d /\ 0 <= d /\
    (d = 0 <-> Forall (pareto_optimal (zdt_admissible id param) (zdt_fitness Rar id)) xs).
Proof. exact zdt_pop_fits. Qed.
Print Assumptions C80_population.
(** Where ZDT5 gets numbers that are not whole, fitness rounds them and p_distance truncates:
    the same objectives, different distances. *)
Theorem C80_rounding_refuted : exists x y, zdt_ctor 5 2 = Ok (5, 2)%Z /\ in_bounds x (zdt_bounds Rar 5 35) /\ in_bounds y (zdt_bounds Rar 5 35) /\
  zdt_fitness Rar 5 x = zdt_fitness Rar 5 y /\ zdt_p_distance Rar 5 x = Ok 1 /\ zdt_p_distance Rar 5 y = Ok 0.
Proof. exact zdt5_rounds. Qed.
Print Assumptions C80_rounding_refuted.
