(** C74: Golomb rulers. *)
From Coq Require Import ZArith List.
From Verif Require Import Outcome Dbl IntDbl StdSort BaseFacts Problem SpecProblem Golomb SpecGolomb GolombFacts GolombExamples.
Import ListNotations.
Local Open Scope Z_scope.

(** The constructor accepts exactly the orders and bounds whose longest ruler fits an unsigned
    int. (The header documents an error for bounds below 1; the code also rejects 1.) *)
Theorem C74_constructor : forall order upper, 0 <= order -> 0 <= upper ->
  (golomb_construct order upper = Ok tt <-> 2 <= order /\ 2 <= upper /\ upper * (order - 1) <= uint_max) /\
  (golomb_construct order upper = Throw InvalidArgument <-> order < 2 \/ upper < 2) /\
  (golomb_construct order upper = Throw OverflowError <-> 2 <= order /\ 2 <= upper /\ uint_max < upper * (order - 1)).
Proof. exact ctor_spec. Qed.
Print Assumptions C74_constructor.
Example C74_constructed : golomb_construct 4 10 = Ok tt /\ golomb_construct 3 2147483648 = Throw OverflowError.
Proof. exact (conj eq_refl eq_refl). Qed.
(** Every ruler that can be built is a valid problem. *)
Theorem C74_problem : forall srt order upper, 0 <= upper -> golomb_construct order upper = Ok tt -> good_udp (golomb_udp srt order upper).
Proof. exact udp_good. Qed.
Print Assumptions C74_problem.

(** The fitness is defined on every vector. *)
Theorem C74_defined : forall srt x, sort_contract srt -> exists f0 f1, golomb_fitness srt x = Ok [f0; f1].
Proof. exact any_ok. Qed.
Print Assumptions C74_defined.

(** Whole gaps: the length of the ruler, and how many of the distances of its pairs of marks
    repeat another one. *)
Theorem C74_count : forall srt, sort_contract srt -> forall ks, Forall (fun k => 0 <= k) ks -> total ks < 2 ^ 53 -> Z.of_nat (length ks) < 2 ^ 26 ->
  exists l, lists_pairs (length ks) l /\
  golomb_fitness srt (map dint ks) = Ok [dint (total ks); dint (Z.of_nat (length l) - Z.of_nat (distinct_values (map (measure ks) l)))].
Proof. exact fitness_ok. Qed.
Print Assumptions C74_count.
(** On the decision vectors of a ruler: the constraint is met exactly when no two pairs of
    marks are the same distance apart, and the objective is the length. *)
Theorem C74_golomb : forall srt, sort_contract srt -> forall order upper ks f, 0 <= order -> 0 <= upper -> golomb_construct order upper = Ok tt ->
  Z.of_nat (length ks) = order - 1 -> Forall (fun k => 1 <= k <= upper) ks -> order <= 2 ^ 26 -> golomb_fitness srt (map dint ks) = Ok f ->
  nth_error f 0 = Some (dint (total ks)) /\ total ks <= uint_max /\ (nth_error f 1 = Some dzero <-> golomb ks).
Proof. exact built_ruler. Qed.
Print Assumptions C74_golomb.
(** 0 1 4 6 is a Golomb ruler, 0 1 2 is not. *)
Example C74_rulers : golomb [1; 3; 2] /\ ~ golomb [1; 1] /\ Forall (fun k => 1 <= k <= 10) [1; 3; 2] /\ golomb_fitness isort (map dint [1; 3; 2]) = Ok [dint 6; dint 0] /\ golomb_fitness isort (map dint [1; 1]) = Ok [dint 2; dint 1].
Proof. exact rulers. Qed.
