(** C79: the Lennard-Jones cluster. *)
From Coq Require Import List ZArith Reals.
Import ListNotations.
From Verif Require Import Outcome TestArith TestProblems SpecTest TestFacts5.
Local Open Scope R_scope.

(** The constructor accepts the numbers of atoms whose dimension is an unsigned int, and the
    dimension computed with unsigned ints is the exact one. *)
Theorem C79_constructor : forall atoms, (0 <= atoms)%Z ->
  (lj_ctor atoms = Ok atoms <-> (3 <= atoms /\ 3 * atoms - 6 < 2 ^ 32)%Z) /\
  (lj_ctor atoms = Throw InvalidArgument <-> (atoms < 3)%Z) /\ (lj_ctor atoms = Throw OverflowError <-> (3 <= atoms /\ 2 ^ 32 <= 3 * atoms - 6)%Z).
Proof. exact lj_ctor_spec. Qed.
Print Assumptions C79_constructor.
Theorem C79_dimension : forall atoms, (0 <= atoms)%Z -> lj_ctor atoms = Ok atoms -> lj_dim atoms = (3 * atoms - 6)%Z.
Proof. exact lj_dim_exact. Qed.
Print Assumptions C79_dimension.
(** The fitness reads only the decision vector, whatever the arithmetic. *)
Theorem C79_defined : forall A (o : arith A) atoms x, lj_ctor (Z.of_nat atoms) = Ok (Z.of_nat atoms) -> Z.of_nat (length x) = lj_dim (Z.of_nat atoms) ->
  exists v, lj_fitness o atoms x = Ok [v].
Proof. exact @lj_defined. Qed.
Print Assumptions C79_defined.
(** It is the potential of the cluster when no two atoms coincide. *)
Theorem C79_potential : forall atoms x, lj_ctor (Z.of_nat atoms) = Ok (Z.of_nat atoms) -> Z.of_nat (length x) = lj_dim (Z.of_nat atoms) -> all_apart atoms x ->
  lj_fitness Rar atoms x = Ok [lennard_jones_energy atoms x].
Proof. exact lj_value. Qed.
Print Assumptions C79_potential.
Example C79_three : lj_ctor 3 = Ok 3%Z /\ lj_dim 3 = 3%Z /\ all_apart 3 [1; 1; 0] /\ lennard_jones_energy 3 [1; 1; 0] = - 7 / 16.
Proof. exact lj_example. Qed.
(** No cluster is below -1 per pair of atoms; with coinciding atoms the potential is not
    further below 4 times the largest double. *)
Theorem C79_low : forall atoms x, lj_ctor (Z.of_nat atoms) = Ok (Z.of_nat atoms) -> Z.of_nat (length x) = lj_dim (Z.of_nat atoms) ->
  exists v, lj_fitness Rar atoms x = Ok [v] /\ - INR (length (atom_pairs atoms)) <= v.
Proof. exact lj_low. Qed.
Print Assumptions C79_low.
Theorem C79_coinciding : forall atoms x i j, lj_ctor (Z.of_nat atoms) = Ok (Z.of_nat atoms) -> Z.of_nat (length x) = lj_dim (Z.of_nat atoms) ->
  (i < j < atoms)%nat -> square_distance x i j = 0 ->
  exists v, lj_fitness Rar atoms x = Ok [v] /\ 4 * ar_huge Rar - INR (length (atom_pairs atoms)) <= v.
Proof. exact lj_huge. Qed.
Print Assumptions C79_coinciding.
