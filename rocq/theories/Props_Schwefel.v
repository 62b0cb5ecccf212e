(** C93: the Schwefel test problem, in exact arithmetic. *)
From Coq Require Import List ZArith Reals Permutation.
Import ListNotations.
From Verif Require Import Outcome TestArith SpecTest Schwefel SpecSchwefel SchwefelFacts.
Local Open Scope R_scope.

(** The fitness is the documented sum, so it is separable, does not depend on the order of the
    components, and the values at a point and at its mirror image have a constant sum. *)
Theorem C93_value : (forall x, schwefel_fitness Rar x = Ok [schwefel_value x]) /\ (forall x y, schwefel_value (x ++ y) = schwefel_value x + schwefel_value y) /\
  (forall x y, Permutation x y -> schwefel_fitness Rar x = schwefel_fitness Rar y) /\
  (forall x, schwefel_value x + schwefel_value (map Ropp x) = 2 * (4189828872724338 / 10000000000000) * INR (length x)).
Proof. exact schwefel_all. Qed.
Print Assumptions C93_value.
Example C93_value_origin : schwefel_fitness Rar [0; 0] = Ok [schwefel_value [0; 0]] /\ schwefel_value [0; 0] = 2 * (4189828872724338 / 10000000000000).
Proof. exact (conj (schwefel_is [0; 0]) schwefel_origin). Qed.

(** The constructor takes every dimension but zero. *)
Theorem C93_constructor : forall dim, schwefel_ctor dim = Ok dim <-> (1 <= dim)%nat.
Proof. exact schwefel_ctor_iff. Qed.
Print Assumptions C93_constructor.
Example C93_constructor_cases : schwefel_ctor 0 = Throw InvalidArgument /\ schwefel_ctor 3 = Ok 3%nat.
Proof. exact (conj eq_refl eq_refl). Qed.

(** best_known is within the bounds, its fitness is at least -2 per component, and the fitness
    of every point within the bounds is between -82 and 919 per component. *)
Theorem C93_within_bounds : forall dim, schwefel_ctor dim = Ok dim -> in_bounds (schwefel_best Rar dim) (schwefel_bounds Rar dim) /\
  (exists f, schwefel_fitness Rar (schwefel_best Rar dim) = Ok [f] /\ INR dim * -2 <= f) /\
  (forall x, in_bounds x (schwefel_bounds Rar dim) -> exists f, schwefel_fitness Rar x = Ok [f] /\ INR dim * -82 <= f <= INR dim * 919).
Proof. exact schwefel_within. Qed.
Print Assumptions C93_within_bounds.
Example C93_within_bounds_nonvacuous : schwefel_ctor 2 = Ok 2%nat /\ in_bounds (schwefel_best Rar 2) (schwefel_bounds Rar 2).
Proof. exact (conj eq_refl (schwefel_best_in 2)). Qed.

(** Unlike that of the other test problems, best_known is not a minimiser without the bounds:
    points outside them have arbitrarily low fitness, and fitness accepts such points. *)
Theorem C93_global_minimum_refuted : forall dim, schwefel_ctor dim = Ok dim ->
  (forall M, exists x f, length x = dim /\ schwefel_fitness Rar x = Ok [f] /\ f < M) /\
  forall v, ~ minimum_at dim (schwefel_fitness Rar) (schwefel_bounds Rar dim) (schwefel_best Rar dim) v.
Proof. exact (fun dim C => conj (fun M => schwefel_unbounded dim M C) (schwefel_not_min dim C)). Qed.
Print Assumptions C93_global_minimum_refuted.
Example C93_global_minimum_refuted_nonvacuous : schwefel_ctor 1 = Ok 1%nat.
Proof. exact eq_refl. Qed.
