(** C77, C78: the test problems, in exact arithmetic. *)
From Coq Require Import List ZArith Reals.
Import ListNotations.
From Verif Require Import Outcome Problem TestArith TestProblems SpecTest TestFacts TestFacts2 TestFacts3 TestFacts4 TestExamples.
Local Open Scope R_scope.

(** A gradient lists the partial derivatives of the fitness, in the order of the sparsity
    pattern of the problem: the dense one where the problem declares none. *)
Theorem C77_rosenbrock : forall dim, rosenbrock_ctor dim = Ok dim ->
  gradient_right dim 1 (rosenbrock_fitness Rar dim) (rosenbrock_gradient Rar dim) (dense_gradient 1 dim).
Proof. exact rosenbrock_right_ctor. Qed.
Print Assumptions C77_rosenbrock.
Example C77_rosenbrock_23 : rosenbrock_ctor 2 = Ok 2%nat /\ rosenbrock_fitness Rar 2 [2; 3] = Ok [101] /\ rosenbrock_gradient Rar 2 [2; 3] = Ok [802; -200].
Proof. exact rosenbrock_23. Qed.

(** rastrigin, and minlp_rastrigin, whose functions have the same text *)
Theorem C77_rastrigin : forall dim, gradient_right dim 1 (rastrigin_fitness Rar) (rastrigin_gradient Rar) (dense_gradient 1 dim).
Proof. exact rastrigin_right. Qed.
Print Assumptions C77_rastrigin.
Theorem C77_rastrigin_hessians : forall dim, hessians_right dim 1 (rastrigin_fitness Rar) (rastrigin_hessians Rar) (rastrigin_hs dim).
Proof. exact rastrigin_hessians_right. Qed.
Print Assumptions C77_rastrigin_hessians.
Example C77_rastrigin_1 : rastrigin_ctor 1 = Ok 1%nat /\ rastrigin_fitness Rar [1] = Ok [1] /\ rastrigin_gradient Rar [1] = Ok [2].
Proof. exact rastrigin_10. Qed.

Theorem C77_hock_schittkowski_71 : gradient_right 4 3 (hs71_fitness Rar) (hs71_gradient Rar) (dense_gradient 3 4).
Proof. exact hs71_right. Qed.
Print Assumptions C77_hock_schittkowski_71.
Theorem C77_hock_schittkowski_71_hessians : hessians_right 4 3 (hs71_fitness Rar) (hs71_hessians Rar) hs71_hs.
Proof. exact hs71_hessians_right. Qed.
Print Assumptions C77_hock_schittkowski_71_hessians.
Example C77_hock_schittkowski_1234 : hs71_fitness Rar [1; 2; 3; 4] = Ok [27; -10; 1] /\ hs71_gradient Rar [1; 2; 3; 4] = Ok [28; 4; 5; 6; 2; 4; 6; 8; -24; -12; -8; -6].
Proof. exact (conj hs71_1234 hs71_1234g). Qed.

(** The objective and the dim - 2 equality constraints *)
Theorem C77_luksan_vlcek1 : forall dim, luksan_ctor dim = Ok dim ->
  gradient_right dim (1 + luksan_nec dim) (luksan_fitness Rar) (luksan_gradient Rar) (luksan_gs dim).
Proof. exact luksan_right_ctor. Qed.
Print Assumptions C77_luksan_vlcek1.
Example C77_luksan_pattern : luksan_ctor 4 = Ok 4%nat /\ luksan_gs 4 = [(0, 0); (0, 1); (0, 2); (0, 3); (1, 0); (1, 1); (1, 2); (2, 1); (2, 2); (2, 3)]%nat.
Proof. exact luksan_pattern4. Qed.

(** best_known is within the bounds, and the only global minimiser; its fitness is zero. *)
Theorem C78_rosenbrock : forall dim, rosenbrock_ctor dim = Ok dim ->
  minimum_at dim (rosenbrock_fitness Rar dim) (rosenbrock_bounds Rar dim) (rosenbrock_best Rar dim) 0.
Proof. exact rosenbrock_minimum_ctor. Qed.
Print Assumptions C78_rosenbrock.
Theorem C78_rastrigin : forall dim, minimum_at dim (rastrigin_fitness Rar) (rastrigin_bounds Rar dim) (rastrigin_best Rar dim) 0.
Proof. exact rastrigin_minimum. Qed.
Print Assumptions C78_rastrigin.
Theorem C78_griewank : forall dim, minimum_at dim (griewank_fitness Rar) (griewank_bounds Rar dim) (griewank_best Rar dim) 0.
Proof. exact griewank_minimum. Qed.
Print Assumptions C78_griewank.
Theorem C78_ackley : forall dim, (1 <= dim)%nat -> minimum_at dim (ackley_fitness Rar) (ackley_bounds Rar dim) (ackley_best Rar dim) 0.
Proof. exact ackley_minimum. Qed.
Print Assumptions C78_ackley.
Example C78_dims : rosenbrock_ctor 3 = Ok 3%nat /\ rosenbrock_ctor 1 = Throw InvalidArgument /\ rastrigin_ctor 0 = Throw InvalidArgument.
Proof. exact (conj eq_refl (conj eq_refl eq_refl)). Qed.
