(** Concrete cases for C77 and C78. *)
From Coq Require Import List ZArith Reals Lra.
Import ListNotations.
From Verif Require Import Outcome Problem TestArith TestProblems SpecTest TestFacts TestFacts2 TestFacts3 TestFacts4.
Local Open Scope R_scope.

Lemma rosenbrock_23 : rosenbrock_ctor 2 = Ok 2%nat /\ rosenbrock_fitness Rar 2 [2; 3] = Ok [101] /\ rosenbrock_gradient Rar 2 [2; 3] = Ok [802; -200].
Proof.
  split; [reflexivity |]. split.
  - rewrite rosenbrock_value by (cbn; Lia.lia). f_equal. f_equal. unfold rsum. cbn. unfold rosT. cbn. lra.
  - cbn. f_equal. f_equal; [lra |]. f_equal. lra.
Qed.
Lemma hs71_1234 : hs71_fitness Rar [1; 2; 3; 4] = Ok [27; -10; 1].
Proof. cbn. f_equal. f_equal; [lra |]. f_equal; [lra |]. f_equal. lra. Qed.
Lemma hs71_1234g : hs71_gradient Rar [1; 2; 3; 4] = Ok [28; 4; 5; 6; 2; 4; 6; 8; -24; -12; -8; -6].
Proof. cbn. f_equal. repeat (f_equal; [lra |]). f_equal. lra. Qed.
Lemma luksan_pattern3 : luksan_ctor 3 = Ok 3%nat /\ luksan_gs 3 = [(0, 0); (0, 1); (0, 2); (1, 0); (1, 1); (1, 2)]%nat.
Proof. exact (conj eq_refl eq_refl). Qed.
Lemma luksan_pattern4 : luksan_ctor 4 = Ok 4%nat /\ luksan_gs 4 = [(0, 0); (0, 1); (0, 2); (0, 3); (1, 0); (1, 1); (1, 2); (2, 1); (2, 2); (2, 3)]%nat.
Proof. exact (conj eq_refl eq_refl). Qed.
Lemma rastrigin_10 : rastrigin_ctor 1 = Ok 1%nat /\ rastrigin_fitness Rar [1] = Ok [1] /\ rastrigin_gradient Rar [1] = Ok [2].
Proof.
  assert (C : omega Rar * 1 = 0 + 2 * PI) by (rewrite omega_R; ring).
  split; [reflexivity |]. split.
  - rewrite rastrigin_value. f_equal. f_equal. cbn. unfold rasT. cbn [nth]. rewrite omega_R in C. rewrite C, cos_plus, cos_2PI, sin_2PI, cos_0, sin_0. lra.
  - unfold rastrigin_gradient. cbn [length seq mmap vget nth_error bind]. f_equal. f_equal. cbn [ar_mul ar_add ar_sin Rar]. rewrite C, !lit1, sin_plus, cos_2PI, sin_2PI, sin_0, cos_0. lra.
Qed.
