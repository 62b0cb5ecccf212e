(** Property C38: numerical gradients and sparsity patterns.
    Only statements, non-vacuity examples and assumption listings. *)
From Coq Require Import List Bool Arith ZArith QArith Lia.
From Verif Require Import Dbl IntDbl Outcome StdSort BaseFacts Problem SpecProblem Gradients SpecGradients GradientsFacts GradientsFacts2.
Import ListNotations.
Local Open Scope nat_scope.

(** Layout: nf * nx entries, and the entry for component i and variable j, at j + i*nx, is
    computed from the values of component i at x_j + h and x_j - h, all else unchanged.
    This holds for any arithmetic [o], the doubles ([Dops]) among them. *)
Theorem C38_gradient_layout : forall A (o : ops A) f x dx G, estimate_gradient o f x dx = Ok G -> exists f0, f x = Ok f0 /\ length G = length f0 * length x /\
  forall i j xj, i < length f0 -> nth_error x j = Some xj -> let h := step o dx xj in
    exists a b, value_at f x j (o_add o xj h) (length f0) i a /\ value_at f x j (o_sub o xj h) (length f0) i b /\
      nth_error G (j + i * length x) = Some (o_div o (o_div o (o_sub o a b) (o_num o 2)) h).
Proof. exact @gradient_entries. Qed.
Print Assumptions C38_gradient_layout.
(** The six-point version: 1.5 m1 - 0.6 m2 + 0.1 m3 written with integers. *)
Theorem C38_gradient_h_layout : forall A (o : ops A) f x dx G, estimate_gradient_h o f x dx = Ok G -> exists f0, f x = Ok f0 /\ length G = length f0 * length x /\
  forall i j xj, i < length f0 -> nth_error x j = Some xj -> let h := step o dx xj in let n := o_num o in
    exists r1 l1 r2 l2 r3 l3,
      value_at f x j (o_add o xj h) (length f0) i r1 /\ value_at f x j (o_sub o xj h) (length f0) i l1 /\
      value_at f x j (o_add o xj (o_mul o (n 2%Z) h)) (length f0) i r2 /\ value_at f x j (o_sub o xj (o_mul o (n 2%Z) h)) (length f0) i l2 /\
      value_at f x j (o_add o xj (o_mul o (n 3%Z) h)) (length f0) i r3 /\ value_at f x j (o_sub o xj (o_mul o (n 3%Z) h)) (length f0) i l3 /\
      nth_error G (j + i * length x) = Some (o_div o
        (o_add o (o_sub o (o_mul o (n 15%Z) (o_div o (o_sub o r1 l1) (n 2%Z))) (o_mul o (n 6%Z) (o_div o (o_sub o r2 l2) (n 4%Z))))
                 (o_div o (o_sub o r3 l3) (n 6%Z))) (o_mul o (n 10%Z) h)).
Proof. exact @gradient_h_entries. Qed.
Print Assumptions C38_gradient_h_layout.
(** Both return when every call returns as many values as the one at x, and raise
    std::invalid_argument when some call returns another number of values. *)
Theorem C38_gradient_outcome : forall A (o : ops A) f x dx f0, f x = Ok f0 ->
  ((calls_have_size (two_points o dx) f x (length f0) -> exists G, estimate_gradient o f x dx = Ok G) /\
   (calls_return (two_points o dx) f x -> some_call_differs (two_points o dx) f x (length f0) -> estimate_gradient o f x dx = Throw InvalidArgument)) /\
  ((calls_have_size (six_points o dx) f x (length f0) -> exists G, estimate_gradient_h o f x dx = Ok G) /\
   (calls_return (six_points o dx) f x -> some_call_differs (six_points o dx) f x (length f0) -> estimate_gradient_h o f x dx = Throw InvalidArgument)).
Proof. exact @gradient_outcome. Qed.
Print Assumptions C38_gradient_outcome.
(** In exact arithmetic the central difference is the derivative wherever the component is
    a polynomial of degree at most 2 in that variable (so on all affine functions) ... *)
Theorem C38_gradient_exact : forall f x dx G f0, ~ (dx == 0)%Q -> estimate_gradient Qops f x dx = Ok G -> f x = Ok f0 ->
  forall i j xj c0 c1 c2, i < length f0 -> nth_error x j = Some xj -> polynomial_in f x (length f0) i j [c0; c1; c2] ->
    exists d, nth_error G (j + i * length x) = Some d /\ (d == c1 + 2 * c2 * xj)%Q.
Proof. exact gradient_exact. Qed.
Print Assumptions C38_gradient_exact.
(** ... and the six-point formula up to degree 6. *)
Theorem C38_gradient_h_exact : forall f x dx G f0, ~ (dx == 0)%Q -> estimate_gradient_h Qops f x dx = Ok G -> f x = Ok f0 ->
  forall i j xj c0 c1 c2 c3 c4 c5 c6, i < length f0 -> nth_error x j = Some xj -> polynomial_in f x (length f0) i j [c0; c1; c2; c3; c4; c5; c6] ->
    exists d, nth_error G (j + i * length x) = Some d /\ (d == pderiv [c0; c1; c2; c3; c4; c5; c6] xj)%Q.
Proof. exact gradient_h_exact. Qed.
Print Assumptions C38_gradient_h_exact.
(** f(x, y) = (x y + 3 x, y^2) at (2, 5) *)
Definition f_q (v : list Q) : outcome (list Q) := match v with [a; b] => Ok [(a * b + 3 * a)%Q; (b * b)%Q] | _ => UB end.
Example C38_gradient_case : exists G, estimate_gradient Qops f_q [2; 5]%Q (1 # 100) = Ok G /\ Forall2 Qeq G [8; 2; 0; 10]%Q.
Proof. eexists. split; [reflexivity|]. repeat constructor. Qed.
Example C38_gradient_h_case : exists G, estimate_gradient_h Qops f_q [2; 5]%Q (1 # 100) = Ok G /\ Forall2 Qeq G [8; 2; 0; 10]%Q.
Proof. eexists. split; [reflexivity|]. repeat constructor. Qed.
Example C38_polynomial_case : polynomial_in f_q [2; 5]%Q 2 1 1 [0; 0; 1]%Q /\ polynomial_in f_q [2; 5]%Q 2 0 0 [0; 8; 0; 0; 0; 0; 0]%Q.
Proof.
  split; intros v y (L & _ & N & R); destruct y as [|a [|b [|]]]; try discriminate; cbn in N; injection N as ->.
  - exists [(a * v + 3 * a)%Q; (v * v)%Q], (v * v)%Q. repeat split. cbn. ring.
  - specialize (R 1 ltac:(lia)). cbn in R. injection R as ->. exists [(v * 5 + 3 * v)%Q; (5 * 5)%Q], (v * 5 + 3 * v)%Q. repeat split. cbn. ring.
Qed.
(** On doubles: f(x, y) = (x + y, 2 y), dx = 1/2 *)
Definition f_d (v : list dbl) : outcome (list dbl) := match v with [a; b] => Ok [dadd a b; dmul (dint 2) b] | _ => UB end.
Example C38_double_case : estimate_gradient Dops f_d [dint 1; dint 4] (ddiv (dint 1) (dint 2)) = Ok [dint 1; dint 1; dint 0; dint 2].
Proof. vm_compute. reflexivity. Qed.
(** a function whose size depends on the point *)
Definition f_ragged (v : list Q) : outcome (list Q) := match v with [a] => if Qle_bool a 1 then Ok [a] else Ok [a; a] | _ => UB end.
Example C38_size_change_case : estimate_gradient Qops f_ragged [1%Q] (1 # 2) = Throw InvalidArgument /\
  calls_return (two_points Qops (1 # 2)) f_ragged [1%Q] /\ some_call_differs (two_points Qops (1 # 2)) f_ragged [1%Q] 1.
Proof.
  split; [reflexivity|]. split.
  - intros j xj v y _ _ (L & _). destruct y as [|a [|]]; try discriminate. cbn. destruct (Qle_bool a 1); eauto.
  - exists 0, 1%Q, (1 + 1 * (1 # 2))%Q, [(1 + 1 * (1 # 2))%Q]. eexists. split; [reflexivity|]. split; [left; reflexivity|]. split.
    + split; [reflexivity|]. split; [cbn; lia|]. split; [reflexivity|]. intros [|k] D; [congruence|]. reflexivity.
    + split; [reflexivity|]. cbn. lia.
Qed.

(** The estimated sparsity pattern is one that the problem class accepts, and it holds
    (i, j) exactly when moving x_j by its step changed component i. *)
Theorem C38_sparsity : forall A (o : ops A) f x dx srt S, sort_contract srt -> estimate_sparsity o f x dx srt = Ok S -> exists f0, f x = Ok f0 /\
  good_gradient_pattern (length f0) (length x) S /\ check_gradient_sparsity (length f0) (length x) S = Ok tt /\
  forall i j, In (i, j) S <-> exists xj y w a b, nth_error x j = Some xj /\ moved x j (o_add o xj (step o dx xj)) y /\ f y = Ok w /\
     nth_error w i = Some a /\ nth_error f0 i = Some b /\ o_neq o a b = true.
Proof. exact @sparsity_entries. Qed.
Print Assumptions C38_sparsity.
Theorem C38_sparsity_outcome : forall A (o : ops A) f x dx srt f0, sort_contract srt -> f x = Ok f0 ->
  (calls_have_size (one_point o dx) f x (length f0) -> exists S, estimate_sparsity o f x dx srt = Ok S) /\
  (calls_return (one_point o dx) f x -> some_call_differs (one_point o dx) f x (length f0) -> estimate_sparsity o f x dx srt = Throw InvalidArgument).
Proof. exact @sparsity_outcome. Qed.
Print Assumptions C38_sparsity_outcome.
Example C38_sparsity_case : estimate_sparsity Qops f_q [2; 5]%Q (1 # 100) (@isort) = Ok [(0, 0); (0, 1); (1, 1)] /\
  estimate_sparsity Dops f_d [dint 1; dint 4] (ddiv (dint 1) (dint 2)) (@isort) = Ok [(0, 0); (0, 1); (1, 1)].
Proof. split; vm_compute; reflexivity. Qed.
(** It is an estimate: a dependency that the one probe does not show is missed. Here
    f(x) = (x - 1)(x - 2) at 1 with step 1. *)
Theorem C38_sparsity_complete_refuted : exists f x dx y w, estimate_sparsity Qops f x dx (@isort) = Ok [] /\ moved x 0 3%Q y /\ f y = Ok [w] /\
  exists w0, f x = Ok [w0] /\ ~ (w == w0)%Q.
Proof. exact sparsity_misses. Qed.
Print Assumptions C38_sparsity_complete_refuted.
