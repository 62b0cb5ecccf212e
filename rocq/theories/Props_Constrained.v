(** C11-C14: constraint handling. *)
From Coq Require Import List Bool Arith ZArith Lia Permutation.
From Verif Require Import Dbl DblFacts Outcome StdSort BaseFacts Compare CompareFacts SpecOrder Constrained SpecConstrained IntDbl ConstrainedFacts ConstrainedFacts2.
Import ListNotations.

(** C11. The number returned is the number of constraints within tolerance, and the
    other component is the norm of the violations, zero when all are satisfied. *)
Theorem C11_constraint_counts : forall (eq : bool) c tol, length c <= length tol -> finite_all tol ->
  exists n norm, (if eq then test_eq_constraints c tol else test_ineq_constraints c tol) = Ok (n, norm) /\
    exactly n (sat_at eq c tol) /\ norm = violation_norm eq c tol /\
    ((forall i, i < length c -> sat_at eq c tol i) -> norm = dzero).
Proof. exact constraint_counts. Qed.
Print Assumptions C11_constraint_counts.
Example C11_constraint_counts_nonvacuous :
  test_eq_constraints [dint 3; dint (-1); dint 0] [dint 0; dint 1; dint 0] = Ok (2, dint 3).
Proof. exact ex_counts. Qed.

(** C11. feasibility_f decides feasibility; a wrong size is rejected. *)
Theorem C11_feasibility : forall nobj nec nic c_tol f, length c_tol = nec + nic -> finite_all c_tol ->
  (length f <> nobj + nec + nic -> feasibility_f nobj nec nic c_tol f = Throw InvalidArgument) /\
  (length f = nobj + nec + nic -> exists b, feasibility_f nobj nec nic c_tol f = Ok b /\
    (b = true <-> forall i, i < nec + nic -> exists c t,
        nth_error f (nobj + i) = Some c /\ nth_error c_tol i = Some t /\ within (Nat.ltb i nec) c t)).
Proof. exact feasibility_both. Qed.
Print Assumptions C11_feasibility.
Example C11_feasibility_nonvacuous :
  feasibility_f 1 1 1 [dint 1; dint 0] [dint 7; dint (-1); dint (-5)] = Ok true /\
  feasibility_f 1 1 1 [dint 1; dint 0] [dint 7; dint 2; dint (-5)] = Ok false.
Proof. exact ex_feas. Qed.

(** C11, refuted part: a zero norm does not imply that the constraints are satisfied. *)
Theorem C11_zero_norm_refuted : exists c tol, finite_all c /\ finite_all tol /\ length c = length tol /\
  test_eq_constraints c tol = Ok (0, dzero) /\ ~ sat_at true c tol 0.
Proof. exact zero_norm_refuted. Qed.
Print Assumptions C11_zero_norm_refuted.

(** C12. *)
Theorem C12_compare_fc : forall f1 f2 neq tol, fc_args_ok neq tol f1 -> fc_args_ok neq tol f2 -> finite_all tol ->
  exists b, compare_fc f1 f2 neq tol = Ok b /\
    (forall n1 n2, exactly n1 (satisfied neq tol f1) -> exactly n2 (satisfied neq tol f2) ->
        (n1 > n2 -> b = true) /\ (n1 < n2 -> b = false)) /\
    (feasible neq tol f1 -> feasible neq tol f2 -> (b = true <-> better (nth 0 f1 NaN) (nth 0 f2 NaN))) /\
    (feasible neq tol f1 -> ~ feasible neq tol f2 -> b = true) /\
    (~ feasible neq tol f1 -> feasible neq tol f2 -> b = false).
Proof. exact compare_fc_spec. Qed.
Print Assumptions C12_compare_fc.
Example C12_compare_fc_nonvacuous :
  compare_fc [dint 9; dint 0; dint (-2)] [dint 1; dint 5; dint (-2)] 1 ftol = Ok true /\
  compare_fc [dint 9; dint 0; dint (-2)] [dint 1; dint 0; dint (-3)] 1 ftol = Ok false.
Proof. exact ex_cmp. Qed.

(** C12. Between infeasible vectors that satisfy equally many constraints: the sum of
    the two norms of the first is compared with the norm of the pair for the second. *)
Theorem C12_compare_fc_violations : forall f1 f2 neq tol n, fc_args_ok neq tol f1 -> fc_args_ok neq tol f2 -> finite_all tol ->
  exactly n (satisfied neq tol f1) -> exactly n (satisfied neq tol f2) -> n <> length tol ->
  exists b, compare_fc f1 f2 neq tol = Ok b /\
   (b = true <-> better (dadd (eq_norm neq tol f1) (ineq_norm neq tol f1))
                        (dsqrt (dadd (dmul (eq_norm neq tol f2) (eq_norm neq tol f2)) (dmul (ineq_norm neq tol f2) (ineq_norm neq tol f2))))).
Proof. exact compare_fc_infeasible. Qed.
Print Assumptions C12_compare_fc_violations.
Example C12_compare_fc_violations_nonvacuous : compare_fc fb fcc 1 ftol = Ok true /\ compare_fc fa fb 1 ftol = Ok false.
Proof. exact (conj cmp_bc cmp_ab). Qed.

Theorem C12_compare_fc_rejects : forall f1 f2 neq tol,
  length f1 <> length f2 \/ ~ fc_args_ok neq tol f1 -> compare_fc f1 f2 neq tol = Throw InvalidArgument.
Proof. exact compare_fc_rejects. Qed.
Print Assumptions C12_compare_fc_rejects.
Example C12_compare_fc_rejects_nonvacuous : ~ fc_args_ok 2 [dzero] [dzero; dzero].
Proof. intros [_ H]. simpl in H. lia. Qed.

(** C13. A strict partial order on vectors none of which beats itself. *)
Theorem C13_strict_partial_order : forall neq tol l,
  (forall f, In f l -> fc_args_ok neq tol f) -> (forall f, In f l -> fc_lt neq tol f f = false) ->
  (forall a b c, In a l -> In b l -> In c l -> fc_lt neq tol a b = true -> fc_lt neq tol b c = true -> fc_lt neq tol a c = true) /\
  (forall a b, In a l -> In b l -> fc_lt neq tol a b = true -> fc_lt neq tol b a = false).
Proof. exact fc_lt_spo. Qed.
Print Assumptions C13_strict_partial_order.
Example C13_strict_partial_order_nonvacuous : fc_lt 1 ftol fa fa = false /\ fc_lt 1 ftol fb fb = false /\ fc_lt 1 ftol fb fcc = true.
Proof. exact ex_lt. Qed.

(** C13. A strict weak order when the two ways of measuring a violation agree on the
    infeasible vectors; in particular when all are feasible. *)
Theorem C13_strict_weak_order : forall neq tol l, (forall f, In f l -> fc_args_ok neq tol f) -> finite_all tol ->
  (forall f, In f l -> ~ feasible neq tol f ->
     dadd (eq_norm neq tol f) (ineq_norm neq tol f) =
     dsqrt (dadd (dmul (eq_norm neq tol f) (eq_norm neq tol f)) (dmul (ineq_norm neq tol f) (ineq_norm neq tol f)))) ->
  strict_weak_on (fc_lt neq tol) l.
Proof. exact fc_lt_swo_norms. Qed.
Print Assumptions C13_strict_weak_order.
Example C13_strict_weak_order_nonvacuous : strict_weak_on (fc_lt 1 ftol) swo_pop.
Proof. exact swo_example. Qed.

(** C13, refuted: a finite population on which it is not a strict weak order, and a
    vector of doubles that beats itself. *)
Theorem C13_strict_weak_order_refuted : exists neq tol l, finite_all tol /\
  (forall f, In f l -> fc_args_ok neq tol f /\ finite_all f) /\ ~ strict_weak_on (fc_lt neq tol) l.
Proof. exact swo_refuted. Qed.
Print Assumptions C13_strict_weak_order_refuted.
Theorem C13_irreflexive_refuted : exists neq tol f, finite_all tol /\ fc_args_ok neq tol f /\ finite_all f /\
  Forall is_double f /\ compare_fc f f neq tol = Ok true.
Proof. exact irrefl_refuted. Qed.
Print Assumptions C13_irreflexive_refuted.

(** C14. *)
Theorem C14_sort_population_con : forall srt input_f neq tol, sort_contract srt ->
  (forall f, In f input_f -> fc_args_ok neq tol f) -> strict_weak_on (fc_lt neq tol) input_f ->
  exists idx, sort_population_con srt input_f neq tol = Ok idx /\ Permutation (iota (length input_f)) idx /\
    (forall i j a b, i < j -> nth_error idx i = Some a -> nth_error idx j = Some b ->
       compare_fc (nth b input_f []) (nth a input_f []) neq tol = Ok false).
Proof. exact sort_con_ok. Qed.
Print Assumptions C14_sort_population_con.
Example C14_sort_population_con_nonvacuous : sort_contract (@isort) /\
  strict_weak_on (fc_lt 1 ftol) swo_pop.
Proof. exact (conj isort_contract swo_example). Qed.

Theorem C14_feasible_first : forall srt input_f neq tol idx, sort_contract srt ->
  (forall f, In f input_f -> fc_args_ok neq tol f) -> finite_all tol -> strict_weak_on (fc_lt neq tol) input_f ->
  sort_population_con srt input_f neq tol = Ok idx ->
  forall i j a b, i < j -> nth_error idx i = Some a -> nth_error idx j = Some b ->
    (feasible neq tol (nth b input_f []) -> feasible neq tol (nth a input_f []) /\
        not_worse (nth 0 (nth a input_f []) NaN) (nth 0 (nth b input_f []) NaN)) /\
    (forall na nb, exactly na (satisfied neq tol (nth a input_f [])) -> exactly nb (satisfied neq tol (nth b input_f [])) -> nb <= na).
Proof. exact sort_con_feasible_first. Qed.
Print Assumptions C14_feasible_first.
Example C14_feasible_first_nonvacuous : exists idx, sort_population_con (@isort) swo_pop 1 ftol = Ok idx.
Proof. exact sort_example. Qed.

Theorem C14_sort_rejects : forall srt input_f neq tol, 2 <= length input_f -> (exists f, In f input_f /\ ~ fc_args_ok neq tol f) ->
  sort_population_con srt input_f neq tol = Throw InvalidArgument.
Proof. exact sort_con_rejects. Qed.
Print Assumptions C14_sort_rejects.
Example C14_sort_rejects_nonvacuous : ~ fc_args_ok 2 [dzero] [dzero; dzero].
Proof. intros [_ H]. simpl in H. lia. Qed.

(** C14, refuted outside that hypothesis: std::sort is called with a comparator that is
    not a strict weak order, which is undefined behaviour. *)
Theorem C14_sort_defined_refuted : exists input_f neq tol, finite_all tol /\
  (forall f, In f input_f -> fc_args_ok neq tol f /\ finite_all f) /\ forall srt, sort_population_con srt input_f neq tol = UB.
Proof. exact sort_refuted. Qed.
Print Assumptions C14_sort_defined_refuted.
