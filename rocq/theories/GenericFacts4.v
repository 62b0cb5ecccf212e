(** Further facts and worked examples for the generic utilities. *)
From Coq Require Import List Bool Arith ZArith Lia.
From Verif Require Import Dbl DblFacts IntDbl Outcome BaseFacts StdSort Compare CompareFacts SpecOrder Rng Problem SpecProblem ProblemFacts ProblemFacts3 Generic SpecGeneric GenericFacts GenericFacts2 GenericFacts3.
Import ListNotations.

Lemma reflect1_result n : forall x l u y, reflect1 n x l u = Ok y -> y <> NaN -> l <> NaN -> u <> NaN -> within l u y.
Proof.
  induction n as [|n IH]; intros x l u y E Ny Nl Nu; cbn [reflect1] in E; unfold dgt in E; destruct (dlt x l || dlt u x) eqn:C.
  - discriminate.
  - inversion E; subst. apply orb_false_iff in C. destruct C. split; now apply dlt_false_dle.
  - eapply IH; eauto.
  - inversion E; subst. apply orb_false_iff in C. destruct C. split; now apply dlt_false_dle.
Qed.
Lemma reflection_result n x lb ub y : length x = length lb -> length x = length ub ->
  force_bounds_reflection n x lb ub = Ok y -> (forall v, In v y -> v <> NaN) -> (forall v, In v lb \/ In v ub -> v <> NaN) -> in_box lb ub y.
Proof.
  intros L1 L2 E Ny Nb. destruct (map3_ok _ _ _ _ _ E) as [L P]. split; [congruence|]. split; [congruence|].
  intros i l u w Hl Hu Hw. assert (Hi : i < length x) by (rewrite <- L; apply nth_error_Some; congruence).
  destruct (nth_error x i) as [v|] eqn:Ev; [|apply nth_error_None in Ev; lia].
  destruct (P i v l u Ev Hl Hu) as (w' & Hw' & R). assert (w' = w) by congruence. subst w'.
  eapply reflect1_result; eauto; [apply Ny|apply Nb; left|apply Nb; right]; eapply nth_error_In; eauto.
Qed.

Local Opaque dadd dsub dmul dsqrt dlt dle deq d_of_Z isfinite dint one_z dbl_max.
Ltac gcbn := cbv beta iota zeta delta [force_bounds_random rbind rlift rret uniform_real_from_range uniform_real_impl real_checks throw_if bind draw_real rdraw stream_rng g_real g_int
  fst snd andb orb negb dgt force_bounds_reflection map3 reflect1 dtwo].
Lemma fbr_example1 : fst (force_bounds_random stream_rng [dint 7; dint 2] [dint 0; dint 1] [dint 3; dint 5] [1; 2]%Z) = Ok [dint 3; dint 2].
Proof.
  gcbn. repeat (dint_step; gcbn). replace (dlt dbl_max (dint 3)) with false by (vm_compute; reflexivity). gcbn. repeat (dint_step; gcbn). 
  reflexivity.
Qed.
Lemma fbr_example2 : fst (force_bounds_random stream_rng [dint 7] [MInf] [dint 5] [1; 2]%Z) = Throw InvalidArgument.
Proof. gcbn. dint_step. gcbn. reflexivity. Qed.
Lemma reflection_example : on_grid 1074 51 (dint 5) /\ force_bounds_reflection 4 [dint 8] [dint 0] [dint 3] = Ok [dint 2].
Proof.
  split; [exists 5%Z; split; [reflexivity|lia]|]. gcbn. repeat (dint_step; gcbn). reflexivity.
Qed.

(** One continuous variable in [2,5], one integer in [-1,2]. *)
Definition rdv_udp : udp :=
  {| u_fitness := fun x => Ok x; u_lb := [dint 2; dint (-1)]; u_ub := [dint 5; dint 2]; u_nobj := 2; u_nec := 0; u_nic := 0; u_nix := 1;
     u_batch := None; u_gradient := None; u_gs := None; u_hessians := None; u_hs := Some [[]; []]; u_set_seed := false; u_ts := TSbasic |}.
Definition rdv_problem : problem :=
  {| p_udp := rdv_udp; p_lb := [dint 2; dint (-1)]; p_ub := [dint 5; dint 2]; p_nobj := 2; p_nec := 0; p_nic := 0; p_nix := 1;
     p_ctol := []; p_gs_dim := 4; p_hs_dim := [0; 0]%Z |}.
Lemma rdv_example : exists p, construct rdv_udp = Ok p /\ Forall is_double (u_lb rdv_udp) /\ Forall is_double (u_ub rdv_udp) /\ usable p /\
  random_decision_vector stream_rng p [1; 9]%Z = (Ok [dint 5; dint 2], []).
Proof.
  exists rdv_problem. split; [vm_compute; reflexivity|].
  split; [repeat constructor; apply is_double_int; reflexivity|]. split; [repeat constructor; apply is_double_int; reflexivity|].
  split.
  - intros [|[|[|i]]] l u Hl Hu; try discriminate; injection Hl as <-; injection Hu as <-; cbn [Nat.ltb Nat.leb get_nx p_nix rdv_problem p_lb length Nat.sub].
    + split; [apply isfinite_int|]. split; [apply isfinite_int|]. repeat dint_step. reflexivity.
    + split; [exists (-1)%Z|exists 2%Z]; (split; [reflexivity|lia]).
  - assert (T1 : to_long_long (dint (-1)) = Ok (-1)%Z) by (vm_compute; reflexivity).
    assert (T2 : to_long_long (dint 2) = Ok 2%Z) by (vm_compute; reflexivity).
    assert (M : dlt dbl_max (dint 3) = false) by (vm_compute; reflexivity).
    cbv beta iota zeta delta [random_decision_vector get_nx p_lb p_ub p_nix rdv_problem length Nat.sub seq rmap vget nth_error].
    repeat (gcbn; cbv beta iota zeta delta [uniform_integral_impl int_checks draw_int]; first [dint_step|rewrite M|rewrite T1|rewrite T2]).
    reflexivity.
Qed.
Lemma knn_example : sort_contract (@isort) /\ kNN (@isort) [[dint 0]; [dint 5]; [dint 1]] 1 = Ok [[2]; [2]; [0]].
Proof.
  split; [exact isort_contract|]. unfold kNN, mmap, knn_point, knn_dist, vget.
  cbv beta iota zeta delta [length seq mfold mmap nth_error bind forallb negb andb Nat.eqb iota].
  repeat (dint_step; cbv beta iota zeta delta [bind]).
  vm_compute. reflexivity.
Qed.
