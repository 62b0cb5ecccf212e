(** Properties of problems and batch evaluation: C20-C25. *)
From Coq Require Import List Bool Arith ZArith Lia Permutation.
From Verif Require Import Dbl Outcome Constrained Problem SpecProblem ProblemFacts ProblemFacts2 ProblemFacts3 Bfe BfeFacts.
Import ListNotations.

(** A problem with two variables, one objective and one constraint: f(x) = (x0, x1). *)
Definition ex_udp : udp :=
  {| u_fitness := fun x => match x with [a; b] => if dlt b dzero then Throw (UserExn 7) else Ok [a; b] | _ => UB end;
     u_lb := [dzero; MInf]; u_ub := [dzero; PInf]; u_nobj := 1; u_nec := 1; u_nic := 0; u_nix := 0;
     u_batch := Some (fun xs => match xs with [] => Ok [dzero] | _ => Ok xs end); u_gradient := Some (fun _ => Ok [dzero]);
     u_gs := Some [(0, 1)]; u_hessians := None; u_hs := Some [[(1, 0)]; []]; u_set_seed := false; u_ts := TSbasic |}.
Definition ex_problem : problem :=
  {| p_udp := ex_udp; p_lb := [dzero; MInf]; p_ub := [dzero; PInf]; p_nobj := 1; p_nec := 1; p_nic := 0; p_nix := 0;
     p_ctol := [dzero]; p_gs_dim := 1; p_hs_dim := [1; 0]%Z |}.

(** C20. Construction succeeds exactly on well-formed input, raises invalid_argument
    otherwise, and the object reports what was declared. *)
Theorem C20_constructor : forall u,
  ((exists p, construct u = Ok p) <-> good_udp u) /\
  (~ good_udp u -> construct u = Throw InvalidArgument) /\
  (forall p, construct u = Ok p -> built u p).
Proof. exact construct_iff. Qed.
Print Assumptions C20_constructor.
Example C20_constructor_nonvacuous : construct ex_udp = Ok ex_problem /\
  construct {| u_fitness := u_fitness ex_udp; u_lb := [Fin 1]; u_ub := [dzero]; u_nobj := 1; u_nec := 0; u_nic := 0; u_nix := 0; u_batch := None;
     u_gradient := None; u_gs := None; u_hessians := None; u_hs := None; u_set_seed := false; u_ts := TSnone |} = Throw InvalidArgument.
Proof. split; vm_compute; reflexivity. Qed.

(** C21. Sequential part: result and counter of one fitness call. *)
Theorem C21_fitness : forall p c x r c', fitness p c x = (r, c') ->
  (forall f, r = Ok f <-> length x = get_nx p /\ u_fitness (p_udp p) x = Ok f /\ length f = get_nf p) /\
  (length x <> get_nx p -> r = Throw InvalidArgument) /\
  (length x = get_nx p -> forall f, u_fitness (p_udp p) x = Ok f -> length f <> get_nf p -> r = Throw InvalidArgument) /\
  (length x = get_nx p -> forall e, u_fitness (p_udp p) x = Throw e -> r = Throw e) /\
  c' = match r with Ok _ => wrap64 (c + 1) | _ => c end.
Proof. exact fitness_spec. Qed.
Print Assumptions C21_fitness.
Example C21_fitness_nonvacuous : fitness ex_problem 4 [Fin 1; Fin 2] = (Ok [Fin 1; Fin 2], 5%Z) /\
  fitness ex_problem 4 [Fin 1] = (Throw InvalidArgument, 4%Z) /\ fitness ex_problem 4 [Fin 1; Fin (-1)] = (Throw (UserExn 7), 4%Z).
Proof. split; [|split]; vm_compute; reflexivity. Qed.

(** C21. Concurrent part: any number of fitness and batch_fitness calls on one problem,
    interleaved step by step in any way. In every reachable state the counter is what it
    was plus the contributions of the calls (modulo 2^64), and every finished call
    returned what the same call returns in isolation. *)
Theorem C21_counter_all_schedules : forall p c0 s, (0 <= c0 < 2 ^ 64)%Z -> sys_reach p c0 s ->
  s_fevals s = ((c0 + total p (s_calls s)) mod 2 ^ 64)%Z /\
  (forall x r, In (FDone x r) (s_calls s) -> forall c, r = fst (fitness p c x)) /\
  (forall xs k r, In (BDone xs k r) (s_calls s) -> forall c, batch_fitness p c xs = (r, if k then wrap64 (c + Z.of_nat (length xs / get_nx p)) else c)).
Proof. exact counter_all_schedules. Qed.
Print Assumptions C21_counter_all_schedules.
(** Two calls whose steps alternate. *)
Example C21_counter_nonvacuous : sys_reach ex_problem 0
  {| s_fevals := 1; s_calls := [FDone [Fin 1; Fin 2] (Ok [Fin 1; Fin 2]); FUser [Fin 3; Fin 4] (Ok [Fin 3; Fin 4])] |}.
Proof.
  eapply reach_step. eapply reach_step. eapply reach_step. eapply reach_step. eapply reach_step. eapply reach_step. apply reach_init.
  - apply step_fitness with (x := [Fin 1; Fin 2]).
  - apply (step_call ex_problem 0 [] (FStart [Fin 1; Fin 2]) []). reflexivity.
  - apply step_fitness with (x := [Fin 3; Fin 4]).
  - apply (step_call ex_problem _ [] (FUser [Fin 1; Fin 2] (Ok [Fin 1; Fin 2]))). reflexivity.
  - apply (step_call ex_problem _ [FCheck [Fin 1; Fin 2] [Fin 1; Fin 2]] (FStart [Fin 3; Fin 4]) []). reflexivity.
  - apply (step_call ex_problem 0 [] (FCheck [Fin 1; Fin 2] [Fin 1; Fin 2]) [FUser [Fin 3; Fin 4] (Ok [Fin 3; Fin 4])] (FDone [Fin 1; Fin 2] (Ok [Fin 1; Fin 2])) 1). reflexivity.
Qed.

(** C22. Every result of the parallel evaluator, over all splittings and schedules, is
    what evaluating the vectors one after the other gives; a failure is the failure of
    one of the evaluations; and it cannot fail if none of them does. *)
Theorem C22_parallel_is_sequential : forall p dvs out, u_ts (p_udp p) <> TSnone -> thread_bfe_result p dvs (Ok out) ->
  exists fs, mmap (fun i => fst (fitness p 0 (slice dvs (i * get_nx p) (get_nx p)))) (seq 0 (length dvs / get_nx p)) = Ok fs /\ out = concat fs.
Proof. exact thread_ok. Qed.
Print Assumptions C22_parallel_is_sequential.
Theorem C22_parallel_failure : forall p dvs e, u_ts (p_udp p) <> TSnone -> thread_bfe_result p dvs (Throw e) ->
  exists i, i < length dvs / get_nx p /\ fst (fitness p 0 (slice dvs (i * get_nx p) (get_nx p))) = Throw e.
Proof. exact thread_throw. Qed.
Print Assumptions C22_parallel_failure.
Theorem C22_parallel_possible : forall p dvs, u_ts (p_udp p) <> TSnone ->
  (forall i, i < length dvs / get_nx p -> exists f, fst (fitness p 0 (slice dvs (i * get_nx p) (get_nx p))) = Ok f) ->
  (exists out, thread_bfe_result p dvs (Ok out)) /\ forall e, ~ thread_bfe_result p dvs (Throw e).
Proof. exact thread_possible. Qed.
Print Assumptions C22_parallel_possible.
Theorem C22_unsafe_problem_rejected : forall p dvs r, u_ts (p_udp p) = TSnone -> thread_bfe_result p dvs r -> r = Throw InvalidArgument.
Proof. exact thread_unsafe. Qed.
Print Assumptions C22_unsafe_problem_rejected.
(** Two ranges, the second evaluated first. *)
Example C22_nonvacuous : thread_bfe_result ex_problem [Fin 1; Fin 2; Fin 3; Fin 4] (Ok [Fin 1; Fin 2; Fin 3; Fin 4]).
Proof.
  refine (tb_ok ex_problem [Fin 1; Fin 2; Fin 3; Fin 4] [(0, 1); (1, 2)]
    {| t_out := [Fin 1; Fin 2; Fin 3; Fin 4]; t_ranges := [(1, 1); (2, 2)]; t_exn := None |} _ _ _ eq_refl _); [discriminate| | |].
  - split; [intros b e [E|[E|[]]]; inversion E; lia|reflexivity].
  - eapply ts_step; [eapply ts_step; [apply ts_refl|]|].
    + apply (t_eval ex_problem [Fin 1; Fin 2; Fin 3; Fin 4] [dzero; dzero; dzero; dzero] [(0, 1)] 1 2 [] [Fin 3; Fin 4]); [discriminate|reflexivity].
    + apply (t_eval ex_problem [Fin 1; Fin 2; Fin 3; Fin 4] [dzero; dzero; Fin 3; Fin 4] [] 0 1 [(2, 2)] [Fin 1; Fin 2]); [discriminate|reflexivity].
  - intros b e [E|[E|[]]]; inversion E; reflexivity.
Qed.
Example C22_failure_nonvacuous : thread_bfe_result ex_problem [Fin 1; Fin (-2)] (Throw (UserExn 7)).
Proof.
  refine (tb_throw ex_problem [Fin 1; Fin (-2)] [(0, 1)] {| t_out := [dzero; dzero]; t_ranges := [(0, 1)]; t_exn := Some (Throw (UserExn 7)) |} (UserExn 7) _ _ _ eq_refl); [discriminate| |].
  - split; [intros b e [E|[]]; inversion E; lia|reflexivity].
  - eapply ts_step; [apply ts_refl|]. apply (t_throw ex_problem [Fin 1; Fin (-2)] [dzero; dzero] [] 0 1 []); [discriminate|reflexivity].
Qed.

(** C23. bfe::operator() with any evaluator [ud]. *)
Theorem C23_bfe_checks : forall ud p c xs r c', 0 < get_nx p -> 0 < get_nf p -> bfe_call ud p c xs = (r, c') ->
  (forall fs, r = Ok fs <-> exists n, is_batch (get_nx p) n xs /\ ud p xs = Ok fs /\ is_batch (get_nf p) n fs) /\
  (forall n, is_batch (get_nx p) n xs -> c' = match r with Ok _ => wrap64 (c + Z.of_nat n) | _ => c end) /\
  ((forall n, ~ is_batch (get_nx p) n xs) -> r = Throw InvalidArgument /\ c' = c) /\
  (forall n fs, is_batch (get_nx p) n xs -> ud p xs = Ok fs -> ~ is_batch (get_nf p) n fs -> r = Throw InvalidArgument /\ c' = c) /\
  (forall n e, is_batch (get_nx p) n xs -> ud p xs = Throw e -> r = Throw e /\ c' = c).
Proof. exact bfe_call_spec. Qed.
Print Assumptions C23_bfe_checks.
Example C23_bfe_nonvacuous : bfe_call (fun _ xs => Ok xs) ex_problem 3 [Fin 1; Fin 2; Fin 3; Fin 4] = (Ok [Fin 1; Fin 2; Fin 3; Fin 4], 5%Z) /\
  bfe_call (fun _ xs => Ok xs) ex_problem 3 [Fin 1] = (Throw InvalidArgument, 3%Z) /\
  bfe_call (fun _ xs => Ok [dzero]) ex_problem 3 [Fin 1; Fin 2] = (Throw InvalidArgument, 3%Z).
Proof. split; [|split]; vm_compute; reflexivity. Qed.
(** C23. problem::batch_fitness. *)
Theorem C23_batch_fitness_checks : forall p c xs r c', 0 < get_nx p -> 0 < get_nf p -> batch_fitness p c xs = (r, c') ->
  (forall fs, r = Ok fs <-> exists n, is_batch (get_nx p) n xs /\ udp_batch p xs = Ok fs /\ is_batch (get_nf p) n fs) /\
  ((forall n, ~ is_batch (get_nx p) n xs) -> r = Throw InvalidArgument /\ c' = c) /\
  (forall n, is_batch (get_nx p) n xs -> c' = match udp_batch p xs with Ok _ => wrap64 (c + Z.of_nat n) | _ => c end) /\
  (forall n fs, is_batch (get_nx p) n xs -> udp_batch p xs = Ok fs -> ~ is_batch (get_nf p) n fs -> r = Throw InvalidArgument).
Proof. exact batch_fitness_spec. Qed.
Print Assumptions C23_batch_fitness_checks.
(** C23, refuted: "a successful call increases the counter": a failing one does too. *)
Theorem C23_failed_batch_not_counted_refuted : exists u p c xs c', construct u = Ok p /\
  batch_fitness p c xs = (Throw InvalidArgument, c') /\ c' <> c.
Proof. exact batch_count_refuted. Qed.
Print Assumptions C23_failed_batch_not_counted_refuted.

(** C24. The checks accept exactly the valid patterns ... *)
Theorem C24_gradient_check_exact : forall nf nx s,
  (check_gradient_sparsity nf nx s = Ok tt /\ good_gradient_pattern nf nx s) \/
  (check_gradient_sparsity nf nx s = Throw InvalidArgument /\ ~ good_gradient_pattern nf nx s).
Proof. exact check_gradient_spec. Qed.
Print Assumptions C24_gradient_check_exact.
Theorem C24_hessian_check_exact : forall nx s,
  (check_hessian_sparsity nx s = Ok tt /\ good_hessian_pattern nx s) \/
  (check_hessian_sparsity nx s = Throw InvalidArgument /\ ~ good_hessian_pattern nx s).
Proof. exact check_hessian_spec. Qed.
Print Assumptions C24_hessian_check_exact.
Example C24_checks_nonvacuous : check_gradient_sparsity 2 2 [(0, 1); (1, 0)] = Ok tt /\ check_gradient_sparsity 2 2 [(1, 0); (0, 1)] = Throw InvalidArgument /\
  check_hessian_sparsity 2 [(1, 0)] = Ok tt /\ check_hessian_sparsity 2 [(0, 1)] = Throw InvalidArgument.
Proof. repeat split; reflexivity. Qed.
(** ... the dense patterns are valid, list every admissible pair once, and have the
    expected sizes ... *)
Theorem C24_dense_patterns : forall nf nx,
  good_gradient_pattern nf nx (dense_gradient nf nx) /\ (forall a, In a (dense_gradient nf nx) <-> fst a < nf /\ snd a < nx) /\
  NoDup (dense_gradient nf nx) /\ length (dense_gradient nf nx) = nf * nx /\
  good_hessian_pattern nx (dense_hessian nx) /\ (forall a, In a (dense_hessian nx) <-> fst a < nx /\ snd a <= fst a) /\
  NoDup (dense_hessian nx) /\ 2 * length (dense_hessian nx) = nx * (nx + 1).
Proof. exact dense_patterns. Qed.
Print Assumptions C24_dense_patterns.
Example C24_dense_nonvacuous : dense_gradient 2 2 = [(0, 0); (0, 1); (1, 0); (1, 1)] /\ dense_hessian 2 = [(0, 0); (1, 0); (1, 1)].
Proof. split; reflexivity. Qed.
(** ... and a constructed problem returns valid patterns whose sizes are the cached ones,
    against which gradient and hessians check the output of the user functions. *)
Theorem C24_problem_patterns : forall u p, construct u = Ok p ->
  (exists s, gradient_sparsity p = Ok s /\ good_gradient_pattern (get_nf p) (get_nx p) s /\ p_gs_dim p = Z.of_nat (length s) /\
     match u_gs u with Some s' => s = s' | None => forall a, In a s <-> fst a < get_nf p /\ snd a < get_nx p end) /\
  ((u_hs u = None -> (Z.of_nat (get_nx p) <= 2 ^ 32)%Z) ->
   exists l, hessians_sparsity p = Ok l /\ length l = get_nf p /\ (forall s, In s l -> good_hessian_pattern (get_nx p) s) /\
     p_hs_dim p = map (fun s => Z.of_nat (length s)) l /\
     match u_hs u with Some l' => l = l' | None => forall s a, In s l -> In a s <-> fst a < get_nx p /\ snd a <= fst a end).
Proof. exact (fun u p H => conj (gradient_sparsity_spec u p H) (hessians_sparsity_spec u p H)). Qed.
Print Assumptions C24_problem_patterns.
Theorem C24_gradient_call : forall p c x r c', gradient p c x = (r, c') ->
  (forall g, r = Ok g <-> length x = get_nx p /\ (exists ug, u_gradient (p_udp p) = Some ug /\ ug x = Ok g) /\ Z.of_nat (length g) = p_gs_dim p) /\
  (length x <> get_nx p -> r = Throw InvalidArgument) /\
  (length x = get_nx p -> u_gradient (p_udp p) = None -> r = Throw NotImplemented) /\
  c' = match r with Ok _ => wrap64 (c + 1) | _ => c end.
Proof. exact gradient_spec. Qed.
Print Assumptions C24_gradient_call.
Theorem C24_hessians_call : forall p c x r c', length (p_hs_dim p) = get_nf p -> hessians p c x = (r, c') ->
  (forall h, r = Ok h <-> length x = get_nx p /\ (exists uh, u_hessians (p_udp p) = Some uh /\ uh x = Ok h) /\ map (fun q => Z.of_nat (length q)) h = p_hs_dim p) /\
  (length x <> get_nx p -> r = Throw InvalidArgument) /\
  (length x = get_nx p -> u_hessians (p_udp p) = None -> r = Throw NotImplemented) /\
  c' = match r with Ok _ => wrap64 (c + 1) | _ => c end.
Proof. exact hessians_spec. Qed.
Print Assumptions C24_hessians_call.
Example C24_problem_nonvacuous : gradient_sparsity ex_problem = Ok [(0, 1)] /\ hessians_sparsity ex_problem = Ok [[(1, 0)]; []] /\
  gradient ex_problem 0 [Fin 1; Fin 2] = (Ok [dzero], 1%Z) /\ hessians ex_problem 0 [Fin 1; Fin 2] = (Throw NotImplemented, 0%Z).
Proof. split; [|split; [|split]]; vm_compute; reflexivity. Qed.

(** C25. The cached dense Hessian size is right exactly up to 2^32 variables ... *)
Theorem C25_dense_hessian_size : forall nx d, (0 < nx)%Z -> hess_dense_dim nx = Ok d -> (2 * d = nx * (nx + 1) <-> nx <= 2 ^ 32)%Z.
Proof. exact hess_dense_exact. Qed.
Print Assumptions C25_dense_hessian_size.
Example C25_dense_hessian_size_nonvacuous : hess_dense_dim 3 = Ok 6%Z.
Proof. reflexivity. Qed.
(** ... and the guard does not prevent the overflow beyond that: an accepted problem
    whose cached size differs from the size of the pattern it returns. *)
Theorem C25_overflow_guard_refuted : exists u p d l, construct u = Ok p /\ u_hs u = None /\
  nth_error (p_hs_dim p) 0 = Some d /\ hessians_sparsity p = Ok l /\ forall s, nth_error l 0 = Some s -> d <> Z.of_nat (length s).
Proof. exact hessian_size_refuted. Qed.
Print Assumptions C25_overflow_guard_refuted.

(** C11 (problem level). Tolerances are accepted exactly when there is one non-negative
    value per constraint. *)
Theorem C11_set_c_tol : forall p t,
  (set_c_tol p t = Ok (set_ctol_field p t) /\ length t = get_nc p /\ (forall v, In v t -> dge v dzero = true)) \/
  (set_c_tol p t = Throw InvalidArgument /\ ~ (length t = get_nc p /\ (forall v, In v t -> dge v dzero = true))).
Proof. exact set_c_tol_spec. Qed.
Print Assumptions C11_set_c_tol.
Example C11_set_c_tol_nonvacuous : set_c_tol ex_problem [Fin 3] = Ok (set_ctol_field ex_problem [Fin 3]) /\ set_c_tol ex_problem [Fin (-3)] = Throw InvalidArgument.
Proof. split; reflexivity. Qed.
