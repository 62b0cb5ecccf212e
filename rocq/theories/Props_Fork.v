(** C82: fork_island. *)
From Coq Require Import String List ZArith.
Import ListNotations.
From Verif Require Import ForkIsland SpecFork ForkFacts ForkFacts2.

(** For every interleaving and every point at which the child dies or a system call fails: a
    run_evolve that returns has put into the island exactly what evolve gave in the child, one
    that throws has left the island as it was, and neither leaves a process, a process id or an
    open descriptor behind. *)
Theorem C82_result : forall A P B (w : @world A P B) a p, archive_contract w -> forall inh calls s, reachable w (init a p inh calls) s ->
  (st_parent s = PReturned -> evolves_to w a p (st_algo s) (st_pop s)) /\
  (forall e, st_parent s = PThrew e -> st_algo s = a /\ st_pop s = p) /\
  (finished s -> no_child_left s /\ st_pid s = false /\ st_wpar s = false /\ st_rpar s = false).
Proof. exact @fork_result. Qed.
Print Assumptions C82_result.
Example C82_result_returns : let w := toy_world (fun a p => Evolved (a + 1) (2 * p)) in archive_contract w /\
  exists s, reachable w (init 3 5 0 0) s /\ st_faults s = 0 /\ st_parent s = PReturned /\ st_algo s = 4 /\ st_pop s = 10.
Proof. exact toy_run. Qed.
(** What another thread sees in the island at any time: the old pair, the new algorithm with
    the old population, or the new pair *)
Theorem C82_observed : forall A P B (w : @world A P B) a p, archive_contract w -> forall inh calls s, reachable w (init a p inh calls) s ->
  (st_algo s = a /\ st_pop s = p) \/ exists a' p', evolves_to w a p a' p' /\ st_algo s = a' /\ (st_pop s = p \/ st_pop s = p').
Proof. exact @fork_observed. Qed.
Print Assumptions C82_observed.
(** An error reported as the child's is the one the child had. *)
Theorem C82_child_error : forall A P B (w : @world A P B) a p, archive_contract w -> forall inh calls s what, reachable w (init a p inh calls) s ->
  st_parent s = PThrew (ChildError what) -> fails_with w a p what.
Proof. exact @fork_child_error. Qed.
Print Assumptions C82_child_error.
(** Without faults the outcome is that of evolve. *)
Theorem C82_faultless : forall A P B (w : @world A P B) a p, archive_contract w -> forall inh calls s, reachable w (init a p inh calls) s -> finished s -> st_faults s = 0 ->
  (forall a' p', evolves_to w a p a' p' -> st_parent s = PReturned) /\
  (forall what, fails_with w a p what -> can_report w what -> st_parent s = PThrew (ChildError what)).
Proof. exact @fork_faultless. Qed.
Print Assumptions C82_faultless.
Example C82_faultless_error : let w := toy_world (fun a p => StdError "no") in archive_contract w /\
  exists s, reachable w (init 3 5 0 0) s /\ st_faults s = 0 /\ st_parent s = PThrew (ChildError "no") /\ st_algo s = 3 /\ st_pop s = 5.
Proof. exact toy_error. Qed.
(** No run is endless, whatever the schedule; *)
Theorem C82_bounded : forall A P B (w : @world A P B) a p, archive_contract w -> forall inh calls, exists N, forall n s, steps w n (init a p inh calls) s -> n <= N.
Proof. exact @fork_bounded. Qed.
Print Assumptions C82_bounded.
(** and if evolve ends and no other thread uses the island, a run that has not finished can go
    on without a fault. *)
Theorem C82_no_deadlock : forall A P B (w : @world A P B) a p, archive_contract w -> forall inh s, 100 <= w_capacity w -> w_evolve w a p <> Endless ->
  reachable w (init a p inh 0) s -> finished s \/ exists s', step w s s' /\ st_faults s' = st_faults s.
Proof. exact @fork_ends. Qed.
Print Assumptions C82_no_deadlock.
(** run_evolve does not return before the other processes that hold the pipe have ended. *)
Theorem C82_inherited : forall A P B (w : @world A P B) a p, archive_contract w -> forall inh calls s, reachable w (init a p inh calls) s ->
  st_parent s = PReturned \/ (exists what, st_parent s = PThrew (ChildError what)) -> st_inherited s = 0.
Proof. exact @fork_inherited. Qed.
Print Assumptions C82_inherited.
(** If another thread is inside get_population() or get_algorithm() of the island when the
    process forks, the child's copy of the mutex stays locked: run_evolve never finishes,
    unless the child is killed from outside. *)
Theorem C82_hang_refuted : forall A P B (w : @world A P B) a p, archive_contract w -> forall inh calls,
  exists s, reachable w (init a p inh (S calls)) s /\ st_faults s = 0 /\ forall s', reachable w s s' -> st_faults s' = 0 -> ~ finished s'.
Proof. exact @fork_hangs. Qed.
Print Assumptions C82_hang_refuted.
